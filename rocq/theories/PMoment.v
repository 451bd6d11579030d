(** Global moment balance of a solved slab. *)
From Coquelicot Require Import Coquelicot.
Require Import Verif.Py Verif.MTools Verif.MEigen Verif.MFields Verif.SAdm Verif.MRaster
  Verif.MSolution Verif.SBeam Verif.SBvp Verif.PBeam Verif.PBeam2 Verif.PBvp Verif.PBvp2 Verif.PBalance.

Lemma segment_moment_balance p ld k em z X l : 0 < kA55 p ->
  (forall x, balance p ld k em z x) ->
  RInt (fun s => (X + s) * - s_sig p k (z s)) 0 l
    - (hh p + wt p) / 2 * RInt (fun s => s_tau p k (z s)) 0 l
  = (sM p (z 0) - X * sV p (z 0)) - (sM p (z l) - (X + l) * sV p (z l))
    + (hh p / 2 * pt ld - zs p * qt ld + em) * l + (qn ld + pn ld) * ((X + l) ^ 2 - X ^ 2) / 2.
Proof.
  intros HS HB. destruct (segment_force_balance p ld k em z l HS HB) as [_ ->].
  set (G := fun s => - (sM p (z s) - (X + s) * sV p (z s)) + (hh p + wt p) / 2 * (sN p (z s) + (qt ld + pt ld) * s)
    + (hh p / 2 * pt ld - zs p * qt ld + em) * s + (qn ld + pn ld) * (X + s) ^ 2 / 2).
  assert (I : RInt (fun s => (X + s) * - s_sig p k (z s)) 0 l = G l - G 0).
  { apply is_RInt_unique. apply (ftc G (fun s => (X + s) * - s_sig p k (z s))).
    - intros x. destruct (HB x) as (_ & _ & _ & H4 & H5 & H6). unfold G.
      assert (HX : is_derive (fun s : R => X + s) x 1) by (auto_derive; [trivial|ring]).
      assert (HXV : is_derive (fun s => (X + s) * sV p (z s)) x (1 * sV p (z x) + (X + x) * (- s_sig p k (z x) - qn ld - pn ld))).
      { apply (is_derive_mult (fun s => X + s) (fun s => sV p (z s)) x 1 _ HX H5). intros; apply Rmult_comm. }
      eapply is_derive_eq.
      + apply is_derive_plusR; [apply is_derive_plusR; [apply is_derive_plusR|]|].
        * apply (is_derive_opp (fun s => sM p (z s) - (X + s) * sV p (z s))).
          apply (is_derive_minus (fun s => sM p (z s)) (fun s => (X + s) * sV p (z s)) x _ _ H6 HXV).
        * apply (is_derive_scal (fun s => sN p (z s) + (qt ld + pt ld) * s)).
          apply is_derive_plusR; [exact H4|]. auto_derive; [trivial|reflexivity].
        * auto_derive; [trivial|reflexivity].
        * auto_derive; [trivial|reflexivity].
      + unfold opp, minus, plus, opp, scal; simpl. unfold mult; simpl. field.
    - intros x. apply (continuous_mult (K := R_AbsRing)).
      + apply (cont_of_derive _ x 1). auto_derive; [trivial|ring].
      + apply (continuous_opp (V := R_NormedModule)). apply (traction_continuous p ld k em z x HS (HB x)). }
  rewrite I. unfold G. rewrite !Rplus_0_r. field.
Qed.

Lemma telescope2 (f : nat -> R) n : sumn n (fun i => f (S i) - f i) = f n - f 0%nat.
Proof. induction n as [|n IH]; simpl; [ring|]. rewrite IH. ring. Qed.
Lemma sumn_minus n f g : sumn n (fun i => f i - g i) = sumn n f - sumn n g.
Proof. induction n as [|n IH]; simpl; [ring|]. rewrite IH; ring. Qed.

Lemma global_moment o kR phi li mi ki Cs : lam_ok (o_par o) -> fnd_ok (o_par o) -> eig_ok o ->
  (1 <= List.length li)%nat ->
  bvp o kR phi li mi ki Cs ->
  let p := o_par o in let ld := loads_of o phi in let N := List.length li in
  let z i := field o phi (nth i li 0) (nth i ki false) (nth i Cs []) in
  let X i := sumn i (fun j => nth j li 0) in
  let zl := z 0%nat 0 in
  let zr := z (N - 1)%nat (nth (N - 1) li 0) in
  sumn N (fun i => RInt (fun s => (X i + s) * - s_sig p (nth i ki false) (z i s)) 0 (nth i li 0))
    - (hh p + wt p) / 2 * sumn N (fun i => RInt (fun s => s_tau p (nth i ki false) (z i s)) 0 (nth i li 0))
  = (qn ld + pn ld) * X N ^ 2 / 2 + (hh p / 2 * pt ld - zs p * qt ld) * X N
    + sumn (N - 1) (fun i => X (S i) * point_Fn o phi (nth i mi 0) + hh p / 2 * point_Ft o phi (nth i mi 0))
    + (sM p zl - sM p zr + X N * sV p zr)
    - B11 p / A11 p * pt ld * sumn N (fun i => if nth i ki false then 0 else nth i li 0).
Proof.
  intros Hl Hf He HN (_ & _ & HT) p ld N z X zl zr.
  assert (HB : forall i x, balance p ld (nth i ki false) (extra_moment p ld (nth i ki false)) (z i) x).
  { intros i x. apply field_balance; assumption. }
  assert (HS : 0 < kA55 p) by apply Hl.
  fold N in HN, HT. destruct N as [|n] eqn:EN; [lia|].
  replace (S n - 1)%nat with n in * by lia.
  rewrite <- sumn_scal, <- sumn_minus.
  set (c1 := hh p / 2 * pt ld - zs p * qt ld).
  set (c2 := (qn ld + pn ld) / 2). set (c3 := - (B11 p / A11 p * pt ld)).
  rewrite (sumn_ext (S n) _ (fun i =>
     (-1) * ((sM p (z i (nth i li 0)) - X (S i) * sV p (z i (nth i li 0))) - (sM p (z i 0) - X i * sV p (z i 0)))
     + (c1 * nth i li 0 + (c3 * (if nth i ki false then 0 else nth i li 0) + c2 * (X (S i) ^ 2 - X i ^ 2))))).
  2:{ intros i _. rewrite (segment_moment_balance p ld _ _ (z i) (X i) (nth i li 0) HS (HB i)).
      unfold X. cbn [sumn]. unfold c1, c2, c3, extra_moment. destruct (nth i ki false); field; apply Rgt_not_eq, Hl. }
  rewrite sumn_plus, sumn_scal, sumn_plus, sumn_plus, !sumn_scal.
  rewrite (telescope2 (fun i => X i ^ 2)).
  rewrite (telescope (fun i => sM p (z i 0) - X i * sV p (z i 0)) (fun i => sM p (z i (nth i li 0)) - X (S i) * sV p (z i (nth i li 0)))
    (fun i => (-1) * (X (S i) * point_Fn o phi (nth i mi 0) + hh p / 2 * point_Ft o phi (nth i mi 0))) n).
  - rewrite sumn_scal. unfold zr, zl. replace (S n - 1)%nat with n by lia.
    change (sumn (S n) (fun j => nth j li 0)) with (X (S n)). replace (X 0%nat) with 0 by reflexivity.
    unfold c2, c3. field. apply Rgt_not_eq, Hl.
  - intros i Hi. specialize (HT i ltac:(lia)). unfold transition in HT. cbv zeta in HT.
    destruct HT as (_ & _ & _ & _ & HM & HV). cbv beta.
    replace (sM p (z i (nth i li 0)) - X (S i) * sV p (z i (nth i li 0)) - (sM p (z (S i) 0) - X (S i) * sV p (z (S i) 0)))
      with ((sM p (z i (nth i li 0)) - sM p (z (S i) 0)) - X (S i) * (sV p (z i (nth i li 0)) - sV p (z (S i) 0))) by ring.
    unfold z, p. rewrite HM, HV. unfold point_Fn, point_Ft.
    destruct (kind_of (o_system o)) as [[| | | |]|]; ring.
Qed.
