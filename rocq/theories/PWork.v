(** Proofs about work, stored energy and the external potential. *)
From Coquelicot Require Import Coquelicot.
Require Import Verif.Py Verif.MTools Verif.MEigen Verif.MFields Verif.MRaster Verif.MSolution Verif.MAnalysis
  Verif.SAdm Verif.SBeam Verif.SBvp Verif.SEig Verif.SRaster Verif.SOutput Verif.SWork Verif.PSetup Verif.PBeam Verif.PBeam2
  Verif.PBvp Verif.PBvp2 Verif.PBalance Verif.PWell2 Verif.PBvp6 Verif.PRaster Verif.PRaster2 Verif.PPotential Verif.PEnergy2 Verif.PSegment.

(** * Energy balance *)
Lemma rsum_plus {A} (f g : A -> R) l : rsum (map (fun a => f a + g a) l) = rsum (map f l) + rsum (map g l).
Proof. induction l as [|a l IH]; simpl; [ring|]. rewrite IH. ring. Qed.
Lemma total_plus n f g : total n (fun i => f i + g i) = total n f + total n g.
Proof. apply rsum_plus. Qed.
Lemma total_S n f : total (S n) f = total n f + f n.
Proof. unfold total. rewrite seq_S, map_app. simpl. rewrite rsum_app. simpl. ring. Qed.
Lemma total_ext n f g : (forall i, (i < n)%nat -> f i = g i) -> total n f = total n g.
Proof. intros H. unfold total. f_equal. apply map_ext_in. intros i I. apply in_seq in I. apply H. lia. Qed.

Lemma total_derive p ld k em z x : 0 < kn p -> 0 < kt p -> balance p ld k em z x ->
  is_derive (fun s => section_power p (z s)) x
    (2 * stored p k (z x) + slip_mismatch p k (z x) - load_power p ld (z x) + em * z_psi (z x)).
Proof.
  intros Hn Ht (H1 & H2 & H3 & H4 & H5 & H6). unfold section_power.
  pose proof (is_derive_mult (K := R_AbsRing) _ _ _ _ _ H4 H1 ltac:(intros; apply Rmult_comm)) as D1.
  pose proof (is_derive_mult (K := R_AbsRing) _ _ _ _ _ H6 H3 ltac:(intros; apply Rmult_comm)) as D2.
  pose proof (is_derive_mult (K := R_AbsRing) _ _ _ _ _ H5 H2 ltac:(intros; apply Rmult_comm)) as D3.
  pose proof (is_derive_plusR _ _ _ _ _ (is_derive_plusR _ _ _ _ _ D1 D2) D3) as D.
  eapply is_derive_eq; [exact D|]. unfold mult, plus; simpl.
  unfold stored, slab_energy, layer_energy, slip_mismatch, load_power, shift_at, sN, sM, sV, s_sig, s_tau.
  destruct k; field; lra.
Qed.

Lemma fields_continuous o phi l k C x : ready o ->
  let z := field o phi l k C in
  continuous (fun s => z_u (z s)) x /\ continuous (fun s => z_du (z s)) x /\ continuous (fun s => z_w (z s)) x /\
  continuous (fun s => z_dw (z s)) x /\ continuous (fun s => z_psi (z s)) x /\ continuous (fun s => z_dpsi (z s)) x.
Proof.
  intros H z. destruct (field_continuous o phi l k C x H) as (A & B & D & E).
  destruct (ready_eig_ok o H) as (Hl & Hf & He).
  destruct (field_balance o phi l k C x Hl Hf He) as (_ & _ & _ & H4 & _ & H6).
  apply cont_of_derive in H4. apply cont_of_derive in H6. destruct Hl as (HA & HD & HS & HK & HK0).
  set (p := o_par o) in *. assert (Hd : 0 < A11 p * D11 p - B11 p ^ 2) by lra.
  assert (Hd' : A11 p * D11 p - B11 p ^ 2 <> 0) by lra.
  split; [exact A|]. split; [|split; [exact B|split; [exact E|split; [exact D|]]]].
  - apply (continuous_extR (fun s => D11 p / (A11 p * D11 p - B11 p ^ 2) * sN p (z s)
      + - B11 p / (A11 p * D11 p - B11 p ^ 2) * sM p (z s) + 0 * sM p (z s) + 0)).
    + intros s. unfold sN, sM. field. exact Hd'.
    + apply (continuous_lin (fun s => sN p (z s)) (fun s => sM p (z s)) (fun s => sM p (z s))); assumption.
  - apply (continuous_extR (fun s => - B11 p / (A11 p * D11 p - B11 p ^ 2) * sN p (z s)
      + A11 p / (A11 p * D11 p - B11 p ^ 2) * sM p (z s) + 0 * sM p (z s) + 0)).
    + intros s. unfold sN, sM. field. exact Hd'.
    + apply (continuous_lin (fun s => sN p (z s)) (fun s => sM p (z s)) (fun s => sM p (z s))); assumption.
Qed.

Lemma cont_plus (f g : R -> R) (x : R) : continuous f x -> continuous g x -> continuous (fun s => f s + g s) x.
Proof. intros A B. apply (continuous_plus (V := R_NormedModule)); assumption. Qed.
Ltac cont :=
  repeat match goal with
  | H : continuous ?f ?x |- continuous ?f ?x => exact H
  | |- continuous (fun _ => ?c) _ => apply continuous_const
  | |- continuous (fun s => @?f s + @?g s) _ => apply (cont_plus f g)
  | |- continuous (fun s => @?f s * @?g s) _ => apply (continuous_mulR f g)
  end.

Lemma energies_continuous o phi l k C x : ready o ->
  let z := field o phi l k C in let p := o_par o in
  continuous (fun s => 2 * stored p k (z s)) x /\ continuous (fun s => slip_mismatch p k (z s)) x /\
  continuous (fun s => load_power p (loads_of o phi) (z s)) x /\ continuous (fun s => z_psi (z s)) x.
Proof.
  intros H z p. destruct (fields_continuous o phi l k C x H) as (U & DU & W & DW & P & DP). fold z in U, DU, W, DW, P, DP.
  set (ld := loads_of o phi).
  destruct H as (_ & (Hn & Ht & _) & _). fold p in Hn, Ht. clearbody z p ld.
  split; [|split; [|split; [|exact P]]].
  - destruct k.
    + apply (continuous_extR (fun s => A11 p * (z_du (z s) * z_du (z s)) + 2 * B11 p * (z_du (z s) * z_dpsi (z s))
        + D11 p * (z_dpsi (z s) * z_dpsi (z s)) + kA55 p * ((z_dw (z s) + z_psi (z s)) * (z_dw (z s) + z_psi (z s)))
        + / kn p * ((- kn p * z_w (z s)) * (- kn p * z_w (z s)))
        + / kt p * ((kt p * (z_u (z s) + hh p / 2 * z_psi (z s) + - (wt p / 2) * z_dw (z s)))
                    * (kt p * (z_u (z s) + hh p / 2 * z_psi (z s) + - (wt p / 2) * z_dw (z s)))))); [|cont].
      intros s. unfold stored, slab_energy, layer_energy, s_sig, s_tau. field. split; lra.
    + apply (continuous_extR (fun s => A11 p * (z_du (z s) * z_du (z s)) + 2 * B11 p * (z_du (z s) * z_dpsi (z s))
        + D11 p * (z_dpsi (z s) * z_dpsi (z s)) + kA55 p * ((z_dw (z s) + z_psi (z s)) * (z_dw (z s) + z_psi (z s))))); [|cont].
      intros s. unfold stored, slab_energy. field.
  - destruct k.
    + apply (continuous_extR (fun s => wt p / 2 * (kt p * (z_u (z s) + hh p / 2 * z_psi (z s) + - (wt p / 2) * z_dw (z s)))
        * (z_dw (z s) + z_psi (z s)))); [|cont].
      intros s. unfold slip_mismatch, s_tau. ring.
    + apply (continuous_extR (fun s => 0)); [|cont]. intros s. unfold slip_mismatch, s_tau. ring.
  - apply (continuous_extR (fun s => (qn ld + pn ld) * z_w (z s) + qt ld * (z_u (z s) + zs p * z_psi (z s))
      + pt ld * (z_u (z s) + - hh p / 2 * z_psi (z s)))); [|cont].
    intros s. unfold load_power, shift_at. ring.
Qed.

Lemma segment_energy o phi l k C : ready o ->
  let z := field o phi l k C in let p := o_par o in let ld := loads_of o phi in
  RInt (fun x => 2 * stored p k (z x)) 0 l + RInt (fun x => slip_mismatch p k (z x)) 0 l
  = RInt (fun x => load_power p ld (z x)) 0 l + - extra_moment p ld k * RInt (fun x => z_psi (z x)) 0 l
    + (section_power p (z l) - section_power p (z 0)).
Proof.
  intros H z p ld. assert (Hc := fun x => energies_continuous o phi l k C x H). cbv zeta in Hc. fold z p ld in Hc.
  destruct (ready_eig_ok o H) as (Hl & Hf & He).
  assert (Ex : forall f : R -> R, (forall x, continuous f x) -> ex_RInt f 0 l).
  { intros f Hf'. apply (ex_RInt_continuous (V := R_CompleteNormedModule)). intros x _. apply Hf'. }
  set (em := extra_moment p ld k) in *.
  set (f1 := fun x => 2 * stored p k (z x)) in *. set (f2 := fun x => slip_mismatch p k (z x)) in *.
  set (f3 := fun x => load_power p ld (z x)) in *. set (f4 := fun x => z_psi (z x)) in *.
  assert (I1 := Ex f1 (fun x => proj1 (Hc x))). assert (I2 := Ex f2 (fun x => proj1 (proj2 (Hc x)))).
  assert (I3 := Ex f3 (fun x => proj1 (proj2 (proj2 (Hc x))))). assert (I4 := Ex f4 (fun x => proj2 (proj2 (proj2 (Hc x))))).
  assert (D : is_RInt (fun x => (f1 x + f2 x) - f3 x + em * f4 x) 0 l (section_power p (z l) - section_power p (z 0))).
  { apply (ftc (fun s => section_power p (z s))).
    - intros x. destruct Hf as (Hn & Ht & _). apply (total_derive p ld k em z x Hn Ht). apply (field_balance o phi l k C x Hl (conj Hn (conj Ht (proj2 (proj2 (proj1 (proj2 H)))))) He).
    - intros x. destruct (Hc x) as (C1 & C2 & C3 & C4). fold f1 in C1.
      apply (continuous_extR (fun s => (f1 s + f2 s) + (-1) * f3 s + em * f4 s)); [intros; ring|cont]. }
  apply (RInt_correct (V := R_CompleteNormedModule)) in I1. apply (RInt_correct (V := R_CompleteNormedModule)) in I2. apply (RInt_correct (V := R_CompleteNormedModule)) in I3. apply (RInt_correct (V := R_CompleteNormedModule)) in I4.
  pose proof (is_RInt_plus (V := R_NormedModule) _ _ _ _ _ _ (is_RInt_minus (V := R_NormedModule) _ _ _ _ _ _ (is_RInt_plus (V := R_NormedModule) _ _ _ _ _ _ I1 I2) I3)
    (is_RInt_scal (V := R_NormedModule) _ _ _ em _ I4)) as D'.
  apply (is_RInt_unique (V := R_CompleteNormedModule)) in D. apply (is_RInt_unique (V := R_CompleteNormedModule)) in D'.
  change (RInt (fun x => f1 x + f2 x - f3 x + em * f4 x) 0 l
    = RInt f1 0 l + RInt f2 0 l - RInt f3 0 l + em * RInt f4 0 l) in D'.
  rewrite D in D'. rewrite D'. ring.
Qed.

Lemma point_jump o phi m zl zr : transition o phi m zl zr ->
  section_power (o_par o) zl - section_power (o_par o) zr = point_power o phi m zl.
Proof.
  unfold transition, section_power, point_power, point_Fn, point_Ft, shift_at. cbv zeta.
  intros (E1 & E2 & E3 & E4 & E5 & E6). rewrite <- E1, <- E2, <- E3.
  set (F := if match kind_of (o_system o) with Some KRot => true | Some KTrans => true | _ => false end then 0 else _) in *.
  assert (EF : match kind_of (o_system o) with Some KRot | Some KTrans => 0 | _ => m * o_g o / 1000 / o_lski o * cos (phi * PI / 180) end
    = F * cos (phi * PI / 180)) by (unfold F; destruct (kind_of (o_system o)) as [[]|]; ring).
  assert (ET : match kind_of (o_system o) with Some KRot | Some KTrans => 0 | _ => - (m * o_g o / 1000 / o_lski o * sin (phi * PI / 180)) end
    = - (F * sin (phi * PI / 180))) by (unfold F; destruct (kind_of (o_system o)) as [[]|]; ring).
  rewrite EF, ET.
  replace (sN (o_par o) zl) with (sN (o_par o) zr + - (F * sin (phi * PI / 180))) by lra.
  replace (sM (o_par o) zl) with (sM (o_par o) zr + - (hh (o_par o) / 2 * - (F * sin (phi * PI / 180)))) by lra.
  replace (sV (o_par o) zl) with (sV (o_par o) zr + F * cos (phi * PI / 180)) by lra.
  field.
Qed.

Lemma telescope n (a b : nat -> R) (j : nat -> R) : (forall i, (i < n)%nat -> a i - b (S i) = j i) ->
  total (S n) (fun i => a i - b i) = total n j + a n - b 0%nat.
Proof.
  induction n as [|n IH]; intros H; [unfold total; simpl; ring|].
  rewrite total_S, IH by (intros; apply H; lia). rewrite (total_S n j). rewrite <- (H n) by lia. ring.
Qed.

Lemma energy_balance o kR phi li mi ki Cs : ready o -> (1 <= List.length li)%nat -> bvp o kR phi li mi ki Cs ->
  let n := List.length li in let p := o_par o in let ld := loads_of o phi in
  let l i := nth i li 0 in let k i := nth i ki false in
  let z i := field o phi (l i) (k i) (nth i Cs []) in
  total n (fun i => RInt (fun x => 2 * stored p (k i) (z i x)) 0 (l i))
  + total n (fun i => RInt (fun x => slip_mismatch p (k i) (z i x)) 0 (l i))
  = total n (fun i => RInt (fun x => load_power p ld (z i x)) 0 (l i))
    + total n (fun i => - extra_moment p ld (k i) * RInt (fun x => z_psi (z i x)) 0 (l i))
    + total (n - 1) (fun i => point_power o phi (nth i mi 0) (z i (l i)))
    + section_power p (z (n - 1)%nat (l (n - 1)%nat)) - section_power p (z 0%nat 0).
Proof.
  intros H Hn (_ & _ & HT) n p ld l k z. fold n in Hn. rewrite <- total_plus.
  rewrite (total_ext n _ (fun i => (RInt (fun x => load_power p ld (z i x)) 0 (l i)
    + - extra_moment p ld (k i) * RInt (fun x => z_psi (z i x)) 0 (l i))
    + (section_power p (z i (l i)) - section_power p (z i 0)))).
  2:{ intros i _. apply (segment_energy o phi (l i) (k i) (nth i Cs []) H). }
  rewrite !total_plus. destruct n as [|m] eqn:En; [lia|]. replace (S m - 1)%nat with m by lia.
  rewrite (telescope m (fun i => section_power p (z i (l i))) (fun i => section_power p (z i 0))
    (fun i => point_power o phi (nth i mi 0) (z i (l i)))); [ring|].
  intros i Hi. apply point_jump. apply (HT i). unfold n in En. lia.
Qed.

(** * A uniform slab on a slope *)
Definition zeros : list R := [0; 0; 0; 0; 0; 0].
Lemma uniform_field o phi l x : field o phi l true zeros x = zp (o_par o) (loads_of o phi) 0 true.
Proof.
  unfold field, zsol, zeros. rewrite lincomb_six_zeros. unfold zp, vadd, vzero. simpl. f_equal; ring.
Qed.
Lemma uniform_bvp o phi l0 l1 : kind_of (o_system o) = Some KSkier ->
  bvp o 0 phi [l0; l1] [0] [true; true] [zeros; zeros].
Proof.
  intros Hk. split; [|split]; cbn [List.length nth Nat.sub].
  - unfold left_end. rewrite Hk, uniform_field. unfold far_field. auto.
  - unfold right_end. rewrite Hk, uniform_field. unfold far_field. auto.
  - intros [|i] Hi; [|lia]. cbn [nth]. rewrite !uniform_field. unfold transition. cbv zeta. rewrite Hk.
    repeat split; try reflexivity; unfold Rdiv; ring.
Qed.
Lemma uniform_mismatch o phi l : ready o ->
  let p := o_par o in let ld := loads_of o phi in
  RInt (fun x => slip_mismatch p true (field o phi l true zeros x)) 0 l
  = - (l * (wt p / (4 * kA55 p)) * (qt ld + pt ld) * (qt ld * (hh p + wt p - 2 * zs p) + pt ld * (2 * hh p + wt p))).
Proof.
  intros H p ld. rewrite (RInt_ext _ (fun _ => slip_mismatch p true (zp p ld 0 true))) by (intros; rewrite uniform_field; reflexivity).
  rewrite (RInt_const (V := R_CompleteNormedModule)). unfold scal; simpl. unfold mult; simpl.
  destruct H as ((_ & _ & HS & _) & (Hn & Ht & _) & _). fold p in HS, Ht, Hn.
  unfold slip_mismatch, s_tau, zp. simpl. field. lra.
Qed.

(** * External potential *)
Lemma average_mean (f : vec6 -> R) l : average (map f l) = mean f l.
Proof. unfold average, mean. rewrite map_length. reflexivity. Qed.
Lemma last_map0 (f : vec6 -> R) l : f vzero = 0 -> last (map f l) 0 = f (last l vzero).
Proof. intros E. induction l as [|a [|b l] IH]; simpl in *; auto. Qed.
Lemma mean_two a b f g l : a * mean f l + b * mean g l = mean (fun z => a * f z + b * g z) l.
Proof. rewrite <- mean_plus, !mean_scale. reflexivity. Qed.
Lemma external_value o phi L Cs l0 l1 li ki P xq zq xb :
  external_potential o phi L Cs (l0 :: l1 :: li) ki = Ok P ->
  rasterize_solution (o_par o) (o_eig o) (loads_of o phi) Cs (l0 :: l1 :: li) ki 250 = Ok (xq, zq, xb) ->
  exists ze, (o_system o = "pst-"%string /\ ze = last zq vzero \/ o_system o = "-pst"%string /\ ze = hd vzero zq) /\
    P = - ((l0 + l1) * mean (dead_power o) zq
           + (L - (l0 + l1)) * dead_power o (mkV (z_u ze) 0 (o_tc o) 0 (z_psi ze) 0)).
Proof.
  unfold external_potential. intros H HR. rewrite HR in H. cbn [bind] in H. cbv zeta in H.
  assert (Z : f_u (zs (o_par o)) vzero = 0) by (unfold f_u, vzero; simpl; ring).
  assert (M : forall ub, - calc_qn o * (l0 + l1) * average (map f_w zq) - calc_qn o * (L - (l0 + l1)) * o_tc o
     + (- calc_qt o * (l0 + l1) * average (map (f_u (zs (o_par o))) zq) - calc_qt o * (L - (l0 + l1)) * ub)
     = - ((l0 + l1) * mean (dead_power o) zq + (L - (l0 + l1)) * (calc_qn o * o_tc o + calc_qt o * ub))).
  { intros ub. rewrite !average_mean.
    rewrite (mean_ext (dead_power o) (fun z => calc_qn o * f_w z + calc_qt o * f_u (zs (o_par o)) z) zq)
      by (intros z; unfold dead_power, shift_at, calc_qn, calc_qt, f_w, f_u, f_psi; cbv zeta; ring).
    rewrite <- mean_two. ring. }
  unfold mem_str in H. cbn [existsb] in H. rewrite !orb_false_r in H.
  destruct (String.eqb_spec (o_system o) "pst-"); cbn [bind] in H; [|destruct (String.eqb_spec (o_system o) "-pst"); cbn [bind] in H; [|discriminate]].
  - exists (last zq vzero). split; [left; auto|]. apply Ok_inj in H. subst P. rewrite M. rewrite last_map0 by exact Z.
    unfold dead_power, shift_at, calc_qn, calc_qt, f_u, f_psi; simpl; ring.
  - exists (hd vzero zq). split; [right; auto|]. apply Ok_inj in H. subst P. rewrite M.
    replace (hd 0 (map (f_u (zs (o_par o))) zq)) with (f_u (zs (o_par o)) (hd vzero zq));
      [unfold dead_power, shift_at, calc_qn, calc_qt, f_u, f_psi; simpl; ring|].
    destruct zq; [exact Z|reflexivity].
Qed.
Lemma mean_const f (l : list vec6) z : l <> [] -> (forall y, In y l -> y = z) -> mean f l = f z.
Proof.
  intros N H. unfold mean. assert (E : rsum (map f l) = INR (List.length l) * f z).
  { clear N. induction l as [|a l IH]; [simpl; ring|]. change (List.length (a :: l)) with (S (List.length l)). rewrite S_INR. simpl.
    rewrite IH by (intros; apply H; right; assumption). rewrite (H a) by (left; reflexivity). ring. }
  rewrite E. field. apply not_0_INR. destruct l; [congruence|discriminate].
Qed.
