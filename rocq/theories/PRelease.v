(** Proofs about reciprocal work and the sign of incremental energy release rates. *)
From Coquelicot Require Import Coquelicot.
Require Import Verif.Py Verif.MTools Verif.MEigen Verif.MFields Verif.MRaster Verif.MSolution Verif.MAnalysis
  Verif.SAdm Verif.SBeam Verif.SBvp Verif.SEig Verif.SEnergy Verif.SOutput Verif.SWork Verif.SRelease Verif.PSetup Verif.PBeam Verif.PBeam2
  Verif.PBvp Verif.PBvp2 Verif.PBalance Verif.PEnergy2 Verif.PWork Verif.PWell3 Verif.PGrowth.

Lemma cross_derive p ld ka kb ea eb a b x : balance p ld ka ea a x -> balance p ld kb eb b x ->
  is_derive (fun s => section_cross p (a s) (b s) + - section_cross p (b s) (a s)) x
    (traction_cross p ka (a x) (b x) - traction_cross p kb (b x) (a x)
     - (load_power p ld (b x) - load_power p ld (a x)) + ea * z_psi (b x) - eb * z_psi (a x)).
Proof.
  intros (A1 & A2 & A3 & A4 & A5 & A6) (B1 & B2 & B3 & B4 & B5 & B6). unfold section_cross.
  assert (M : forall f g df dg, is_derive f x df -> is_derive g x dg -> is_derive (fun s => f s * g s) x (df * g x + f x * dg)).
  { intros f g df dg Hf Hg. exact (is_derive_mult (K := R_AbsRing) _ _ _ _ _ Hf Hg ltac:(intros; apply Rmult_comm)). }
  assert (P : forall f g df dg, is_derive f x df -> is_derive g x dg -> is_derive (fun s => f s + g s) x (df + dg)).
  { intros. apply is_derive_plusR; assumption. }
  assert (N : forall f df, is_derive f x df -> is_derive (fun s => - f s) x (- df)).
  { intros f df Hf. apply (is_derive_opp (V := R_NormedModule)). exact Hf. }
  eapply is_derive_eq.
  - apply (P (fun s => sN p (a s) * z_u (b s) + sM p (a s) * z_psi (b s) + sV p (a s) * z_w (b s))
      (fun s => - (sN p (b s) * z_u (a s) + sM p (b s) * z_psi (a s) + sV p (b s) * z_w (a s)))).
    + apply P; [apply P|]; apply M; eassumption.
    + apply (N (fun s => sN p (b s) * z_u (a s) + sM p (b s) * z_psi (a s) + sV p (b s) * z_w (a s))).
      apply P; [apply P|]; apply M; eassumption.
  - unfold traction_cross, load_power, shift_at. unfold sN, sM, sV. field.
Qed.

Lemma cross_continuous o phi l ka kb Ca Cb x : ready o ->
  let a := field o phi l ka Ca in let b := field o phi l kb Cb in let p := o_par o in
  continuous (fun s => traction_cross p ka (a s) (b s)) x.
Proof.
  intros H a b p. destruct (fields_continuous o phi l ka Ca x H) as (UA & _ & WA & DWA & PA & _).
  destruct (fields_continuous o phi l kb Cb x H) as (UB & _ & WB & _ & PB & _). fold a in UA, WA, DWA, PA. fold b in UB, WB, PB.
  clearbody a b p. destruct ka.
  - apply (continuous_extR (fun s => (kn p * z_w (a s)) * z_w (b s)
      + (kt p * (z_u (a s) + hh p / 2 * z_psi (a s) + - (wt p / 2) * z_dw (a s))) * (z_u (b s) + (hh p + wt p) / 2 * z_psi (b s)))); [|cont].
    intros s. unfold traction_cross, s_sig, s_tau, shift_at. ring.
  - apply (continuous_extR (fun s => 0)); [|cont]. intros s. unfold traction_cross, s_sig, s_tau. ring.
Qed.

Lemma ex_RInt_cont (f : R -> R) a b : (forall x, continuous f x) -> ex_RInt f a b.
Proof. intros H. apply (ex_RInt_continuous (V := R_CompleteNormedModule)). intros x _. apply H. Qed.
Lemma RInt_minusR (f g : R -> R) a b : (forall x, continuous f x) -> (forall x, continuous g x) ->
  RInt (fun x => f x - g x) a b = RInt f a b - RInt g a b.
Proof. intros Hf Hg. apply (RInt_minus (V := R_CompleteNormedModule)); apply ex_RInt_cont; assumption. Qed.
Lemma RInt_plusR (f g : R -> R) a b : (forall x, continuous f x) -> (forall x, continuous g x) ->
  RInt (fun x => f x + g x) a b = RInt f a b + RInt g a b.
Proof. intros Hf Hg. apply (RInt_plus (V := R_CompleteNormedModule)); apply ex_RInt_cont; assumption. Qed.
Lemma RInt_scalR (f : R -> R) c a b : (forall x, continuous f x) -> RInt (fun x => c * f x) a b = c * RInt f a b.
Proof. intros Hf. apply (RInt_scal (V := R_CompleteNormedModule)). apply ex_RInt_cont; assumption. Qed.

Lemma segment_cross o phi l ka kb Ca Cb : ready o ->
  let a := field o phi l ka Ca in let b := field o phi l kb Cb in let p := o_par o in let ld := loads_of o phi in
  RInt (fun x => traction_cross p ka (a x) (b x)) 0 l - RInt (fun x => traction_cross p kb (b x) (a x)) 0 l
  = (RInt (fun x => load_power p ld (b x)) 0 l - RInt (fun x => load_power p ld (a x)) 0 l)
    + (extra_moment p ld kb * RInt (fun x => z_psi (a x)) 0 l - extra_moment p ld ka * RInt (fun x => z_psi (b x)) 0 l)
    + ((section_cross p (a l) (b l) - section_cross p (b l) (a l)) - (section_cross p (a 0) (b 0) - section_cross p (b 0) (a 0))).
Proof.
  intros H a b p ld. destruct (ready_eig_ok o H) as (Hl & Hf & He).
  assert (X1 := fun x => cross_continuous o phi l ka kb Ca Cb x H). assert (X2 := fun x => cross_continuous o phi l kb ka Cb Ca x H).
  assert (Ea := fun x => energies_continuous o phi l ka Ca x H). assert (Eb := fun x => energies_continuous o phi l kb Cb x H).
  cbv zeta in X1, X2, Ea, Eb. fold a b p ld in X1, X2, Ea, Eb.
  assert (L1 := fun x => proj1 (proj2 (proj2 (Ea x)))). assert (P1 := fun x => proj2 (proj2 (proj2 (Ea x)))).
  assert (L2 := fun x => proj1 (proj2 (proj2 (Eb x)))). assert (P2 := fun x => proj2 (proj2 (proj2 (Eb x)))).
  set (ea := extra_moment p ld ka). set (eb := extra_moment p ld kb).
  assert (D : is_RInt (fun x => traction_cross p ka (a x) (b x) - traction_cross p kb (b x) (a x)
     - (load_power p ld (b x) - load_power p ld (a x)) + ea * z_psi (b x) - eb * z_psi (a x)) 0 l
     ((section_cross p (a l) (b l) + - section_cross p (b l) (a l)) - (section_cross p (a 0) (b 0) + - section_cross p (b 0) (a 0)))).
  { apply (ftc (fun s => section_cross p (a s) (b s) + - section_cross p (b s) (a s))).
    - intros x. apply (cross_derive p ld ka kb ea eb a b x); apply field_balance; assumption.
    - intros x. specialize (X1 x). specialize (X2 x). specialize (L1 x). specialize (L2 x). specialize (P1 x). specialize (P2 x).
      apply (continuous_extR (fun s => traction_cross p ka (a s) (b s) + -1 * traction_cross p kb (b s) (a s)
        + -1 * load_power p ld (b s) + load_power p ld (a s) + ea * z_psi (b s) + - eb * z_psi (a s))); [intros; ring|cont]. }
  apply (is_RInt_unique (V := R_CompleteNormedModule)) in D.
  clearbody a b ea eb. clear Ea Eb.
  set (f1 := fun x => traction_cross p ka (a x) (b x)) in *. set (f2 := fun x => traction_cross p kb (b x) (a x)) in *.
  set (f3 := fun x => load_power p ld (b x)) in *. set (f4 := fun x => load_power p ld (a x)) in *.
  set (f5 := fun x => z_psi (b x)) in *. set (f6 := fun x => z_psi (a x)) in *.
  assert (E : RInt (fun x => f1 x - f2 x - (f3 x - f4 x) + ea * f5 x - eb * f6 x) 0 l
    = RInt f1 0 l - RInt f2 0 l - (RInt f3 0 l - RInt f4 0 l) + ea * RInt f5 0 l - eb * RInt f6 0 l).
  { assert (S1 : forall x, continuous (fun s => f1 s - f2 s) x) by (intros; apply (continuous_minus (V := R_NormedModule)); auto).
    assert (S2 : forall x, continuous (fun s => f3 s - f4 s) x) by (intros; apply (continuous_minus (V := R_NormedModule)); auto).
    assert (S3 : forall x, continuous (fun s => ea * f5 s) x) by (intros; apply (continuous_scal_r (V := R_NormedModule)); auto).
    assert (S4 : forall x, continuous (fun s => eb * f6 s) x) by (intros; apply (continuous_scal_r (V := R_NormedModule)); auto).
    assert (S5 : forall x, continuous (fun s => f1 s - f2 s - (f3 s - f4 s)) x) by (intros; apply (continuous_minus (V := R_NormedModule)); auto).
    rewrite (RInt_minusR (fun x => f1 x - f2 x - (f3 x - f4 x) + ea * f5 x) (fun x => eb * f6 x)); [|intros; apply cont_plus; auto|exact S4].
    rewrite (RInt_plusR (fun x => f1 x - f2 x - (f3 x - f4 x)) (fun x => ea * f5 x)) by assumption.
    rewrite (RInt_minusR (fun x => f1 x - f2 x) (fun x => f3 x - f4 x)) by assumption.
    rewrite (RInt_minusR f1 f2), (RInt_minusR f3 f4), (RInt_scalR f5), (RInt_scalR f6) by assumption. reflexivity. }
  change (RInt (fun x => f1 x - f2 x - (f3 x - f4 x) + ea * f5 x - eb * f6 x) 0 l
    = section_cross p (a l) (b l) + - section_cross p (b l) (a l) - (section_cross p (a 0) (b 0) + - section_cross p (b 0) (a 0))) in D.
  rewrite E in D. lra.
Qed.

Lemma cross_jump o phi m al ar bl br : transition o phi m al ar -> transition o phi m bl br ->
  (section_cross (o_par o) al bl - section_cross (o_par o) bl al) - (section_cross (o_par o) ar br - section_cross (o_par o) br ar)
  = point_power o phi m bl - point_power o phi m al.
Proof.
  unfold transition, section_cross, point_power, point_Fn, point_Ft, shift_at. cbv zeta.
  intros (E1 & E2 & E3 & E4 & E5 & E6) (F1 & F2 & F3 & F4 & F5 & F6). rewrite <- E1, <- E2, <- E3, <- F1, <- F2, <- F3.
  set (F := if match kind_of (o_system o) with Some KRot => true | Some KTrans => true | _ => false end then 0 else _) in *.
  assert (EF : match kind_of (o_system o) with Some KRot | Some KTrans => 0 | _ => m * o_g o / 1000 / o_lski o * cos (phi * PI / 180) end
    = F * cos (phi * PI / 180)) by (unfold F; destruct (kind_of (o_system o)) as [[]|]; ring).
  assert (ET : match kind_of (o_system o) with Some KRot | Some KTrans => 0 | _ => - (m * o_g o / 1000 / o_lski o * sin (phi * PI / 180)) end
    = - (F * sin (phi * PI / 180))) by (unfold F; destruct (kind_of (o_system o)) as [[]|]; ring).
  rewrite EF, ET.
  replace (sN (o_par o) al) with (sN (o_par o) ar + - (F * sin (phi * PI / 180))) by lra.
  replace (sM (o_par o) al) with (sM (o_par o) ar + - (hh (o_par o) / 2 * - (F * sin (phi * PI / 180)))) by lra.
  replace (sV (o_par o) al) with (sV (o_par o) ar + F * cos (phi * PI / 180)) by lra.
  replace (sN (o_par o) bl) with (sN (o_par o) br + - (F * sin (phi * PI / 180))) by lra.
  replace (sM (o_par o) bl) with (sM (o_par o) br + - (hh (o_par o) / 2 * - (F * sin (phi * PI / 180)))) by lra.
  replace (sV (o_par o) bl) with (sV (o_par o) br + F * cos (phi * PI / 180)) by lra.
  field.
Qed.

(** Betti's theorem for two solved models of the same loads and different supports. *)
Lemma reciprocal o kRa kRb phi li mi ka kb Ca Cb : ready o -> (1 <= List.length li)%nat ->
  bvp o kRa phi li mi ka Ca -> bvp o kRb phi li mi kb Cb ->
  let n := List.length li in let p := o_par o in let ld := loads_of o phi in
  let l i := nth i li 0 in let sa i := nth i ka false in let sb i := nth i kb false in
  let a i := field o phi (l i) (sa i) (nth i Ca []) in let b i := field o phi (l i) (sb i) (nth i Cb []) in
  total n (fun i => RInt (fun x => traction_cross p (sa i) (a i x) (b i x)) 0 (l i)
                    - RInt (fun x => traction_cross p (sb i) (b i x) (a i x)) 0 (l i))
  = total n (fun i => RInt (fun x => load_power p ld (b i x)) 0 (l i) - RInt (fun x => load_power p ld (a i x)) 0 (l i))
    + total n (fun i => extra_moment p ld (sb i) * RInt (fun x => z_psi (a i x)) 0 (l i)
                        - extra_moment p ld (sa i) * RInt (fun x => z_psi (b i x)) 0 (l i))
    + total (n - 1) (fun i => point_power o phi (nth i mi 0) (b i (l i)) - point_power o phi (nth i mi 0) (a i (l i)))
    + (section_cross p (a (n - 1)%nat (l (n - 1)%nat)) (b (n - 1)%nat (l (n - 1)%nat))
       - section_cross p (b (n - 1)%nat (l (n - 1)%nat)) (a (n - 1)%nat (l (n - 1)%nat)))
    - (section_cross p (a 0%nat 0) (b 0%nat 0) - section_cross p (b 0%nat 0) (a 0%nat 0)).
Proof.
  intros H Hn (_ & _ & TA) (_ & _ & TB) n p ld l sa sb a b. fold n in Hn.
  rewrite (total_ext n (fun i => RInt (fun x => traction_cross p (sa i) (a i x) (b i x)) 0 (l i)
                    - RInt (fun x => traction_cross p (sb i) (b i x) (a i x)) 0 (l i)) (fun i =>
    (RInt (fun x => load_power p ld (b i x)) 0 (l i) - RInt (fun x => load_power p ld (a i x)) 0 (l i))
    + (extra_moment p ld (sb i) * RInt (fun x => z_psi (a i x)) 0 (l i) - extra_moment p ld (sa i) * RInt (fun x => z_psi (b i x)) 0 (l i))
    + ((section_cross p (a i (l i)) (b i (l i)) - section_cross p (b i (l i)) (a i (l i)))
       - (section_cross p (a i 0) (b i 0) - section_cross p (b i 0) (a i 0))))).
  2:{ intros i _. apply (segment_cross o phi (l i) (sa i) (sb i) (nth i Ca []) (nth i Cb []) H). }
  rewrite !total_plus. destruct n as [|m] eqn:En; [lia|]. replace (S m - 1)%nat with m by lia.
  rewrite (telescope m (fun i => section_cross p (a i (l i)) (b i (l i)) - section_cross p (b i (l i)) (a i (l i)))
    (fun i => section_cross p (a i 0) (b i 0) - section_cross p (b i 0) (a i 0))
    (fun i => point_power o phi (nth i mi 0) (b i (l i)) - point_power o phi (nth i mi 0) (a i (l i)))); [ring|].
  intros i Hi. apply cross_jump; [apply (TA i)|apply (TB i)]; unfold n in En; lia.
Qed.

Lemma RInt_extR (f g : R -> R) a b : (forall x : R, f x = g x) -> RInt f a b = RInt g a b.
Proof. intros E. apply (RInt_ext (V := R_CompleteNormedModule)). intros x _. apply E. Qed.
(** Tractions released by the crack, and the non-symmetric rest. *)
Lemma slip_cross_continuous o phi l ka kb Ca Cb x : ready o ->
  let a := field o phi l ka Ca in let b := field o phi l kb Cb in let p := o_par o in
  continuous (fun s => slip_cross p ka kb (a s) (b s)) x.
Proof.
  intros H a b p. destruct (fields_continuous o phi l ka Ca x H) as (UA & _ & WA & DWA & PA & _).
  destruct (fields_continuous o phi l kb Cb x H) as (UB & _ & WB & DWB & PB & _). fold a in UA, WA, DWA, PA. fold b in UB, WB, DWB, PB.
  clearbody a b p.
  apply (continuous_extR (fun s => wt p / 2 * ((if ka then kt p else 0) * (z_u (a s) + hh p / 2 * z_psi (a s) + - (wt p / 2) * z_dw (a s)) * (z_dw (b s) + z_psi (b s))
    + -1 * ((if kb then kt p else 0) * (z_u (b s) + hh p / 2 * z_psi (b s) + - (wt p / 2) * z_dw (b s)) * (z_dw (a s) + z_psi (a s)))))); [|cont].
  intros s. unfold slip_cross, s_tau. destruct ka, kb; ring.
Qed.
Lemma segment_release o phi l (ka kb : bool) Ca Cb : ready o -> (kb = true -> ka = true) ->
  let a := field o phi l ka Ca in let b := field o phi l kb Cb in let p := o_par o in
  RInt (fun x => traction_cross p ka (a x) (b x)) 0 l - RInt (fun x => traction_cross p kb (b x) (a x)) 0 l
  = (if andb ka (negb kb) then RInt (opening o phi l Ca Cb) 0 l - RInt (sliding o phi l Ca Cb) 0 l else 0)
    + RInt (fun x => slip_cross p ka kb (a x) (b x)) 0 l.
Proof.
  intros H Hk a b p.
  assert (X1 := fun x => cross_continuous o phi l ka kb Ca Cb x H). assert (X2 := fun x => cross_continuous o phi l kb ka Cb Ca x H).
  assert (X3 := fun x => slip_cross_continuous o phi l ka kb Ca Cb x H). cbv zeta in X1, X2, X3.
  unfold a, b, p.
  rewrite <- (RInt_minusR (fun x => traction_cross (o_par o) ka (field o phi l ka Ca x) (field o phi l kb Cb x))
    (fun x => traction_cross (o_par o) kb (field o phi l kb Cb x) (field o phi l ka Ca x)) 0 l X1 X2).
  destruct ka, kb; cbn [andb negb]; try (specialize (Hk eq_refl); discriminate).
  - rewrite Rplus_0_l. apply RInt_extR. intros x. unfold traction_cross, slip_cross, s_sig, s_tau, shift_at. field.
  - rewrite <- (RInt_minusR (opening o phi l Ca Cb) (sliding o phi l Ca Cb)) by (intros; (apply opening_cont || apply sliding_cont); exact H).
    rewrite <- (RInt_plusR (fun x => opening o phi l Ca Cb x - sliding o phi l Ca Cb x)
      (fun x => slip_cross (o_par o) true false (field o phi l true Ca x) (field o phi l false Cb x))); [|intros x|exact X3].
    + apply RInt_extR. intros x. unfold traction_cross, slip_cross, opening, sliding, s_sig, s_tau, shift_at. field.
    + apply (continuous_minus (V := R_NormedModule)); [apply opening_cont|apply sliding_cont]; exact H.
  - rewrite Rplus_0_l. apply RInt_extR. intros x. unfold traction_cross, slip_cross, s_sig, s_tau, shift_at. field.
Qed.
Lemma scaled_error G X da e : 0 < da -> Rabs (G - 1 / (2 * da) * X) <= e / (2 * da) -> Rabs (2 * da * G - X) <= e.
Proof.
  intros Hd H. replace (2 * da * G - X) with (2 * da * (G - 1 / (2 * da) * X)) by (field; lra).
  rewrite Rabs_mult, (Rabs_pos_eq (2 * da)) by lra.
  replace e with (2 * da * (e / (2 * da))) by (field; lra). apply Rmult_le_compat_l; lra.
Qed.
Lemma total_crack k0 ki n (f : nat -> R) : total n (fun i => if cracking k0 ki i then f i else 0) = crack_sum k0 ki n f.
Proof. reflexivity. Qed.
Lemma total_minus n f g : total n (fun i => f i - g i) = total n f - total n g.
Proof. induction n as [|n IH]; [unfold total; simpl; ring|]. rewrite !total_S, IH. ring. Qed.

Lemma release quad eps o kRa kRb phi li mi k0 ki Ca Cb G G1 G2 : accurate_quad quad eps -> ready o -> (1 <= List.length li)%nat ->
  bvp o kRa phi li mi k0 Ca -> bvp o kRb phi li mi ki Cb ->
  (forall i, nth i ki false = true -> nth i k0 false = true) -> (exists i, cracking k0 ki i = true) ->
  ginc quad (o_par o) (o_eig o) (loads_of o phi) Ca Cb li ki k0 = Ok (Some G, Some G1, Some G2) ->
  let n := List.length li in let p := o_par o in let ld := loads_of o phi in
  let l i := nth i li 0 in let sa i := nth i k0 false in let sb i := nth i ki false in
  let a i := field o phi (l i) (sa i) (nth i Ca []) in let b i := field o phi (l i) (sb i) (nth i Cb []) in
  let da := crack_sum k0 ki n l in
  0 < da /\ G = G1 + G2 /\
  Rabs (2 * da * (G1 - G2)
  - (total n (fun i => RInt (fun x => load_power p ld (b i x)) 0 (l i) - RInt (fun x => load_power p ld (a i x)) 0 (l i))
    + total (n - 1) (fun i => point_power o phi (nth i mi 0) (b i (l i)) - point_power o phi (nth i mi 0) (a i (l i)))
    + (section_cross p (a (n - 1)%nat (l (n - 1)%nat)) (b (n - 1)%nat (l (n - 1)%nat))
       - section_cross p (b (n - 1)%nat (l (n - 1)%nat)) (a (n - 1)%nat (l (n - 1)%nat)))
    - (section_cross p (a 0%nat 0) (b 0%nat 0) - section_cross p (b 0%nat 0) (a 0%nat 0))
    - total n (fun i => RInt (fun x => slip_cross p (sa i) (sb i) (a i x) (b i x)) 0 (l i))
    + total n (fun i => extra_moment p ld (sb i) * RInt (fun x => z_psi (a i x)) 0 (l i)
                        - extra_moment p ld (sa i) * RInt (fun x => z_psi (b i x)) 0 (l i)))) <= 2 * (INR n * eps).
Proof.
  intros HQ H Hn BA BB Hk He HG n p ld l sa sb a b da.
  destruct (ginc_value quad eps HQ o phi Ca Cb li ki k0 G G1 G2 H HG) as (ES & _ & V). destruct (V He) as (Hd & V1 & V2). clear V.
  fold n in Hd, V1, V2. change (crack_sum k0 ki n (fun i => nth i li 0)) with da in Hd, V1, V2.
  split; [exact Hd|]. split; [exact ES|].
  apply scaled_error in V1; [|exact Hd]. apply scaled_error in V2; [|exact Hd].
  pose proof (reciprocal o kRa kRb phi li mi k0 ki Ca Cb H Hn BA BB) as E. cbv zeta in E.
  change (total n (fun i => RInt (fun x => traction_cross p (sa i) (a i x) (b i x)) 0 (l i)
                    - RInt (fun x => traction_cross p (sb i) (b i x) (a i x)) 0 (l i))
  = total n (fun i => RInt (fun x => load_power p ld (b i x)) 0 (l i) - RInt (fun x => load_power p ld (a i x)) 0 (l i))
    + total n (fun i => extra_moment p ld (sb i) * RInt (fun x => z_psi (a i x)) 0 (l i)
                        - extra_moment p ld (sa i) * RInt (fun x => z_psi (b i x)) 0 (l i))
    + total (n - 1) (fun i => point_power o phi (nth i mi 0) (b i (l i)) - point_power o phi (nth i mi 0) (a i (l i)))
    + (section_cross p (a (n - 1)%nat (l (n - 1)%nat)) (b (n - 1)%nat (l (n - 1)%nat))
       - section_cross p (b (n - 1)%nat (l (n - 1)%nat)) (a (n - 1)%nat (l (n - 1)%nat)))
    - (section_cross p (a 0%nat 0) (b 0%nat 0) - section_cross p (b 0%nat 0) (a 0%nat 0))) in E.
  rewrite (total_ext n (fun i => RInt (fun x => traction_cross p (sa i) (a i x) (b i x)) 0 (l i)
                    - RInt (fun x => traction_cross p (sb i) (b i x) (a i x)) 0 (l i)) (fun i =>
     ((if cracking k0 ki i then RInt (opening o phi (l i) (nth i Ca []) (nth i Cb [])) 0 (l i) else 0)
      - (if cracking k0 ki i then RInt (sliding o phi (l i) (nth i Ca []) (nth i Cb [])) 0 (l i) else 0))
     + RInt (fun x => slip_cross p (sa i) (sb i) (a i x) (b i x)) 0 (l i))) in E.
  2:{ intros i _. etransitivity; [apply (segment_release o phi (l i) (sa i) (sb i) (nth i Ca []) (nth i Cb []) H (Hk i))|].
      unfold cracking, sa, sb. destruct (andb _ _); [reflexivity|rewrite Rminus_0_r; reflexivity]. }
  rewrite total_plus, total_minus in E. rewrite !total_crack in E.
  change (crack_sum k0 ki n (fun i => RInt (opening o phi (l i) (nth i Ca []) (nth i Cb [])) 0 (l i)))
    with (crack_sum k0 ki n (fun i => RInt (opening o phi (nth i li 0) (nth i Ca []) (nth i Cb [])) 0 (nth i li 0))) in E.
  change (crack_sum k0 ki n (fun i => RInt (sliding o phi (l i) (nth i Ca []) (nth i Cb [])) 0 (l i)))
    with (crack_sum k0 ki n (fun i => RInt (sliding o phi (nth i li 0) (nth i Ca []) (nth i Cb [])) 0 (nth i li 0))) in E.
  set (X1 := crack_sum k0 ki n (fun i => RInt (opening _ _ _ _ _) _ _)) in *.
  set (X2 := crack_sum k0 ki n (fun i => RInt (sliding _ _ _ _ _) _ _)) in *.
  match goal with |- Rabs (_ - ?T) <= _ => replace T with (X1 - X2) by lra end.
  replace (2 * da * (G1 - G2) - (X1 - X2)) with ((2 * da * G1 - X1) + - (2 * da * G2 - X2)) by ring.
  eapply Rle_trans; [apply Rabs_triang|]. rewrite Rabs_Ropp. lra.
Qed.

(** * Sign of the incremental rate *)
Lemma uniform_GI o phi : ready o -> let p := o_par o in let ld := loads_of o phi in
  GI p (zp p ld 0 true) = (qn ld + pn ld) ^ 2 / (2 * kn p) /\ GII p (zp p ld 0 true) = (qt ld + pt ld) ^ 2 / (2 * kt p).
Proof.
  intros ((_ & _ & HS & _) & (Hn & Ht & _) & _) p ld. fold p in HS, Hn, Ht. unfold GI, GII, zp. simpl. split; field; lra.
Qed.
Lemma negative_rate o phi L : ready o -> stable (o_par o) -> kind_of (o_system o) = Some KSkier -> 0 < L ->
  let p := o_par o in let ld := loads_of o phi in
  kt p * (qn ld + pn ld) ^ 2 < kn p * (qt ld + pt ld) ^ 2 ->
  exists d, 0 < d /\ forall quad a Ca Cb G G1 G2, 0 < a < d -> a <= L ->
    let li := [(L - a) / 2; a / 2; a / 2; (L - a) / 2] in
    let k0 := [true; true; true; true] in let ki := [true; false; false; true] in
    six_each 4 Ca -> six_each 4 Cb -> bvp o 0 phi li [0; 0; 0] k0 Ca -> bvp o 0 phi li [0; 0; 0] ki Cb -> accurate_quad quad (d * a) ->
    ginc quad (o_par o) (o_eig o) (loads_of o phi) Ca Cb li ki k0 = Ok (Some G, Some G1, Some G2) -> G < 0.
Proof.
  intros Hr Hs Hk HL p ld Hlt.
  set (e := ((qt ld + pt ld) ^ 2 / (2 * kt p) - (qn ld + pn ld) ^ 2 / (2 * kn p)) / 4).
  assert (Hkn : 0 < kn p) by (destruct Hr as (_ & (Hn & _) & _); exact Hn).
  assert (Hkt : 0 < kt p) by (destruct Hr as (_ & (_ & Ht & _) & _); exact Ht).
  assert (He : 0 < e).
  { unfold e. replace ((qt ld + pt ld) ^ 2 / (2 * kt p) - (qn ld + pn ld) ^ 2 / (2 * kn p))
      with ((kn p * (qt ld + pt ld) ^ 2 - kt p * (qn ld + pn ld) ^ 2) / (2 * kn p * kt p)) by (field; lra).
    apply Rdiv_lt_0_compat; [|lra]. apply Rdiv_lt_0_compat; [lra|]. apply Rmult_lt_0_compat; lra. }
  destruct (nuc_limit o 0 phi L 0 [zeros; zeros] Hr Hs Hk (Rle_refl 0) HL (uniform_bvp o phi (L / 2) (L / 2) Hk) e He) as (d & Hd & HN).
  exists d. split; [exact Hd|]. intros quad a Ca Cb G G1 G2 Ha HaL li k0 ki A6 B6 BA BB HQ HG.
  destruct (HN quad a Ca Cb G G1 G2 Ha HaL A6 B6 BA BB HQ HG) as [V1 V2].
  cbn [nth] in V1, V2. rewrite uniform_field in V1, V2. rewrite uniform_field in V2.
  destruct (uniform_GI o phi Hr) as [E1 E2]. cbv zeta in E1, E2. rewrite E1 in V1. rewrite E2 in V2. fold p ld in V1, V2.
  destruct (ginc_value quad (d * a) HQ o phi Ca Cb li ki k0 G G1 G2 Hr HG) as (-> & _).
  apply Rabs_le_between in V1. apply Rabs_le_between in V2. unfold e in *. lra.
Qed.
