(** Property theorem C118: with a backward stable linear solver and eigenvectors of moderate condition,
    the computed constants stay bounded and all errors are proportional to the accuracy. *)
From Coquelicot Require Import Coquelicot.
Require Import Verif.Py Verif.MTools Verif.MEigen Verif.MFields Verif.MRaster Verif.MSolution Verif.MAnalysis
  Verif.SAdm Verif.SBeam Verif.SBvp Verif.SEig Verif.SEnergy Verif.SSplit Verif.SApprox Verif.SStable Verif.PSetup Verif.PBeam Verif.PBeam2 Verif.PBvp Verif.PBvp5 Verif.PLinAlg
  Verif.PEnergy Verif.PEnergy2 Verif.PIndep Verif.PWell2 Verif.PWell3 Verif.PBvp6 Verif.PComplete Verif.PDepend Verif.PApprox Verif.PApprox2 Verif.PApprox4 Verif.PStable Verif.PStable2
  Verif.PropDepend Verif.PropApprox Verif.PropApprox2.

(** C118: there are constants K, S0 and eps0 of the model such that, whatever eigensolver and linear
    solver are used, an accuracy eps + rho below eps0 bounds the constants by S0 and the states by K (eps + rho). *)
Theorem C118_states o kR phi li mi ki kd C0 m kap :
  ready o -> stable (o_par o) -> kind_of (o_system o) = Some kd -> (kd = KPst -> o_mode o <> None) ->
  (kd = KPst -> o_mode o = Some ModeC -> o_phi o = phi) -> (kd = KVpst -> o_mode o = None \/ o_mode o = Some ModeA) ->
  0 <= kR -> (2 <= List.length li)%nat -> List.length ki = List.length li -> proper_segments li ki ->
  six_each (List.length li) C0 -> bvp o kR phi li mi ki C0 -> 0 <= m -> 0 <= kap ->
  exists K S0 eps0, 0 <= K /\ 0 < eps0 /\ forall eig solve aslist rho eps Cs,
    let ews := eig (calc_system_matrix (o_par o)) in
    let o' := o_calc_eigensystem eig o in
    0 <= rho -> 0 <= eps -> eps + rho <= eps0 -> Forall (approx_eigenpair (calc_system_matrix (o_par o)) rho) ews ->
    (List.length (eR (o_eig o')) + 2 * List.length (eC (o_eig o')) = 6)%nat ->
    sized m (o_eig o') -> conditioned kap (o_eig o') ->
    backward_stable eps (6 * List.length li) solve -> spring eig solve o' phi kR kd ->
    assemble_and_solve eig solve o' aslist phi li mi ki = Ok Cs ->
    abs_sum (List.concat Cs) <= S0 /\
    forall i x, (i < List.length li)%nat -> 0 <= x <= nth i li 0 ->
    close6 (K * (eps + rho))
      (field o' phi (nth i li 0) (nth i ki false) (nth i Cs []) x)
      (field o phi (nth i li 0) (nth i ki false) (nth i C0 []) x).
Proof.
  intros Hr Hs Hkd HM HC HV HkR HN Hk Hp H60 HB Hm Hkap.
  destruct (stable_states o kR phi li mi ki kd C0 m kap Hr Hs Hkd HM HC HV HkR HN Hk Hp H60 HB Hm Hkap) as (K & S0 & eps0 & K0 & E0 & HK).
  exists K, S0, eps0. split; [exact K0|]. split; [exact E0|].
  intros eig solve aslist rho eps Cs ews o' Hrho Heps Hsm HA H6 Hsz Hcd Hbs [HS1 HS2] H.
  unfold assemble_and_solve, assemble_and_solve_with in H.
  destruct (check_segments o' li mi ki) as [[]|] eqn:Ec; [|discriminate]. cbn [bind] in H.
  destruct (Nat.eqb_spec (List.length li) 1) as [E|_]; [lia|]. cbn [bind] in H.
  destruct (assemble _ _ _ _ _ _) as [[[zh0 zp0] rhs]|] eqn:EA; [|discriminate]. cbn [bind] in H.
  destruct (solve _ _ _) as [x|] eqn:ES; [|discriminate]. cbn [bind] in H. injection H as <-.
  apply (HK ews (fst (substitute_stiffness eig solve o' (o_a o' - o_td o') "rested" "rot")) rho eps zh0 zp0 rhs x Hrho Heps Hsm HA H6 Hsz Hcd Ec).
  - intros A B. exact (proj2 (HS1 A B)).
  - exact EA.
  - exact (Hbs _ _ _ ES).
Qed.
Print Assumptions C118_states.

(** ... the differential energy release rates ... *)
Theorem C118_differential o kR phi li mi ki kd unit c C0 m kap :
  ready o -> stable (o_par o) -> kind_of (o_system o) = Some kd -> (kd = KPst -> o_mode o <> None) ->
  (kd = KPst -> o_mode o = Some ModeC -> o_phi o = phi) -> (kd = KVpst -> o_mode o = None \/ o_mode o = Some ModeA) ->
  0 <= kR -> (2 <= List.length li)%nat -> List.length ki = List.length li -> proper_segments li ki -> err_factor unit c ->
  six_each (List.length li) C0 -> bvp o kR phi li mi ki C0 -> 0 <= m -> 0 <= kap ->
  exists K eps0, 0 <= K /\ 0 < eps0 /\ forall eig solve aslist rho eps Cs,
    let ews := eig (calc_system_matrix (o_par o)) in
    let o' := o_calc_eigensystem eig o in
    0 <= rho -> 0 <= eps -> eps + rho <= eps0 -> Forall (approx_eigenpair (calc_system_matrix (o_par o)) rho) ews ->
    (List.length (eR (o_eig o')) + 2 * List.length (eC (o_eig o')) = 6)%nat ->
    sized m (o_eig o') -> conditioned kap (o_eig o') ->
    backward_stable eps (6 * List.length li) solve -> spring eig solve o' phi kR kd ->
    assemble_and_solve eig solve o' aslist phi li mi ki = Ok Cs ->
    exists G G1 G2 G' G1' G2',
      gdif (o_par o) (o_eig o) (loads_of o phi) C0 li ki unit = Ok (G, G1, G2) /\
      gdif (o_par o') (o_eig o') (loads_of o' phi) Cs li ki unit = Ok (G', G1', G2') /\
      Rabs (G1' - G1) <= K * (eps + rho) /\ Rabs (G2' - G2) <= K * (eps + rho) /\ Rabs (G' - G) <= K * (eps + rho).
Proof.
  intros Hr Hs Hkd HM HC HV HkR HN Hk Hp Hu H60 HB Hm Hkap. destruct (ready_pos o Hr) as (Kn & Kt & Wt).
  destruct (C118_states o kR phi li mi ki kd C0 m kap Hr Hs Hkd HM HC HV HkR HN Hk Hp H60 HB Hm Hkap) as (K & S0 & eps0 & K0 & E0 & HK).
  destruct (gdif_close (o_par o) (o_eig o) (loads_of o phi) C0 li ki unit K Kn Kt K0 Hk) as (KG & KG0 & HKG).
  exists (KG * (1 + eps0)), eps0. split; [apply Rmult_le_pos; lra|]. split; [exact E0|].
  intros eig solve aslist rho eps Cs ews o' Hrho Heps Hsm HA H6 Hsz Hcd Hbs HS H.
  assert (Acc : forall (q : obj) X, six_cols q -> six_each (List.length li) X -> exists G G1 G2, gdif (o_par q) (o_eig q) (loads_of q phi) X li ki unit = Ok (G, G1, G2)).
  { intros q X Q6 [LX FX]. destruct (gdif_accepts (o_par q) (o_eig q) (loads_of q phi) X li ki unit c Hu Hk) as [[[G G1] G2] E].
    - intros j Hj _. split; [rewrite LX; lia|]. rewrite (six_zh q Q6). symmetry. apply (proj1 (Forall_forall _ _) FX). apply nth_In. rewrite LX. lia.
    - exists G, G1, G2. exact E. }
  pose proof (solved_six eig solve o' aslist phi li mi ki Cs HN H) as S6.
  destruct (Acc o C0 (ready_six o Hr) H60) as (G & G1 & G2 & EG). destruct (Acc o' Cs (six_cols_count o' H6) S6) as (G' & G1' & G2' & EG').
  exists G, G1, G2, G', G1', G2'. split; [exact EG|]. split; [exact EG'|].
  destruct (HK eig solve aslist rho eps Cs Hrho Heps Hsm HA H6 Hsz Hcd Hbs HS H) as [_ CL].
  set (e := eps + rho) in *. assert (He : 0 <= e) by (unfold e; lra).
  destruct (HKG Cs (o_eig o') e G G1 G2 G' G1' G2' He) as (Q1 & Q2 & Q3); [|exact EG|exact EG'|].
  { intros j Hj. apply (CL j (nth j li 0) Hj). split; [apply Hp; exact Hj|lra]. }
  assert (Q : KG * (e * (1 + e)) <= KG * (1 + eps0) * e).
  { rewrite Rmult_assoc. apply Rmult_le_compat_l; [exact KG0|]. rewrite Rmult_comm. apply Rmult_le_compat_r; lra. }
  lra.
Qed.
Print Assumptions C118_differential.

(** ... and the incremental ones, with a quadrature that is off by at most [q] per integral. *)
Theorem C118_incremental o kR phi li mi0 mi ki k0 kd C0 C1 m kap :
  ready o -> stable (o_par o) -> kind_of (o_system o) = Some kd -> (kd = KPst -> o_mode o <> None) ->
  (kd = KPst -> o_mode o = Some ModeC -> o_phi o = phi) -> (kd = KVpst -> o_mode o = None \/ o_mode o = Some ModeA) ->
  0 <= kR -> (2 <= List.length li)%nat -> List.length ki = List.length li -> List.length k0 = List.length li ->
  proper_segments li ki -> proper_segments li k0 ->
  six_each (List.length li) C0 -> bvp o kR phi li mi0 k0 C0 -> six_each (List.length li) C1 -> bvp o kR phi li mi ki C1 ->
  0 <= m -> 0 <= kap ->
  let da := crack_sum k0 ki (List.length li) (fun i => nth i li 0) in
  0 < da ->
  exists K eps0, 0 <= K /\ 0 < eps0 /\ forall eig solve quad aslist rho eps q Cs0 Cs1,
    let ews := eig (calc_system_matrix (o_par o)) in
    let o' := o_calc_eigensystem eig o in
    0 <= rho -> 0 <= eps -> eps + rho <= eps0 -> Forall (approx_eigenpair (calc_system_matrix (o_par o)) rho) ews ->
    (List.length (eR (o_eig o')) + 2 * List.length (eC (o_eig o')) = 6)%nat ->
    sized m (o_eig o') -> conditioned kap (o_eig o') ->
    backward_stable eps (6 * List.length li) solve -> accurate_quad quad q -> spring eig solve o' phi kR kd ->
    assemble_and_solve eig solve o' aslist phi li mi0 k0 = Ok Cs0 ->
    assemble_and_solve eig solve o' aslist phi li mi ki = Ok Cs1 ->
    exists G G1 G2 G' G1' G2',
      ginc (fun f a b => RInt f a b) (o_par o) (o_eig o) (loads_of o phi) C0 C1 li ki k0 = Ok (Some G, Some G1, Some G2) /\
      ginc quad (o_par o') (o_eig o') (loads_of o' phi) Cs0 Cs1 li ki k0 = Ok (Some G', Some G1', Some G2') /\
      let B := K * (eps + rho) + INR (List.length li) * q / (2 * da) in
      Rabs (G1' - G1) <= B /\ Rabs (G2' - G2) <= B /\ Rabs (G' - G) <= 2 * B.
Proof.
  intros Hr Hs Hkd HM HC HV HkR HN Hk Hk0 Hp Hp0 S0 B0 S1 B1 Hm Hkap da Hda. destruct (ready_pos o Hr) as (Kn & Kt & Wt).
  destruct (C118_states o kR phi li mi0 k0 kd C0 m kap Hr Hs Hkd HM HC HV HkR HN Hk0 Hp0 S0 B0 Hm Hkap) as (K0 & T0 & e0 & K00 & E00 & HK0).
  destruct (C118_states o kR phi li mi ki kd C1 m kap Hr Hs Hkd HM HC HV HkR HN Hk Hp S1 B1 Hm Hkap) as (K1 & T1 & e1 & K10 & E10 & HK1).
  destruct (ginc_close o phi C0 C1 li ki k0 K0 K1 Kn Kt Wt K00 K10 (ready_six o Hr) Hk Hk0 (proj1 Hp) S0 S1) as (KG & KG0 & HKG).
  exists (KG * (2 + e0)), (Rmin e0 e1). split; [apply Rmult_le_pos; lra|]. split; [apply Rmin_pos; assumption|].
  intros eig solve quad aslist rho eps q Cs0 Cs1 ews o' Hrho Heps Hsm HA H6 Hsz Hcd Hbs HQ HS H0 H1.
  pose proof (Rmin_l e0 e1) as M0. pose proof (Rmin_r e0 e1) as M1.
  pose proof (solved_six eig solve o' aslist phi li mi0 k0 Cs0 HN H0) as U0. pose proof (solved_six eig solve o' aslist phi li mi ki Cs1 HN H1) as U1.
  assert (Acc : forall quad (q : obj) X Y, six_cols q -> six_each (List.length li) X -> six_each (List.length li) Y ->
    exists G G1 G2, ginc quad (o_par q) (o_eig q) (loads_of q phi) X Y li ki k0 = Ok (Some G, Some G1, Some G2)).
  { intros qd w X Y Q6 [LX FX] [LY FY]. unfold ginc. rewrite Hk0, Hk, LX, LY, Nat.eqb_refl. cbn [negb andb].
    set (msk := map2 (fun a b => andb a (negb b)) k0 ki).
    assert (Da : rsum (select msk li) = da) by (unfold da, msk; rewrite <- Hk; apply select_sum1; congruence).
    assert (S6 : forall (X : list (list R)), Forall (fun C => List.length C = 6%nat) X -> Forall (fun C => List.length C = 6%nat) (select msk X)).
    { clear. intros X. revert X. induction msk as [|b k IH]; intros [|c X] H; simpl; try constructor; inversion H; subst.
      destruct b; [constructor; [assumption|]|]; apply IH; assumption. }
    assert (TL : forall X Y l, Forall (fun C => List.length C = 6%nat) X -> Forall (fun C => List.length C = 6%nat) Y ->
      exists r, ginc_loop qd (o_par w) (o_eig w) (loads_of w phi) X Y l = Ok r).
    { intros X' Y' l. revert X' Y'. induction l as [|y l IH]; intros [|c X'] [|c' Y'] FX' FY'; simpl; try (eexists; reflexivity).
      pose proof (Forall_inv FX') as Fx. pose proof (Forall_inv FY') as Fy. cbv beta in Fx, Fy.
      unfold zsol_checked. rewrite !(six_zh w Q6), Fx, Fy. cbn [Nat.eqb bind].
      destruct (IH X' Y' (Forall_inv_tail FX') (Forall_inv_tail FY')) as [r ->]. eexists. reflexivity. }
    destruct (TL _ _ (select msk li) (S6 X FX) (S6 Y FY)) as [r Er]. rewrite Er. cbn [bind].
    destruct (select msk li) as [|y l] eqn:E; [simpl in Da; lra|].
    destruct (Rlt_dec 0 (rsum (y :: l))); [|lra]. eexists _, _, _. reflexivity. }
  destruct (Acc (fun f a b => RInt f a b) o C0 C1 (ready_six o Hr) S0 S1) as (G & G1 & G2 & EG).
  destruct (Acc quad o' Cs0 Cs1 (six_cols_count o' H6) U0 U1) as (G' & G1' & G2' & EG').
  exists G, G1, G2, G', G1', G2'. split; [exact EG|]. split; [exact EG'|]. intros B.
  destruct (HK0 eig solve aslist rho eps Cs0 Hrho Heps ltac:(lra) HA H6 Hsz Hcd Hbs HS H0) as [_ CL0].
  destruct (HK1 eig solve aslist rho eps Cs1 Hrho Heps ltac:(lra) HA H6 Hsz Hcd Hbs HS H1) as [_ CL1].
  unfold B. set (e := eps + rho) in *. assert (He : 0 <= e) by (unfold e; lra).
  destruct (HKG quad q (o_eig o') Cs0 Cs1 e e G G1 G2 G' G1' G2' HQ (six_cols_count o' H6) He He U0 U1 CL0 CL1 Hda EG EG') as (Q1 & Q2 & Q3).
  assert (Q : KG * (e + e + e * e) <= KG * (2 + e0) * e).
  { rewrite Rmult_assoc. apply Rmult_le_compat_l; [exact KG0|]. assert (e * e <= e0 * e) by (apply Rmult_le_compat_r; lra). lra. }
  fold da in Q1, Q2, Q3. lra.
Qed.
Print Assumptions C118_incremental.

(** Exact eigensystems are of some size and condition. *)
Lemma columns_basis e : zh_bedded e 0 0 = basis e.
Proof.
  unfold zh_bedded, basis. f_equal; [|f_equal]; apply map_ext; [intros [ew v]|intros [[re im] [vr vi]] ..].
  - unfold colR. cbn [fst snd]. replace (ew * (0 + 0 * shiftR ew)) with 0 by ring. rewrite exp_0. apply vec6_eq; cbn [vscale z_u z_du z_w z_dw z_psi z_dpsi]; ring.
  - unfold colC1. replace (re * (0 + 0 * shiftC (re, im))) with 0 by ring. rewrite Rmult_0_r, exp_0, cos_0, sin_0. cbn [fst snd].
    apply vec6_eq; cbn [vadd vscale z_u z_du z_w z_dw z_psi z_dpsi]; ring.
  - unfold colC2. replace (re * (0 + 0 * shiftC (re, im))) with 0 by ring. rewrite Rmult_0_r, exp_0, cos_0, sin_0. cbn [fst snd].
    apply vec6_eq; cbn [vadd vscale z_u z_du z_w z_dw z_psi z_dpsi]; ring.
Qed.
Lemma conditioned6 (cols : list vec6) : List.length cols = 6%nat ->
  (forall C, List.length C = 6%nat -> lincomb cols C = vzero -> Forall (fun c => c = 0) C) ->
  exists kap, 0 <= kap /\ forall C s, List.length C = 6%nat -> close6 s (lincomb cols C) vzero -> abs_sum C <= kap * s.
Proof.
  intros L H. destruct cols as [|c0 [|c1 [|c2 [|c3 [|c4 [|c5 [|]]]]]]]; try discriminate L.
  set (cols := [c0; c1; c2; c3; c4; c5]) in *.
  set (A := fun r c => dot6 (comp r) (nth c cols vzero)).
  assert (SA : forall x r, sumn 6 (fun c => A r c * x c) = dot6 (comp r) (lincomb cols (block x 0))).
  { intros x r. unfold block. cbn [seq map]. unfold A, cols. rewrite lincomb6. cbn [sumn nth Nat.mul Nat.add]. ring. }
  assert (KA : trivial_kernel 6 A).
  { intros x Hx c Hc. assert (Z : lincomb cols (block x 0) = vzero).
    { apply comp_eq. intros r Hr. rewrite <- SA, (Hx r Hr). symmetry. apply dot_zero. }
    pose proof (Forall_block x 0 (H (block x 0) eq_refl Z)) as F. exact (F c Hc). }
  destruct (bounded_inverse 6 A KA) as (b & b0 & Hb). exists (6 * (b * 6)). split; [lra|]. intros C s LC HC.
  pose proof (six_block C LC) as EC. set (x := fun k => nth k C 0) in *.
  assert (Q : forall c, (c < 6)%nat -> Rabs (x c) <= b * (6 * s)).
  { intros c Hc. specialize (Hb x (fun _ => 0) c Hc). rewrite Rminus_0_r in Hb. eapply Rle_trans; [exact Hb|]. apply Rmult_le_compat_l; [exact b0|].
    replace (6 * s) with (INR 6 * s) by (simpl; ring). rewrite <- sumn_const. apply sumn_le. intros r Hr.
    rewrite SA, <- EC. replace (sumn 6 (fun c => A r c * 0)) with 0 by (cbn [sumn]; ring).
    rewrite close6_comp in HC. specialize (HC r Hr). rewrite dot_zero in HC. exact HC. }
  pose proof (Q 0%nat ltac:(lia)). pose proof (Q 1%nat ltac:(lia)). pose proof (Q 2%nat ltac:(lia)). pose proof (Q 3%nat ltac:(lia)). pose proof (Q 4%nat ltac:(lia)). pose proof (Q 5%nat ltac:(lia)).
  clear Q. unfold x in *. clear x EC. destruct C as [|a0 [|a1 [|a2 [|a3 [|a4 [|a5 [|]]]]]]]; try discriminate LC. cbn [nth] in *. unfold abs_sum. cbn [fold_right]. lra.
Qed.
Theorem C118_exact o : ready o -> exists m kap, 0 <= m /\ 0 <= kap /\ sized m (o_eig o) /\ conditioned kap (o_eig o).
Proof.
  intros Hr. pose proof (ready_six o Hr 0 0) as H6. rewrite columns_basis in H6.
  destruct (conditioned6 (basis (o_eig o)) H6) as (kap & kap0 & Hk).
  { intros C LC Zc. rewrite <- columns_basis in H6, Zc. destruct Hr as (Hl & Hf & ews & He & (_ & HT & HD & _ & HV)). rewrite He in *.
    apply (columns_independent _ ews 0 C HT HD HV); [rewrite LC; symmetry; exact H6|exact Zc]. }
  assert (S0 : forall b : list vec6, exists m, 0 <= m /\ Forall (fun v => close6 m v vzero) b).
  { induction b as [|v b (m & m0 & IH)]; [exists 0; split; [lra|constructor]|]. pose proof (rownorm_pos v). exists (m + rownorm v). split; [lra|]. constructor.
    - apply (close6_le (rownorm v)); [lra|apply close6_rownorm].
    - eapply Forall_impl; [|exact IH]. intros w Hw. apply (close6_le m); [lra|exact Hw]. }
  destruct (S0 (basis (o_eig o))) as (m & m0 & Hm). exists m, kap. split; [exact m0|]. split; [exact kap0|]. split; [exact Hm|].
  intros C s LC HC. apply Hk; [rewrite LC; exact H6|exact HC].
Qed.
Print Assumptions C118_exact.

(** A skier above a crack of 2 mm, exact eigenvectors and a solver with a relative error [dl], however small. *)
Definition scaled_solve (dl : R) (n : nat) (A : nat -> nat -> R) (b : nat -> R) : res (nat -> R) :=
  match elim_solve n A b with Ok x => Ok (fun c => (1 + dl) * x c) | Err e => Err e end.
Lemma scaled_stable dl n : 0 <= dl -> backward_stable dl n (scaled_solve dl).
Proof.
  intros Hd A b x H al be Hal Hbe r Hr. unfold scaled_solve in H. destruct (elim_solve n A b) as [y|] eqn:E; [|discriminate]. apply Ok_inj in H. subst x.
  apply elim_sound in E. pose proof (E r Hr) as Er.
  replace (sumn n (fun c => A r c * ((1 + dl) * y c))) with ((1 + dl) * sumn n (fun c => A r c * y c)) by (clear; induction n as [|n IH]; simpl; [ring|]; rewrite Rmult_plus_distr_l, IH; ring).
  rewrite Er. replace ((1 + dl) * b r - b r) with (dl * b r) by ring. rewrite Rabs_mult, (Rabs_pos_eq dl Hd). apply Rmult_le_compat_l; [exact Hd|].
  assert (0 <= al) by (eapply Rle_trans; [apply Rabs_pos|apply (Hal r r Hr Hr)]).
  assert (0 <= al * sumn n (fun c => Rabs ((1 + dl) * y c))) by (apply Rmult_le_pos; [assumption|apply sumn_nonneg; intros; apply Rabs_pos]).
  specialize (Hbe r Hr). lra.
Qed.
Lemma scaled_solves dl li mi ki : let eig := fun _ : mat6 => ex_ews in let o := ex_obj "skier" None 30 in
  (2 <= List.length li)%nat -> check_segments o li mi ki = Ok tt -> proper_segments li ki ->
  exists Cs, assemble_and_solve eig (scaled_solve dl) o true 30 li mi ki = Ok Cs.
Proof.
  intros eig o HN Ec P.
  set (kR := fst (substitute_stiffness eig (scaled_solve dl) o (o_a o - o_td o) "rested" "rot")).
  destruct (system_regular o kR 0 30 li mi ki KSkier (ex_ready _ _ _) ex_stable HN Ec P eq_refl
    ltac:(discriminate) ltac:(discriminate) (fun r E => substitute_nonneg _ _ _ _ _ _ _ E)) as (zh0 & zp0 & rhs & EA & HK).
  unfold assemble_and_solve, assemble_and_solve_with. rewrite Ec. cbn [bind]. destruct (Nat.eqb_spec (List.length li) 1) as [E|_]; [lia|]. cbn [bind].
  fold kR. rewrite EA. cbn [bind].
  destruct (elim_complete _ _ HK (fun r => rhs r - zp0 r)) as [x Ex].
  unfold scaled_solve. rewrite Ex. cbn [bind]. eexists. reflexivity.
Qed.
Example C118_example dl : 0 <= dl -> let eig := fun _ : mat6 => ex_ews in let o := ex_obj "skier" None 30 in
  let li := [4; 1; 1; 4] in let mi := [0; 80; 0] in let k0 := [true; true; true; true] in let ki := [true; false; false; true] in
  ready o /\ stable (o_par o) /\ proper_segments li ki /\ proper_segments li k0 /\ err_factor "J/m^2" 1000 /\
  crack_sum k0 ki 4 (fun i => nth i li 0) = 2 /\
  (exists C0 C1, six_each 4 C0 /\ bvp o 0 30 li mi k0 C0 /\ six_each 4 C1 /\ bvp o 0 30 li mi ki C1) /\
  Forall (approx_eigenpair (calc_system_matrix (o_par o)) 0) (eig (calc_system_matrix (o_par o))) /\
  o_calc_eigensystem eig o = o /\ (List.length (eR (o_eig o)) + 2 * List.length (eC (o_eig o)) = 6)%nat /\
  (exists m kap, 0 <= m /\ 0 <= kap /\ sized m (o_eig o) /\ conditioned kap (o_eig o)) /\
  backward_stable dl 24 (scaled_solve dl) /\ accurate_quad off_quad (1 / 1000) /\ spring eig (scaled_solve dl) o 30 0 KSkier /\
  exists Cs0 Cs1, assemble_and_solve eig (scaled_solve dl) o true 30 li mi k0 = Ok Cs0 /\ assemble_and_solve eig (scaled_solve dl) o true 30 li mi ki = Ok Cs1.
Proof.
  intros Hd eig o li mi k0 ki. destruct C114_example as (X1 & X2 & X3 & X4 & X5 & X6 & X7 & X8 & X9 & X10 & _ & X12 & _ & _).
  split; [exact X1|]. split; [exact X2|]. split; [exact X3|]. split; [exact X4|]. split; [exact X5|]. split; [exact X6|]. split; [exact X7|]. split; [exact X8|].
  split; [exact X9|]. split; [exact X10|]. split; [apply C118_exact; exact X1|]. split; [apply scaled_stable; exact Hd|]. split; [exact X12|]. split; [split; discriminate|].
  destruct (scaled_solves dl li mi k0 ltac:(simpl; lia) eq_refl X4) as [Cs0 H0]. destruct (scaled_solves dl li mi ki ltac:(simpl; lia) eq_refl X3) as [Cs1 H1].
  exists Cs0, Cs1. auto.
Qed.
