(** Property theorem C114: energy release rates from inexact eigenvectors, solver and quadrature. *)
From Coquelicot Require Import Coquelicot.
Require Import Verif.Py Verif.MTools Verif.MEigen Verif.MFields Verif.MRaster Verif.MSolution Verif.MAnalysis
  Verif.SAdm Verif.SBeam Verif.SBvp Verif.SEig Verif.SEnergy Verif.SSplit Verif.SApprox Verif.PSetup Verif.PBeam Verif.PBeam2 Verif.PBvp Verif.PBvp5 Verif.PLinAlg
  Verif.PEnergy Verif.PEnergy2 Verif.PWell2 Verif.PWell3 Verif.PBvp6 Verif.PComplete Verif.PDepend Verif.PApprox Verif.PApprox2 Verif.PApprox4 Verif.PropDepend Verif.PropApprox.

Lemma accurate_pos d n solve o eig aslist phi li mi ki Cs : n = (6 * List.length li)%nat -> (2 <= List.length li)%nat -> accurate_solver d n solve ->
  assemble_and_solve eig solve o aslist phi li mi ki = Ok Cs -> 0 <= d.
Proof.
  intros -> HN Hacc H. unfold assemble_and_solve, assemble_and_solve_with in H.
  destruct (check_segments o li mi ki) as [[]|]; [|discriminate]. cbn [bind] in H.
  destruct (Nat.eqb_spec (List.length li) 1) as [E|_]; [lia|]. cbn [bind] in H.
  destruct (assemble _ _ _ _ _ _) as [[[zh0 zp0] rhs]|]; [|discriminate]. cbn [bind] in H.
  destruct (solve _ _ _) as [x|] eqn:ES; [|discriminate].
  pose proof (Hacc _ _ _ ES 0%nat ltac:(lia)) as A. eapply Rle_trans; [apply Rabs_pos|exact A].
Qed.
Lemma ready_pos o : ready o -> 0 < kn (o_par o) /\ 0 < kt (o_par o) /\ 0 < wt (o_par o).
Proof. intros H. repeat split; apply H. Qed.

(** C114: the differential energy release rate of computed constants differs from the one of the true
    constants by at most K e (1 + e), with e the size of the residuals and K a constant of the model. *)
Theorem C114_differential o kR phi li mi ki kd unit c C0 :
  ready o -> stable (o_par o) -> kind_of (o_system o) = Some kd -> (kd = KPst -> o_mode o <> None) ->
  (kd = KPst -> o_mode o = Some ModeC -> o_phi o = phi) -> (kd = KVpst -> o_mode o = None \/ o_mode o = Some ModeA) ->
  0 <= kR -> (2 <= List.length li)%nat -> List.length ki = List.length li -> proper_segments li ki -> err_factor unit c ->
  six_each (List.length li) C0 -> bvp o kR phi li mi ki C0 ->
  exists K, 0 <= K /\ forall eig solve aslist rho d Cs,
    let ews := eig (calc_system_matrix (o_par o)) in
    let o' := o_calc_eigensystem eig o in
    0 <= rho -> Forall (approx_eigenpair (calc_system_matrix (o_par o)) rho) ews ->
    (List.length (eR (o_eig o')) + 2 * List.length (eC (o_eig o')) = 6)%nat ->
    accurate_solver d (6 * List.length li) solve -> spring eig solve o' phi kR kd ->
    assemble_and_solve eig solve o' aslist phi li mi ki = Ok Cs ->
    exists G G1 G2 G' G1' G2',
      gdif (o_par o) (o_eig o) (loads_of o phi) C0 li ki unit = Ok (G, G1, G2) /\
      gdif (o_par o') (o_eig o') (loads_of o' phi) Cs li ki unit = Ok (G', G1', G2') /\
      let e := d + rho * abs_sum (List.concat Cs) in
      Rabs (G1' - G1) <= K * (e * (1 + e)) /\ Rabs (G2' - G2) <= K * (e * (1 + e)) /\ Rabs (G' - G) <= K * (e * (1 + e)).
Proof.
  intros Hr Hs Hkd HM HC HV HkR HN Hk Hp Hu H60 HB. destruct (ready_pos o Hr) as (Kn & Kt & Wt).
  destruct (C113_library o kR phi li mi ki kd Hr Hs Hkd HM HC HV HkR HN Hk Hp) as (K & K0 & HK).
  destruct (gdif_close (o_par o) (o_eig o) (loads_of o phi) C0 li ki unit K Kn Kt K0 Hk) as (KG & KG0 & HKG).
  exists KG. split; [exact KG0|]. intros eig solve aslist rho d Cs ews o' Hrho HA H6 Hacc HS H.
  assert (Acc : forall (q : obj) X, six_cols q -> six_each (List.length li) X -> exists G G1 G2, gdif (o_par q) (o_eig q) (loads_of q phi) X li ki unit = Ok (G, G1, G2)).
  { intros q X Q6 [LX FX]. destruct (gdif_accepts (o_par q) (o_eig q) (loads_of q phi) X li ki unit c Hu Hk) as [[[G G1] G2] E].
    - intros j Hj _. split; [rewrite LX; lia|]. rewrite (six_zh q Q6). symmetry. apply (proj1 (Forall_forall _ _) FX). apply nth_In. rewrite LX. lia.
    - exists G, G1, G2. exact E. }
  pose proof (solved_six eig solve o' aslist phi li mi ki Cs HN H) as S6.
  destruct (Acc o C0 (ready_six o Hr) H60) as (G & G1 & G2 & EG). destruct (Acc o' Cs (six_cols_count o' H6) S6) as (G' & G1' & G2' & EG').
  exists G, G1, G2, G', G1', G2'. split; [exact EG|]. split; [exact EG'|].
  pose proof (accurate_pos d _ solve o' eig aslist phi li mi ki Cs eq_refl HN Hacc H) as Hd.
  intros e. assert (He : 0 <= e) by (unfold e; pose proof (Rmult_le_pos rho _ Hrho (abs_sum_pos (List.concat Cs))); lra).
  apply (HKG Cs (o_eig o') e G G1 G2 G' G1' G2' He); [|exact EG|exact EG'].
  intros j Hj. apply (HK eig solve aslist rho d Cs C0 Hrho HA H6 Hacc HS H H60 HB j (nth j li 0) Hj). split; [apply Hp; exact Hj|lra].
Qed.
Print Assumptions C114_differential.

(** ... and the incremental one: in addition the quadrature may be off by [q] per integral. *)
Theorem C114_incremental o kR phi li mi0 mi ki k0 kd C0 C1 :
  ready o -> stable (o_par o) -> kind_of (o_system o) = Some kd -> (kd = KPst -> o_mode o <> None) ->
  (kd = KPst -> o_mode o = Some ModeC -> o_phi o = phi) -> (kd = KVpst -> o_mode o = None \/ o_mode o = Some ModeA) ->
  0 <= kR -> (2 <= List.length li)%nat -> List.length ki = List.length li -> List.length k0 = List.length li ->
  proper_segments li ki -> proper_segments li k0 ->
  six_each (List.length li) C0 -> bvp o kR phi li mi0 k0 C0 -> six_each (List.length li) C1 -> bvp o kR phi li mi ki C1 ->
  let da := crack_sum k0 ki (List.length li) (fun i => nth i li 0) in
  0 < da ->
  exists K, 0 <= K /\ forall eig solve quad aslist rho d q Cs0 Cs1,
    let ews := eig (calc_system_matrix (o_par o)) in
    let o' := o_calc_eigensystem eig o in
    0 <= rho -> Forall (approx_eigenpair (calc_system_matrix (o_par o)) rho) ews ->
    (List.length (eR (o_eig o')) + 2 * List.length (eC (o_eig o')) = 6)%nat ->
    accurate_solver d (6 * List.length li) solve -> accurate_quad quad q -> spring eig solve o' phi kR kd ->
    assemble_and_solve eig solve o' aslist phi li mi0 k0 = Ok Cs0 ->
    assemble_and_solve eig solve o' aslist phi li mi ki = Ok Cs1 ->
    exists G G1 G2 G' G1' G2',
      ginc (fun f a b => RInt f a b) (o_par o) (o_eig o) (loads_of o phi) C0 C1 li ki k0 = Ok (Some G, Some G1, Some G2) /\
      ginc quad (o_par o') (o_eig o') (loads_of o' phi) Cs0 Cs1 li ki k0 = Ok (Some G', Some G1', Some G2') /\
      let e0 := d + rho * abs_sum (List.concat Cs0) in let e1 := d + rho * abs_sum (List.concat Cs1) in
      let B := K * (e0 + e1 + e0 * e1) + INR (List.length li) * q / (2 * da) in
      Rabs (G1' - G1) <= B /\ Rabs (G2' - G2) <= B /\ Rabs (G' - G) <= 2 * B.
Proof.
  intros Hr Hs Hkd HM HC HV HkR HN Hk Hk0 Hp Hp0 S0 B0 S1 B1 da Hda. destruct (ready_pos o Hr) as (Kn & Kt & Wt).
  destruct (C113_library o kR phi li mi0 k0 kd Hr Hs Hkd HM HC HV HkR HN Hk0 Hp0) as (K0 & K00 & HK0).
  destruct (C113_library o kR phi li mi ki kd Hr Hs Hkd HM HC HV HkR HN Hk Hp) as (K1 & K10 & HK1).
  destruct (ginc_close o phi C0 C1 li ki k0 K0 K1 Kn Kt Wt K00 K10 (ready_six o Hr) Hk Hk0 (proj1 Hp) S0 S1) as (KG & KG0 & HKG).
  exists KG. split; [exact KG0|]. intros eig solve quad aslist rho d q Cs0 Cs1 ews o' Hrho HA H6 Hacc HQ HS H0 H1.
  pose proof (solved_six eig solve o' aslist phi li mi0 k0 Cs0 HN H0) as T0. pose proof (solved_six eig solve o' aslist phi li mi ki Cs1 HN H1) as T1.
  pose proof (accurate_pos d _ solve o' eig aslist phi li mi ki Cs1 eq_refl HN Hacc H1) as Hd.
  assert (Acc : forall quad (q : obj) X Y, six_cols q -> six_each (List.length li) X -> six_each (List.length li) Y ->
    exists G G1 G2, ginc quad (o_par q) (o_eig q) (loads_of q phi) X Y li ki k0 = Ok (Some G, Some G1, Some G2)).
  { intros qd w X Y Q6 [LX FX] [LY FY]. unfold ginc. rewrite Hk0, Hk, LX, LY, Nat.eqb_refl. cbn [negb andb].
    set (msk := map2 (fun a b => andb a (negb b)) k0 ki).
    assert (Da : rsum (select msk li) = da) by (unfold da, msk; rewrite <- Hk; apply select_sum1; congruence).
    assert (S6 : forall (X : list (list R)), Forall (fun C => List.length C = 6%nat) X -> Forall (fun C => List.length C = 6%nat) (select msk X)).
    { clear. intros X. revert X. induction msk as [|b k IH]; intros [|c X] H; simpl; try constructor; inversion H; subst.
      destruct b; [constructor; [assumption|]|]; apply IH; assumption. }
    assert (TL : forall X Y l, Forall (fun C => List.length C = 6%nat) X -> Forall (fun C => List.length C = 6%nat) Y ->
      exists r, ginc_loop qd (o_par w) (o_eig w) (loads_of w phi) X Y l = Ok r).
    { intros X' Y' l. revert X' Y'. induction l as [|y l IH]; intros [|c X'] [|c' Y'] FX' FY'; simpl; try (eexists; reflexivity).
      pose proof (Forall_inv FX') as Fx. pose proof (Forall_inv FY') as Fy. cbv beta in Fx, Fy.
      unfold zsol_checked. rewrite !(six_zh w Q6), Fx, Fy. cbn [Nat.eqb bind].
      destruct (IH X' Y' (Forall_inv_tail FX') (Forall_inv_tail FY')) as [r ->]. eexists. reflexivity. }
    destruct (TL _ _ (select msk li) (S6 X FX) (S6 Y FY)) as [r Er]. rewrite Er. cbn [bind].
    destruct (select msk li) as [|y l] eqn:E; [simpl in Da; lra|].
    destruct (Rlt_dec 0 (rsum (y :: l))); [|lra]. eexists _, _, _. reflexivity. }
  destruct (Acc (fun f a b => RInt f a b) o C0 C1 (ready_six o Hr) S0 S1) as (G & G1 & G2 & EG).
  destruct (Acc quad o' Cs0 Cs1 (six_cols_count o' H6) T0 T1) as (G' & G1' & G2' & EG').
  exists G, G1, G2, G', G1', G2'. split; [exact EG|]. split; [exact EG'|]. intros e0 e1 B.
  assert (He0 : 0 <= e0) by (unfold e0; pose proof (Rmult_le_pos rho _ Hrho (abs_sum_pos (List.concat Cs0))); lra).
  assert (He1 : 0 <= e1) by (unfold e1; pose proof (Rmult_le_pos rho _ Hrho (abs_sum_pos (List.concat Cs1))); lra).
  apply (HKG quad q (o_eig o') Cs0 Cs1 e0 e1 G G1 G2 G' G1' G2' HQ (six_cols_count o' H6) He0 He1 T0 T1); [| |exact Hda|exact EG|exact EG'].
  - exact (HK0 eig solve aslist rho d Cs0 C0 Hrho HA H6 Hacc HS H0 S0 B0).
  - exact (HK1 eig solve aslist rho d Cs1 C1 Hrho HA H6 Hacc HS H1 S1 B1).
Qed.
Print Assumptions C114_incremental.

(** A skier above a crack of 2 mm; the solver leaves residuals of 0.001, the quadrature errors of 0.001. *)
Definition off_quad (f : R -> R) (a b : R) : R := RInt f a b + 1 / 1000.
Lemma off_solves li mi ki : let eig := fun _ : mat6 => ex_ews in let o := ex_obj "skier" None 30 in
  (2 <= List.length li)%nat -> check_segments o li mi ki = Ok tt -> proper_segments li ki ->
  exists Cs, assemble_and_solve eig off_solve o true 30 li mi ki = Ok Cs.
Proof.
  intros eig o HN Ec P.
  set (kR := fst (substitute_stiffness eig off_solve o (o_a o - o_td o) "rested" "rot")).
  destruct (system_regular o kR 0 30 li mi ki KSkier (ex_ready _ _ _) ex_stable HN Ec P eq_refl
    ltac:(discriminate) ltac:(discriminate) (fun r E => substitute_nonneg _ _ _ _ _ _ _ E)) as (zh0 & zp0 & rhs & EA & HK).
  unfold assemble_and_solve, assemble_and_solve_with. rewrite Ec. cbn [bind]. destruct (Nat.eqb_spec (List.length li) 1) as [E|_]; [lia|]. cbn [bind].
  fold kR. rewrite EA. cbn [bind].
  destruct (elim_complete _ _ HK (fun r => rhs r - zp0 r + 1 / 1000)) as [x Ex].
  unfold off_solve. rewrite Ex. cbn [bind]. eexists. reflexivity.
Qed.
Example C114_example : let eig := fun _ : mat6 => ex_ews in let o := ex_obj "skier" None 30 in
  let li := [4; 1; 1; 4] in let mi := [0; 80; 0] in let k0 := [true; true; true; true] in let ki := [true; false; false; true] in
  ready o /\ stable (o_par o) /\ proper_segments li ki /\ proper_segments li k0 /\ err_factor "J/m^2" 1000 /\
  crack_sum k0 ki 4 (fun i => nth i li 0) = 2 /\
  (exists C0 C1, six_each 4 C0 /\ bvp o 0 30 li mi k0 C0 /\ six_each 4 C1 /\ bvp o 0 30 li mi ki C1) /\
  Forall (approx_eigenpair (calc_system_matrix (o_par o)) 0) (eig (calc_system_matrix (o_par o))) /\
  o_calc_eigensystem eig o = o /\ (List.length (eR (o_eig o)) + 2 * List.length (eC (o_eig o)) = 6)%nat /\
  accurate_solver (1 / 1000) 24 off_solve /\ accurate_quad off_quad (1 / 1000) /\ spring eig off_solve o 30 0 KSkier /\
  exists Cs0 Cs1, assemble_and_solve eig off_solve o true 30 li mi k0 = Ok Cs0 /\ assemble_and_solve eig off_solve o true 30 li mi ki = Ok Cs1.
Proof.
  intros eig o li mi k0 ki.
  assert (P1 : proper_segments li ki) by (unfold li, ki; segs). assert (P0 : proper_segments li k0) by (unfold li, k0; segs).
  destruct C113_library_example as (X1 & X2 & X3 & _ & X5 & _).
  split; [apply ex_ready|]. split; [apply ex_stable|]. split; [exact P1|]. split; [exact P0|]. split; [left; auto|].
  split; [unfold crack_sum, cracking, li, k0, ki; simpl; lra|]. split.
  { assert (Q : forall k, List.length k = 4%nat -> nth 0 k false = true -> last k false = true -> proper_segments li k -> exists C, six_each 4 C /\ bvp o 0 30 li mi k C).
    { intros k L A B P. destruct (ex_solve li mi k ltac:(simpl; lia) (eq_sym L) eq_refl A B P) as [C H]. exists C. split.
      - exact (solved_six (fun _ => ex_ews) elim_solve o true 30 li mi k C ltac:(simpl; lia) H).
      - apply (solved_bvp (fun _ => ex_ews) elim_solve o true 30 li mi k C KSkier 0 elim_sound (ex_ready _ _ _) ltac:(simpl; lia) eq_refl);
        [discriminate|discriminate|exact H]. }
    destruct (Q k0 eq_refl eq_refl eq_refl P0) as (C0 & A0 & B0). destruct (Q ki eq_refl eq_refl eq_refl P1) as (C1 & A1 & B1).
    exists C0, C1. auto. }
  split; [exact X2|]. split; [exact X1|]. split; [exact X3|]. split; [apply off_accurate|]. split.
  { intros f a b _. unfold off_quad. replace (_ - _) with (1 / 1000) by ring. rewrite Rabs_pos_eq; lra. }
  split; [split; discriminate|].
  destruct (off_solves li mi k0 ltac:(simpl; lia) eq_refl P0) as [Cs0 H0]. destruct (off_solves li mi ki ltac:(simpl; lia) eq_refl P1) as [Cs1 H1].
  exists Cs0, Cs1. auto.
Qed.
