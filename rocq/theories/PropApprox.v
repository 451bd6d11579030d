(** Property theorem C113: small residuals of the eigenvectors and of the linear solver mean small errors. *)
From Coquelicot Require Import Coquelicot.
Require Import Verif.Py Verif.MTools Verif.MEigen Verif.MFields Verif.MRaster Verif.MSolution
  Verif.SAdm Verif.SBeam Verif.SBvp Verif.SEig Verif.SSplit Verif.SApprox Verif.PSetup Verif.PBeam Verif.PBeam2 Verif.PBvp Verif.PBvp5 Verif.PLinAlg
  Verif.PWell2 Verif.PWell3 Verif.PBvp6 Verif.PComplete Verif.PDepend Verif.PApprox Verif.PApprox2 Verif.PApprox3 Verif.PropDepend.

(** C113: there is a constant K of the model such that constants that meet the boundary and
    transition conditions up to [d], with eigenpairs of residual [rho], describe states within
    K (d + rho * sum of the absolute values of the constants) of the true ones. *)
Theorem C113_conditions o kR phi li mi ki kd :
  ready o -> stable (o_par o) -> kind_of (o_system o) = Some kd -> (kd = KPst -> o_mode o <> None) ->
  (kd = KPst -> o_mode o = Some ModeC -> o_phi o = phi) -> (kd = KVpst -> o_mode o = None \/ o_mode o = Some ModeA) ->
  0 <= kR -> (2 <= List.length li)%nat -> List.length ki = List.length li -> proper_segments li ki ->
  exists K, 0 <= K /\ forall ews rho d Cs C0,
    let o' := with_eig o (calc_eigensystem ews) in
    0 <= rho -> Forall (approx_eigenpair (calc_system_matrix (o_par o)) rho) ews ->
    six_each (List.length li) Cs -> bvp_within d o' kR phi li mi ki Cs ->
    six_each (List.length li) C0 -> bvp o kR phi li mi ki C0 ->
    forall i x, (i < List.length li)%nat -> 0 <= x <= nth i li 0 ->
    close6 (K * (d + rho * abs_sum (List.concat Cs)))
      (field o' phi (nth i li 0) (nth i ki false) (nth i Cs []) x)
      (field o phi (nth i li 0) (nth i ki false) (nth i C0 []) x).
Proof. exact (error_bound o kR phi li mi ki kd). Qed.
Print Assumptions C113_conditions.

(** Number of columns of an eigensystem. *)
Lemma six_cols_count o : (List.length (eR (o_eig o)) + 2 * List.length (eC (o_eig o)) = 6)%nat -> six_cols o.
Proof. intros H x l. unfold zh_bedded. rewrite !app_length, !map_length. lia. Qed.

(** ... as the library computes them: any eigensolver that returns six columns and any linear solver. *)
Theorem C113_library o kR phi li mi ki kd :
  ready o -> stable (o_par o) -> kind_of (o_system o) = Some kd -> (kd = KPst -> o_mode o <> None) ->
  (kd = KPst -> o_mode o = Some ModeC -> o_phi o = phi) -> (kd = KVpst -> o_mode o = None \/ o_mode o = Some ModeA) ->
  0 <= kR -> (2 <= List.length li)%nat -> List.length ki = List.length li -> proper_segments li ki ->
  exists K, 0 <= K /\ forall eig solve aslist rho d Cs C0,
    let ews := eig (calc_system_matrix (o_par o)) in
    let o' := o_calc_eigensystem eig o in
    0 <= rho -> Forall (approx_eigenpair (calc_system_matrix (o_par o)) rho) ews ->
    (List.length (eR (o_eig o')) + 2 * List.length (eC (o_eig o')) = 6)%nat ->
    accurate_solver d (6 * List.length li) solve -> spring eig solve o' phi kR kd ->
    assemble_and_solve eig solve o' aslist phi li mi ki = Ok Cs ->
    six_each (List.length li) C0 -> bvp o kR phi li mi ki C0 ->
    forall i x, (i < List.length li)%nat -> 0 <= x <= nth i li 0 ->
    close6 (K * (d + rho * abs_sum (List.concat Cs)))
      (field o' phi (nth i li 0) (nth i ki false) (nth i Cs []) x)
      (field o phi (nth i li 0) (nth i ki false) (nth i C0 []) x).
Proof.
  intros Hr Hs Hkd HM HC HV HkR HN Hk Hp.
  destruct (error_bound o kR phi li mi ki kd Hr Hs Hkd HM HC HV HkR HN Hk Hp) as (K & K0 & HK). exists K. split; [exact K0|].
  intros eig solve aslist rho d Cs C0 ews o' Hrho HA H6 Hacc [HS1 HS2] H H60 HB. apply HK; try assumption.
  - exact (solved_six eig solve o' aslist phi li mi ki Cs HN H).
  - unfold assemble_and_solve, assemble_and_solve_with in H.
    destruct (check_segments o' li mi ki) as [[]|] eqn:Ec; [|discriminate]. cbn [bind] in H.
    destruct (Nat.eqb_spec (List.length li) 1) as [E|_]; [lia|]. cbn [bind] in H.
    destruct (assemble _ _ _ _ _ _) as [[[zh0 zp0] rhs]|] eqn:EA; [|discriminate]. cbn [bind] in H.
    destruct (solve _ _ _) as [x|] eqn:ES; [|discriminate]. cbn [bind] in H. injection H as <-.
    apply (assemble_within d o' (fst (substitute_stiffness eig solve o' (o_a o' - o_td o') "rested" "rot")) kR phi li mi ki zh0 zp0 rhs x kd
      (six_cols_count o' H6) HN Ec Hkd); [|exact HV|exact EA|exact (Hacc _ _ _ ES)].
    intros A B. destruct (HS1 A B) as [P Q]. split; [exact Q|exact P].
Qed.
Print Assumptions C113_library.

(** Consequence for the weak-layer stresses. *)
Theorem C113_stresses o kR phi li mi ki kd :
  ready o -> stable (o_par o) -> kind_of (o_system o) = Some kd -> (kd = KPst -> o_mode o <> None) ->
  (kd = KPst -> o_mode o = Some ModeC -> o_phi o = phi) -> (kd = KVpst -> o_mode o = None \/ o_mode o = Some ModeA) ->
  0 <= kR -> (2 <= List.length li)%nat -> List.length ki = List.length li -> proper_segments li ki ->
  exists K, 0 <= K /\ forall eig solve aslist rho d Cs C0,
    let ews := eig (calc_system_matrix (o_par o)) in
    let o' := o_calc_eigensystem eig o in
    0 <= rho -> Forall (approx_eigenpair (calc_system_matrix (o_par o)) rho) ews ->
    (List.length (eR (o_eig o')) + 2 * List.length (eC (o_eig o')) = 6)%nat ->
    accurate_solver d (6 * List.length li) solve -> spring eig solve o' phi kR kd ->
    assemble_and_solve eig solve o' aslist phi li mi ki = Ok Cs ->
    six_each (List.length li) C0 -> bvp o kR phi li mi ki C0 ->
    forall i x, (i < List.length li)%nat -> 0 <= x <= nth i li 0 ->
    let z' := field o' phi (nth i li 0) (nth i ki false) (nth i Cs []) x in
    let z := field o phi (nth i li 0) (nth i ki false) (nth i C0 []) x in
    Rabs (f_sig (o_par o') z' - f_sig (o_par o) z) <= K * (d + rho * abs_sum (List.concat Cs)) /\
    Rabs (f_tau (o_par o') z' - f_tau (o_par o) z) <= K * (d + rho * abs_sum (List.concat Cs)).
Proof.
  intros Hr Hs Hkd HM HC HV HkR HN Hk Hp.
  destruct (C113_library o kR phi li mi ki kd Hr Hs Hkd HM HC HV HkR HN Hk Hp) as (K & K0 & HK).
  set (p := o_par o).
  set (rs := mkV 0 0 (- kn p) 0 0 0). set (rt := mkV (kt p) 0 0 (- (kt p * wt p / 2)) (kt p * hh p / 2) 0).
  exists ((rownorm rs + rownorm rt) * K). pose proof (rownorm_pos rs) as P1. pose proof (rownorm_pos rt) as P2.
  split; [apply Rmult_le_pos; lra|].
  intros eig solve aslist rho d Cs C0 ews o' Hrho HA H6 Hacc HS H H60 HB i x Hi Hx z' z.
  pose proof (HK eig solve aslist rho d Cs C0 Hrho HA H6 Hacc HS H H60 HB i x Hi Hx) as CL. fold o' in CL. fold z' z in CL.
  set (B := K * (d + rho * abs_sum (List.concat Cs))) in *.
  assert (B0 : 0 <= B) by (destruct CL as (Q & _); eapply Rle_trans; [apply Rabs_pos|exact Q]).
  replace ((rownorm rs + rownorm rt) * K * (d + rho * abs_sum (List.concat Cs))) with (rownorm rs * B + rownorm rt * B) by (unfold B; ring).
  assert (0 <= rownorm rs * B) by (apply Rmult_le_pos; assumption). assert (0 <= rownorm rt * B) by (apply Rmult_le_pos; assumption).
  change (o_par o') with p. split.
  - pose proof (close6_dot rs _ _ _ CL) as Q. unfold f_sig, f_w.
    replace (_ - _) with (dot6 rs z' - dot6 rs z) by (unfold dot6, rs; simpl; ring). lra.
  - pose proof (close6_dot rt _ _ _ CL) as Q. unfold f_tau, f_dw, f_u, f_psi.
    replace (_ - _) with (dot6 rt z' - dot6 rt z) by (unfold dot6, rt; simpl; field). lra.
Qed.
Print Assumptions C113_stresses.

(** Eigenvalue 1 computed as 1.001, and a solver that leaves a residual of 0.001 in every row. *)
Definition off_ews : list eigpair := ((1001 / 1000, 0), (mkV (-6) (-6) 1 1 1 1, vzero)) :: tl ex_ews.
Definition off_solve (n : nat) (A : nat -> nat -> R) (b : nat -> R) : res (nat -> R) := elim_solve n A (fun r => b r + 1 / 1000).
Lemma off_accurate n : accurate_solver (1 / 1000) n off_solve.
Proof.
  intros A b x H r Hr. apply elim_sound in H. rewrite (H r Hr). replace (b r + 1 / 1000 - b r) with (1 / 1000) by ring. rewrite Rabs_pos_eq; lra.
Qed.
Lemma off_approx : Forall (approx_eigenpair (calc_system_matrix ex_par) (6 / 1000)) off_ews.
Proof.
  constructor.
  - unfold approx_eigenpair. pose proof (Forall_inv ex_true_eig) as [E1 E2]. rewrite E1, E2.
    split; unfold close6, vadd, vscale, vzero; cbn [z_u z_du z_w z_dw z_psi z_dpsi]; repeat split; apply Rabs_le; lra.
  - pose proof (Forall_inv_tail ex_true_eig) as F. cbn [tl ex_ews]. eapply Forall_impl; [|exact F].
    intros [[re im] [vr vi]] [E1 E2]. unfold approx_eigenpair. rewrite E1, E2.
    split; unfold close6; rewrite !Rminus_diag_eq, !Rabs_R0 by reflexivity; repeat split; lra.
Qed.
Ltac decide_signs := repeat (match goal with
  | |- context [Req_EM_T ?a ?b] => let E := fresh in destruct (Req_EM_T a b) as [E|E]; [try (exfalso; lra)|try (exfalso; apply E; lra)]
  | |- context [Rlt_dec ?a ?b] => let E := fresh in destruct (Rlt_dec a b) as [E|E]; try (exfalso; lra)
  end; cbn [andb negb map fst snd List.length]).
Example C113_example : let o := ex_obj "skier" None 30 in let ews := off_ews in
  ready o /\ stable (o_par o) /\ proper_segments [4; 4] [true; true] /\
  Forall (approx_eigenpair (calc_system_matrix (o_par o)) (6 / 1000)) ews /\
  (List.length (eR (calc_eigensystem ews)) + 2 * List.length (eC (calc_eigensystem ews)) = 6)%nat /\
  exists d Cs C0, six_each 2 Cs /\ bvp_within d (with_eig o (calc_eigensystem ews)) 0 30 [4; 4] [80] [true; true] Cs /\
    six_each 2 C0 /\ bvp o 0 30 [4; 4] [80] [true; true] C0.
Proof.
  intros o ews. assert (P : proper_segments [4; 4] [true; true]).
  { split; [intros [|[|i]] Hi; simpl in *; lra || lia|]. exists 0%nat. simpl. repeat split; lra || lia. }
  split; [apply ex_ready|]. split; [apply ex_stable|]. split; [exact P|]. split; [exact off_approx|]. split.
  { unfold ews, off_ews, calc_eigensystem, is_real_ew, is_cmplx_ew, Reqb, Rltb. cbn [tl ex_ews filter map fst snd eR eC].
    decide_signs; reflexivity. }
  destruct (ex_solve [4; 4] [80] [true; true] ltac:(simpl; lia) eq_refl eq_refl eq_refl eq_refl P) as [C0 H].
  assert (H6 : six_each 2 C0) by exact (solved_six (fun _ => ex_ews) elim_solve o true 30 [4; 4] [80] [true; true] C0 ltac:(simpl; lia) H).
  set (o' := with_eig o (calc_eigensystem ews)).
  set (zl := field o' 30 4 true (nth 0 C0 [])). set (zr := field o' 30 4 true (nth 1 C0 [])). set (zf := zp (o_par o') (loads_of o' 30) 0 true).
  set (F := 80 * o_g o' / 1000 / o_lski o'). set (a := 30 * PI / 180). set (p := o_par o').
  exists (Rabs (z_u (zl 0) - z_u zf) + Rabs (z_w (zl 0) - z_w zf) + Rabs (z_psi (zl 0) - z_psi zf) +
     Rabs (z_u (zr 4) - z_u zf) + Rabs (z_w (zr 4) - z_w zf) + Rabs (z_psi (zr 4) - z_psi zf) +
     Rabs (z_u (zl 4) - z_u (zr 0)) + Rabs (z_w (zl 4) - z_w (zr 0)) + Rabs (z_psi (zl 4) - z_psi (zr 0)) +
     Rabs (sN p (zl 4) - sN p (zr 0) - - (F * sin a)) + Rabs (sM p (zl 4) - sM p (zr 0) - - (hh p / 2 * - (F * sin a))) +
     Rabs (sV p (zl 4) - sV p (zr 0) - F * cos a)), C0, C0.
  split; [exact H6|]. split; [|split; [exact H6|]].
  2:{ apply (solved_bvp (fun _ => ex_ews) elim_solve o true 30 [4; 4] [80] [true; true] C0 KSkier 0 elim_sound (ex_ready _ _ _) ltac:(simpl; lia) eq_refl);
      [discriminate|discriminate|exact H]. }
  assert (Pos : forall x y : R, 0 <= Rabs (x - y)) by (intros; apply Rabs_pos).
  unfold bvp_within, left_end_within, right_end_within, transition_within, far_field_within, within.
  change (kind_of (o_system o')) with (Some KSkier). cbv iota. cbn [List.length Nat.sub nth]. fold zl zr zf p.
  repeat match goal with |- context [Rabs (?x - ?y)] =>
    lazymatch goal with
    | _ : 0 <= Rabs (x - y) |- _ => fail
    | _ => pose proof (Pos x y)
    end end.
  split; [|split].
  - repeat split; lra.
  - repeat split; lra.
  - intros [|i] Hi; [|lia]. cbn [nth]. fold zl zr F a. repeat split; lra.
Qed.
(** The library with exact eigenvectors and the solver above. *)
Example C113_library_example : let eig := fun _ => ex_ews in let o := ex_obj "skier" None 30 in
  o_calc_eigensystem eig o = o /\
  Forall (approx_eigenpair (calc_system_matrix (o_par o)) 0) (eig (calc_system_matrix (o_par o))) /\
  (List.length (eR (o_eig o)) + 2 * List.length (eC (o_eig o)) = 6)%nat /\
  accurate_solver (1 / 1000) 12 off_solve /\ spring eig off_solve o 30 0 KSkier /\
  exists Cs, assemble_and_solve eig off_solve o true 30 [4; 4] [80] [true; true] = Ok Cs.
Proof.
  intros eig o. split; [reflexivity|]. split.
  { eapply Forall_impl; [|exact ex_true_eig]. intros [[re im] [vr vi]] [E1 E2]. unfold approx_eigenpair.
    change (o_par o) with ex_par. rewrite E1, E2. split; unfold close6; rewrite !Rminus_diag_eq, !Rabs_R0 by reflexivity; repeat split; lra. }
  split.
  { unfold o, ex_obj, calc_eigensystem, is_real_ew, is_cmplx_ew, Reqb, Rltb, ex_ews. cbn [o_eig filter map fst snd eR eC].
    decide_signs; reflexivity. }
  split; [apply off_accurate|]. split; [split; discriminate|].
  assert (P : proper_segments [4; 4] [true; true]).
  { split; [intros [|[|i]] Hi; simpl in *; lra || lia|]. exists 0%nat. simpl. repeat split; lra || lia. }
  set (kR := fst (substitute_stiffness eig off_solve o (o_a o - o_td o) "rested" "rot")).
  assert (Ec : check_segments o [4; 4] [80] [true; true] = Ok tt) by reflexivity.
  destruct (system_regular o kR 0 30 [4; 4] [80] [true; true] KSkier (ex_ready _ _ _) ex_stable ltac:(simpl; lia) Ec P eq_refl
    ltac:(discriminate) ltac:(discriminate) (fun r E => substitute_nonneg _ _ _ _ _ _ _ E)) as (zh0 & zp0 & rhs & EA & HK).
  unfold assemble_and_solve, assemble_and_solve_with. rewrite Ec. cbn [bind List.length Nat.eqb]. fold kR. rewrite EA. cbn [bind].
  destruct (elim_complete _ _ HK (fun r => rhs r - zp0 r + 1 / 1000)) as [x Ex].
  unfold off_solve. cbn [List.length] in Ex. rewrite Ex. cbn [bind]. eexists. reflexivity.
Qed.
