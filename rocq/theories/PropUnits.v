(** Property theorem C101: results do not depend on the choice of units. *)
From Coquelicot Require Import Coquelicot.
Require Import Verif.Py Verif.MTools Verif.MEigen Verif.MFields Verif.SAdm Verif.MRaster
  Verif.MSolution Verif.MAnalysis Verif.SBeam Verif.SBvp Verif.SEig Verif.SContact Verif.SUnits Verif.PBeam Verif.PBeam2
  Verif.PBvp Verif.PLinAlg Verif.PWell2 Verif.PWell3 Verif.PBvp6 Verif.PMirror Verif.PContact3 Verif.PEnergy Verif.PRaster Verif.PropDepend
  Verif.PUnits Verif.PUnits2 Verif.PUnits3.

(** C101: the section properties are homogeneous functions of the layers ... *)
Theorem C101_sections u layers slab phi h k E nu t : proper_units u ->
  calc_center_of_gravity (map (layer_in u) layers)
    = (uL u * fst (calc_center_of_gravity layers), uL u * snd (calc_center_of_gravity layers)) /\
  calc_laminate_stiffness_matrix (map (ply_in u) slab) (uL u * h) k
    = (let '(A, B, D, Sk, K) := calc_laminate_stiffness_matrix slab h k in
       (u_line u * A, uF u * B, uF u * uL u * D, u_line u * Sk, uF u ^ 2 * K)) /\
  calc_foundation_stiffness (u_stress u * E) nu (uL u * t)
    = (let '(n, s) := calc_foundation_stiffness E nu t in (u_stress u / uL u * n, u_stress u / uL u * s)) /\
  calc_vertical_bc_center_of_gravity (map (ply_in u) slab) phi
    = (let '(xs, zs, m) := calc_vertical_bc_center_of_gravity slab phi in (uL u * xs, uL u * zs, uM u / uL u * m)).
Proof.
  intros U. split; [exact (center_in u U layers)|]. split; [exact (laminate_in u U slab h k)|].
  split; [exact (foundation_in u E nu t)|exact (face_in u U slab phi)].
Qed.
Print Assumptions C101_sections.
(** ... so that the setup of the object commutes with the change of units ... *)
Theorem C101_setup u eig o o' : proper_units u -> input_in u o o' ->
  o_par (o_calc_fundamental_system eig o') = par_in u (o_par (o_calc_fundamental_system eig o)).
Proof.
  intros U (H1 & H2 & H3 & H4 & H5 & H6 & H7).
  unfold o_calc_fundamental_system, o_calc_eigensystem, o_calc_laminate, o_calc_foundation_stiffness.
  rewrite H1, H2, H5, (foundation_in u). destruct (calc_foundation_stiffness (o_weakE o) (o_weaknu o) (wt (o_par o))) as [n s].
  cbn [o_slab o_par o_k with_kn_kt with_par hh kn kt wt zs].
  rewrite H3, H4, H6, (laminate_in u U). destruct (calc_laminate_stiffness_matrix (o_slab o) (hh (o_par o)) (o_k o)) as [[[[A B] D] Sk] K].
  cbn [o_par with_eig with_par kn kt wt hh zs]. unfold par_in. cbn [kn kt wt hh zs A11 B11 D11 kA55 K0]. rewrite H5, H7. reflexivity.
Qed.
Print Assumptions C101_setup.
(** ... and with it the eigenvalue problem. *)
Theorem C101_eigen u p ews : proper_units u -> lam_ok p -> good_eigenpairs (calc_system_matrix p) ews ->
  good_eigenpairs (calc_system_matrix (par_in u p))
    (map (fun e => let '((re, im), (vr, vi)) := e in ((re / uL u, im / uL u), (state_in u vr, state_in u vi))) ews).
Proof. intros U. exact (eig_in u U p ews). Qed.
Print Assumptions C101_eigen.

(** The system in other units, with the eigensystem converted. *)
Definition resized (u : units) (o : obj) (ews : list eigpair) : obj :=
  mkObj (u_accel u * o_g o) (uL u * o_lski o) (o_tol o) (o_system o) (u_stress u * o_weakE o) (o_weaknu o)
    (u_stress u * o_p o) (map (ply_in u) (o_slab o)) (o_k o) (o_phi o) (par_in u (o_par o))
    (calc_eigensystem (map (ewp_in u) ews)) (o_touchdown o) (uL u * o_a o) (option_map (Rmult (uL u)) (o_L o)) (uL u * o_tc o)
    (o_ratio o) (o_mode o) (uL u * o_td o).
Lemma resized_same u o ews : same_in u o (resized u o ews).
Proof. unfold same_in. tauto. Qed.
Lemma resized_ready u o ews : proper_units u -> lam_ok (o_par o) -> fnd_ok (o_par o) ->
  good_eigenpairs (calc_system_matrix (o_par o)) ews -> ready (resized u o ews).
Proof.
  intros U L F G. split; [exact (lam_in u U _ L)|]. split; [exact (fnd_in u U _ F)|].
  exists (map (ewp_in u) ews). split; [reflexivity|exact (eig_in u U _ _ L G)].
Qed.

(** Solutions: the states of the same system in other units are the same states in
    other units, in every contact stage. *)
Theorem C101_solution u eig solve o o' aslist phi li mi ki Cs Cs' kd :
  proper_units u -> same_in u o o' -> sound_solver solve -> complete_solver solve -> ready o -> ready o' -> stable (o_par o) ->
  o_lski o <> 0 -> (2 <= List.length li)%nat -> proper_segments li ki ->
  kind_of (o_system o) = Some kd -> kd = KPst \/ kd = KVpst \/ kd = KSkier ->
  (kd = KPst -> o_mode o = Some ModeC -> o_phi o = phi /\ 0 < o_a o - o_td o /\
     substitute_ready eig o "rested" /\ substitute_ready eig o' "rested") ->
  (kd = KVpst -> o_mode o = None \/ o_mode o = Some ModeA) ->
  assemble_and_solve eig solve o aslist phi li mi ki = Ok Cs ->
  assemble_and_solve eig solve o' aslist phi (map (Rmult (uL u)) li) (map (Rmult (uM u)) mi) ki = Ok Cs' ->
  forall i s, (i < List.length li)%nat -> 0 <= s <= nth i li 0 ->
    field o' phi (uL u * nth i li 0) (nth i ki false) (nth i Cs' []) (uL u * s)
    = state_in u (field o phi (nth i li 0) (nth i ki false) (nth i Cs []) s).
Proof.
  intros U S0 Ss Sc Hr Hr' Hs HL HN Hp HK HKD HC HV E E'.
  pose proof S0 as (_ & _ & SY & _ & _ & _ & SA & ST & _ & SM & SP & _).
  assert (X : exists kR, 0 <= kR /\ bvp o kR phi li mi ki Cs /\
    bvp o' (uF u * kR) phi (map (Rmult (uL u)) li) (map (Rmult (uM u)) mi) ki Cs').
  { assert (D : (kd = KPst /\ o_mode o = Some ModeC) \/ ~ (kd = KPst /\ o_mode o = Some ModeC)).
    { destruct kd; try (right; intros [Q _]; discriminate). destruct (o_mode o) as [[]|]; try (right; intros [_ Q]; discriminate). left; auto. }
    destruct D as [[D1 D2]|D].
    - destruct (HC D1 D2) as (P1 & P2 & P3 & P4).
      destruct (rot_in u U eig solve o o' (o_a o - o_td o) "rested" Ss Sc S0 P3 P4 P2) as (k & K1 & K2 & K3).
      exists k. split; [lra|]. split.
      + apply (solved_bvp eig solve o aslist phi li mi ki Cs kd k Ss Hr HN HK); auto.
      + apply (solved_bvp eig solve o' aslist phi _ _ ki Cs' kd (uF u * k) Ss Hr'); try assumption.
        * rewrite map_length. exact HN.
        * rewrite SY. exact HK.
        * intros _ _. rewrite SP, SA, ST, <- Rmult_minus_distr_l. auto.
        * rewrite SM. exact HV.
    - exists 0. split; [lra|]. rewrite Rmult_0_r. split.
      + apply (solved_bvp eig solve o aslist phi li mi ki Cs kd 0 Ss Hr HN HK); auto. intros Q1 Q2. exfalso. apply D. auto.
      + apply (solved_bvp eig solve o' aslist phi _ _ ki Cs' kd 0 Ss Hr'); try assumption.
        * rewrite map_length. exact HN.
        * rewrite SY. exact HK.
        * rewrite SM. intros Q1 Q2. exfalso. apply D. auto.
        * rewrite SM. exact HV. }
  destruct X as (kR & K0 & B & B').
  apply (fields_in u U o o' kR phi S0 (ex_intro _ kd (conj HK HKD)) HL li mi ki Cs Cs'); try assumption.
  destruct li; [simpl in HN; lia|discriminate].
Qed.
Print Assumptions C101_solution.

(** Quantities derived from a state: displacements, section forces, weak-layer stresses ... *)
Theorem C101_quantities u p z0 z : proper_units u ->
  f_w (state_in u z) = uL u * f_w z /\ f_u (uL u * z0) (state_in u z) = uL u * f_u z0 z /\
  f_psi (state_in u z) = f_psi z /\
  f_N (par_in u p) (state_in u z) = u_line u * f_N p z /\
  f_M (par_in u p) (state_in u z) = uF u * f_M p z /\
  f_V (par_in u p) (state_in u z) = u_line u * f_V p z /\
  f_sig (par_in u p) (state_in u z) = u_stress u * f_sig p z /\
  f_tau (par_in u p) (state_in u z) = u_stress u * f_tau p z.
Proof. intros U. exact (quantities_in u U p z0 z). Qed.
Print Assumptions C101_quantities.
(** ... stresses over the depth of the slab, on the same mesh ... *)
Theorem C101_stresses u o o' phi dz z : proper_units u -> same_in u o o' -> lam_ok (o_par o) -> 0 < dz ->
  let mesh := get_zmesh o dz in let mesh' := get_zmesh o' (uL u * dz) in
  mesh' = map (mpoint_in u) mesh /\
  Sxx_MPa o' phi mesh' (state_in u z) = map (Rmult (u_stress u)) (Sxx_MPa o phi mesh z) /\
  Txz_MPa o' phi mesh' (state_in u z) = map (Rmult (u_stress u)) (Txz_MPa o phi mesh z) /\
  Szz_MPa o' phi mesh' (state_in u z) = map (Rmult (u_stress u)) (Szz_MPa o phi mesh z).
Proof.
  intros U S0 HL Hd. cbv zeta. rewrite (mesh_in u U o o' dz Hd S0). split; [reflexivity|].
  split; [exact (Sxx_in u U o o' phi z S0 _)|]. split; [exact (Txz_in u U o o' phi z S0 HL _)|exact (Szz_in u U o o' phi z S0 HL _)].
Qed.
Print Assumptions C101_stresses.

Lemma tscale_sum k (ws : list R) (cols : list triple) :
  fold_right tadd (0, 0, 0) (map2 tscale ws (map (tscale k) cols)) = tscale k (fold_right tadd (0, 0, 0) (map2 tscale ws cols)).
Proof.
  revert ws. induction cols as [|[[x y] t] cols IH]; intros [|w ws]; simpl; try (f_equal; [f_equal|]; ring).
  rewrite IH. destruct (fold_right tadd (0, 0, 0) (map2 tscale ws cols)) as [[p q] r]. simpl. f_equal; [f_equal|]; ring.
Qed.
(** ... and, for solutions of the library, the differential energy release rate. *)
Theorem C101_energy u eig solve o o' aslist phi li mi ki Cs Cs' kd unit :
  proper_units u -> same_in u o o' -> sound_solver solve -> complete_solver solve -> ready o -> ready o' -> stable (o_par o) ->
  o_lski o <> 0 -> (2 <= List.length li)%nat -> proper_segments li ki ->
  kind_of (o_system o) = Some kd -> kd = KPst \/ kd = KVpst \/ kd = KSkier ->
  (kd = KPst -> o_mode o = Some ModeC -> o_phi o = phi /\ 0 < o_a o - o_td o /\
     substitute_ready eig o "rested" /\ substitute_ready eig o' "rested") ->
  (kd = KVpst -> o_mode o = None \/ o_mode o = Some ModeA) ->
  assemble_and_solve eig solve o aslist phi li mi ki = Ok Cs ->
  assemble_and_solve eig solve o' aslist phi (map (Rmult (uL u)) li) (map (Rmult (uM u)) mi) ki = Ok Cs' ->
  gdif (o_par o') (o_eig o') (loads_of o' phi) Cs' (map (Rmult (uL u)) li) ki unit
  = match gdif (o_par o) (o_eig o) (loads_of o phi) Cs li ki unit with
    | Ok (G, G1, G2) => Ok (u_line u * G, u_line u * G1, u_line u * G2) | Err e => Err e end.
Proof.
  intros U S0 Ss Sc Hr Hr' Hs HL HN Hp HK HKD HC HV E E'.
  pose proof (C101_solution u eig solve o o' aslist phi li mi ki Cs Cs' kd U S0 Ss Sc Hr Hr' Hs HL HN Hp HK HKD HC HV E E') as HF.
  destruct (solved_six _ _ _ _ _ _ _ _ _ HN E) as [L6 F6].
  destruct (solved_six eig solve o' aslist phi _ _ ki Cs' ltac:(rewrite map_length; exact HN) E') as [L6' F6'].
  rewrite map_length in L6'.
  pose proof (six_zh o (ready_six o Hr)) as Z6. pose proof (six_zh o' (ready_six o' Hr')) as Z6'.
  assert (TIP : forall j, (j < List.length li)%nat ->
    gdif_tip (o_par o') (o_eig o') (loads_of o' phi) Cs' (map (Rmult (uL u)) li) ki unit j
    = match gdif_tip (o_par o) (o_eig o) (loads_of o phi) Cs li ki unit j with Ok t => Ok (tscale (u_line u) t) | Err e => Err e end).
  { intros j Hj. unfold gdif_tip.
    rewrite (nth_error_nth' Cs [] (n := j)) by lia. rewrite (nth_error_nth' Cs' [] (n := j)) by lia.
    assert (A : List.length (nth j Cs []) = 6%nat) by (rewrite Forall_forall in F6; apply F6, nth_In; lia).
    assert (A' : List.length (nth j Cs' []) = 6%nat) by (rewrite Forall_forall in F6'; apply F6', nth_In; lia).
    unfold zsol_checked. rewrite Z6, Z6', A, A'. cbn [Nat.eqb bind].
    assert (Hlj : 0 <= nth j li 0) by (destruct Hp as [Hp _]; apply Hp; exact Hj).
    rewrite (nth_scaled (uL u) li j).
    specialize (HF j (nth j li 0) Hj (conj Hlj (Rle_refl _))). unfold field in HF. rewrite HF.
    set (zz := zsol (o_par o) (o_eig o) (loads_of o phi) (nth j li 0) (nth j Cs []) (nth j li 0) (nth j ki false)).
    pose proof S0 as (_ & _ & _ & _ & _ & P & _). rewrite P.
    destruct Hr as (_ & (Hn & Ht & _) & _).
    destruct (err_in u U (o_par o) zz unit ltac:(lra) ltac:(lra)) as [-> ->].
    unfold Gi_unit, Gii_unit. destruct (conv_err unit) as [k|e]; [|reflexivity]. cbn [bind tscale]. rewrite <- Rmult_plus_distr_l. reflexivity. }
  unfold gdif. rewrite map_length. destruct (_ && _)%bool; [reflexivity|].
  set (ict := crack_tips ki (List.length li - 1)).
  assert (HI : forall j, In j ict -> (j < List.length li)%nat) by (intros j Hj; apply crack_tips_in in Hj; lia).
  assert (MM : forall l, (forall j, In j l -> (j < List.length li)%nat) ->
    mapM (gdif_tip (o_par o') (o_eig o') (loads_of o' phi) Cs' (map (Rmult (uL u)) li) ki unit) l
    = match mapM (gdif_tip (o_par o) (o_eig o) (loads_of o phi) Cs li ki unit) l with Ok ts => Ok (map (tscale (u_line u)) ts) | Err e => Err e end).
  { induction l as [|j l IH]; intros Hl; [reflexivity|]. cbn [mapM]. rewrite TIP by (apply Hl; left; reflexivity).
    destruct (gdif_tip (o_par o) _ _ Cs li ki unit j); [|reflexivity]. cbn [bind]. rewrite IH by (intros i Hi; apply Hl; right; exact Hi).
    destruct (mapM (gdif_tip (o_par o) (o_eig o) (loads_of o phi) Cs li ki unit) l); reflexivity. }
  rewrite (MM ict HI). destruct (mapM (gdif_tip (o_par o) (o_eig o) (loads_of o phi) Cs li ki unit) ict) as [cols|e]; [|reflexivity]. cbn [bind].
  rewrite tscale_sum. set (T := fold_right tadd _ _). destruct T as [[p q] r]. reflexivity.
Qed.
Print Assumptions C101_energy.

(** The rotational substitute spring is a moment per angle ... *)
Theorem C101_rotational u eig solve o o' L support : proper_units u -> sound_solver solve -> complete_solver solve -> same_in u o o' ->
  substitute_ready eig o support -> substitute_ready eig o' support -> 0 < L ->
  exists k, 0 < k /\ fst (substitute_stiffness eig solve o L support "rot") = Ok k /\
    fst (substitute_stiffness eig solve o' (uL u * L) support "rot") = Ok (uF u * k).
Proof. intros U. exact (rot_in u U eig solve o o' L support). Qed.
Print Assumptions C101_rotational.
(** ... while the translational one adds a compliance under unit force and a settlement, ... *)
Theorem C101_translational u eig solve o o' L support z : proper_units u -> sound_solver solve -> complete_solver solve -> same_in u o o' ->
  substitute_ready eig o support -> substitute_ready eig o' support -> 0 < L ->
  end_loaded_beam (foundation_of o support) L 0 1 z ->
  let w := z_w (z 0) in let s := (qn (loads_of o 0) + pn (loads_of o 0)) / kn (foundation_of o support) in
  w < 0 /\
  fst (substitute_stiffness eig solve o L support "trans") = Ok (Rabs (1 / (w + s))) /\
  fst (substitute_stiffness eig solve o' (uL u * L) support "trans") = Ok (u_stress u * Rabs (1 / (w + uF u / uL u * s))).
Proof.
  intros U Ss Sc S0 R0 R1 HL B. destruct (trans_in u U eig solve o o' L support z Ss Sc S0 R0 R1 HL B) as (H1 & H3 & H4). cbv zeta in *.
  set (w := z_w (z 0)) in *. set (s := (qn (loads_of o 0) + pn (loads_of o 0)) / kn (foundation_of o support)) in *.
  split; [exact H1|]. split; [exact H3|]. rewrite H4. f_equal.
  destruct U as (A & B0 & _). assert (P : 0 < u_stress u) by (apply Rdiv_lt_0_compat; [exact B0|apply pow_lt; exact A]).
  rewrite <- (Rabs_pos_eq (u_stress u)) at 1 by lra. rewrite <- Rabs_mult. f_equal.
  replace (uL u ^ 2 / uF u * w + uL u * s) with (/ u_stress u * (w + uF u / uL u * s)) by (unfold u_stress; field; lra).
  unfold Rdiv. rewrite !Rmult_1_l, Rinv_mult, Rinv_inv. reflexivity.
Qed.
Print Assumptions C101_translational.
(** ... so that it is no quantity at all: for every loaded slab it depends on the unit of force
    beyond a factor. *)
Theorem C101_refuted eig solve o L support : sound_solver solve -> complete_solver solve ->
  substitute_ready eig o support -> 0 < L -> 0 < qn (loads_of o 0) + pn (loads_of o 0) ->
  exists T k, fst (substitute_stiffness eig solve o L support "trans") = Ok k /\
    forall u o', proper_units u -> same_in u o o' -> substitute_ready eig o' support -> T < uF u / uL u ->
    exists k', fst (substitute_stiffness eig solve o' (uL u * L) support "trans") = Ok k' /\ k' <> u_stress u * k.
Proof.
  intros Ss Sc R0 HL Hq.
  destruct (PSub.beam_exists eig o L support R0 HL) as [_ (z & B)].
  destruct (PSub.sub_trans eig solve o L support z Ss Sc R0 HL B) as [N E].
  set (w := z_w (z 0)) in *. set (s := (qn (loads_of o 0) + pn (loads_of o 0)) / kn (foundation_of o support)) in *.
  assert (Hs : 0 < s) by (destruct R0 as (_ & _ & (Hk & _) & _); apply Rdiv_lt_0_compat; assumption).
  exists (1 + -2 * w / s), (Rabs (1 / (w + s))). split; [exact E|].
  intros u o' U S0 R1 HT.
  destruct (C101_translational u eig solve o o' L support z U Ss Sc S0 R0 R1 HL B) as (_ & _ & H4). cbv zeta in H4. fold w s in H4.
  eexists. split; [exact H4|].
  intros Q. destruct U as (A & B0 & _). assert (P : 0 < u_stress u) by (apply Rdiv_lt_0_compat; [exact B0|apply pow_lt; exact A]).
  apply Rmult_eq_reg_l in Q; [|lra]. set (t := uF u / uL u) in *.
  assert (T1 : 1 < t). { assert (0 < -2 * w / s) by (apply Rdiv_lt_0_compat; lra). lra. }
  assert (T2 : -2 * w < t * s).
  { apply (Rmult_lt_compat_r s) in HT; [|exact Hs]. replace ((1 + -2 * w / s) * s) with (s + -2 * w) in HT by (field; lra). lra. }
  assert (W : 0 < w + t * s) by lra.
  assert (Q2 : Rabs (w + t * s) = Rabs (w + s)).
  { unfold Rdiv in Q. rewrite !Rmult_1_l, !Rabs_inv in Q. rewrite <- (Rinv_inv (Rabs (w + t * s))), Q, Rinv_inv. reflexivity. }
  rewrite (Rabs_pos_eq (w + t * s)) in Q2 by lra. destruct (Rcase_abs (w + s)) as [C|C].
  - rewrite (Rabs_left _ C) in Q2. lra.
  - rewrite (Rabs_right _ C) in Q2. assert (s * (t - 1) = 0) by lra. apply Rmult_integral in H. lra.
Qed.
Print Assumptions C101_refuted.

(** Smaller units of length and force, a larger one of mass; skier system and PST in stage C. *)
Definition ex_units : units := mkU 10 4 (1 / 10).
Lemma ex_units_ok : proper_units ex_units. Proof. repeat split; simpl; lra. Qed.
Definition ex_both (K : mat6) : list eigpair :=
  if Req_EM_T (z_w (row3 K)) 2 then ex_ews else map (ewp_in ex_units) ex_ews.
Definition ex_in (system : string) (mode : option tmode) (phi : R) : obj := resized ex_units (ex_c system mode phi) ex_ews.
Lemma ex_both_old : ex_both (calc_system_matrix ex_par) = ex_ews.
Proof. unfold ex_both. simpl. destruct (Req_EM_T (25 / (25 / 2)) 2); [reflexivity|]. exfalso. apply n. field. Qed.
Lemma ex_both_new : ex_both (calc_system_matrix (par_in ex_units ex_par)) = map (ewp_in ex_units) ex_ews.
Proof.
  unfold ex_both. destruct (Req_EM_T _ 2) as [E|E]; [|reflexivity]. exfalso. revert E.
  unfold calc_system_matrix, par_in, u_stress, u_line, ex_units, ex_par. cbn [row3 z_w kn kA55 uL uF]. 
  replace (4 / 10 ^ 2 / 10 * 25 / (4 / 10 * (25 / 2))) with (1 / 50) by field. lra.
Qed.
Lemma ex_in_ready system mode phi : ready (ex_in system mode phi).
Proof. exact (resized_ready ex_units (ex_c system mode phi) ex_ews ex_units_ok ex_lam_ok ex_fnd_ok ex_good). Qed.
Lemma ex_old_sub system mode phi support : substitute_ready ex_both (ex_c system mode phi) support.
Proof.
  split; [exact (ex_ready system mode phi)|]. split; [unfold fresh; simpl o_par; rewrite ex_both_old; reflexivity|]. rewrite ex_c_foundation.
  split; [exact ex_fnd_ok|]. split; [exact ex_stable|]. rewrite ex_both_old. exact ex_good.
Qed.
Lemma ex_in_sub system mode phi support : substitute_ready ex_both (ex_in system mode phi) support.
Proof.
  split; [exact (ex_in_ready system mode phi)|].
  split; [unfold fresh; change (o_par (ex_in system mode phi)) with (par_in ex_units ex_par); rewrite ex_both_new; reflexivity|].
  rewrite (foundation_of_in ex_units (ex_c system mode phi) (ex_in system mode phi) support (resized_same _ _ _)), ex_c_foundation.
  split; [exact (fnd_in _ ex_units_ok _ ex_fnd_ok)|]. split; [exact (stable_in _ ex_units_ok _ ex_stable)|].
  rewrite ex_both_new. exact (eig_in _ ex_units_ok _ _ ex_lam_ok ex_good).
Qed.
Lemma valid_resized s li mi ki a c : ~ invalid_segments s li mi ki -> ~ invalid_segments s (map (Rmult a) li) (map (Rmult c) mi) ki.
Proof. unfold invalid_segments. rewrite !map_length. tauto. Qed.
Lemma proper_resized li ki a : 0 < a -> proper_segments li ki -> proper_segments (map (Rmult a) li) ki.
Proof.
  intros Ha (H1 & i & H2 & H3 & H4). split.
  - intros j Hj. rewrite map_length in Hj. rewrite nth_scaled. pose proof (H1 j Hj). nra.
  - exists i. rewrite map_length, nth_scaled. repeat split; try assumption. nra.
Qed.
Lemma ex_both_solved system mode phi kd li mi ki : kind_of system = Some kd -> (2 <= List.length li)%nat ->
  ~ invalid_segments system li mi ki -> proper_segments li ki -> (kd = KPst -> mode = Some ModeC) -> (kd = KVpst -> mode = None) ->
  exists Cs Cs',
    assemble_and_solve ex_both elim_solve (ex_c system mode phi) true phi li mi ki = Ok Cs /\
    assemble_and_solve ex_both elim_solve (ex_in system mode phi) true phi (map (Rmult 10) li) (map (Rmult (1 / 10)) mi) ki = Ok Cs'.
Proof.
  intros HK HN HI HP HM HV.
  destruct (C101_rotational ex_units ex_both elim_solve (ex_c system mode phi) (ex_in system mode phi) 1 "rested" ex_units_ok elim_sound elim_complete
    (resized_same _ _ _) (ex_old_sub _ _ _ _) (ex_in_sub _ _ _ _) Rlt_0_1) as (k & _ & K1 & K2).
  destruct (well_posed ex_both elim_solve (ex_c system mode phi) true phi li mi ki kd k elim_sound elim_complete) as (Cs & A & _).
  - exact (ex_ready system mode phi).
  - exact ex_stable.
  - exact HN.
  - exact HI.
  - exact HP.
  - exact HK.
  - intros Q. change (mode <> None). rewrite (HM Q). discriminate.
  - intros Q1 Q2. split; [reflexivity|]. replace (o_a _ - o_td _) with 1 by (simpl; lra). exact K1.
  - intros Q. left. exact (HV Q).
  - destruct (well_posed ex_both elim_solve (ex_in system mode phi) true phi (map (Rmult 10) li) (map (Rmult (1 / 10)) mi) ki kd (uF ex_units * k) elim_sound elim_complete) as (Cs' & A' & _).
    + exact (ex_in_ready system mode phi).
    + exact (stable_in _ ex_units_ok _ ex_stable).
    + rewrite map_length. exact HN.
    + apply valid_resized. exact HI.
    + apply proper_resized; [lra|exact HP].
    + exact HK.
    + intros Q. change (mode <> None). rewrite (HM Q). discriminate.
    + intros Q1 Q2. split; [reflexivity|]. replace (o_a _ - o_td _) with (uL ex_units * 1) by (simpl; lra). exact K2.
    + intros Q. left. exact (HV Q).
    + exists Cs, Cs'. split; assumption.
Qed.
Example C101_example :
  (exists Cs Cs', assemble_and_solve ex_both elim_solve (ex_c "skier" None 30) true 30 [4; 1; 1; 4] [0; 80; 0] [true; false; false; true] = Ok Cs /\
    assemble_and_solve ex_both elim_solve (ex_in "skier" None 30) true 30 (map (Rmult 10) [4; 1; 1; 4]) (map (Rmult (1 / 10)) [0; 80; 0])
      [true; false; false; true] = Ok Cs') /\
  (exists Cs Cs', assemble_and_solve ex_both elim_solve (ex_c "pst-" (Some ModeC) (-30)) true (-30) [8; 2] [0] [true; false] = Ok Cs /\
    assemble_and_solve ex_both elim_solve (ex_in "pst-" (Some ModeC) (-30)) true (-30) (map (Rmult 10) [8; 2]) (map (Rmult (1 / 10)) [0]) [true; false] = Ok Cs') /\
  proper_units ex_units /\ same_in ex_units (ex_c "pst-" (Some ModeC) (-30)) (ex_in "pst-" (Some ModeC) (-30)) /\
  ready (ex_in "pst-" (Some ModeC) (-30)) /\ substitute_ready ex_both (ex_in "pst-" (Some ModeC) (-30)) "rested" /\
  substitute_ready ex_both (ex_c "pst-" (Some ModeC) (-30)) "rested" /\ proper_segments [8; 2] [true; false] /\
  0 < qn (loads_of (ex_c "pst-" (Some ModeC) (-30)) 0) + pn (loads_of (ex_c "pst-" (Some ModeC) (-30)) 0).
Proof.
  split; [apply (ex_both_solved "skier" None 30 KSkier); try reflexivity; try discriminate; [simpl; lia|exact ex_valid_skier|exact ex_proper_skier]|].
  split; [apply (ex_both_solved "pst-" (Some ModeC) (-30) KPst); try reflexivity; try discriminate; [exact ex_valid_pst|exact ex_proper_pst]|].
  split; [exact ex_units_ok|]. split; [apply resized_same|]. split; [apply ex_in_ready|]. split; [apply ex_in_sub|]. split; [apply ex_old_sub|].
  split; [exact ex_proper_pst|]. unfold loads_of, get_weight_load, get_surface_load. cbn [qn pn].
  assert (D0 : deg2rad 0 = 0) by (unfold deg2rad, Rdiv; ring). rewrite D0, cos_0. simpl. lra.
Qed.
(** Units for which the translational spring changes. *)
Lemma ewp_force F e : ewp_in (mkU 1 F 1) e = e.
Proof.
  destruct e as [[re im] [vr vi]]. unfold ewp_in. cbn [uL].
  assert (E : forall z, state_in (mkU 1 F 1) z = z) by (intros z; apply vec6_eq; simpl; field).
  rewrite !E. unfold Rdiv. rewrite Rinv_1, !Rmult_1_r. reflexivity.
Qed.
Example C101_refuted_example T support : substitute_ready ex_eig (ex_c "pst-" None 0) support /\
  exists u o', proper_units u /\ same_in u (ex_c "pst-" None 0) o' /\ T < uF u / uL u /\ substitute_ready ex_eig o' support.
Proof.
  split; [apply ex_c_ready|].
  set (u := mkU 1 (Rabs T + 1) 1). set (o' := resized u (ex_c "pst-" None 0) ex_ews). exists u, o'.
  assert (U : proper_units u) by (pose proof (Rabs_pos T); repeat split; simpl; lra).
  assert (EM : map (ewp_in u) ex_ews = ex_ews).
  { rewrite <- map_id. apply map_ext. intros e. apply ewp_force. }
  assert (GE : good_eigenpairs (calc_system_matrix (par_in u ex_par)) ex_ews).
  { rewrite <- EM. exact (eig_in u U _ _ ex_lam_ok ex_good). }
  split; [exact U|]. split; [apply resized_same|]. split; [simpl; pose proof (Rle_abs T); lra|].
  split; [exact (resized_ready _ (ex_c "pst-" None 0) ex_ews U ex_lam_ok ex_fnd_ok ex_good)|].
  split; [unfold fresh, o', resized, ex_eig; cbn [o_eig]; rewrite EM; reflexivity|].
  rewrite (foundation_of_in u (ex_c "pst-" None 0) o' support (resized_same _ _ _)), ex_c_foundation.
  split; [exact (fnd_in u U _ ex_fnd_ok)|]. split; [exact (stable_in u U _ ex_stable)|]. exact GE.
Qed.
Example C101_setup_example : input_in ex_units (ex_c "skier" None 30) (ex_in "skier" None 30) /\
  good_eigenpairs (calc_system_matrix (o_par (ex_in "skier" None 30))) (map (ewp_in ex_units) ex_ews) /\ lam_ok (o_par (ex_c "skier" None 30)).
Proof.
  split; [unfold input_in; tauto|]. split; [exact (eig_in _ ex_units_ok _ _ ex_lam_ok ex_good)|exact ex_lam_ok].
Qed.
