(** Soft weak layers: threshold for the modulus, uniform slabs and the profiles of the database (C104). *)
From Coq Require Import Lra.
Require Import Verif.Py Verif.MTools Verif.MEigen Verif.SAdm Verif.SSlab Verif.SBeam Verif.SBvp Verif.SEig
  Verif.SExact Verif.SRegular Verif.PSlab Verif.PCog Verif.PLam Verif.PSetup Verif.PExact Verif.PExact2 Verif.PProfile Verif.PRegular.
Open Scope R_scope.

Section O.
Variable eig : mat6 -> list eigpair.

(** Stiffnesses stored in a built object are those of its slab. *)
Definition lam_set (o : obj) : Prop :=
  let lam := calc_laminate_stiffness_matrix (o_slab o) (hh (o_par o)) (o_k o) in
  A11 (o_par o) = fst (fst (fst (fst lam))) /\ B11 (o_par o) = snd (fst (fst (fst lam))) /\
  D11 (o_par o) = snd (fst (fst lam)) /\ kA55 (o_par o) = snd (fst lam) /\ K0 (o_par o) = snd lam.
Lemma fundamental_k o : o_k (o_calc_fundamental_system eig o) = o_k o.
Proof.
  unfold o_calc_fundamental_system, o_calc_foundation_stiffness, o_calc_laminate, o_calc_eigensystem.
  destruct (calc_foundation_stiffness _ _ _) as [n t]. unfold with_kn_kt, with_par, with_eig. simpl.
  destruct (calc_laminate_stiffness_matrix _ _ _) as [[[[A B] D] Sk] K']. reflexivity.
Qed.
Lemma fundamental_lam o : lam_set (o_calc_fundamental_system eig o).
Proof.
  destruct (fundamental_par eig o) as (P & _ & Sl). cbv zeta in P. unfold lam_set. rewrite fundamental_k, Sl, P. cbv zeta. simpl. tauto.
Qed.
Lemma built_lam o : built eig o -> lam_set o.
Proof.
  intros B. induction B as [system la td o G H|o la C0 C1 nu o' B IH G HC Hnu H|o t E nu B IH Ht HE Hnu|o p B IH].
  - unfold Layered in H. match type of H with bind ?m _ = _ => destruct m as [o1|e]; [|discriminate] end. cbn [bind] in H.
    apply Ok_inj in H. subst o. apply fundamental_lam.
  - revert H. unfold set_beam_properties. match goal with |- bind ?m _ = _ -> _ => destruct m as [[l E]|e]; [|discriminate] end. cbn [bind].
    destruct (calc_center_of_gravity l) as [h z]. intros Q. apply Ok_inj in Q. subst o'. apply fundamental_lam.
  - apply fundamental_lam.
  - exact IH.
Qed.

Lemma weak_par o t E nu : built eig o ->
  let p := o_par o in
  o_par (set_foundation_properties eig o t E nu true)
  = mkPar (E / (1 - nu ^ 2) / t) (E / (2 * (1 + nu)) / t) t (hh p) (zs p) (A11 p) (B11 p) (D11 p) (kA55 p) (K0 p).
Proof.
  intros B p. destruct (built_lam o B) as (A1 & A2 & A3 & A4 & A5).
  destruct (fundamental_par eig (with_weak o E nu t)) as (P & _ & _). cbv zeta in P.
  change (o_calc_fundamental_system eig (with_weak o E nu t)) with (set_foundation_properties eig o t E nu true) in P.
  rewrite P. unfold p. rewrite A1, A2, A3, A4, A5. reflexivity.
Qed.

Lemma reach_pos A B D h t : 0 < A -> 0 < A * D - B ^ 2 -> 0 < reach A B D h t.
Proof.
  intros HA HD. unfold reach. apply Rdiv_lt_0_compat; [|exact HD]. set (x := (h + t) / 2).
  apply Rmult_lt_reg_l with A; [exact HA|]. rewrite Rmult_0_r.
  replace (A * (A * x ^ 2 - 2 * B * x + D)) with ((A * x - B) ^ 2 + (A * D - B ^ 2)) by ring.
  pose proof (pow2_ge_0 (A * x - B)). lra.
Qed.

Lemma threshold p t E nu : lam_ok p -> 0 < t -> 0 < E -> -1 < nu < 1 ->
  0 < soft_limit (A11 p) (B11 p) (D11 p) (kA55 p) (hh p) t nu /\
  (regular (mkPar (E / (1 - nu ^ 2) / t) (E / (2 * (1 + nu)) / t) t (hh p) (zs p) (A11 p) (B11 p) (D11 p) (kA55 p) (K0 p))
   <-> E < soft_limit (A11 p) (B11 p) (D11 p) (kA55 p) (hh p) t nu).
Proof.
  intros (HA & HD & Hk & HK0 & HKn) Ht HE Hnu. unfold soft_limit, regular. simpl kn. simpl kt. simpl wt. simpl hh.
  simpl A11. simpl B11. simpl D11. simpl kA55.
  assert (HDe : 0 < A11 p * D11 p - B11 p ^ 2) by lra.
  pose proof (reach_pos (A11 p) (B11 p) (D11 p) (hh p) t HA HDe) as HJ.
  set (J := reach _ _ _ _ _) in *. set (De := A11 p * D11 p - B11 p ^ 2) in *. set (Sk := kA55 p) in *. set (A := A11 p) in *.
  assert (HQ : 0 < 1 / Sk + (1 - nu) / 2 * J).
  { apply Rplus_lt_0_compat; [apply Rdiv_lt_0_compat; lra|apply Rmult_lt_0_compat; lra]. }
  assert (HN : 0 < 1 - nu ^ 2) by nra.
  set (Q := 1 / Sk + (1 - nu) / 2 * J) in *. assert (HQ2 : 0 < Q ^ 2) by (apply pow_lt; exact HQ).
  split.
  { apply Rmin_pos.
    - apply Rdiv_lt_0_compat; [|exact Ht]. apply Rmult_lt_0_compat; lra.
    - apply Rdiv_lt_0_compat; [|exact HQ2]. apply Rdiv_lt_0_compat; [|exact HDe].
      apply Rmult_lt_0_compat; [apply Rmult_lt_0_compat; lra|exact Ht]. }
  assert (Z1 : E / (2 * (1 + nu)) / t * t ^ 2 < 16 * Sk <-> E < 32 * (1 + nu) * Sk / t).
  { replace (16 * Sk) with (32 * (1 + nu) * Sk / t * (t / (2 * (1 + nu)))) by (field; lra).
    replace (E / (2 * (1 + nu)) / t * t ^ 2) with (E * (t / (2 * (1 + nu)))) by (field; lra).
    assert (0 < t / (2 * (1 + nu))) by (apply Rdiv_lt_0_compat; lra).
    split; intros G; [exact (Rmult_lt_reg_r _ _ _ H G)|exact (Rmult_lt_compat_r _ _ _ H G)]. }
  assert (Z2 : (E / (1 - nu ^ 2) / t / Sk + E / (2 * (1 + nu)) / t * J) ^ 2 < 3 * (E / (1 - nu ^ 2) / t) * A / De
            <-> E < 3 * A * (1 - nu ^ 2) * t / De / Q ^ 2).
  { set (c := E / ((1 - nu ^ 2) * t) ^ 2 * Q ^ 2).
    assert (Hc : 0 < c).
    { apply Rmult_lt_0_compat; [|exact HQ2]. apply Rdiv_lt_0_compat; [exact HE|]. apply pow_lt, Rmult_lt_0_compat; assumption. }
    replace ((E / (1 - nu ^ 2) / t / Sk + E / (2 * (1 + nu)) / t * J) ^ 2) with (E * c)
      by (unfold c, Q; field; repeat split; try lra; intros C; nra).
    replace (3 * (E / (1 - nu ^ 2) / t) * A / De) with (3 * A * (1 - nu ^ 2) * t / De / Q ^ 2 * c)
      by (unfold c; field; repeat split; lra).
    split; intros G; [exact (Rmult_lt_reg_r _ _ _ Hc G)|exact (Rmult_lt_compat_r _ _ _ Hc G)]. }
  rewrite Z1, Z2. split.
  - intros [G1 G2]. apply Rmin_glb_lt; assumption.
  - intros G. pose proof (Rmin_l (32 * (1 + nu) * Sk / t) (3 * A * (1 - nu ^ 2) * t / De / Q ^ 2)).
    pose proof (Rmin_r (32 * (1 + nu) * Sk / t) (3 * A * (1 - nu ^ 2) * t / De / Q ^ 2)). split; lra.
Qed.

(** ** Uniform slabs *)
Definition plain_par (M h t E : R) : params :=
  mkPar (E / (1 - (1 / 4) ^ 2) / t) (E / (2 * (1 + 1 / 4)) / t) t h 0
        (16 / 15 * M * h) 0 (4 / 45 * M * h ^ 3) (M * h / 3) (- (16 / 15 * M * h) * (4 / 45 * M * h ^ 3)).
(** Replacing the weak layer of a finished object. *)
Lemma refound_par o t E nu :
  o_par (set_foundation_properties eig (o_calc_fundamental_system eig o) t E nu true) =
  let lam := calc_laminate_stiffness_matrix (o_slab o) (hh (o_par o)) (o_k o) in
  let fnd := calc_foundation_stiffness E nu t in
  mkPar (fst fnd) (snd fnd) t (hh (o_par o)) (zs (o_par o)) (fst (fst (fst (fst lam)))) (snd (fst (fst (fst lam)))) (snd (fst (fst lam))) (snd (fst lam)) (snd lam).
Proof.
  destruct (fundamental_par eig o) as (P & _ & Sl). pose proof (fundamental_k o) as Kk.
  unfold set_foundation_properties. generalize dependent (o_calc_fundamental_system eig o). intros a P Sl Kk.
  destruct (fundamental_par eig (with_weak a E nu t)) as (P2 & _ & _). cbv zeta in *. rewrite P2. clear P2.
  destruct a. cbn in *. subst. reflexivity.
Qed.
Lemma plain_object system td rho h t E : 0 < rho -> 0 < h ->
  exists o, Layered eig system (LList [(rho, h)]) td = Ok o /\
    o_par (set_foundation_properties eig o t E (1 / 4) true) = plain_par (bergfeld rho 917 (65 / 10) (44 / 10)) h t E.
Proof.
  intros Hr Hh. unfold Layered. rewrite set_beam_list by discriminate. cbn [bind].
  eexists. split; [reflexivity|]. rewrite refound_par. unfold plain_par.
  cbn [set_foundation_properties user_slab map o_slab o_par o_k o_weakE o_weaknu with_weak with_slab with_par init_obj hh zs].
  set (M := bergfeld _ _ _ _).
  unfold calc_laminate_stiffness_matrix, calc_center_of_gravity, get_ply_coordinates, calc_foundation_stiffness.
  simpl. f_equal; try field; lra.
Qed.
Lemma plain_regular M h t E : 0 < M -> 0 < h -> 0 < t -> 0 < E ->
  E * t * 3 < 40 * M * h -> E * (188 * h ^ 2 + 90 * h * t + 45 * t ^ 2) ^ 2 < 57600 * M * h ^ 3 * t ->
  regular (plain_par M h t E).
Proof.
  intros HM Hh Ht HE H1 H2.
  assert (L : lam_ok (plain_par M h t E)).
  { unfold lam_ok, plain_par; simpl. assert (0 < M * h) by (apply Rmult_lt_0_compat; lra).
    assert (0 < M * (h * (h * (h * 1)))) by (repeat apply Rmult_lt_0_compat; lra).
    repeat split; try lra. rewrite Ropp_mult_distr_l_reverse. apply Ropp_lt_gt_0_contravar, Rmult_lt_0_compat; lra. }
  destruct (threshold (plain_par M h t E) t E (1 / 4) L Ht HE ltac:(lra)) as (_ & T).
  apply T. clear T L. unfold soft_limit, plain_par. cbn [A11 B11 D11 kA55 hh].
  apply Rmin_glb_lt.
  - replace (32 * (1 + 1 / 4) * (M * h / 3) / t) with (40 * M * h / 3 / t) by (field; lra).
    apply Rmult_lt_reg_r with (3 * t); [lra|]. replace (40 * M * h / 3 / t * (3 * t)) with (40 * M * h) by (field; lra). lra.
  - assert (Q : 1 / (M * h / 3) + (1 - 1 / 4) / 2 * reach (16 / 15 * M * h) 0 (4 / 45 * M * h ^ 3) h t
        = (188 * h ^ 2 + 90 * h * t + 45 * t ^ 2) * 3 / (128 * M * h ^ 3)).
    { unfold reach. field. repeat split; try lra. }
    rewrite Q. set (q := 188 * h ^ 2 + 90 * h * t + 45 * t ^ 2) in *.
    assert (Hq : 0 < q) by (unfold q; nra).
    assert (Hq2 : 0 < q ^ 2) by (apply pow_lt; exact Hq).
    apply Rmult_lt_reg_r with (q ^ 2); [exact Hq2|]. refine (Rlt_le_trans _ _ _ H2 _).
    right. field. repeat split; try lra; try (apply Rgt_not_eq; assumption).
Qed.

(** ** Profiles of the database *)
Definition profile_par (v : list (R * R * R)) : params :=
  let layers := map fst v in
  let h := fst (calc_center_of_gravity layers) in
  let lam := calc_laminate_stiffness_matrix (build_slab layers (map snd v) (1 / 4)) h (5 / 6) in
  mkPar (1 / 4 / (1 - (1 / 4) ^ 2) / 30) (1 / 4 / (2 * (1 + 1 / 4)) / 30) 30 h (snd (calc_center_of_gravity layers))
        (fst (fst (fst (fst lam)))) (snd (fst (fst (fst lam)))) (snd (fst (fst lam))) (snd (fst lam)) (snd lam).
Lemma profile_object system td s w v : last_word s = Some w -> load_dummy_profile w = Ok (map fst v, map snd v) ->
  exists o, Layered eig system (LStr s) td = Ok o /\ o_par o = profile_par v.
Proof.
  intros W E. assert (N : s <> EmptyString) by (intros ->; discriminate).
  unfold Layered. replace (match LStr s with LStr "" => LList [(240, 200)] | LStr (String _ _) => LStr s | LList [] => LList [(240, 200)]
    | LList (_ :: _) => LStr s end) with (LStr s) by (destruct s; [congruence|reflexivity]).
  unfold set_beam_properties. rewrite W, E. cbn [bind]. 
  destruct (calc_center_of_gravity (map fst v)) as [H z] eqn:C. cbn [bind]. eexists. split; [reflexivity|].
  match goal with |- o_par (o_calc_fundamental_system eig ?x) = _ => destruct (fundamental_par eig x) as (P & _ & _) end.
  cbv zeta in P. rewrite P. unfold profile_par. cbv zeta. unfold layer in C. rewrite C. reflexivity.
Qed.
Lemma profile_regular k v : In (k, v) database -> regular (profile_par v).
Proof.
  unfold database, soft, medium, hard. cbn [In]. intros H.
  repeat (destruct H as [H|H];
    [injection H as <- <-; unfold regular, reach, profile_par, calc_laminate_stiffness_matrix, calc_center_of_gravity, get_ply_coordinates;
     simpl; split; lra|]).
  destruct H.
Qed.
End O.

(** Modulus of snow of at least 230 kg/m^3. *)
Lemma dense_modulus rho : 230 <= rho -> 6500 / 1024 <= bergfeld rho 917 (65 / 10) (44 / 10).
Proof.
  intros H. unfold bergfeld. assert (P : (1 / 4) ^ 5 <= Rpower (rho / 917) (44 / 10)); [|lra].
  apply Rle_trans with (Rpower (1 / 4) (44 / 10)).
  - rewrite <- Rpower_pow by lra. unfold Rpower.
    assert (ln (1 / 4) < 0) by (rewrite <- ln_1; apply ln_increasing; lra). apply Rlt_le, exp_increasing. simpl INR. lra.
  - apply Rle_Rpower_l; lra.
Qed.
Lemma dense_regular rho h : 230 <= rho -> 10 <= h <= 1000 -> regular (plain_par (bergfeld rho 917 (65 / 10) (44 / 10)) h 30 (1 / 4)).
Proof.
  intros Hr Hh. pose proof (dense_modulus rho Hr) as HM. set (M := bergfeld _ _ _ _) in *.
  apply plain_regular; try lra.
  - assert (0 <= (M - 6500 / 1024) * h) by (apply Rmult_le_pos; lra). lra.
  - assert (Q : 188 * h ^ 2 + 90 * h * 30 + 45 * 30 ^ 2 <= (188 * h + 6750) * h) by nra.
    assert (Q2 : (188 * h ^ 2 + 90 * h * 30 + 45 * 30 ^ 2) ^ 2 <= ((188 * h + 6750) * h) ^ 2) by (apply pow_incr; nra).
    assert (Q3 : (188 * h + 6750) ^ 2 < 43875000 * h) by nra.
    assert (Hh2 : 0 < h ^ 2) by nra. assert (Hh3 : 0 < h ^ 3) by (apply pow_lt; lra).
    assert (Q4 : ((188 * h + 6750) * h) ^ 2 < 43875000 * h ^ 3).
    { replace (((188 * h + 6750) * h) ^ 2) with ((188 * h + 6750) ^ 2 * h ^ 2) by ring.
      replace (43875000 * h ^ 3) with (43875000 * h * h ^ 2) by ring. apply Rmult_lt_compat_r; assumption. }
    assert (0 <= (M - 6500 / 1024) * h ^ 3) by (apply Rmult_le_pos; lra). lra.
Qed.
