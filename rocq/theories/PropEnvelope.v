(** Property theorems C59 and C60: failure and toughness envelopes. *)
Require Import Verif.Py Verif.MEnvelope Verif.SEnvelope Verif.PSetup Verif.PEnvelope.

Lemma quadratic_classifies f sc tc : 0 < sc -> 0 < tc ->
  (forall s t, f s t = Ok (quadratic (sc, tc) (Rabs s) (Rabs t))) -> classifies f (ellipse (sc, tc)) sc.
Proof.
  intros S T F. constructor.
  - intros s t. eexists. split; [apply F|]. unfold quadratic. pose proof (pow2_ge_0 (Rabs s / fst (sc, tc))). pose proof (pow2_ge_0 (Rabs t / snd (sc, tc))). lra.
  - eexists. split; [apply F|]. unfold quadratic. rewrite Rabs_R0. unfold Rdiv. rewrite !Rmult_0_l. lra.
  - intros s X. rewrite F. f_equal. apply quadratic_ellipse; assumption.
  - intros s t v X E. rewrite F in E. apply Ok_inj in E. subst v. apply quadratic_below; assumption.
  - intros s t v X E. rewrite F in E. apply Ok_inj in E. subst v. apply quadratic_beyond; assumption.
  - intros s t1 t2 v1 v2 L E1 E2. rewrite F in E1, E2. apply Ok_inj in E1. apply Ok_inj in E2. subst.
    apply quadratic_lt; [exact T|]. pose proof (Rabs_pos t1). lra.
Qed.

(** C59: Adam's criterion classifies with respect to the plotted curve for scaling factors between
    0.55 and 1, ... *)
Theorem C59_adam_partial sf om rho : 55 / 100 <= sf <= 1 ->
  classifies (stress_envelope1 "adam_unpublished" sf om rho) (failure_envelope_adam sf om) (616 / 100 * rpow sf om).
Proof.
  intros H. pose proof (rpow_pos sf om ltac:(lra)).
  apply quadratic_classifies; try lra. intros s t. unfold stress_envelope1, adam_critical. cbn [String.eqb Ascii.eqb Bool.eqb].
  rewrite !Rltb_false by lra. reflexivity.
Qed.
Print Assumptions C59_adam_partial.
(** ... Schottner's for all positive densities; ... *)
Theorem C59_schottner sf om rho : 0 < rho ->
  classifies (stress_envelope1 "schottner" sf om rho) (failure_envelope_schottner om rho) (2000 * 13 * rpow (rho / (9167 / 10)) om).
Proof.
  intros H. pose proof (rpow_pos (rho / (9167 / 10)) om ltac:(lra)).
  apply quadratic_classifies; try lra. intros s t. reflexivity.
Qed.
Print Assumptions C59_schottner.
(** ... outside of this range Adam's criterion is not 1 on the plotted curve, because only the
    criterion limits the scaling factor and changes the exponent; ... *)
Theorem C59_adam_refuted :
  (exists v, stress_envelope1 "adam_unpublished" 2 1 250 0 (failure_envelope_adam 2 1 0) = Ok v /\ 1 < v) /\
  (exists v, stress_envelope1 "adam_unpublished" (1 / 2) 1 250 0 (failure_envelope_adam (1 / 2) 1 0) = Ok v /\ v < 1).
Proof.
  assert (E : forall sf, 0 < sf -> failure_envelope_adam sf 1 0 = 509 / 100 * sf).
  { intros sf H. unfold failure_envelope_adam, ellipse. rewrite rpow_Rpower, Rpower_1 by exact H.
    rewrite Rleb_true, Rleb_true by lra. cbn [andb]. replace (1 - 0 ^ 2 / (616 / 100 * sf) ^ 2) with 1 by (field; lra).
    rewrite sqrt_1. ring. }
  split; eexists; (split; [reflexivity|]); rewrite E by lra; unfold quadratic, adam_critical; cbn [fst snd]; rewrite Rabs_R0.
  - rewrite (Rltb_true 1 2) by lra. rewrite (Rltb_false 2) by lra. rewrite Rabs_right by lra.
    rewrite rpow_Rpower by lra. pose proof (exp_pos (7 / 10 * ln 2)) as P. fold (Rpower 2 (7 / 10)) in P.
    assert (Q : Rpower 2 (7 / 10) < 2).
    { rewrite <- (Rpower_1 2) at 2 by lra. apply Rpower_lt; lra. }
    set (p := Rpower 2 (7 / 10)) in *. replace ((0 / (616 / 100 * p)) ^ 2) with 0 by (field; lra).
    replace ((509 / 100 * 2 / (509 / 100 * p)) ^ 2) with ((2 / p) ^ 2) by (field; lra).
    assert (1 < 2 / p). { apply Rmult_lt_reg_r with p; [exact P|]. unfold Rdiv. rewrite Rmult_assoc, Rinv_l by lra. lra. } nra.
  - rewrite (Rltb_false 1) by lra. rewrite (Rltb_true (1 / 2)) by lra. rewrite Rabs_right by lra.
    rewrite rpow_Rpower, Rpower_1 by lra.
    replace ((0 / (616 / 100 * (55 / 100))) ^ 2) with 0 by field. 
    replace ((509 / 100 * (1 / 2) / (509 / 100 * (55 / 100))) ^ 2) with (100 / 121) by field. lra.
Qed.
Print Assumptions C59_adam_refuted.
(** ... the three Mede criteria report failure for zero stress, decrease with shear stress and are
    not 1 on the curved part of the plotted envelope. *)
Definition mede_pairs : list (string * string) :=
  [("mede_s-RG1", "s-RG1"); ("mede_s-RG2", "s-RG2"); ("mede_s-FCDH", "s-FCDH")]%string.
Theorem C59_mede_refuted : forall pr, In pr mede_pairs ->
  let f := stress_envelope1 (fst pr) 1 1 250 in
  (exists v, f 0 0 = Ok v /\ 1 < v) /\
  (exists t1 t2 v1 v2, 0 <= t1 < t2 /\ f 0 t1 = Ok v1 /\ f 0 t2 = Ok v2 /\ v2 < v1) /\
  (exists s t v, failure_envelope_mede (snd pr) s = Ok t /\ 0 < t /\ f s t = Ok v /\ v <> 1).
Proof.
  assert (W : forall p0 tT pT, 0 < p0 -> 0 < tT -> 0 < pT -> pT < p0 -> 
    1 < mede_value (p0, tT, pT) (Rabs 0) (Rabs 0) /\
    mede_value (p0, tT, pT) (Rabs 0) (Rabs 1) < mede_value (p0, tT, pT) (Rabs 0) (Rabs 0)).
  { intros p0 tT pT A B C D. unfold mede_value. rewrite Rabs_R0, Rabs_R1. rewrite Rltb_false, Rleb_true, Rleb_true by lra. cbn [andb].
    assert (1 < p0 / pT). { apply Rmult_lt_reg_r with pT; [exact C|]. unfold Rdiv. rewrite Rmult_assoc, Rinv_l by lra. lra. }
    assert (0 < p0 / (tT * pT)). { apply Rdiv_lt_0_compat; [exact A|]. apply Rmult_lt_0_compat; assumption. }
    split; lra. }
  assert (V : forall p0 tT pT, 0 < p0 -> 0 < tT -> 0 < pT -> let s := pT + p0 / 2 in
    let t := sqrt (tT ^ 2 - tT ^ 2 / p0 ^ 2 * (s - pT) ^ 2) in
    0 < t /\ mede_value (p0, tT, pT) (Rabs s) (Rabs t) = tT ^ 2).
  { intros p0 tT pT A B C s t. assert (E : tT ^ 2 - tT ^ 2 / p0 ^ 2 * (s - pT) ^ 2 = 3 / 4 * tT ^ 2) by (unfold s; field; lra).
    assert (Q : 0 < 3 / 4 * tT ^ 2) by nra.
    assert (T0 : 0 < t) by (unfold t; rewrite E; apply sqrt_lt_R0; exact Q). split; [exact T0|].
    unfold mede_value. rewrite !Rabs_right by (unfold s; lra). rewrite Rltb_true by (unfold s; lra).
    replace (t ^ 2) with (3 / 4 * tT ^ 2). { unfold s. field. lra. }
    unfold t. rewrite E, <- (Rsqr_pow2 (sqrt _)), Rsqr_sqrt by lra. reflexivity. }
  intros pr [<-|[<-|[<-|[]]]]; cbn [fst snd].
  - destruct (W 7 (353 / 100) (149 / 100)) as [W1 W2]; try lra. destruct (V 7 (353 / 100) (149 / 100)) as [V1 V2]; try lra.
    split; [eexists; split; [reflexivity|exact W1]|]. split.
    + exists 0, 1. do 2 eexists. split; [lra|]. split; [reflexivity|]. split; [reflexivity|exact W2].
    + exists (149 / 100 + 7 / 2). do 2 eexists. split.
      { unfold failure_envelope_mede, mede_RG1. cbn [String.eqb Ascii.eqb Bool.eqb bind].
        rewrite (Rleb_false (149 / 100 + 7 / 2)) by lra. rewrite Rltb_true, !Rleb_true by lra. rewrite andb_false_r. cbn [andb]. reflexivity. }
      split; [exact V1|]. split; [unfold stress_envelope1, mede_RG1; cbn [String.eqb Ascii.eqb Bool.eqb]; rewrite V2; reflexivity|]. lra.
  - destruct (W (233 / 100) (122 / 100) (19 / 100)) as [W1 W2]; try lra. destruct (V (233 / 100) (122 / 100) (19 / 100)) as [V1 V2]; try lra.
    split; [eexists; split; [reflexivity|exact W1]|]. split.
    + exists 0, 1. do 2 eexists. split; [lra|]. split; [reflexivity|]. split; [reflexivity|exact W2].
    + exists (19 / 100 + 233 / 100 / 2). do 2 eexists. split.
      { unfold failure_envelope_mede, mede_RG2. cbn [String.eqb Ascii.eqb Bool.eqb bind].
        rewrite (Rleb_false (19 / 100 + 233 / 100 / 2)) by lra. rewrite Rltb_true, !Rleb_true by lra. rewrite andb_false_r. cbn [andb]. reflexivity. }
      split; [exact V1|]. split; [unfold stress_envelope1, mede_RG2; cbn [String.eqb Ascii.eqb Bool.eqb]; rewrite V2; reflexivity|]. lra.
  - destruct (W (145 / 100) (61 / 100) (17 / 100)) as [W1 W2]; try lra. destruct (V (145 / 100) (61 / 100) (17 / 100)) as [V1 V2]; try lra.
    split; [eexists; split; [reflexivity|exact W1]|]. split.
    + exists 0, 1. do 2 eexists. split; [lra|]. split; [reflexivity|]. split; [reflexivity|exact W2].
    + exists (17 / 100 + 145 / 100 / 2). do 2 eexists. split.
      { unfold failure_envelope_mede, mede_FCDH. cbn [String.eqb Ascii.eqb Bool.eqb bind].
        rewrite (Rleb_false (17 / 100 + 145 / 100 / 2)) by lra. rewrite Rltb_true, !Rleb_true by lra. rewrite andb_false_r. cbn [andb]. reflexivity. }
      split; [exact V1|]. split; [unfold stress_envelope1, mede_FCDH; cbn [String.eqb Ascii.eqb Bool.eqb]; rewrite V2; reflexivity|]. lra.
Qed.
Print Assumptions C59_mede_refuted.
(** A stress on Adam's curve: 3.08 kPa compression at scaling factor 1. *)
Example C59_example : failure_envelope_adam 1 1 (308 / 100) = 509 / 100 * sqrt (3 / 4) /\
  stress_envelope1 "adam_unpublished" 1 1 250 (308 / 100) (failure_envelope_adam 1 1 (308 / 100)) = Ok 1.
Proof.
  assert (P : rpow 1 1 = 1) by (rewrite rpow_Rpower, Rpower_1 by lra; reflexivity).
  split.
  - unfold failure_envelope_adam, ellipse. rewrite P. rewrite Rleb_true, Rleb_true by lra. cbn [andb].
    replace (1 - (308 / 100) ^ 2 / (616 / 100 * 1) ^ 2) with (3 / 4) by field. ring.
  - apply (cl_curve _ _ _ (C59_adam_partial 1 1 250 ltac:(lra))). rewrite P. lra.
Qed.

(** C60: the criterion is non-negative, zero without driving force and strictly increasing in the
    magnitude of either energy release rate; on the plotted envelope it is between 0.994 and 1. *)
Theorem C60_partial :
  (forall a b, 0 <= fracture_toughness_criterion a b) /\
  fracture_toughness_criterion 0 0 = 0 /\
  (forall a1 b1 a2 b2, Rabs a1 <= Rabs a2 -> Rabs b1 <= Rabs b2 -> Rabs a1 < Rabs a2 \/ Rabs b1 < Rabs b2 ->
     fracture_toughness_criterion a1 b1 < fracture_toughness_criterion a2 b2) /\
  (forall G, 0 <= G <= 56 / 100 ->
     994 / 1000 <= fracture_toughness_criterion G (fracture_toughness_envelope G) <= 1).
Proof.
  split; [|split; [|split]].
  - intros a b. unfold fracture_toughness_criterion. pose proof (Rabs_pos a). pose proof (Rabs_pos b).
    pose proof (rpow_nonneg (Rabs a / (56 / 100)) (1 / (2 / 10)) ltac:(lra)). pose proof (rpow_nonneg (Rabs b / (79 / 100)) (1 / (45 / 100)) ltac:(lra)). lra.
  - unfold fracture_toughness_criterion. rewrite Rabs_R0.
    replace (0 / (56 / 100)) with 0 by lra. replace (0 / (79 / 100)) with 0 by lra.
    rewrite !rpow_0 by (apply Rgt_not_eq; lra). lra.
  - exact criterion_increasing.
  - intros G H. destruct (criterion_on_envelope G H) as [Y ->]. set (y := 1 - _) in *.
    destruct (Req_dec y 0) as [->|N]; [rewrite rpow_0 by lra; lra|].
    pose proof (gap_bound y ltac:(lra)). unfold gap in *. lra.
Qed.
Print Assumptions C60_partial.
(** It is below 1 everywhere on the envelope except at its two end points: criterion and envelope
    use the exponents 1/0.45 and 2.2. *)
Theorem C60_refuted : forall G, 0 < G < 56 / 100 ->
  fracture_toughness_criterion G (fracture_toughness_envelope G) < 1.
Proof.
  intros G H. destruct (criterion_on_envelope G ltac:(lra)) as [Y E]. rewrite E. clear E. 
  assert (Y1 : 0 < rpow (G / (56 / 100)) 5) by (apply rpow_pos; lra).
  assert (Y2 : rpow (G / (56 / 100)) 5 < rpow 1 5) by (apply rpow_lt; lra).
  assert (O : rpow 1 5 = 1) by (rewrite rpow_Rpower by lra; unfold Rpower; rewrite ln_1, Rmult_0_r; apply exp_0).
  set (y := 1 - _) in *. pose proof (gap_strict y ltac:(unfold y; lra)). unfold gap in *. lra.
Qed.
Print Assumptions C60_refuted.
(** End points of the envelope. *)
Example C60_example : fracture_toughness_criterion (56 / 100) 0 = 1 /\ fracture_toughness_criterion 0 (79 / 100) = 1.
Proof.
  assert (O : forall e, rpow 1 e = 1) by (intros e; rewrite rpow_Rpower by lra; unfold Rpower; rewrite ln_1, Rmult_0_r; apply exp_0).
  unfold fracture_toughness_criterion. rewrite !Rabs_R0, !Rabs_right by lra.
  replace (56 / 100 / (56 / 100)) with 1 by lra. replace (79 / 100 / (79 / 100)) with 1 by lra.
  replace (0 / (79 / 100)) with 0 by lra. replace (0 / (56 / 100)) with 0 by lra.
  rewrite !O, !rpow_0 by (apply Rgt_not_eq; lra). lra.
Qed.
