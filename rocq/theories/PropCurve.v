(** Property theorems C89: plotted failure curves (examples/criterion_check.py). *)
From Coquelicot Require Import Coquelicot.
Require Import Verif.Py Verif.MTools Verif.MEnvelope Verif.SCurve Verif.PEnvelope Verif.PCurve.
Open Scope R_scope.

(** C89: the quadratic envelopes, ... *)
Theorem C89_quadratic sf om rho : 0 < sf -> 0 < rho ->
  failure_curve (failure_envelope_adam sf om) (- (616 / 100 * rpow sf om)) 0 (616 / 100 * rpow sf om) (509 / 100 * rpow sf om) /\
  let sc := 26000 * rpow (rho / (9167 / 10)) om in
  failure_curve (failure_envelope_schottner om rho) (- sc) 0 sc (509 / 616 * sc).
Proof.
  intros H1 H2. pose proof (rpow_pos sf om H1) as P1. split; [apply ellipse_curve; lra|]. intros sc.
  assert (P2 : 0 < rpow (rho / (9167 / 10)) om) by (apply rpow_pos; apply Rdiv_lt_0_compat; lra).
  unfold failure_envelope_schottner, schottner_critical. cbv zeta. replace (2000 * 13 * rpow (rho / (9167 / 10)) om) with sc by (unfold sc; ring).
  replace (509 / 100 * (sc / (616 / 100))) with (509 / 616 * sc) by lra. assert (0 < sc) by (unfold sc; lra). apply ellipse_curve; lra.
Qed.
Print Assumptions C89_quadratic.
(** ... those of Mede ... *)
Theorem C89_mede sample p0 tT pT :
  (sample, p0, tT, pT) = ("s-RG1"%string, 7, 353 / 100, 149 / 100) \/
  (sample, p0, tT, pT) = ("s-RG2"%string, 233 / 100, 122 / 100, 19 / 100) \/
  (sample, p0, tT, pT) = ("s-FCDH"%string, 145 / 100, 61 / 100, 17 / 100) ->
  exists curve, (forall s, failure_envelope_mede sample s = Ok (curve s)) /\ failure_curve curve (pT - p0) pT (pT + p0) tT.
Proof.
  intros [H|[H|H]]; injection H as -> -> -> ->; (eexists; split; [intros s; reflexivity|apply mede_curve; lra]).
Qed.
Print Assumptions C89_mede.
(** ... and those of Chandel are failure curves; ... *)
Theorem C89_chandel :
  (exists curve, (forall s, failure_envelope_chandel "FCso" s = Ok (curve s)) /\
     failure_curve curve 0 (25 / 10) (75 / 10) (73 / 10 + 25 / 10 * tan (22 * (PI / 180)))) /\
  (exists curve, (forall s, failure_envelope_chandel "FCsf" s = Ok (curve s)) /\ failure_curve curve 0 0 (605 / 100) (41 / 10)).
Proof.
  split.
  - eexists. split; [intros s; reflexivity|]. apply chandel_so; try lra. left. pose proof PI_RGT_0. apply tan_gt_0; [unfold deg2rad; lra|]. unfold deg2rad. lra.
  - eexists. split; [intros s; reflexivity|]. apply chandel_sf; lra.
Qed.
Print Assumptions C89_chandel.
(** ... other samples are rejected. *)
Theorem C89_unknown sample s :
  (~ In sample ["s-RG1"; "s-RG2"; "s-FCDH"]%string -> failure_envelope_mede sample s = Err ValueError) /\
  (~ In sample ["FCso"; "FCsf"]%string -> failure_envelope_chandel sample s = Err ValueError).
Proof.
  split; intros N; unfold failure_envelope_mede, failure_envelope_chandel;
    repeat match goal with |- context [String.eqb sample ?x] => destruct (String.eqb_spec sample x); [subst; exfalso; apply N; cbn [In]; tauto|] end; reflexivity.
Qed.
Print Assumptions C89_unknown.
Example C89_example : 0 < 1 /\ 0 < 250 /\ failure_envelope_adam 1 1 0 = 509 / 100 /\ ~ In "s-RG3"%string ["s-RG1"; "s-RG2"; "s-FCDH"]%string /\
  exists v, failure_envelope_chandel "FCso" 1 = Ok v /\ 73 / 10 < v.
Proof.
  split; [lra|]. split; [lra|]. split.
  - destruct (C89_quadratic 1 1 250 ltac:(lra) ltac:(lra)) as [[_ T _ _ _ _] _]. rewrite T. unfold rpow. destruct (Req_EM_T 1 0); [lra|]. rewrite Rpower_1 by lra. lra.
  - split; [cbn; intuition discriminate|]. eexists. split; [reflexivity|]. unfold Rltb, Rleb. destruct (Rlt_dec (25 / 10) 1); [lra|]. cbn [andb].
    destruct (Rle_dec 1 (25 / 10)); [|lra]. destruct (Rle_dec 0 1); [|lra]. cbn [andb].
    assert (0 < tan (deg2rad 22)); [|lra]. pose proof PI_RGT_0. apply tan_gt_0; unfold deg2rad; lra.
Qed.
