(** Property C121: the minimum force search finds the critical weight. *)
From Coquelicot Require Import Coquelicot.
Require Import Verif.Py Verif.MTools Verif.MEigen Verif.MFields Verif.SAdm Verif.SSlab Verif.MRaster Verif.MSolution Verif.MAnalysis Verif.SBvp Verif.SEig Verif.SSegment Verif.SExact
  Verif.MEnvelope Verif.MCriterion Verif.SCritical Verif.PSetup Verif.PLinAlg Verif.PEnvelope Verif.PForce Verif.PCreate2 Verif.PExact3 Verif.PropExact Verif.PCritical Verif.PCritical2 Verif.PCritical4 Verif.PCritical5 Verif.PCritical6 Verif.PCritical7
  Verif.PCritical8 Verif.PCritical9 Verif.PCritical10 Verif.PCritical11 Verif.PCritical12 Verif.PSnow Verif.PropCritical.
Open Scope R_scope.
Notation env e := (stress_envelope1 (e_name e) (e_sf e) (e_om e) (e_rho e)).

Section T.
Variable eig : mat6 -> list eigpair.
Variable solve : nat -> matrix -> vector -> res vector.
Variable brent : R -> R -> list (R * R) -> bstep.
Variable maxeval : nat.
Variables (layers : list layer) (phi E t : R) (li : list R) (ki : list bool).
Notation create := (model eig solve brent maxeval layers phi li ki E t).

(** If the unloaded slab uses at most a quarter of the envelope and the critical weight lies between 2^-16
    and 2^16 kg, the search never gives up, and it returns the critical weight up to its tolerance, or one
    kilogram if that suffices. *)
Theorem C121_found e M0 w : setting eig solve layers li ki E t -> layers <> [] -> quadratic_envelope e -> rest_value layers phi e = Ok M0 -> M0 <= 1 / 4 ->
  critical create (env e) w -> / 65536 <= w <= 65536 ->
  exists r, find_minimum_force eig solve brent maxeval (LList layers) phi E t e li ki = Ok r /\
    (f_weight r = 1 /\ w <= 1 \/ Rabs (f_weight r - w) <= w * (1 / 100 / (1 - M0))).
Proof.
  intros St N Q R0 L C B. pose proof (proj2 (proj2 (C120_rest eig solve brent maxeval layers phi E t li ki e St N Q) M0) R0) as P0.
  destruct (found_model eig solve brent maxeval layers phi E t li ki St e w M0 Q C P0 L B) as (r & H & Z). exists r. split; [exact H|].
  destruct (C120_accuracy eig solve brent maxeval layers phi E t li ki e M0 w r St N Q R0 ltac:(lra) C H) as [A|A]; [contradiction|exact A].
Qed.

(** Under the load of a symmetric model the weak layer carries the slab and at least the load that deflects
    a tent of the two adjacent segments. *)
Theorem C121_stress j m o w : setting eig solve layers li ki E t -> layers <> [] -> rev li = li -> List.length li = (2 * S j)%nat ->
  skier_weights li (List.length li) 1 = Ok m -> nth j m 0 = 1 -> 0 < nth j li 0 -> 0 < cos (phi * PI / 180) -> Layered eig "skiers" (LList layers) false = Ok o -> 0 <= w ->
  let p := o_par (set_foundation_properties eig o t E (1 / 4) true) in
  exists k i a b, create w = Ok k /\ sample k i a b /\
    a <= - (1000 * (weight_per_area layers * cos (deg2rad phi))) - 1000 * kn p * (w * 9810 / 1000 / 1000 * cos (phi * PI / 180) / (2 * tent_stiffness p (nth j li 0))).
Proof. intros St. exact (stress_model eig solve brent maxeval layers phi E t li ki St j m o w). Qed.

(** So the critical weight is at most the one whose tent stress reaches the compressive strength. *)
Theorem C121_upper e j m o w sc : setting eig solve layers li ki E t -> layers <> [] -> quadratic_envelope e -> rev li = li -> List.length li = (2 * S j)%nat ->
  skier_weights li (List.length li) 1 = Ok m -> nth j m 0 = 1 -> 0 < nth j li 0 -> 0 < cos (phi * PI / 180) -> Layered eig "skiers" (LList layers) false = Ok o ->
  critical create (env e) w -> 0 < sc -> env e (- sc) 0 = Ok 1 ->
  let p := o_par (set_foundation_properties eig o t E (1 / 4) true) in
  1000 * (weight_per_area layers * cos (deg2rad phi)) + 1000 * kn p * (w * 9810 / 1000 / 1000 * cos (phi * PI / 180) / (2 * tent_stiffness p (nth j li 0))) <= sc.
Proof.
  intros St N Q Sy Len Em Mj Lj Hc Lo [Hw (k & K & _ & U)] Hs V p.
  destruct (C121_stress j m o w St N Sy Len Em Mj Lj Hc Lo ltac:(lra)) as (k' & i & a & b & K' & S & A). fold p in A. cbv beta in K, K'. rewrite K in K'. apply Ok_inj in K'. subst k'.
  destruct (quadratic_value e Q) as (sc' & tc & Hs' & Ht & F). pose proof (U i a b _ S (F a b)) as G. rewrite F in V. apply Ok_inj in V.
  assert (sc' = sc).
  { replace (0 / tc) with 0 in V by (field; lra). assert (E1 : (sc / sc') ^ 2 = 1) by (replace ((sc / sc') ^ 2) with ((- sc / sc') ^ 2 + 0 ^ 2) by (field; lra); exact V).
    assert (P : 0 < sc / sc') by (apply Rdiv_lt_0_compat; assumption). assert (E2 : sc / sc' = 1) by nra. apply (Rmult_eq_compat_r sc') in E2. unfold Rdiv in E2. rewrite Rmult_assoc, Rinv_l in E2 by lra. lra. }
  subst sc'. assert (B : (a / sc) ^ 2 <= 1) by (pose proof (pow2_ge_0 (b / tc)); lra). assert (B' : - 1 <= a / sc) by nra.
  apply (Rmult_le_compat_r sc) in B'; [|lra]. unfold Rdiv in B' at 1. rewrite Rmult_assoc, Rinv_l in B' by lra. lra.
Qed.

(** The bounds are needed: for every symmetric model there is a strength of the weak layer above which the
    search reports 0 kg, although a critical weight exists. *)
Theorem C122_gives_up j m : setting eig solve layers li ki E t -> layers <> [] -> rev li = li -> List.length li = (2 * S j)%nat ->
  skier_weights li (List.length li) 1 = Ok m -> nth j m 0 = 1 -> 0 < nth j li 0 -> 0 < cos (phi * PI / 180) ->
  exists s0, 1 <= s0 /\ forall sc, s0 <= sc -> exists M0 w r, rest_value layers phi (strength sc) = Ok M0 /\ M0 <= 1 / 4 /\ critical create (env (strength sc)) w /\
    find_minimum_force eig solve brent maxeval (LList layers) phi E t (strength sc) li ki = Ok r /\ f_weight r = 0.
Proof.
  intros St N Sy Len Em Mj Lj Hc. destruct (gives_up_model eig solve brent maxeval layers phi E t li ki St j m N Sy Len Em Mj Lj Hc) as (s0 & P & H).
  exists s0. split; [exact P|]. intros sc Hsc. destruct (H sc Hsc) as (M0 & w & r & A & B). exists M0, w, r. split; [|exact B].
  apply (proj2 (C120_rest eig solve brent maxeval layers phi E t li ki (strength sc) St N (strength_quadratic sc ltac:(lra)))). exact A.
Qed.
End T.
Print Assumptions C121_found.
Print Assumptions C122_gives_up.
Print Assumptions C121_stress.
Print Assumptions C121_upper.

(** 90 mm of snow of 300 kg/m3 on a slope of 30 degrees, 1.4 m long. *)
Lemma snow_setting : setting exact_eig elim_solve [(snow_rho, 90)] [700; 700] [true; true] (1 / 4) 30.
Proof.
  unfold setting. split; [constructor; [simpl; unfold snow_rho; lra|constructor]|]. split; [lra|]. split; [lra|]. split; [exact elim_sound|]. split; [exact elim_complete|]. split; [exact snow_hyps|].
  split; [simpl; lia|]. split; [reflexivity|]. split; [intros l [<-|[<-|[]]]; lra|]. split; [unfold rsum; simpl; lra|]. exists 1%nat. split; [simpl; lia|]. unfold seg_start, rsum. simpl. lra.
Qed.
Lemma snow_weights w : skier_weights [700; 700] 2 w = Ok [w].
Proof.
  unfold skier_weights. cbn [Nat.eqb]. unfold rsum. cbn [fold_right median_loop].
  unfold Rleb, Reqb. repeat (destruct (Rle_dec _ _); try lra). repeat (destruct (Req_EM_T _ _); try lra). reflexivity.
Qed.
Lemma cos30 : 86 / 100 <= cos (30 * PI / 180) <= 1.
Proof.
  split; [|apply COS_bound]. replace (30 * PI / 180) with (PI / 6) by field. rewrite cos_PI6. assert (172 / 100 <= sqrt 3); [|lra].
  rewrite <- (sqrt_Rsqr (172 / 100)) by lra. apply sqrt_le_1_alt. unfold Rsqr. lra.
Qed.
Lemma sin30 : sin (30 * PI / 180) = 1 / 2.
Proof. replace (30 * PI / 180) with (PI / 6) by field. apply sin_PI6. Qed.
Example C121_example brent maxeval : exists sc M0 r,
  let e := strength sc in
  let create := model exact_eig elim_solve brent maxeval [(snow_rho, 90)] 30 [700; 700] [true; true] (1 / 4) 30 in
  0 < sc /\ setting exact_eig elim_solve [(snow_rho, 90)] [700; 700] [true; true] (1 / 4) 30 /\ quadratic_envelope e /\ rest_value [(snow_rho, 90)] 30 e = Ok M0 /\ M0 <= 1 / 4 /\
  critical create (env e) 80 /\ find_minimum_force exact_eig elim_solve brent maxeval (LList [(snow_rho, 90)]) 30 (1 / 4) 30 e [700; 700] [true; true] = Ok r /\
  Rabs (f_weight r - 80) <= 80 / 75.
Proof.
  destruct (strength_peaks exact_eig elim_solve brent maxeval _ 30 _ _ _ _ snow_setting) as (q & Qn & _ & PE). pose proof strength_quadratic as Q.
  (* the slab alone *)
  pose proof cos30 as C30. pose proof sin30 as S30.
  set (W := weight_per_area [(snow_rho, 90)]). assert (HW : 265 / 1000000 <= W <= 266 / 1000000) by (unfold W, weight_per_area, rsum, snow_rho; cbn [map fold_right fst snd]; lra).
  assert (DR : deg2rad 30 = 30 * PI / 180) by (unfold deg2rad; field).
  assert (RV : forall sc, 0 < sc -> rest_value [(snow_rho, 90)] 30 (strength sc) = Ok (q 0 / sc ^ 2)).
  { intros sc H. apply (proj1 (proj2 (C120_rest exact_eig elim_solve brent maxeval _ 30 _ _ _ _ (strength sc) snow_setting ltac:(discriminate) (Q sc H)) _)). apply PE; [exact H|reflexivity]. }
  assert (Q0 : q 0 <= 11 / 100).
  { pose proof (RV 1 ltac:(lra)) as V. unfold rest_value in V. rewrite strength_value in V by lra. apply Ok_inj in V. fold W in V. rewrite DR, S30 in V.
    set (X := 1000 * (W * cos (30 * PI / 180))) in V. assert (HX : 0 <= X <= 266 / 1000) by (unfold X; nra). set (Y := 1000 * (W * (1 / 2))) in V. assert (HY : 0 <= Y <= 133 / 1000) by (unfold Y; lra).
    replace (q 0 / 1 ^ 2) with (q 0) in V by field. rewrite <- V. replace ((- X / 1) ^ 2) with (X ^ 2) by field. replace ((- Y / (509 / 616 * 1)) ^ 2) with ((616 / 509) ^ 2 * Y ^ 2) by field. nra. }
  (* the skier *)
  destruct (snow_object exact_eig "skiers" false) as (o & Lo & Po).
  destruct (C121_stress exact_eig elim_solve brent maxeval [(snow_rho, 90)] 30 (1 / 4) 30 [700; 700] [true; true] 0 [1] o 80 snow_setting ltac:(discriminate) eq_refl eq_refl (snow_weights 1) eq_refl ltac:(simpl; lra) ltac:(lra) Lo ltac:(lra)) as (k & i & a & b & K & Sa & A).
  rewrite Po in A. fold W in A. rewrite DR in A. cbn [nth] in A.
  assert (TS : 0 < tent_stiffness snow_par 700 <= 42 / 10). { unfold tent_stiffness, snow_par, snow_s; cbn [kn kt wt kA55]. split; lra. }
  assert (Ka : kn snow_par = 2 / 225) by (unfold snow_par; cbn [kn]; field).
  assert (HA : a <= - (8 / 10)).
  { rewrite Ka in A. set (C := cos (30 * PI / 180)) in *. set (s := tent_stiffness snow_par 700) in *.
    assert (B : 80 * 9810 / 1000 / 1000 * C / (2 * s) >= 8 / 100). { apply Rle_ge. apply le_quot; [lra|]. lra. }
    assert (0 <= W * C) by nra. assert (2279 / 10000000 <= W * C) by nra. lra. }
  assert (Q80 : 64 / 100 <= q 80).
  { destruct (proj2 (PE 1 80 (q 80 / 1 ^ 2) ltac:(lra)) eq_refl) as (k' & K' & _ & U). cbv beta in K, K'. rewrite K in K'. apply Ok_inj in K'. subst k'.
    pose proof (U i a b _ Sa (strength_value 1 a b ltac:(lra))) as V. replace (q 80 / 1 ^ 2) with (q 80) in V by field. replace (a / 1) with a in V by field. pose proof (pow2_ge_0 (b / (509 / 616 * 1))). nra. }
  set (sc := sqrt (q 80)). assert (Hsc : 0 < sc) by (apply sqrt_lt_R0; lra). assert (S2 : sc ^ 2 = q 80) by (unfold sc; rewrite <- Rsqr_pow2; apply Rsqr_sqrt; lra).
  assert (CR : critical (model exact_eig elim_solve brent maxeval [(snow_rho, 90)] 30 [700; 700] [true; true] (1 / 4) 30) (env (strength sc)) 80).
  { split; [lra|]. apply PE; [exact Hsc|]. rewrite S2. field. lra. }
  assert (M0 : q 0 / sc ^ 2 <= 1 / 4) by (apply quot_le; rewrite S2; lra).
  assert (M0' : 0 <= q 0 / sc ^ 2) by (apply Rmult_le_pos; [apply Qn|left; apply Rinv_0_lt_compat; lra]).
  destruct (C121_found exact_eig elim_solve brent maxeval _ 30 _ _ _ _ (strength sc) (q 0 / sc ^ 2) 80 snow_setting ltac:(discriminate) (Q sc Hsc) (RV sc Hsc) M0 CR ltac:(lra)) as (r & H & D).
  exists sc, (q 0 / sc ^ 2), r. cbv zeta. split; [exact Hsc|]. split; [exact snow_setting|]. split; [exact (Q sc Hsc)|]. split; [exact (RV sc Hsc)|]. split; [exact M0|]. split; [exact CR|]. split; [exact H|].
  destruct D as [[_ D]|D]; [lra|]. eapply Rle_trans; [exact D|]. unfold Rdiv at 4. apply Rmult_le_compat_l; [lra|]. apply quot_le; lra.
Qed.
(** The unrestricted claim is false for the same slab. *)
Theorem C122_gives_up_refuted : exists sc M0 w r,
  let e := strength sc in
  let create := model exact_eig elim_solve (fun _ _ _ => BFail) 0 [(snow_rho, 90)] 30 [700; 700] [true; true] (1 / 4) 30 in
  0 < sc /\ setting exact_eig elim_solve [(snow_rho, 90)] [700; 700] [true; true] (1 / 4) 30 /\ quadratic_envelope e /\ rest_value [(snow_rho, 90)] 30 e = Ok M0 /\ M0 <= 1 / 4 /\
  critical create (env e) w /\ find_minimum_force exact_eig elim_solve (fun _ _ _ => BFail) 0 (LList [(snow_rho, 90)]) 30 (1 / 4) 30 e [700; 700] [true; true] = Ok r /\
  ~ (f_weight r = 1 /\ w <= 1 \/ Rabs (f_weight r - w) <= w * (1 / 100 / (1 - M0))).
Proof.
  pose proof cos30 as C30.
  destruct (C122_gives_up exact_eig elim_solve (fun _ _ _ => BFail) 0 [(snow_rho, 90)] 30 (1 / 4) 30 [700; 700] [true; true] 0 [1] snow_setting ltac:(discriminate) eq_refl eq_refl (snow_weights 1) eq_refl ltac:(simpl; lra) ltac:(lra)) as (s0 & P & H).
  destruct (H s0 ltac:(lra)) as (M0 & w & r & R0 & L & C & F & Z). exists s0, M0, w, r. cbv zeta. split; [lra|]. split; [exact snow_setting|]. split; [apply strength_quadratic; lra|]. split; [exact R0|]. split; [exact L|]. split; [exact C|]. split; [exact F|].
  rewrite Z. destruct C as [Hw _]. intros [[A _]|A]; [lra|]. rewrite Rminus_0_l, Rabs_Ropp, Rabs_pos_eq in A by lra.
  assert (1 / 100 / (1 - M0) <= 1 / 75) by (apply quot_le; lra). nra.
Qed.
Print Assumptions C122_gives_up_refuted.
