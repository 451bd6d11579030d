(** Property theorems C88: self-propagation of cracks (examples/criterion_check.py). *)
From Coquelicot Require Import Coquelicot.
Require Import Verif.Py Verif.MTools Verif.MEigen Verif.MFields Verif.SAdm Verif.SSlab Verif.MRaster
  Verif.MSolution Verif.MAnalysis Verif.SBeam Verif.SBvp Verif.SEig Verif.SEnergy Verif.SContact Verif.SMirror Verif.SEnvelope Verif.MEnvelope Verif.MCriterion
  Verif.SSegment Verif.SExact Verif.SSelf Verif.PLam Verif.PSetup Verif.PLinAlg Verif.PBvp Verif.PWell2 Verif.PBvp6 Verif.PEnergy Verif.PEnergy2 Verif.PContact Verif.PContact3 Verif.PEnvelope Verif.PropEnvelope
  Verif.PCreate Verif.PCreate2 Verif.PExact3 Verif.PropExact Verif.PSelf.
Open Scope R_scope.

(** C88: the check evaluates the toughness criterion, in J/m^2, for the mean energy release rates at the
    tips of the solved model, ... *)
Theorem C88_check eig solve brent maxeval layers w phi (li : list R) (ki : list bool) E t mi :
  pos_layers layers -> 0 < E -> 0 < t -> sound_solver solve -> complete_solver solve ->
  (forall o, Layered eig "skiers" (LList layers) false = Ok o ->
     let p := o_par (set_foundation_properties eig o t E (1 / 4) true) in
     stable p /\ good_eigenpairs (calc_system_matrix p) (eig (calc_system_matrix p))) ->
  (2 <= List.length li)%nat -> List.length ki = List.length li -> nth 0 ki false = true -> last ki false = true ->
  proper_segments li ki -> skier_weights li (List.length ki) w = Ok mi ->
  exists o o1 Cs v b, check_crack_propagation_criterion eig solve brent maxeval (LList layers) phi li ki w E t = Ok (v, b) /\
    Layered eig "skiers" (LList layers) false = Ok o1 /\ o_par o = o_par (set_foundation_properties eig o1 t E (1 / 4) true) /\
    ready o /\ bvp o 0 phi li mi ki Cs /\ (b = true <-> 1 <= v) /\ 0 <= v /\
    forall weight, tip_weights ki (List.length li) weight ->
    let z := end_state o phi li ki Cs in
    let n := (List.length li - 1)%nat in
    v = fracture_toughness_criterion (1000 * tip_sum ki n (fun j => weight j * GI (o_par o) (z j)))
          (1000 * tip_sum ki n (fun j => weight j * GII (o_par o) (z j))).
Proof.
  intros P HE Ht So Co G N2 Lk K0 K1 Pr Em.
  destruct (check_value eig solve brent maxeval layers E t P HE Ht So Co G w phi li ki mi N2 Lk K0 K1 Pr Em) as (k & o & v & H1 & H2 & H3 & H4 & H5 & H6 & H7 & H8).
  exists (k_obj k), o, (k_C k), v, (Rleb 1 v). split.
  { unfold check_crack_propagation_criterion. rewrite H1. cbn [bind]. rewrite H6. reflexivity. }
  split; [exact H2|]. split; [apply H3|]. split; [exact H4|]. split; [exact H5|]. split.
  { unfold Rleb. destruct (Rle_dec 1 v) as [X|X]; split; intros Y; congruence || contradiction || reflexivity. }
  split; [|exact H8]. unfold differential in H6. destruct (gdif _ _ _ _ _ _ _) as [[[g g1] g2]|]; [|discriminate]. cbn [bind] in H6. apply Ok_inj in H6. subst v.
  unfold fracture_toughness_criterion. apply Rplus_le_le_0_compat; apply rpow_nonneg; apply Rmult_le_pos; try apply Rabs_pos; lra.
Qed.
Print Assumptions C88_check.

(** ... for a crack in the middle of a slab 1000 times as long as thick both tips count half, ... *)
Theorem C88_objective eig solve brent maxeval layers phi E t a target :
  pos_layers layers -> 0 < E -> 0 < t -> sound_solver solve -> complete_solver solve ->
  (forall o, Layered eig "skiers" (LList layers) false = Ok o ->
     let p := o_par (set_foundation_properties eig o t E (1 / 4) true) in
     stable p /\ good_eigenpairs (calc_system_matrix p) (eig (calc_system_matrix p))) ->
  let li := middle_crack (1000 * rsum (map snd layers)) a in
  0 < a < 1000 * rsum (map snd layers) ->
  exists o o1 Cs v, g_delta_diff_objective eig solve brent maxeval a (LList layers) phi E t target = Ok (v - target) /\
    (exists b, check_crack_propagation_criterion eig solve brent maxeval (LList layers) phi li middle_support 0 E t = Ok (v, b)) /\
    Layered eig "skiers" (LList layers) false = Ok o1 /\ o_par o = o_par (set_foundation_properties eig o1 t E (1 / 4) true) /\
    ready o /\ bvp o 0 phi li [0; 0; 0] middle_support Cs /\
    let z := end_state o phi li middle_support Cs in
    v = fracture_toughness_criterion (1000 * ((GI (o_par o) (z 0%nat) + GI (o_par o) (z 2%nat)) / 2))
          (1000 * ((GII (o_par o) (z 0%nat) + GII (o_par o) (z 2%nat)) / 2)) /\
    (phi = 0 -> v = fracture_toughness_criterion (1000 * GI (o_par o) (z 0%nat)) (1000 * GII (o_par o) (z 0%nat))).
Proof.
  intros P HE Ht So Co G li H.
  destruct (crack_value eig solve brent maxeval layers E t P HE Ht So Co G phi a H) as (k & o & v & H1 & H2 & H3 & H4 & H5 & H6 & H7).
  exists (k_obj k), o, (k_C k), v. split.
  { rewrite objective_eq, H1. cbn [bind]. rewrite H6. reflexivity. }
  split. { exists (Rleb 1 v). unfold check_crack_propagation_criterion. unfold li. rewrite H1. cbn [bind]. rewrite H6. reflexivity. }
  split; [exact H2|]. split; [apply H3|]. split; [exact H4|]. split; [exact H5|]. split; [exact H7|].
  intros ->. cbv zeta in H7. rewrite H7. unfold mean_of.
  assert (Kd : kind_of (o_system (k_obj k)) = Some KSkier).
  { destruct H3 as (_ & _ & -> & _). unfold model_obj, set_foundation_properties. destruct (recalc_system eig (with_weak o E (1 / 4) t)) as [-> _].
    destruct (layered_system eig _ _ _ _ H2) as [X _]. change (o_system (with_weak o E (1 / 4) t)) with (o_system o). rewrite X. reflexivity. }
  assert (St : stable (o_par (k_obj k))) by (destruct H3 as (-> & _); apply (G o H2)).
  pose proof (mirrored_tips (k_obj k) 0 _ a (k_C k) (k_C k) H H4 St Kd H5) as M. rewrite Ropp_0 in M. specialize (M H5).
  destruct (M GI ltac:(auto)) as [M1 _]. destruct (M GII ltac:(auto)) as [M2 _]. fold li in M1, M2 |- *. rewrite <- M1, <- M2. f_equal; lra.
Qed.
Print Assumptions C88_objective.
(** ... the direction of the slope does not matter, ... *)
Theorem C88_slope eig solve brent maxeval layers phi E t a target :
  pos_layers layers -> 0 < E -> 0 < t -> sound_solver solve -> complete_solver solve ->
  (forall o, Layered eig "skiers" (LList layers) false = Ok o ->
     let p := o_par (set_foundation_properties eig o t E (1 / 4) true) in
     stable p /\ good_eigenpairs (calc_system_matrix p) (eig (calc_system_matrix p))) ->
  0 < a < 1000 * rsum (map snd layers) ->
  g_delta_diff_objective eig solve brent maxeval a (LList layers) (- phi) E t target =
  g_delta_diff_objective eig solve brent maxeval a (LList layers) phi E t target.
Proof.
  intros P HE Ht So Co G H.
  destruct (crack_value eig solve brent maxeval layers E t P HE Ht So Co G phi a H) as (k & o & v & H1 & H2 & H3 & H4 & H5 & H6 & H7).
  destruct (crack_value eig solve brent maxeval layers E t P HE Ht So Co G (- phi) a H) as (k' & o' & v' & H1' & _ & _ & _ & H5' & H6' & H7').
  pose proof (same_obj eig solve brent maxeval layers E t G 0 _ _ _ _ _ _ _ H1 H1') as So'. rewrite <- So' in H5', H7'.
  rewrite !objective_eq, H1, H1'. cbn [bind]. rewrite H6, H6'. cbn [bind]. f_equal. f_equal.
  assert (Kd : kind_of (o_system (k_obj k)) = Some KSkier).
  { destruct H3 as (_ & _ & -> & _). unfold model_obj, set_foundation_properties. destruct (recalc_system eig (with_weak o E (1 / 4) t)) as [-> _].
    destruct (layered_system eig _ _ _ _ H2) as [X _]. change (o_system (with_weak o E (1 / 4) t)) with (o_system o). rewrite X. reflexivity. }
  assert (St : stable (o_par (k_obj k))) by (destruct H3 as (-> & _); apply (G o H2)).
  pose proof (mirrored_tips (k_obj k) phi _ a (k_C k) (k_C k') H H4 St Kd H5 H5') as M.
  destruct (M GI ltac:(auto)) as [M1 M2]. destruct (M GII ltac:(auto)) as [M3 M4]. cbv zeta in H7, H7'. rewrite H7, H7'. unfold mean_of. rewrite M1, M2, M3, M4.
  f_equal; lra.
Qed.
Print Assumptions C88_slope.
(** ... and the search ends in one of three ways: without convergence, with ValueError, or with a crack
    length within the accuracy of the root finder of one that does not propagate or just does, and of one
    that propagates. Missing: that no shorter crack propagates. *)
Theorem C88_find_partial eig solve brent maxeval layers phi E t a b delta :
  pos_layers layers -> 0 < E -> 0 < t -> sound_solver solve -> complete_solver solve ->
  (forall o, Layered eig "skiers" (LList layers) false = Ok o ->
     let p := o_par (set_foundation_properties eig o t E (1 / 4) true) in
     stable p /\ good_eigenpairs (calc_system_matrix p) (eig (calc_system_matrix p))) ->
  0 < a <= b -> b < 1000 * rsum (map snd layers) ->
  returns_sign_change brent delta -> (forall h x, brent a b h = BEval x -> a <= x <= b) ->
  let check x := check_crack_propagation_criterion eig solve brent maxeval (LList layers) phi
                   (middle_crack (1000 * rsum (map snd layers)) x) middle_support 0 E t in
  let find := find_min_crack_length_self_propagation eig solve brent maxeval (LList layers) phi E t a b in
  find = Ok None \/ find = Err ValueError \/
  exists r x1 v1 b1 x2 v2, find = Ok (Some r) /\ a <= x1 <= b /\ a <= x2 <= b /\ Rabs (x1 - r) <= delta /\ Rabs (x2 - r) <= delta /\
    check x1 = Ok (v1, b1) /\ v1 <= 1 /\ check x2 = Ok (v2, true).
Proof.
  intros P HE Ht So Co G A B Br In0 check find.
  assert (Def : forall x, a <= x <= b -> exists v, g_delta_diff_objective eig solve brent maxeval x (LList layers) phi E t 1 = Ok v).
  { intros x Hx. destruct (C88_objective eig solve brent maxeval layers phi E t x 1 P HE Ht So Co G ltac:(lra)) as (_ & _ & _ & v & H & _). eexists. exact H. }
  assert (Run : forall fuel hist o, (exists r, fst (brentq_run brent fuel (fun x => fun o => (g_delta_diff_objective eig solve brent maxeval x (LList layers) phi E t 1, o)) a b hist o) = Ok r) \/
    fst (brentq_run brent fuel (fun x => fun o => (g_delta_diff_objective eig solve brent maxeval x (LList layers) phi E t 1, o)) a b hist o) = Err ValueError \/
    fst (brentq_run brent fuel (fun x => fun o => (g_delta_diff_objective eig solve brent maxeval x (LList layers) phi E t 1, o)) a b hist o) = Err RuntimeError).
  { induction fuel as [|fuel IH]; intros hist o; cbn [brentq_run]; destruct (brent a b hist) as [x|r|] eqn:Eb; cbn [fst]; eauto.
    destruct (Def x (In0 _ _ Eb)) as (v & ->). apply IH. }
  unfold find, find_min_crack_length_self_propagation, brentq. specialize (Run maxeval [] (init_obj "skiers" false)).
  destruct (brentq_run brent maxeval _ a b [] (init_obj "skiers" false)) as [[r|e] o'] eqn:Eb; cbn [fst] in Run |- *.
  2:{ destruct Run as [[r X]|[X|X]]; [discriminate|..]; apply (f_equal (fun z => match z with Err e => e | _ => e end)) in X; subst e; auto. }
  right. right. apply brentq_run_ok in Eb; [|intros x v o'' X; congruence]. destruct Eb as (_ & hist & Eh & HI).
  destruct (Br _ _ _ _ Eh) as (x1 & v1 & x2 & v2 & I1 & I2 & S & B1 & B2 & D1 & D2).
  assert (V : forall x v, In (x, v) hist -> check x = Ok (v + 1, Rleb 1 (v + 1))).
  { intros x v I. destruct (HI x v I) as [[]|X]. assert (X' : g_delta_diff_objective eig solve brent maxeval x (LList layers) phi E t 1 = Ok v) by congruence.
    rewrite objective_eq in X'. unfold check, check_crack_propagation_criterion.
    destruct (create_skier_object _ _ _ _ _ _ _ _ _ _ _ _) as [k|e]; [|discriminate]. cbn [bind] in X' |- *. destruct (differential phi k) as [g|e]; [|discriminate]. cbn [bind] in X' |- *.
    apply Ok_inj in X'. subst v. replace (g - 1 + 1) with g by lra. reflexivity. }
  exists r, x1, (v1 + 1), (Rleb 1 (v1 + 1)), x2, (v2 + 1). repeat (split; [first [reflexivity|tauto|exact (V _ _ I1)|lra]|]). rewrite (V _ _ I2). unfold Rleb. destruct (Rle_dec 1 (v2 + 1)); [reflexivity|lra].
Qed.
Print Assumptions C88_find_partial.
(** If both limiting cracks or none of them propagate the search raises ValueError, contrary to its
    documentation (None). *)
Theorem C88_rejected eig solve brent maxeval layers phi E t a b va vb ba bb : rejects_equal_signs brent -> (2 <= maxeval)%nat ->
  let check x := check_crack_propagation_criterion eig solve brent maxeval (LList layers) phi
                   (middle_crack (1000 * rsum (map snd layers)) x) middle_support 0 E t in
  check a = Ok (va, ba) -> check b = Ok (vb, bb) -> va < 1 /\ vb < 1 \/ 1 < va /\ 1 < vb ->
  find_min_crack_length_self_propagation eig solve brent maxeval (LList layers) phi E t a b = Err ValueError.
Proof.
  intros Br M check Ca Cb Sg.
  assert (V : forall x v b0, check x = Ok (v, b0) -> g_delta_diff_objective eig solve brent maxeval x (LList layers) phi E t 1 = Ok (v - 1)).
  { intros x v b0. rewrite objective_eq. unfold check, check_crack_propagation_criterion.
    destruct (create_skier_object _ _ _ _ _ _ _ _ _ _ _ _) as [k|e]; [|discriminate]. cbn [bind]. destruct (differential phi k) as [g|e]; [|discriminate]. cbn [bind].
    intros H. apply Ok_inj in H. injection H as -> _. reflexivity. }
  destruct (Br a b) as (R1 & R2 & R3). unfold find_min_crack_length_self_propagation.
  assert (Va := V _ _ _ Ca). assert (Vb := V _ _ _ Cb). clear V Ca Cb. clear check.
  set (F := fun x => g_delta_diff_objective eig solve brent maxeval x (LList layers) phi E t 1) in *.
  change (F a = Ok (va - 1)) in Va. change (F b = Ok (vb - 1)) in Vb.
  change (match fst (brentq brent maxeval (fun x => fun o => (F x, o)) a b (init_obj "skiers" false)) with Ok r => Ok (Some r) | Err RuntimeError => Ok None | Err e => Err e end = Err ValueError).
  clearbody F. unfold brentq. destruct maxeval as [|[|m]]; [lia|lia|].
  cbn [brentq_run]. rewrite R1, Va, (R2 (va - 1)) by (destruct Sg; [apply Rlt_not_eq|apply Rgt_not_eq]; lra). rewrite Vb.
  assert (Ef : brent a b [(b, vb - 1); (a, va - 1)] = BFail). { apply R3. destruct Sg; nra. }
  destruct m; cbn [brentq_run]; rewrite Ef; reflexivity.
Qed.
Print Assumptions C88_rejected.

(** All hypotheses hold for 90 mm of ice on the default weak layer on a slope of 30 degrees. *)
Example C88_example maxeval : exists o Cs v,
  g_delta_diff_objective exact_eig elim_solve ex_brent maxeval 200 (LList [(917, 90)]) 30 (1 / 4) 30 1 = Ok (v - 1) /\
  bvp o 0 30 (middle_crack (1000 * rsum (map snd [(917, 90)])) 200) [0; 0; 0] middle_support Cs /\ 0 < 200 < 1000 * rsum (map snd [(917, 90)]) /\
  returns_sign_change ex_brent 0 /\ rejects_equal_signs ex_brent /\ (forall h x, ex_brent 1 3000 h = BEval x -> 1 <= x <= 3000) /\
  (exists r, find_min_crack_length_self_propagation exact_eig elim_solve ex_brent maxeval (LList [(917, 90)]) 30 (1 / 4) 30 1 3000 = r /\
     (r = Ok None \/ r = Err ValueError \/ exists x, r = Ok (Some x))).
Proof.
  assert (P : pos_layers [(917, 90)]) by (constructor; [simpl; lra|constructor]).
  assert (T : 1000 * rsum (map snd [(917, 90)]) = 90000) by (unfold rsum; simpl; lra).
  assert (B : forall h x, ex_brent 1 3000 h = BEval x -> 1 <= x <= 3000).
  { intros h x. unfold ex_brent. destruct h as [|[y v] [|]]; [|destruct (Req_EM_T v 0)|discriminate].
    - intros H. injection H as <-. lra.
    - destruct (Rle_dec 1 3000); [destruct (Req_EM_T y 1)|]; discriminate.
    - intros H. injection H as <-. lra. }
  destruct (C88_objective exact_eig elim_solve ex_brent maxeval [(917, 90)] 30 (1 / 4) 30 200 1 P ltac:(lra) ltac:(lra) elim_sound elim_complete ice_hyps ltac:(rewrite T; lra))
    as (o & _ & Cs & v & H1 & _ & _ & _ & _ & H2 & _).
  exists o, Cs, v. split; [exact H1|]. split; [exact H2|]. split; [rewrite T; lra|]. split; [exact ex_brent_sign|]. split; [exact ex_brent_rejects|]. split; [exact B|].
  eexists. split; [reflexivity|].
  destruct (C88_find_partial exact_eig elim_solve ex_brent maxeval [(917, 90)] 30 (1 / 4) 30 1 3000 0 P ltac:(lra) ltac:(lra) elim_sound elim_complete ice_hyps ltac:(lra) ltac:(rewrite T; lra) ex_brent_sign B)
    as [H|[H|(r & _ & _ & _ & _ & _ & H & _)]]; [auto|auto|right; right; eexists; exact H].
Qed.
