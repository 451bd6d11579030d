(** Property C120: the critical weight of a skier exists, is unique, and is found with a known accuracy. *)
From Coquelicot Require Import Coquelicot.
Require Import Verif.Py Verif.MTools Verif.MEigen Verif.MFields Verif.SAdm Verif.SSlab Verif.MRaster Verif.MSolution Verif.MAnalysis Verif.SBvp Verif.SEig Verif.SSegment Verif.SExact
  Verif.MEnvelope Verif.MCriterion Verif.SCritical Verif.PSetup Verif.PLinAlg Verif.PEnvelope Verif.PForce Verif.PCreate2 Verif.PExact3 Verif.PropExact Verif.PropCross2 Verif.PCritical Verif.PCritical2 Verif.PCritical4 Verif.PCritical5 Verif.PCritical6 Verif.PCritical7.
Open Scope R_scope.
Notation env e := (stress_envelope1 (e_name e) (e_sf e) (e_om e) (e_rho e)).
(** The model of one profile as a function of the weight of the skier. *)
Notation model eig solve brent maxeval layers phi li ki E t := (fun w => create_skier_object eig solve brent maxeval (LList layers) w phi li ki false E t).

Section T.
Variable eig : mat6 -> list eigpair.
Variable solve : nat -> matrix -> vector -> res vector.
Variable brent : R -> R -> list (R * R) -> bstep.
Variable maxeval : nat.
Variables (layers : list layer) (phi E t : R) (li : list R) (ki : list bool).
Notation create := (model eig solve brent maxeval layers phi li ki E t).
(** Value of the envelope for the stresses of the slab alone. *)
Definition rest_value (e : envp) : res R :=
  env e (- (1000 * (weight_per_area layers * cos (deg2rad phi)))) (- (1000 * (weight_per_area layers * sin (deg2rad phi)))).

(** Every weight gives a model, and the stresses of each sample are affine functions of the weight. *)
Theorem C120_affine : setting eig solve layers li ki E t ->
  exists s0 s1 t0 t1 : list R, s0 <> [] /\ List.length s1 = List.length s0 /\ List.length t0 = List.length s0 /\ List.length t1 = List.length s0 /\
  forall w, exists k, create w = Ok k /\ List.length (k_sig k) = List.length s0 /\ List.length (k_tau k) = List.length s0 /\
    forall i, (i < List.length s0)%nat -> sample k i (nth i s0 0 + w * nth i s1 0) (nth i t0 0 + w * nth i t1 0).
Proof. intros St. exact (affine_model eig solve brent maxeval layers phi E t li ki St). Qed.

(** Without a skier every sample carries the components of the weight of the slab. *)
Theorem C120_rest e : setting eig solve layers li ki E t -> layers <> [] -> quadratic_envelope e ->
  (exists k, create 0 = Ok k /\ forall i, (i < List.length (k_sig k))%nat ->
     sample k i (- (1000 * (weight_per_area layers * cos (deg2rad phi)))) (- (1000 * (weight_per_area layers * sin (deg2rad phi))))) /\
  forall M, peak_of create (env e) 0 M <-> rest_value e = Ok M.
Proof.
  intros St N Q. destruct (affine_model eig solve brent maxeval layers phi E t li ki St) as (s0 & s1 & t0 & t1 & N0 & L1 & L2 & L3 & W).
  destruct (W 0) as (k & K & S & T & I). pose proof (rest_samples eig solve brent maxeval layers phi E t li ki St k) as RS.
  assert (A : forall i, (i < List.length (k_sig k))%nat -> sample k i (- (1000 * (weight_per_area layers * cos (deg2rad phi)))) (- (1000 * (weight_per_area layers * sin (deg2rad phi))))).
  { intros i Hi. rewrite S in Hi. pose proof (I i Hi) as H. destruct (RS i _ _ N K H) as [E1 E2]. rewrite E1, E2 in H. exact H. }
  split; [exists k; auto|]. intros M. unfold rest_value. split.
  - intros (k' & K' & ((i & a & b & Hs & V) & _)). cbv beta in K'. rewrite K in K'. apply Ok_inj in K'. subst k'. destruct (RS i _ _ N K Hs) as [-> ->]. exact V.
  - intros V. exists k. split; [exact K|]. split.
    + exists 0%nat. eexists _, _. split; [apply A; rewrite S; destruct s0; [congruence|simpl; lia]|exact V].
    + intros i a b v Hs V'. destruct (RS i _ _ N K Hs) as [-> ->]. rewrite V in V'. apply Ok_inj in V'. lra.
Qed.

(** There is at most one critical weight: lighter skiers stay below the envelope everywhere and heavier
    ones exceed it somewhere. *)
Theorem C120_threshold e M0 w : setting eig solve layers li ki E t -> layers <> [] -> quadratic_envelope e -> rest_value e = Ok M0 -> M0 < 1 ->
  critical create (env e) w ->
  (forall u M, peak_of create (env e) u M -> (0 <= u < w -> M < 1) /\ (w < u -> 1 < M)) /\
  forall w', critical create (env e) w' -> w' = w.
Proof.
  intros St N Q R0 L C. pose proof (proj2 (proj2 (C120_rest e St N Q) M0) R0) as P0.
  pose proof (fun u M => threshold_model eig solve brent maxeval layers phi E t li ki St e w Q C M0 u M P0 L) as T.
  split; [exact T|]. intros w' [Hw P]. destruct (T w' 1 P) as [T1 T2]. destruct (Rtotal_order w' w) as [G|[G|G]]; [|exact G|]; exfalso; [specialize (T1 ltac:(lra))|specialize (T2 G)]; lra.
Qed.

(** If segments and load are symmetric and the slope is not vertical, there is a critical weight. *)
Theorem C120_exists e M0 j m : setting eig solve layers li ki E t -> layers <> [] -> quadratic_envelope e -> rest_value e = Ok M0 -> M0 < 1 ->
  rev li = li -> List.length li = (2 * S j)%nat -> skier_weights li (List.length li) 1 = Ok m -> nth j m 0 = 1 -> 0 < cos (phi * PI / 180) ->
  exists w, critical create (env e) w.
Proof.
  intros St N Q R0 L Sy Le Em Mj Hc. pose proof (proj2 (proj2 (C120_rest e St N Q) M0) R0) as P0.
  apply (exists_model eig solve brent maxeval layers phi E t li ki St e Q).
  - destruct (symmetric_matters eig solve brent maxeval layers phi E t li ki St j m Sy Le Em Mj Hc) as (k0 & k1 & i & a & b & a' & b' & K0 & K1 & S0 & S1 & D).
    exists k0, k1, i, a, b, a', b'. split; [exact K0|]. split; [exact K1|]. split; [exact S0|]. split; [exact S1|]. left. lra.
  - intros M P. apply (proj2 (C120_rest e St N Q)) in P. rewrite R0 in P. apply Ok_inj in P. lra.
Qed.

(** The result of the search is 0, or it is 1 and one kilogram suffices, or its relative error is at most
    one percent divided by the distance of the unloaded slab from failure. *)
Theorem C120_accuracy e M0 w r : setting eig solve layers li ki E t -> layers <> [] -> quadratic_envelope e -> rest_value e = Ok M0 -> M0 < 1 ->
  critical create (env e) w -> find_minimum_force eig solve brent maxeval (LList layers) phi E t e li ki = Ok r ->
  f_weight r = 0 \/ (f_weight r = 1 /\ w <= 1) \/ Rabs (f_weight r - w) <= w * (1 / 100 / (1 - M0)).
Proof.
  intros St N Q R0 L C H. pose proof (proj2 (proj2 (C120_rest e St N Q) M0) R0) as P0.
  exact (accuracy_model eig solve brent maxeval layers phi E t li ki St e w M0 r Q C P0 L H).
Qed.
End T.
Print Assumptions C120_affine.
Print Assumptions C120_rest.
Print Assumptions C120_threshold.
Print Assumptions C120_exists.
Print Assumptions C120_accuracy.

(** A slab of 90 mm of ice at 30 degrees. *)
Lemma ice_setting : setting exact_eig elim_solve [(917, 90)] [5000; 5000] [true; true] (1 / 4) 30.
Proof.
  unfold setting. split; [constructor; [simpl; lra|constructor]|]. split; [lra|]. split; [lra|]. split; [exact elim_sound|]. split; [exact elim_complete|]. split; [exact ice_hyps|].
  split; [simpl; lia|]. split; [reflexivity|]. split; [intros l [<-|[<-|[]]]; lra|]. split; [unfold rsum; simpl; lra|]. exists 1%nat. split; [simpl; lia|]. unfold seg_start, rsum. simpl. lra.
Qed.
Lemma ice_rest : exists M0, rest_value [(917, 90)] 30 (mkEnv "adam_unpublished" 1 1 250) = Ok M0 /\ 0 <= M0 < 1 / 10.
Proof.
  unfold rest_value. cbn [e_name e_sf e_om e_rho].
  unfold stress_envelope1. cbn [String.eqb Ascii.eqb Bool.eqb]. eexists. split; [reflexivity|].
  match goal with |- context [quadratic ?c ?x ?y] => set (C := c); set (X := x); set (Y := y) end.
  assert (R1 : rpow 1 1 = 1). { unfold rpow. destruct (Req_EM_T 1 0) as [Z|_]; [lra|]. apply Rpower_1. lra. }
  assert (EC : C = (616 / 100, 509 / 100)).
  { unfold C, adam_critical, Rltb. cbv zeta. destruct (Rlt_dec 1 1); [lra|]. destruct (Rlt_dec 1 (55 / 100)); [lra|]. rewrite R1. f_equal; ring. }
  assert (B : forall v, -1 <= v <= 1 -> Rabs (- (1000 * (weight_per_area [(917, 90)] * v))) <= 1).
  { intros v Hv. unfold weight_per_area, rsum. cbn [map fold_right fst snd]. rewrite Rabs_Ropp. apply Rabs_le. lra. }
  pose proof (B _ (COS_bound (deg2rad 30))) as BX. pose proof (B _ (SIN_bound (deg2rad 30))) as BY. fold X in BX. fold Y in BY.
  assert (PX : 0 <= X) by apply Rabs_pos. assert (PY : 0 <= Y) by apply Rabs_pos. rewrite EC. unfold quadratic. cbn [fst snd].
  assert (QX : 0 <= X / (616 / 100) <= 1 / 6) by lra. assert (QY : 0 <= Y / (509 / 100) <= 1 / 5) by lra.
  split; [pose proof (pow2_ge_0 (X / (616 / 100))); pose proof (pow2_ge_0 (Y / (509 / 100))); lra|nra].
Qed.
Example C120_example brent maxeval : exists M0 w r,
  let e := mkEnv "adam_unpublished" 1 1 250 in
  let create := model exact_eig elim_solve brent maxeval [(917, 90)] 30 [5000; 5000] [true; true] (1 / 4) 30 in
  setting exact_eig elim_solve [(917, 90)] [5000; 5000] [true; true] (1 / 4) 30 /\ quadratic_envelope e /\ rest_value [(917, 90)] 30 e = Ok M0 /\ M0 < 1 / 10 /\
  critical create (env e) w /\ find_minimum_force exact_eig elim_solve brent maxeval (LList [(917, 90)]) 30 (1 / 4) 30 e [5000; 5000] [true; true] = Ok r /\
  (f_weight r = 0 \/ (f_weight r = 1 /\ w <= 1) \/ Rabs (f_weight r - w) <= w * (12 / 1000)).
Proof.
  destruct ice_rest as (M0 & R0 & P0 & L0). set (e := mkEnv "adam_unpublished" 1 1 250) in *. assert (Q : quadratic_envelope e) by (left; reflexivity).
  assert (Hc : 0 < cos (30 * PI / 180)). { replace (30 * PI / 180) with (PI / 6) by field. rewrite cos_PI6. apply Rdiv_lt_0_compat; [apply sqrt_lt_R0|]; lra. }
  destruct (C120_exists exact_eig elim_solve brent maxeval [(917, 90)] 30 (1 / 4) 30 [5000; 5000] [true; true] e M0 0 [1] ice_setting ltac:(discriminate) Q R0 ltac:(lra) eq_refl eq_refl (halves_weights 1) eq_refl Hc) as [w C].
  destruct (C61_accepted exact_eig elim_solve brent maxeval [(917, 90)] 30 [5000; 5000] [true; true] (1 / 4) 30 e 1) as (r & w' & H & _); try (apply ice_setting); try (left; reflexivity).
  1: simpl; lia.
  1: unfold seg_start, rsum; simpl; lra.
  exists M0, w, r. cbv zeta. split; [exact ice_setting|]. split; [exact Q|]. split; [exact R0|]. split; [exact L0|]. split; [exact C|]. split; [exact H|].
  destruct (C120_accuracy exact_eig elim_solve brent maxeval [(917, 90)] 30 (1 / 4) 30 [5000; 5000] [true; true] e M0 w r ice_setting ltac:(discriminate) Q R0 ltac:(lra) C H) as [A|[A|A]]; [auto|auto|right; right].
  eapply Rle_trans; [exact A|]. destruct C as [Hw _]. apply Rmult_le_compat_l; [lra|]. apply (Rmult_le_reg_r (1 - M0)); [lra|]. replace (1 / 100 / (1 - M0) * (1 - M0)) with (1 / 100) by (field; lra). lra.
Qed.
