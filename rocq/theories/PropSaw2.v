(** C127: on level ground short saw cuts let the tip sink.
    By C126 the deflection of the tip is a parabola of the cut length; its slope at zero is the work of a shear force on its own
    deflection and has the sign of the load. *)
Require Import Verif.Py Verif.MTools Verif.MEigen Verif.MFields Verif.MAnalysis Verif.SAdm Verif.MRaster
  Verif.MSolution Verif.SBeam Verif.SBvp Verif.SEig Verif.SMirror Verif.SSaw Verif.SEnergy Verif.PBeam Verif.PBvp Verif.PBvp2
  Verif.PWell Verif.PWell2 Verif.PWell3 Verif.PBvp6 Verif.PMirror Verif.PEnergy Verif.PEnergy2 Verif.PConvex Verif.PLinAlg Verif.PBeam2 Verif.PSaw Verif.PSaw2.
Open Scope R_scope.

Lemma level_loads o : qt (loads_of o 0) = 0 /\ pt (loads_of o 0) = 0.
Proof. unfold loads_of, get_weight_load, get_surface_load, deg2rad. cbn [qt pt]. rewrite Rmult_0_l, sin_0. split; ring. Qed.

Section T.
Variable eig : mat6 -> list eigpair.
Variable solve : nat -> matrix -> vector -> res vector.
Variables (o : obj) (aslist : bool) (pre mi : list R) (kp : list bool).
(** Saw test on level ground: slab segments [pre] with supports [kp], then a cut; weights [mi] at the joints. *)
Definition level_test : Prop :=
  sound_solver solve /\ complete_solver solve /\ ready o /\ stable (o_par o) /\ kind_of (o_system o) = Some KPst /\ o_mode o = Some ModeA /\
  Forall (fun l => 0 <= l) pre /\ (exists i, (i < List.length pre)%nat /\ nth i kp false = true /\ 0 < nth i pre 0) /\
  List.length kp = List.length pre /\ List.length mi = List.length pre /\ 0 < qn (loads_of o 0) + pn (loads_of o 0).
(** State at the tip of the cut. *)
Definition tip_state (C : list (list R)) : vec6 :=
  let j := (List.length pre - 1)%nat in field o 0 (nth j pre 0) (nth j kp false) (nth j C []) (nth j pre 0).

Lemma level_solved a : level_test -> 0 <= a -> exists C, assemble_and_solve eig solve o aslist 0 (pre ++ [a]) mi (kp ++ [false]) = Ok C /\
  List.length C = List.length (pre ++ [a]) /\ Forall (fun c => List.length c = 6%nat) C.
Proof.
  intros (So & Co & Rd & St & Hk & Hm & Hp & (i & I1 & I2 & I3) & Lk & Lm & _) Ha.
  assert (L2 : (2 <= List.length (pre ++ [a]))%nat) by (rewrite app_length; simpl; lia).
  assert (V : ~ invalid_segments (o_system o) (pre ++ [a]) mi (kp ++ [false])).
  { unfold invalid_segments. intros [A|[A|[A|[A _]]]].
    - specialize (A true ltac:(apply in_or_app; left; rewrite <- I2; apply nth_In; lia)). discriminate.
    - rewrite !app_length in A. simpl in A. lia.
    - rewrite !app_length in A. simpl in A. lia.
    - apply A. unfold finite_ends. unfold kind_of in Hk. destruct (String.eqb_spec (o_system o) "pst-") as [E|_]; [left; exact E|].
      destruct (String.eqb_spec (o_system o) "-pst") as [E|_]; [right; left; exact E|]. cbn [orb] in Hk.
      repeat match type of Hk with context [if ?b then _ else _] => destruct b end; discriminate. }
  assert (P : proper_segments (pre ++ [a]) (kp ++ [false])).
  { split.
    - intros j Hj. assert (In (nth j (pre ++ [a]) 0) (pre ++ [a])) by (apply nth_In; exact Hj). apply in_app_or in H.
      destruct H as [H|[H|[]]]; [rewrite Forall_forall in Hp; apply Hp; exact H|lra].
    - exists i. rewrite app_length, !app_nth1 by lia. repeat split; [simpl; lia|exact I2|exact I3]. }
  destruct (well_posed eig solve o aslist 0 (pre ++ [a]) mi (kp ++ [false]) KPst 0 So Co Rd St L2 V P Hk) as (C & H & _ & L & F & _).
  - rewrite Hm. discriminate.
  - rewrite Hm. discriminate.
  - discriminate.
  - exists C. auto.
Qed.

Lemma level_fbvp a C : level_test -> assemble_and_solve eig solve o aslist 0 (pre ++ [a]) mi (kp ++ [false]) = Ok C ->
  let n := (List.length pre - 1)%nat in exists z,
  fbvp o 0 0 (S n) (fun i => if Nat.leb i n then nth i pre 0 else a) (fun i => nth i mi 0) (fun i => if Nat.leb i n then nth i kp false else false) z /\
  z n (nth n pre 0) = tip_state C.
Proof.
  intros (So & Co & Rd & St & Hk & Hm & Hp & (i & I1 & I2 & I3) & Lk & Lm & _) E n.
  assert (L2 : List.length (pre ++ [a]) = S (S n)) by (rewrite app_length; simpl; unfold n; lia).
  assert (L3 : (2 <= List.length (pre ++ [a]))%nat) by lia.
  assert (B : bvp o 0 0 (pre ++ [a]) mi (kp ++ [false]) C).
  { apply (solved_bvp eig solve o aslist 0 (pre ++ [a]) mi (kp ++ [false]) C KPst 0 So Rd L3 Hk); [|discriminate|exact E]. intros _ E'. rewrite Hm in E'. discriminate. }
  assert (Ne : pre ++ [a] <> []) by (destruct pre; discriminate).
  pose proof (bvp_fbvp o 0 0 _ _ _ _ Rd Ne B) as F. rewrite L2 in F. replace (S (S n) - 1)%nat with (S n) in F by lia.
  eexists. split; [apply (fbvp_ext o 0 0 (S n) _ _ _ _ _ _) with (2 := F)|].
  - intros j Hj. destruct (Nat.leb_spec j n) as [G|G]; [rewrite !app_nth1 by (unfold n in G; lia); auto|].
    assert (j = List.length pre) by (unfold n in *; lia). subst j. rewrite app_nth2, app_nth2, Lk, Nat.sub_diag by lia. auto.
  - cbv beta. unfold tip_state. fold n. rewrite !app_nth1 by (unfold n; lia). reflexivity.
Qed.

(** The deflection of the tip is a parabola of the cut length with positive slope at zero. *)
Theorem C127_parabola : level_test -> exists y c d, 0 < c /\
  forall a C, 0 <= a -> assemble_and_solve eig solve o aslist 0 (pre ++ [a]) mi (kp ++ [false]) = Ok C -> z_w (tip_state C) = y + c * a + d * a ^ 2.
Proof.
  intros Lt. destruct (level_solved 0 Lt ltac:(lra)) as (C0 & S0 & _). destruct (level_solved 1 Lt ltac:(lra)) as (C1 & S1 & _). destruct (level_solved 2 Lt ltac:(lra)) as (C2 & S2 & _).
  destruct (level_fbvp _ _ Lt S0) as (z0 & F0 & E0). destruct (level_fbvp _ _ Lt S1) as (z1 & F1 & E1). destruct (level_fbvp _ _ Lt S2) as (z2 & F2 & E2).
  pose proof Lt as (So & Co & Rd & St & Hk & Hm & Hp & (i & I1 & I2 & I3) & Lk & Lm & Hq). destruct (level_loads o) as [Hqt Hpt]. set (n := (List.length pre - 1)%nat) in *.
  assert (Hl : forall j, (j <= n)%nat -> 0 <= nth j pre 0).
  { intros j Hj. rewrite Forall_forall in Hp. apply Hp, nth_In. unfold n in Hj. lia. }
  assert (Hi : (i <= n)%nat) by (unfold n; lia).
  set (w0 := z_w (tip_state C0)). set (w1 := z_w (tip_state C1)). set (w2 := z_w (tip_state C2)).
  exists w0, (- (3 / 2) * w0 + 2 * w1 - w2 / 2), (w0 / 2 - w1 + w2 / 2). split.
  - pose proof (linear_part o 0 0 n (fun i => nth i pre 0) (fun i => nth i mi 0) (fun i => nth i kp false) i Rd St Hk Hm Hl Hi I2 I3 Hqt Hpt
      0 1 2 (- (3 / 2)) 2 (- (1 / 2)) z0 z1 z2 ltac:(lra) ltac:(lra) ltac:(lra) ltac:(lra) F0 F1 F2 ltac:(lra)) as X.
    cbv beta in X. rewrite E0, E1, E2 in X. unfold mix, combo in X. cbn [z_w] in X. fold w0 w1 w2 in X.
    set (q := qn (loads_of o 0) + pn (loads_of o 0)) in *. apply (Rmult_lt_reg_l q); [exact Hq|]. lra.
  - intros a C Ha Sa. destruct (level_fbvp _ _ Lt Sa) as (z & F & E). fold n in F, E.
    destruct (weights 0 1 2 a ltac:(lra) ltac:(lra) ltac:(lra)) as (W0 & W1 & W2).
    pose proof (mixed o 0 0 n (fun i => nth i pre 0) (fun i => nth i mi 0) (fun i => nth i kp false) i _ _ _ 0 1 2 a z0 z1 z2 z Rd St (or_introl (conj Hk Hm)) Hl Hi I2 I3
      ltac:(lra) W0 W1 W2 F0 F1 F2 F n (nth n pre 0) (Nat.le_refl n) (conj (Hl n (Nat.le_refl n)) (Rle_refl _))) as X.
    rewrite E, E0, E1, E2 in X. rewrite X. unfold mix, combo. cbn [z_w]. fold w0 w1 w2. field.
Qed.

(** Short cuts let the tip sink deeper than without cut ... *)
Theorem C127_sinks : level_test -> exists d, 0 < d /\ forall a C0 C, 0 < a < d ->
  assemble_and_solve eig solve o aslist 0 (pre ++ [0]) mi (kp ++ [false]) = Ok C0 ->
  assemble_and_solve eig solve o aslist 0 (pre ++ [a]) mi (kp ++ [false]) = Ok C -> z_w (tip_state C0) < z_w (tip_state C).
Proof.
  intros Lt. destruct (C127_parabola Lt) as (y & c & d & Hc & H). pose proof (Rabs_pos d) as Hd. exists (c / (Rabs d + 1)). split; [apply Rdiv_lt_0_compat; lra|].
  intros a C0 C [A1 A2] H0 H1. rewrite (H 0 C0 ltac:(lra) H0), (H a C ltac:(lra) H1).
  assert (X : a * (Rabs d + 1) < c) by (apply (Rmult_lt_reg_r (/ (Rabs d + 1))); [apply Rinv_0_lt_compat; lra|]; rewrite Rmult_assoc, Rinv_r, Rmult_1_r by lra; exact A2).
  pose proof (Rle_abs (- d)) as D. rewrite Rabs_Ropp in D. nra.
Qed.
End T.

(** ... and in a fully supported test without added weights the mode I energy release rate exceeds that of the slab at rest. *)
Theorem C127_mode_I eig solve o aslist ls : level_test solve o [ls] [0] [true] -> exists d, 0 < d /\ forall a, 0 < a < d -> exists C G G1 G2,
  assemble_and_solve eig solve o aslist 0 [ls; a] [0] [true; false] = Ok C /\
  gdif (o_par o) (o_eig o) (loads_of o 0) C [ls; a] [true; false] "kJ/m^2" = Ok (G, G1, G2) /\
  (qn (loads_of o 0) + pn (loads_of o 0)) ^ 2 / (2 * kn (o_par o)) < G1.
Proof.
  intros Lt. destruct (C127_sinks eig solve o aslist _ _ _ Lt) as (d & Hd & H). exists d. split; [exact Hd|]. intros a Ha.
  destruct (level_solved eig solve o aslist _ _ _ 0 Lt ltac:(lra)) as (C0 & S0 & _). destruct (level_solved eig solve o aslist _ _ _ a Lt ltac:(lra)) as (C & Sa & L & F6).
  specialize (H a C0 C Ha S0 Sa). destruct (level_fbvp eig solve o aslist _ _ _ _ _ Lt S0) as (z0 & F0 & E0). cbn [List.length Nat.sub] in F0, E0.
  pose proof Lt as (So & Co & Rd & St & Hk & Hm & Hp & (i & I1 & I2 & I3) & _ & _ & Hq). destruct (level_loads o) as [Hqt Hpt].
  assert (i = 0%nat) by (simpl in I1; lia). subst i. cbn [nth] in I3.
  assert (R : tip_state o [ls] [true] C0 = mkV 0 0 ((qn (loads_of o 0) + pn (loads_of o 0)) / kn (o_par o)) 0 0 0).
  { rewrite <- E0. apply (uncut o 0 0 0 (fun i => nth i [ls] 0) z0 0 Rd St Hk Hm); try assumption; try lia.
    - intros j Hj. replace j with 0%nat by lia. cbn. lra.
    - apply (fbvp_ext2 _ _ _ _ _ _ _ _ _ _ _) with (2 := F0). intros j Hj. destruct j as [|[|]]; [auto|auto|lia].
    - cbn. lra. }
  assert (Lk : List.length [true; false] = List.length [ls; a]) by reflexivity.
  destruct (gdif_accepts (o_par o) (o_eig o) (loads_of o 0) C [ls; a] [true; false] "kJ/m^2" 1 ltac:(right; left; auto) Lk) as [[[g g1] g2] Eg].
  { intros j Hj _. simpl in Hj. cbn in L. split; [lia|]. rewrite six_zh by (apply ready_six; exact Rd). rewrite Forall_forall in F6. symmetry. apply F6. apply nth_In. lia. }
  exists C, g, g1, g2. split; [exact Sa|]. split; [exact Eg|].
  assert (W : tip_weights [true; false] (List.length [ls; a]) (weight_at [true; false])) by (exact (weight_at_ok [true; false])).
  destruct (gdif_value2 _ _ _ _ _ _ _ _ _ _ _ Lk W Eg) as [(Z & _)|(c & Hc & V & _)].
  { exfalso. apply (Z 0%nat); [simpl; lia|]. unfold is_tip. cbn. discriminate. }
  assert (c = 1) by (destruct Hc as [[X _]|[[_ X]|[X _]]]; [discriminate X|exact X|discriminate X]). subst c.
  assert (V' : g1 = GI (o_par o) (tip_state o [ls] [true] C)).
  { rewrite V. unfold tip_sum, weight_at, tip_state, field. cbn. ring. }
  rewrite V'. rewrite R in H. cbn [z_w] in H. pose proof Rd as (_ & (Kn & _) & _). unfold GI. set (q := qn (loads_of o 0) + pn (loads_of o 0)) in *.
  assert (X : q < kn (o_par o) * z_w (tip_state o [ls] [true] C)).
  { replace q with (kn (o_par o) * (q / kn (o_par o))) by (field; lra). apply Rmult_lt_compat_l; assumption. }
  apply Rmult_lt_compat_r; [apply Rinv_0_lt_compat; lra|]. nra.
Qed.
Print Assumptions C127_parabola.
Print Assumptions C127_sinks.
Print Assumptions C127_mode_I.

(** ** 8 mm of slab on level ground. *)
Example C127_example : let o := ex_obj "pst-" (Some ModeA) 0 in level_test elim_solve o [8] [0] [true] /\ exists d, 0 < d /\ forall a, 0 < a < d -> exists C G G1 G2,
  assemble_and_solve (fun _ => ex_ews) elim_solve o true 0 [8; a] [0] [true; false] = Ok C /\
  gdif (o_par o) (o_eig o) (loads_of o 0) C [8; a] [true; false] "kJ/m^2" = Ok (G, G1, G2) /\
  (qn (loads_of o 0) + pn (loads_of o 0)) ^ 2 / (2 * kn (o_par o)) < G1.
Proof.
  intros o. assert (Lt : level_test elim_solve o [8] [0] [true]).
  { split; [exact elim_sound|]. split; [exact elim_complete|]. split; [apply ex_ready|]. split; [exact ex_stable|]. split; [reflexivity|]. split; [reflexivity|].
    split; [repeat constructor; lra|]. split; [exists 0%nat; simpl; repeat split; [lia|lra]|]. split; [reflexivity|]. split; [reflexivity|].
    unfold loads_of, get_weight_load, get_surface_load, deg2rad. cbn [qn pn]. rewrite Rmult_0_l, cos_0. simpl. lra. }
  split; [exact Lt|]. exact (C127_mode_I (fun _ => ex_ews) elim_solve o true 8 Lt).
Qed.
