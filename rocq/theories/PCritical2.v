(** The largest envelope value is a convex function of the weight (C120). *)
Require Import Verif.Py Verif.MTools Verif.MEigen Verif.MFields Verif.SMirror Verif.MEnvelope Verif.MCriterion Verif.SCritical Verif.PSetup Verif.PEnvelope Verif.PForce Verif.PCritical.
Open Scope R_scope.

(** ** Searches for nonnegative weights *)
Section F.
Variable create : R -> res sk.
Variable dist : sk -> res (option R * option R).
Hypothesis nonneg : forall w k x m, create w = Ok k -> dist k = Ok (Some x, m) -> 0 <= x.
Notation measure := (measure create dist).
Definition good_state (s : mf) : Prop := 0 <= f_weight s /\ measure (f_weight s) = Ok s.
Lemma loop_nonneg tol next n : (forall w x, 0 <= w -> 0 <= x -> 0 <= next w x) -> forall s s' m, good_state s ->
  force_loop create dist tol next n s = Ok (s', m) -> good_state s' /\ (m <> 0%nat -> off tol (f_max s') = false).
Proof.
  intros Hn. induction n as [|n IH]; intros s s' m G; cbn [force_loop].
  - destruct (off tol (f_max s)) eqn:OF; intros H; apply Ok_inj in H; injection H as <- <-; (split; [exact G|intros; (congruence || assumption)]).
  - destruct (off tol (f_max s)) eqn:OF.
    + match goal with |- bind ?x _ = _ -> _ => destruct x as [s1|e] eqn:M1; [|discriminate] end. cbn [bind]. apply IH.
      destruct (measure_inv _ _ _ _ M1) as (_ & _ & E). unfold good_state. rewrite E. split; [|exact M1].
      destruct G as [G1 G2]. apply Hn; [exact G1|]. destruct (f_max s) as [x|] eqn:Ex; [|simpl; lra]. simpl.
      destruct (measure_inv _ _ _ _ G2) as (A & B & _). rewrite Ex in B. exact (nonneg _ _ _ _ A B).
    + intros H; apply Ok_inj in H; injection H as <- <-. auto.
Qed.
Definition outcome_nonneg (r : mf) : Prop :=
  exists w, 0 <= w /\ create w = Ok (f_sk r) /\ dist (f_sk r) = Ok (f_max r, f_min r) /\
    ((f_weight r = w /\ ((w = 1 /\ exists m, f_min r = Some m /\ 1 <= m) \/ f_max r = None \/ exists x, f_max r = Some x /\ Rabs (x - 1) <= 1 / 100))
     \/ f_weight r = 0).
Lemma div_nonneg a b : 0 <= a -> 0 <= b -> 0 <= a / b.
Proof. intros A [B|<-]; [apply Rmult_le_pos; [exact A|left; apply Rinv_0_lt_compat; exact B]|]. unfold Rdiv. rewrite Rinv_0. lra. Qed.
Lemma end_nonneg tol s' m : tol <= 1 / 100 -> good_state s' -> (m <> 0%nat -> off tol (f_max s') = false) -> m <> 0%nat -> outcome_nonneg s'.
Proof.
  intros Ht [G1 G2] C E. destruct (measure_inv _ _ _ _ G2) as (A & B & _). exists (f_weight s'). split; [exact G1|]. split; [exact A|]. split; [exact B|]. left. split; [reflexivity|]. right.
  destruct (off_false _ _ (C E)) as [?|(x & X1 & X2)]; [auto|]. right. exists x. split; [exact X1|lra].
Qed.
Lemma start_nonneg s : measure 1 = Ok s -> good_state s /\ (oleb (Some 1) (f_min s) = true -> outcome_nonneg s).
Proof.
  intros M. destruct (measure_inv _ _ _ _ M) as (A & B & W). split; [split; rewrite W; [lra|exact M]|]. intros L.
  exists 1. split; [lra|]. split; [exact A|]. split; [exact B|]. left. split; [exact W|]. left. split; [reflexivity|apply oleb_one; exact L].
Qed.
Lemma dampened_nonneg d : forall damp r, 0 < damp -> find_minimum_force_dampened create dist d damp = Ok r -> outcome_nonneg r.
Proof.
  induction d as [|d IH]; intros damp r Hd; cbn [find_minimum_force_dampened].
  - destruct (measure 1) as [s|e] eqn:M; [|discriminate]. cbn [bind]. destruct (start_nonneg s M) as [G O].
    destruct (oleb (Some 1) (f_min s)) eqn:L; [intros H; apply Ok_inj in H; subst r; exact (O eq_refl)|].
    match goal with |- bind ?x _ = _ -> _ => destruct x as [[s' m]|e] eqn:F; [|discriminate] end. cbn [bind].
    assert (HN : forall w x, 0 <= w -> 0 <= x -> 0 <= (damp + 1) * w / (damp + x)) by (intros w x Hw Hx; apply div_nonneg; [apply Rmult_le_pos; lra|lra]).
    destruct (loop_nonneg _ _ _ HN _ _ _ G F) as [G' C'].
    destruct (Nat.eqb_spec m 0) as [E|E]; intros H; apply Ok_inj in H; subst r.
    + destruct G' as [G1 G2]. destruct (measure_inv _ _ _ _ G2) as (A & B & _). exists (f_weight s'). simpl. auto.
    + apply (fun h => end_nonneg _ _ _ h G' C' E); lra.
  - destruct (measure 1) as [s|e] eqn:M; [|discriminate]. cbn [bind]. destruct (start_nonneg s M) as [G O].
    destruct (oleb (Some 1) (f_min s)) eqn:L; [intros H; apply Ok_inj in H; subst r; exact (O eq_refl)|].
    match goal with |- bind ?x _ = _ -> _ => destruct x as [[s' m]|e] eqn:F; [|discriminate] end. cbn [bind].
    assert (HN : forall w x, 0 <= w -> 0 <= x -> 0 <= (damp + 1) * w / (damp + x)) by (intros w x Hw Hx; apply div_nonneg; [apply Rmult_le_pos; lra|lra]).
    destruct (loop_nonneg _ _ _ HN _ _ _ G F) as [G' C'].
    destruct (Nat.eqb_spec m 0) as [E|E].
    + intros H. apply (fun h => IH _ _ h H); lra.
    + intros H; apply Ok_inj in H; subst r. apply (fun h => end_nonneg _ _ _ h G' C' E); lra.
Qed.
Lemma force_nonneg r : find_minimum_force_with create dist = Ok r -> outcome_nonneg r.
Proof.
  unfold find_minimum_force_with. destruct (measure 1) as [s|e] eqn:M; [|discriminate]. cbn [bind]. destruct (start_nonneg s M) as [G O].
  destruct (oleb (Some 1) (f_min s)) eqn:L; [intros H; apply Ok_inj in H; subst r; exact (O eq_refl)|].
  match goal with |- bind ?x _ = _ -> _ => destruct x as [[s' m]|e] eqn:F; [|discriminate] end. cbn [bind].
  destruct (loop_nonneg _ _ _ div_nonneg _ _ _ G F) as [G' C'].
  destruct (Nat.eqb_spec m 0) as [E|E].
  - apply dampened_nonneg. lra.
  - intros H; apply Ok_inj in H; subst r. apply (fun h => end_nonneg _ _ _ h G' C' E); lra.
Qed.
End F.

(** ** Quadratic envelopes *)
Notation env e := (stress_envelope1 (e_name e) (e_sf e) (e_om e) (e_rho e)).
Lemma quadratic_value e : quadratic_envelope e -> exists sc tc, 0 < sc /\ 0 < tc /\ forall a b, env e a b = Ok ((a / sc) ^ 2 + (b / tc) ^ 2).
Proof.
  assert (Q : forall sc tc a b, quadratic (sc, tc) (Rabs a) (Rabs b) = (a / sc) ^ 2 + (b / tc) ^ 2).
  { intros sc tc a b. unfold quadratic, Rdiv. cbn [fst snd]. rewrite !Rpow_mult_distr, !RPow_abs. rewrite !(Rabs_pos_eq (_ ^ 2)) by apply pow2_ge_0. reflexivity. }
  intros [N|[N H]]; rewrite N.
  - set (om := if Rltb 1 (e_sf e) then 7 / 10 else e_om e). set (sf := if Rltb (e_sf e) (55 / 100) then 55 / 100 else e_sf e).
    assert (P : 0 < rpow sf om). { apply rpow_pos. unfold sf, Rltb. destruct (Rlt_dec _ _); lra. }
    exists (616 / 100 * rpow sf om), (509 / 100 * rpow sf om). split; [lra|]. split; [lra|]. intros a b. rewrite <- Q. reflexivity.
  - pose proof (rpow_pos (e_rho e / (9167 / 10)) (e_om e) ltac:(lra)) as P.
    exists (2000 * 13 * rpow (e_rho e / (9167 / 10)) (e_om e)), (509 / 100 * (2000 * 13 * rpow (e_rho e / (9167 / 10)) (e_om e) / (616 / 100))). split; [lra|]. split; [lra|].
    intros a b. rewrite <- Q. reflexivity.
Qed.

(** ** Convex functions *)
(** Peaks of families of convex functions. *)
Lemma peak_unique f k M M' : peak f k M -> peak f k M' -> M = M'.
Proof. intros [(i & a & b & A & B) H] [(i' & a' & b' & A' & B') H']. pose proof (H _ _ _ _ A' B'). pose proof (H' _ _ _ _ A B). lra. Qed.
Lemma square_convex x y r : 0 <= r <= 1 -> ((1 - r) * x + r * y) ^ 2 <= (1 - r) * x ^ 2 + r * y ^ 2.
Proof. intros H. assert (0 <= r * (1 - r) * (x - y) ^ 2) by (apply Rmult_le_pos; [nra|apply pow2_ge_0]). nra. Qed.

(** Stresses that are affine in the weight. *)
Definition affine_stresses (create : R -> res sk) (s0 s1 t0 t1 : list R) : Prop :=
  List.length s1 = List.length s0 /\ List.length t0 = List.length s0 /\ List.length t1 = List.length s0 /\
  forall w, exists k, create w = Ok k /\ k_sig k = map Some (map2 (fun a b => a + w * b) s0 s1) /\ k_tau k = map Some (map2 (fun a b => a + w * b) t0 t1).
Lemma nth_error_map2 {A B D} (f : A -> B -> D) X Y i d : nth_error (map2 f X Y) i = Some d -> exists a b, nth_error X i = Some a /\ nth_error Y i = Some b /\ d = f a b.
Proof. revert Y i. induction X as [|x X IH]; intros [|y Y] [|i] H; simpl in *; try discriminate; [injection H as <-; eauto|]. exact (IH _ _ H). Qed.
Lemma map2_nth_error {A B D} (f : A -> B -> D) X Y i a b : nth_error X i = Some a -> nth_error Y i = Some b -> nth_error (map2 f X Y) i = Some (f a b).
Proof. revert Y i. induction X as [|x X IH]; intros [|y Y] [|i] H G; simpl in *; try discriminate; [injection H as <-; injection G as <-; reflexivity|]. exact (IH _ _ H G). Qed.
Section C.
Variable create : R -> res sk.
Variables s0 s1 t0 t1 : list R.
Hypothesis AF : affine_stresses create s0 s1 t0 t1.
Lemma sample_affine w k i a b : create w = Ok k -> sample k i a b ->
  exists a0 a1 b0 b1, nth_error s0 i = Some a0 /\ nth_error s1 i = Some a1 /\ nth_error t0 i = Some b0 /\ nth_error t1 i = Some b1 /\ a = a0 + w * a1 /\ b = b0 + w * b1.
Proof.
  destruct AF as (_ & _ & _ & A). destruct (A w) as (k' & K & S & T). intros E. rewrite K in E. apply Ok_inj in E. subst k'. unfold sample. rewrite S, T. intros [H G].
  rewrite nth_error_map in H, G. destruct (nth_error (map2 _ s0 s1) i) as [x|] eqn:X; [|discriminate]. destruct (nth_error (map2 _ t0 t1) i) as [y|] eqn:Y; [|discriminate].
  injection H as <-. injection G as <-. destruct (nth_error_map2 _ _ _ _ _ X) as (a0 & a1 & ? & ? & ->). destruct (nth_error_map2 _ _ _ _ _ Y) as (b0 & b1 & ? & ? & ->). exists a0, a1, b0, b1. auto 10.
Qed.
Lemma affine_sample w k i a0 a1 b0 b1 : create w = Ok k -> nth_error s0 i = Some a0 -> nth_error s1 i = Some a1 -> nth_error t0 i = Some b0 -> nth_error t1 i = Some b1 ->
  sample k i (a0 + w * a1) (b0 + w * b1).
Proof.
  destruct AF as (_ & _ & _ & A). destruct (A w) as (k' & K & S & T). intros E H1 H2 H3 H4. rewrite K in E. apply Ok_inj in E. subst k'. unfold sample. rewrite S, T.
  rewrite !nth_error_map. rewrite (map2_nth_error _ _ _ _ _ _ H1 H2), (map2_nth_error _ _ _ _ _ _ H3 H4). auto.
Qed.
Lemma peak_convex e u v r k0 k1 k2 M0 M1 M2 : quadratic_envelope e -> 0 <= r <= 1 ->
  create u = Ok k0 -> create ((1 - r) * u + r * v) = Ok k1 -> create v = Ok k2 -> peak (env e) k0 M0 -> peak (env e) k1 M1 -> peak (env e) k2 M2 -> M1 <= (1 - r) * M0 + r * M2.
Proof.
  intros Q Hr K0 K1 K2 [_ P0] [(i & a & b & S & V) _] [_ P2]. destruct (quadratic_value e Q) as (sc & tc & Hs & Ht & F).
  destruct (sample_affine _ _ _ _ _ K1 S) as (a0 & a1 & b0 & b1 & N1 & N2 & N3 & N4 & -> & ->).
  pose proof (P0 i _ _ _ (affine_sample _ _ _ _ _ _ _ K0 N1 N2 N3 N4) (F _ _)) as I0.
  pose proof (P2 i _ _ _ (affine_sample _ _ _ _ _ _ _ K2 N1 N2 N3 N4) (F _ _)) as I2.
  rewrite F in V. apply Ok_inj in V. rewrite <- V.
  replace ((a0 + ((1 - r) * u + r * v) * a1) / sc) with ((1 - r) * ((a0 + u * a1) / sc) + r * ((a0 + v * a1) / sc)) by (field; lra).
  replace ((b0 + ((1 - r) * u + r * v) * b1) / tc) with ((1 - r) * ((b0 + u * b1) / tc) + r * ((b0 + v * b1) / tc)) by (field; lra).
  pose proof (square_convex ((a0 + u * a1) / sc) ((a0 + v * a1) / sc) r Hr). pose proof (square_convex ((b0 + u * b1) / tc) ((b0 + v * b1) / tc) r Hr).
  set (A := ((a0 + u * a1) / sc) ^ 2) in *. set (B := ((b0 + u * b1) / tc) ^ 2) in *. set (C := ((a0 + v * a1) / sc) ^ 2) in *. set (D := ((b0 + v * b1) / tc) ^ 2) in *. nra.
Qed.
Lemma peak_exists e w : quadratic_envelope e -> s0 <> [] -> exists k M, create w = Ok k /\ peak (env e) k M /\ 0 <= M.
Proof.
  intros Q N. destruct AF as (L1 & L2 & L3 & A). destruct (A w) as (k & K & S & T). exists k. destruct (quadratic_value e Q) as (sc & tc & Hs & Ht & F).
  assert (P : forall a b, 0 <= (a / sc) ^ 2 + (b / tc) ^ 2) by (intros a b; pose proof (pow2_ge_0 (a / sc)); pose proof (pow2_ge_0 (b / tc)); lra).
  set (X := map2 (fun a b => a + w * b) s0 s1) in *. set (Y := map2 (fun a b => a + w * b) t0 t1) in *.
  assert (LX : List.length X = List.length Y) by (unfold X, Y; rewrite !map2_len; congruence).
  assert (NX : X <> []) by (unfold X; destruct s0; [congruence|]; destruct s1; [discriminate|discriminate]).
  assert (E : exists M, (exists i a b, nth_error X i = Some a /\ nth_error Y i = Some b /\ M = (a / sc) ^ 2 + (b / tc) ^ 2) /\
     forall i a b, nth_error X i = Some a -> nth_error Y i = Some b -> (a / sc) ^ 2 + (b / tc) ^ 2 <= M).
  { clear - LX NX. revert LX NX. generalize X Y. clear. intros X. induction X as [|x X IH]; intros [|y Y] L N; try discriminate; [congruence|].
    destruct X as [|x' X].
    - destruct Y; [|discriminate]. exists ((x / sc) ^ 2 + (y / tc) ^ 2). split; [exists 0%nat, x, y; auto|]. intros [|[|i]] a b A B; simpl in *; try discriminate. injection A as <-. injection B as <-. lra.
    - destruct (IH Y) as (M & (i & a & b & A & B & E) & H); [simpl in *; lia|discriminate|].
      destruct (Rle_dec ((x / sc) ^ 2 + (y / tc) ^ 2) M) as [C|C].
      + exists M. split; [exists (S i), a, b; auto|]. intros [|j] a' b' A' B'; cbn [nth_error] in A', B'; [injection A' as <-; injection B' as <-; exact C|exact (H j _ _ A' B')].
      + exists ((x / sc) ^ 2 + (y / tc) ^ 2). split; [exists 0%nat, x, y; auto|]. intros [|j] a' b' A' B'; cbn [nth_error] in A', B'; [injection A' as <-; injection B' as <-; lra|pose proof (H j _ _ A' B'); lra]. }
  destruct E as (M & (i & a & b & A1 & A2 & E) & H). exists M. split; [exact K|]. split; [|rewrite E; apply P]. unfold peak, sample. rewrite S, T. split.
  - exists i, a, b. rewrite !nth_error_map, A1, A2. split; [split; reflexivity|]. rewrite F, E. reflexivity.
  - intros j c d v [C D] V. rewrite nth_error_map in C, D. destruct (nth_error X j) as [c'|] eqn:C'; [|discriminate]. destruct (nth_error Y j) as [d'|] eqn:D'; [|discriminate].
    injection C as <-. injection D as <-. rewrite F in V. apply Ok_inj in V. subst v. exact (H j _ _ C' D').
Qed.
End C.

(** Consequences for functions that are convex on nonnegative numbers, here given as relations. *)
Section Convex.
Variable g : R -> R.
Hypothesis convex : forall v r, 0 <= v -> 0 <= r <= 1 -> g (r * v) <= (1 - r) * g 0 + r * g v.
Hypothesis below : g 0 < 1.
Lemma convex_above u v : 0 < u < v -> 1 <= g u -> g u < g v.
Proof.
  intros H U. set (r := u / v). assert (Hr : 0 < r < 1). { unfold r. split; [apply Rdiv_lt_0_compat; lra|]. apply (Rmult_lt_reg_r v); [lra|]. unfold Rdiv. rewrite Rmult_assoc, Rinv_l by lra. lra. }
  pose proof (convex v r ltac:(lra) ltac:(lra)) as C. replace (r * v) with u in C by (unfold r; field; lra). nra.
Qed.
Lemma convex_accuracy w d u : 0 < w -> g w = 1 -> 0 <= u -> 0 <= d -> Rabs (g u - 1) <= d -> Rabs (u - w) <= w * (d / (1 - g 0)).
Proof.
  intros Hw W Hu Hd H. assert (U1 : 1 - d <= g u <= 1 + d) by (revert H; unfold Rabs; destruct (Rcase_abs _); lra). clear H.
  assert (K : Rabs (u - w) * (1 - g 0) <= w * d).
  { destruct (Rle_dec u w) as [L|L].
    - set (r := u / w). assert (Hr : 0 <= r <= 1). { unfold r. split; [apply Rmult_le_pos; [lra|left; apply Rinv_0_lt_compat; lra]|]. apply (Rmult_le_reg_r w); [lra|]. unfold Rdiv. rewrite Rmult_assoc, Rinv_l by lra. lra. }
      pose proof (convex w r ltac:(lra) Hr) as C. replace (r * w) with u in C by (unfold r; field; lra). rewrite W in C. rewrite Rabs_left1 by lra.
      assert ((1 - r) * (1 - g 0) <= d) by nra. replace (- (u - w)) with (w * (1 - r)) by (unfold r; field; lra). nra.
    - set (r := w / u). assert (Hr : 0 <= r <= 1). { unfold r. split; [apply Rmult_le_pos; [lra|left; apply Rinv_0_lt_compat; lra]|]. apply (Rmult_le_reg_r u); [lra|]. unfold Rdiv. rewrite Rmult_assoc, Rinv_l by lra. lra. }
      pose proof (convex u r ltac:(lra) Hr) as C. replace (r * u) with w in C by (unfold r; field; lra). rewrite W in C. rewrite Rabs_pos_eq by lra.
      assert ((1 - r) * (1 - g 0) <= r * d) by nra. replace (u - w) with (u * (1 - r)) by (unfold r; field; lra). replace w with (u * r) at 1 by (unfold r; field; lra). nra. }
  apply (Rmult_le_reg_r (1 - g 0)); [lra|]. replace (w * (d / (1 - g 0)) * (1 - g 0)) with (w * d) by (field; lra). exact K.
Qed.
End Convex.
