(** Critical weights of profiles (C120). *)
From Coquelicot Require Import Coquelicot.
Require Import Verif.Py Verif.MTools Verif.MEigen Verif.MFields Verif.SAdm Verif.SSlab Verif.MRaster Verif.MSolution Verif.MAnalysis Verif.SBvp Verif.SEig Verif.SMirror Verif.SSegment
  Verif.MEnvelope Verif.MCriterion Verif.SCritical Verif.PSetup Verif.PRaster Verif.PEnvelope Verif.PForce Verif.PCreate Verif.PCreate2 Verif.PropSegment Verif.PropForce Verif.PropValues
  Verif.PropRaster Verif.PCritical Verif.PCritical2 Verif.PCritical3 Verif.PCritical4.
Open Scope R_scope.
Notation env e := (stress_envelope1 (e_name e) (e_sf e) (e_om e) (e_rho e)).

Lemma setting_proper eig solve layers li ki E t : setting eig solve layers li ki E t -> proper_segments li (map (fun _ => true) ki).
Proof.
  intros (_ & _ & _ & _ & _ & _ & N2 & Lk & Nn & Pos & _). split.
  - intros i Hi. apply Nn. now apply nth_In.
  - destruct (Exists_dec (fun l => 0 < l) li (fun l => Rlt_dec 0 l)) as [Ex|Ex].
    + apply Exists_exists in Ex. destruct Ex as (l & Hl & Hp). apply (In_nth _ _ 0) in Hl. destruct Hl as (i & Hi & Ei). exists i. split; [exact Hi|]. split; [|lra].
      rewrite (nth_indep _ false true) by (rewrite map_length; lia). change true with ((fun _ : bool => true) true). now rewrite map_nth.
    + exfalso. assert (Z : rsum li <= 0); [|lra]. clear - Ex. induction li as [|l li IH]; unfold rsum in *; simpl; [lra|].
      assert (l <= 0) by (destruct (Rlt_dec 0 l); [exfalso; apply Ex; now left|lra]). assert (fold_right Rplus 0 li <= 0) by (apply IH; intros H'; apply Ex; now right). lra.
Qed.
Lemma setting_weights eig solve layers li ki E t w : setting eig solve layers li ki E t -> exists m, skier_weights li (List.length ki) w = Ok m.
Proof. intros (_ & _ & _ & _ & _ & _ & N2 & Lk & Nn & Pos & j & Hj & Mid). rewrite Lk. exact (C64_midpoint li w j Nn Pos Hj Mid). Qed.

Section S.
Variable eig : mat6 -> list eigpair.
Variable solve : nat -> matrix -> vector -> res vector.
Variable brent : R -> R -> list (R * R) -> bstep.
Variable maxeval : nat.
Variables (layers : list layer) (phi E t : R) (li : list R) (ki : list bool).
Hypothesis St : setting eig solve layers li ki E t.
Notation create := (fun w => create_skier_object eig solve brent maxeval (LList layers) w phi li ki false E t).

Lemma setting_affine : exists s0 s1 t0 t1, affine_stresses create s0 s1 t0 t1 /\ s0 <> [].
Proof.
  destruct (setting_weights _ _ _ _ _ _ _ 0 St) as [m0 Em]. pose proof (setting_proper _ _ _ _ _ _ _ St) as Pr.
  destruct St as (P & HE & Ht & So & Co & G & N2 & Lk & _).
  destruct (create_affine eig solve brent maxeval layers phi li ki E t 0 m0 P HE Ht So Co G N2 Lk Pr Em) as (o & j & C0 & C1 & z0 & z1 & Rd & _ & _ & _ & _ & H). cbv zeta in H.
  destruct H as (_ & _ & _ & _ & _ & _ & (x & b & ER & _) & Lz & W).
  exists (map (fun z => 1000 * f_sig (o_par o) z) z0), (map2 (fun z z' => 1000 * f_sig (o_par o) z' - 1000 * f_sig (o_par o) z) z0 z1),
    (map (fun z => 1000 * f_tau (o_par o) z) z0), (map2 (fun z z' => 1000 * f_tau (o_par o) z' - 1000 * f_tau (o_par o) z) z0 z1).
  split.
  - unfold affine_stresses. rewrite !map_length, !map2_len by exact Lz. split; [reflexivity|]. split; [reflexivity|]. split; [reflexivity|].
    intros w. destruct (W w) as (_ & k & K & _ & _ & _ & S & T). exists k. split; [exact K|]. rewrite S, T. clear - Lz Rd. split.
    + revert z1 Lz. induction z0 as [|z z0 IH]; intros [|z' z1] L; try discriminate; [reflexivity|]. cbn [map map2]. rewrite IH by (simpl in L; lia). f_equal. f_equal.
      unfold zmix, combo, f_sig, f_w. cbn [z_w]. ring.
    + revert z1 Lz. induction z0 as [|z z0 IH]; intros [|z' z1] L; try discriminate; [reflexivity|]. cbn [map map2]. rewrite IH by (simpl in L; lia). f_equal. f_equal.
      unfold zmix, combo, f_tau, f_u, f_dw, f_psi. cbn [z_u z_w z_dw z_psi]. unfold Rdiv. ring.
  - intros Z. apply map_eq_nil in Z. pose proof (fun h => C38_grid _ _ _ _ _ _ _ _ _ _ h ER) as G0. destruct (G0 ltac:(apply Nat.leb_le; reflexivity)) as (_ & _ & _ & _ & [A _] & B & _).
    rewrite Z in B. simpl in B. rewrite <- B in A. clear - A. apply Nat.leb_le in A. discriminate A.
Qed.

Theorem affine_model : exists s0 s1 t0 t1 : list R, s0 <> [] /\ List.length s1 = List.length s0 /\ List.length t0 = List.length s0 /\ List.length t1 = List.length s0 /\
  forall w, exists k, create w = Ok k /\ List.length (k_sig k) = List.length s0 /\ List.length (k_tau k) = List.length s0 /\
    forall i, (i < List.length s0)%nat -> sample k i (nth i s0 0 + w * nth i s1 0) (nth i t0 0 + w * nth i t1 0).
Proof.
  destruct setting_affine as (s0 & s1 & t0 & t1 & AF & N). exists s0, s1, t0, t1. pose proof AF as (L1 & L2 & L3 & A). split; [exact N|]. split; [exact L1|]. split; [exact L2|]. split; [exact L3|].
  intros w. destruct (A w) as (k & K & S & T). exists k. split; [exact K|]. split; [rewrite S, map_length, map2_len; congruence|]. split; [rewrite T, map_length, map2_len; congruence|].
  intros i Hi. apply (affine_sample _ _ _ _ _ AF w k i); [exact K|..]; apply nth_error_nth'; lia.
Qed.
Lemma peak_total e w : quadratic_envelope e -> exists M, peak_of create (env e) w M.
Proof. intros Q. destruct setting_affine as (s0 & s1 & t0 & t1 & AF & N). destruct (peak_exists _ _ _ _ _ AF e w Q N) as (k & M & K & P & _). exists M, k. auto. Qed.

Lemma peak_function e : quadratic_envelope e -> exists g : R -> R, (forall w M, peak_of create (env e) w M <-> M = g w) /\
  (forall v r, 0 <= v -> 0 <= r <= 1 -> g (r * v) <= (1 - r) * g 0 + r * g v) /\
  (weight_matters create -> g 0 < 1 -> exists w, 0 < w /\ g w = 1).
Proof.
  intros Q. destruct setting_affine as (s0 & s1 & t0 & t1 & AF & N). destruct (quadratic_value e Q) as (sc & tc & Hs & Ht & F).
  exists (gmax sc tc (quads s0 s1 t0 t1)). split; [|split].
  - intros w M. split.
    + intros (k & K & P). exact (peak_gmax _ _ _ _ _ AF e sc tc w k M Hs Ht F K P).
    + intros ->. destruct (peak_exists _ _ _ _ _ AF e w Q N) as (k & _ & K & _). exists k. split; [exact K|]. exact (peak_at _ _ _ _ _ AF e sc tc w k Q Hs Ht F N K).
  - intros v r. apply (gmax_convex _ _ _ _ _ AF e sc tc v r Q Hs Ht F N).
  - intros (k0 & k1 & i & a & b & a' & b' & K0 & K1 & S0 & S1 & D). 
    destruct (sample_affine _ _ _ _ _ AF _ _ _ _ _ K0 S0) as (a0 & a1 & b0 & b1 & N1 & N2 & N3 & N4 & -> & ->).
    destruct (sample_affine _ _ _ _ _ AF _ _ _ _ _ K1 S1) as (a2 & a3 & b2 & b3 & M1 & M2 & M3 & M4 & -> & ->).
    rewrite N1 in M1. injection M1 as <-. rewrite N2 in M2. injection M2 as <-. rewrite N3 in M3. injection M3 as <-. rewrite N4 in M4. injection M4 as <-.
    apply (crossing sc tc Hs Ht _ ((a0, a1), (b0, b1))).
    + apply nth_error_In with i. apply nth_combine; apply nth_combine; assumption.
    + cbn [fst snd]. destruct D as [D|D]; [left|right]; intros Z; apply D; rewrite Z; ring.
Qed.

Theorem threshold_model e w : quadratic_envelope e -> critical create (env e) w -> forall M0 u M,
  peak_of create (env e) 0 M0 -> M0 < 1 -> peak_of create (env e) u M -> (0 <= u < w -> M < 1) /\ (w < u -> 1 < M).
Proof.
  intros Q [Hw C] M0 u M P0 L P. destruct (peak_function e Q) as (g & G & Cv & _). apply G in C, P0, P. subst M0 M. split; intros U.
  - destruct (Rlt_dec (g u) 1) as [?|X]; [assumption|exfalso]. destruct (Req_dec u 0) as [->|Nu]; [lra|].
    pose proof (convex_above g Cv L u w ltac:(lra) ltac:(lra)). lra.
  - pose proof (convex_above g Cv L w u ltac:(lra) ltac:(lra)). lra.
Qed.
Theorem exists_model e : quadratic_envelope e -> weight_matters create -> (forall M0, peak_of create (env e) 0 M0 -> M0 < 1) -> exists w, critical create (env e) w.
Proof.
  intros Q W L. destruct (peak_function e Q) as (g & G & _ & X). destruct (X W) as (w & Hw & E1); [apply L, G; reflexivity|]. exists w. split; [exact Hw|]. apply G. congruence.
Qed.
Lemma created_distance e w k x m : quadratic_envelope e -> create w = Ok k -> distances e k = Ok (Some x, m) -> peak (env e) k x /\ 0 <= x.
Proof.
  intros Q K D. destruct (quadratic_value e Q) as (sc & tc & Hs & Ht & F).
  destruct (create_present _ _ _ _ _ _ _ _ _ _ _ _ K) as (_ & P1 & P2). destruct (create_lengths _ _ _ _ _ _ _ _ _ _ _ _ _ K) as [L _].
  destruct (distances_extreme e _ _ _ P1 P2 D) as (d & M & m' & De & EM & Em & IM & Im & B). injection EM as <-.
  assert (N : known_envelope (e_name e)) by (destruct Q as [->|[-> _]]; cbv; tauto).
  destruct (proj1 (C59_arrays _ (e_sf e) (e_om e) (e_rho e) _ _ L) N) as (d' & D' & Ld & I). unfold envelope_of in De. rewrite D' in De. apply Ok_inj in De. subst d'.
  assert (V : forall i v, nth_error d i = Some v -> exists a b y, sample k i a b /\ env e a b = Ok y /\ v = Some y).
  { intros i v Hv. destruct (I i v Hv) as (a & b & A & Bb & C). unfold present_all in P1, P2. rewrite Forall_forall in P1, P2.
    pose proof (P1 _ (nth_error_In _ _ A)). pose proof (P2 _ (nth_error_In _ _ Bb)). destruct a as [a|]; [|congruence]. destruct b as [b|]; [|congruence].
    destruct C as (y & C & ->). exists a, b, y. split; [split; assumption|]. auto. }
  assert (PK : peak (env e) k x).
  { split.
    - apply In_nth_error in IM. destruct IM as [i Hi]. destruct (V i _ Hi) as (a & b & y & S & C & Ey). injection Ey as <-. eauto.
    - intros i a b v [S T] C. assert (Hi : (i < List.length d)%nat) by (rewrite Ld; apply nth_error_Some; congruence). apply nth_error_Some in Hi. destruct (nth_error d i) as [v'|] eqn:Ev; [|congruence].
      destruct (V i v' Ev) as (a' & b' & y & [S' T'] & C' & ->). rewrite S in S'. injection S' as <-. rewrite T in T'. injection T' as <-. rewrite C in C'. apply Ok_inj in C'. subst y.
      destruct (B _ (nth_error_In _ _ Ev)) as (y & Y & Z). injection Y as <-. lra. }
  split; [exact PK|]. destruct PK as [(i & a & b & _ & C) _]. rewrite F in C. apply Ok_inj in C. rewrite <- C. pose proof (pow2_ge_0 (a / sc)). pose proof (pow2_ge_0 (b / tc)). lra.
Qed.
Theorem accuracy_model e w M0 r : quadratic_envelope e -> critical create (env e) w -> peak_of create (env e) 0 M0 -> M0 < 1 ->
  find_minimum_force eig solve brent maxeval (LList layers) phi E t e li ki = Ok r ->
  f_weight r = 0 \/ (f_weight r = 1 /\ w <= 1) \/ Rabs (f_weight r - w) <= w * (1 / 100 / (1 - M0)).
Proof.
  intros Q [Hw C] P0 L H. destruct (peak_function e Q) as (g & G & Cv & _). apply G in C, P0. subst M0.
  unfold find_minimum_force in H. assert (NN : forall w' k x m, create w' = Ok k -> distances e k = Ok (Some x, m) -> 0 <= x).
  { intros w' k x m K D. exact (proj2 (created_distance e w' k x m Q K D)). }
  apply (force_nonneg _ _ NN) in H.
  destruct H as (w' & Hw' & K & D & [[W O]|W]); [|left; exact W]. right.
  destruct (create_present _ _ _ _ _ _ _ _ _ _ _ _ K) as (_ & P1 & P2). destruct (distances_extreme e _ _ _ P1 P2 D) as (d & M & m & _ & EM & Em & _ & _ & B).
  rewrite EM in D, O. destruct (created_distance e w' _ M _ Q K D) as [PK _]. assert (PW : M = g w') by (apply G; exists (f_sk r); auto). subst M. rewrite W.
  destruct O as [[-> (m' & E1 & E2)]|[O|(x & E1 & E2)]]; [|discriminate|].
  - left. split; [reflexivity|]. rewrite E1 in Em. injection Em as <-.
    assert (1 <= g 1). { destruct PK as [(i & a & b & S & V) _]. destruct (distances_extreme e _ _ _ P1 P2 D) as (d' & M' & m2 & _ & EM' & Em' & IM & _ & B'). injection EM' as <-. rewrite E1 in Em'. injection Em' as <-. destruct (B' _ IM) as (y & Y & Z). injection Y as <-. lra. }
    destruct (Rle_dec w 1) as [?|X]; [assumption|]. pose proof (convex_above g Cv L 1 w ltac:(lra) ltac:(lra)). lra.
  - right. injection E1 as <-. apply (convex_accuracy g Cv L); try assumption; [congruence|lra].
Qed.
End S.
