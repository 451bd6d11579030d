(** The largest envelope value as a function of the weight (C120). *)
From Coquelicot Require Import Coquelicot.
Require Import Verif.Py Verif.MTools Verif.MEigen Verif.MFields Verif.MEnvelope Verif.MCriterion Verif.SCritical Verif.PSetup Verif.PEnvelope Verif.PCritical Verif.PCritical2.
Open Scope R_scope.
Notation env e := (stress_envelope1 (e_name e) (e_sf e) (e_om e) (e_rho e)).

Lemma Rmax_abs a b : Rmax a b = (a + b + Rabs (a - b)) / 2.
Proof. unfold Rmax. destruct (Rle_dec a b); [rewrite Rabs_left1 by lra|rewrite Rabs_pos_eq by lra]; lra. Qed.
Lemma max_continuous (f g : R -> R) : continuity f -> continuity g -> continuity (fun x => Rmax (f x) (g x)).
Proof.
  intros F G. intros x. apply (continuity_pt_ext (fun x => (f x + g x + Rabs (f x - g x)) * (/ 2))); [intros y; rewrite Rmax_abs; unfold Rdiv; reflexivity|].
  apply (continuity_pt_mult (fun x => f x + g x + Rabs (f x - g x)) (fun _ => / 2)); [|apply continuity_pt_const; intros y1 y2; reflexivity].
  apply (continuity_pt_plus (fun x => f x + g x) (fun x => Rabs (f x - g x))); [apply continuity_pt_plus; auto|].
  apply (continuity_pt_comp (fun x => f x - g x) Rabs); [apply continuity_pt_minus; auto|apply Rcontinuity_abs].
Qed.

Section G.
Variables sc tc : R.
Hypothesis Hsc : 0 < sc.
Hypothesis Htc : 0 < tc.
Definition qval (w : R) (q : (R * R) * (R * R)) : R := ((fst (fst q) + w * snd (fst q)) / sc) ^ 2 + ((fst (snd q) + w * snd (snd q)) / tc) ^ 2.
Definition gmax (qs : list ((R * R) * (R * R))) (w : R) : R := fold_right (fun q a => Rmax (qval w q) a) 0 qs.
Lemma qval_nonneg w q : 0 <= qval w q.
Proof. unfold qval. pose proof (pow2_ge_0 ((fst (fst q) + w * snd (fst q)) / sc)). pose proof (pow2_ge_0 ((fst (snd q) + w * snd (snd q)) / tc)). lra. Qed.
Lemma gmax_ge qs w q : In q qs -> qval w q <= gmax qs w.
Proof. induction qs as [|q' qs IH]; intros []; unfold gmax in *; simpl; [subst; apply Rmax_l|]. eapply Rle_trans; [apply IH; assumption|apply Rmax_r]. Qed.
Lemma gmax_attained qs w : gmax qs w = 0 \/ exists q, In q qs /\ gmax qs w = qval w q.
Proof.
  induction qs as [|q qs IH]; [left; reflexivity|]. change (gmax (q :: qs) w) with (Rmax (qval w q) (gmax qs w)). unfold Rmax. destruct (Rle_dec _ _); [|right; exists q; split; [left|]; reflexivity].
  destruct IH as [->|(q' & I & ->)]; [left; reflexivity|right; exists q'; split; [right; exact I|reflexivity]].
Qed.
Lemma qval_continuous q : continuity (fun w => qval w q).
Proof. unfold qval. destruct q as [[a0 a1] [b0 b1]]. cbn [fst snd]. reg. Qed.
Lemma gmax_continuous qs : continuity (gmax qs).
Proof.
  induction qs as [|q qs IH]; unfold gmax in *; cbn [fold_right]; [intros x; apply continuity_pt_const; intros ? ?; reflexivity|].
  apply (max_continuous (fun w => qval w q)); [apply qval_continuous|exact IH].
Qed.
Lemma line_large a0 a1 s : 0 < s -> a1 <> 0 -> exists w, 0 < w /\ 1 <= ((a0 + w * a1) / s) ^ 2.
Proof.
  intros Hs N. pose proof (Rabs_pos_lt a1 N) as P. exists ((Rabs a0 + s) / Rabs a1). pose proof (Rabs_pos a0) as P0. split; [apply Rdiv_lt_0_compat; lra|].
  assert (B : s <= Rabs (a0 + (Rabs a0 + s) / Rabs a1 * a1)).
  { pose proof (Rabs_triang_inv ((Rabs a0 + s) / Rabs a1 * a1) (- a0)) as T. rewrite Rabs_Ropp in T. replace ((Rabs a0 + s) / Rabs a1 * a1 - - a0) with (a0 + (Rabs a0 + s) / Rabs a1 * a1) in T by ring.
    rewrite Rabs_mult in T. unfold Rdiv in T at 1. rewrite Rabs_mult, Rabs_inv, Rabs_Rabsolu, (Rabs_pos_eq (Rabs a0 + s)) in T by lra.
    replace ((Rabs a0 + s) * / Rabs a1 * Rabs a1) with (Rabs a0 + s) in T by (field; lra). lra. }
  set (y := a0 + (Rabs a0 + s) / Rabs a1 * a1) in *. unfold Rdiv. rewrite Rpow_mult_distr, <- (Rabs_pos_eq (y ^ 2)) by apply pow2_ge_0. rewrite <- RPow_abs.
  rewrite <- Rpow_mult_distr. assert (1 <= Rabs y * / s). { apply (Rmult_le_reg_r s); [exact Hs|]. rewrite Rmult_assoc, Rinv_l by lra. lra. } nra.
Qed.
Lemma crossing qs q : In q qs -> (snd (fst q) <> 0 \/ snd (snd q) <> 0) -> gmax qs 0 < 1 -> exists w, 0 < w /\ gmax qs w = 1.
Proof.
  intros I D Z. assert (B : exists w, 0 < w /\ 1 <= gmax qs w).
  { destruct q as [[a0 a1] [b0 b1]]. cbn [fst snd] in D. destruct D as [D|D].
    - destruct (line_large a0 a1 sc Hsc D) as (w & W & V). exists w. split; [exact W|]. eapply Rle_trans; [|apply (gmax_ge _ _ _ I)]. unfold qval. cbn [fst snd]. pose proof (pow2_ge_0 ((b0 + w * b1) / tc)). lra.
    - destruct (line_large b0 b1 tc Htc D) as (w & W & V). exists w. split; [exact W|]. eapply Rle_trans; [|apply (gmax_ge _ _ _ I)]. unfold qval. cbn [fst snd]. pose proof (pow2_ge_0 ((a0 + w * a1) / sc)). lra. }
  destruct B as (w & W & V). destruct V as [V|V]; [|exists w; auto].
  destruct (IVT (fun x => gmax qs x - 1) 0 w) as (x & X1 & X2); [|exact W|lra|lra|].
  - apply (continuity_minus (gmax qs) (fun _ => 1)); [apply gmax_continuous|]. intros y. apply continuity_pt_const. intros ? ?; reflexivity.
  - exists x. split; [|lra]. destruct (Req_dec x 0) as [->|Nx]; [lra|lra].
Qed.
End G.

(** Peaks of stresses that are affine in the weight. *)
Section P.
Variable create : R -> res sk.
Variables s0 s1 t0 t1 : list R.
Hypothesis AF : affine_stresses create s0 s1 t0 t1.
Definition quads := combine (combine s0 s1) (combine t0 t1).
Lemma nth_combine {A B} (l : list A) (l' : list B) i a b : nth_error l i = Some a -> nth_error l' i = Some b -> nth_error (combine l l') i = Some (a, b).
Proof. revert l' i. induction l as [|x l IH]; intros [|y l'] [|i] H G; simpl in *; try discriminate; [congruence|]. exact (IH _ _ H G). Qed.
Lemma combine_nth_inv {A B} (l : list A) (l' : list B) i q : nth_error (combine l l') i = Some q -> nth_error l i = Some (fst q) /\ nth_error l' i = Some (snd q).
Proof. revert l' i. induction l as [|x l IH]; intros [|y l'] [|i] H; simpl in *; try discriminate; [injection H as <-; auto|]. exact (IH _ _ H). Qed.
Lemma peak_gmax e sc tc w k M : 0 < sc -> 0 < tc -> (forall a b, env e a b = Ok ((a / sc) ^ 2 + (b / tc) ^ 2)) ->
  create w = Ok k -> peak (env e) k M -> M = gmax sc tc quads w.
Proof.
  intros Hs Ht F K [(i & a & b & S & V) U]. destruct (sample_affine _ _ _ _ _ AF _ _ _ _ _ K S) as (a0 & a1 & b0 & b1 & N1 & N2 & N3 & N4 & -> & ->).
  rewrite F in V. apply Ok_inj in V. apply Rle_antisym.
  - rewrite <- V. apply (gmax_ge sc tc quads w ((a0, a1), (b0, b1))). apply nth_error_In with i. apply nth_combine; apply nth_combine; assumption.
  - destruct (gmax_attained sc tc quads w) as [->|(q & I & ->)].
    + rewrite <- V. pose proof (pow2_ge_0 ((a0 + w * a1) / sc)). pose proof (pow2_ge_0 ((b0 + w * b1) / tc)). lra.
    + apply In_nth_error in I. destruct I as [j I]. destruct (combine_nth_inv _ _ _ _ I) as [I1 I2]. destruct (combine_nth_inv _ _ _ _ I1) as [J1 J2]. destruct (combine_nth_inv _ _ _ _ I2) as [J3 J4].
      apply (U j (fst (fst q) + w * snd (fst q)) (fst (snd q) + w * snd (snd q))); [|apply F]. exact (affine_sample _ _ _ _ _ AF _ _ _ _ _ _ _ K J1 J2 J3 J4).
Qed.
Lemma peak_at e sc tc w k : quadratic_envelope e -> 0 < sc -> 0 < tc -> (forall a b, env e a b = Ok ((a / sc) ^ 2 + (b / tc) ^ 2)) -> s0 <> [] ->
  create w = Ok k -> peak (env e) k (gmax sc tc quads w).
Proof.
  intros Q Hs Ht F N K. destruct (peak_exists _ _ _ _ _ AF e w Q N) as (k' & M & K' & P & _). rewrite K in K'. apply Ok_inj in K'. subst k'.
  rewrite <- (peak_gmax e sc tc w k M Hs Ht F K P). exact P.
Qed.
Lemma gmax_convex e sc tc v r : quadratic_envelope e -> 0 < sc -> 0 < tc -> (forall a b, env e a b = Ok ((a / sc) ^ 2 + (b / tc) ^ 2)) -> s0 <> [] ->
  0 <= v -> 0 <= r <= 1 -> gmax sc tc quads (r * v) <= (1 - r) * gmax sc tc quads 0 + r * gmax sc tc quads v.
Proof.
  intros Q Hs Ht F N Hv Hr. destruct (peak_exists _ _ _ _ _ AF e 0 Q N) as (k0 & _ & K0 & _). destruct (peak_exists _ _ _ _ _ AF e v Q N) as (k2 & _ & K2 & _).
  destruct (peak_exists _ _ _ _ _ AF e (r * v) Q N) as (k1 & _ & K1 & _).
  apply (peak_convex _ _ _ _ _ AF e 0 v r k0 k1 k2); try assumption; try (apply (peak_at e); assumption). replace ((1 - r) * 0 + r * v) with (r * v) by ring. exact K1.
Qed.
End P.
