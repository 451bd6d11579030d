(** The computed lengths are close to true lengths of contact (C110). *)
From Coq Require Import Lra Lia Ranalysis5.
From Coquelicot Require Import Coquelicot.
Require Import Verif.Py Verif.MTools Verif.MEigen Verif.MFields Verif.SAdm Verif.MRaster
  Verif.MSolution Verif.SBeam Verif.SBvp Verif.SEig Verif.SContact Verif.SWindow Verif.SReach Verif.PSetup Verif.PBeam Verif.PBeam2 Verif.PBalance Verif.PDepend
  Verif.PSub Verif.PTouch Verif.PContact Verif.PContact2 Verif.PContact3 Verif.PRigid Verif.PWindow Verif.PWindow2 Verif.PGap Verif.PGap2 Verif.PGap3.
Open Scope R_scope.

Lemma zero_between f lo hi x1 x2 r d : (forall x, lo <= x <= hi -> continuous f x) -> lo <= x1 <= hi -> lo <= x2 <= hi ->
  f x1 <= 0 <= f x2 -> Rabs (x1 - r) <= d -> Rabs (x2 - r) <= d ->
  exists b, f b = 0 /\ lo <= b <= hi /\ Rabs (b - r) <= d.
Proof.
  intros C B1 B2 [F1 F2] D1 D2.
  destruct (Req_dec (f x1) 0) as [E|N1]; [exists x1; auto|]. destruct (Req_dec (f x2) 0) as [E|N2]; [exists x2; auto|].
  assert (K : forall x, lo <= x <= hi -> continuity_pt f x) by (intros x Hx; apply continuity_pt_filterlim; exact (C x Hx)).
  assert (Mid : forall y b z, y <= b <= z -> Rabs (y - r) <= d -> Rabs (z - r) <= d -> Rabs (b - r) <= d).
  { intros y b z Hb Hy Hz. apply Rabs_le_between in Hy. apply Rabs_le_between in Hz. apply Rabs_le_between. lra. }
  destruct (Rtotal_order x1 x2) as [H|[->|H]]; [| lra |].
  - destruct (IVT_interv f x1 x2) as (b & Hb & Z); trivial; try lra; [intros; apply K; lra|].
    exists b. split; [exact Z|]. split; [lra|]. exact (Mid x1 b x2 Hb D1 D2).
  - destruct (IVT_interv (fun x => - f x) x2 x1) as (b & Hb & Z); try lra; [intros; apply continuity_pt_opp, K; lra|].
    exists b. split; [lra|]. split; [lra|]. exact (Mid x2 b x1 Hb D2 D1).
Qed.

Lemma tends_scale (b c : R) : tends (locally b) (Rmult c) (c * b).
Proof. apply (tends_mult (locally b) (fun _ => c) (fun t => t)); [apply (tends_const (locally b))|apply tends_id]. Qed.
Ltac tnds := repeat first [apply tends_scale | progress tnd].

Section Reach.
Variable eig : mat6 -> list eigpair.
Variable solve : nat -> matrix -> vector -> res vector.
Variable brent : R -> R -> list (R * R) -> bstep.
Variable maxeval : nat.
Hypotheses (Hso : sound_solver solve) (Hco : complete_solver solve).
Variables (o : obj) (L phi cf ratio delta : R).
Hypotheses (Hs : substitute_ready eig o "supported") (NH : never_hidden o L) (Hq0 : 0 <= level_load o)
  (HL : 0 < L) (Hrs : returns_sign_change brent delta).
Let q := slope_load o phi.
Let tc := fall o cf.
Hypothesis Hq : 0 < q.
Let ob a := attributes_of o L a cf phi ratio.

Lemma fst_spring o1 support dof l k : fst (sub eig solve l support dof o1) = Ok k -> k = spring_of eig solve o1 support dof l.
Proof. unfold sub, spring_of. intros ->. reflexivity. Qed.

Lemma same a dof l : (dof = "rot"%string \/ dof = "trans"%string) -> 0 < l ->
  spring_of eig solve (ob a) "supported" dof l = spring_of eig solve o "supported" dof l /\
  spring_of eig solve (set_mode ModeC (ob a)) "supported" dof l = spring_of eig solve o "supported" dof l.
Proof. apply spring_same; assumption. Qed.
Lemma reach_a1 a r o1 : calc_a1 eig solve brent maxeval (ob a) = (Ok r, o1) ->
  exists b, 0 < b < L /\ Rabs (b - r) <= delta /\ first_contact_at eig solve o L q tc b.
Proof.
  intros H. destruct (calc_a1_ok eig solve brent maxeval (ob a) r o1 (proj1 (proj2 Hs)) H) as (L' & EL & _ & hist & Eb & HI).
  injection EL; intros <-.
  destruct (Hrs _ _ _ _ Eb) as (x1 & v1 & x2 & v2 & I1 & I2 & [V1 V2] & B1 & B2 & D1 & D2).
  assert (V : forall x v, In (x, v) hist -> v = a1_of eig solve (ob a) L x).
  { intros x v I. destruct (HI x v I) as (kR & kN & S1 & S2 & E). apply fst_spring in S1. apply fst_spring in S2. rewrite E, S1, S2. reflexivity. }
  apply V in I1. apply V in I2. subst v1 v2.
  destruct (zero_between (a1_of eig solve (ob a) L) (L / 1000) (999 / 1000 * L) x1 x2 r delta) as (b & Z & Bb & D); auto.
  { intros x Hx. apply (a1_continuous eig solve Hso Hco (ob a) L Hs NH Hq0). lra. }
  exists b. split; [lra|]. split; [exact D|].
  destruct (kn_pos eig solve Hso Hco o L Hs NH Hq0 b ltac:(lra)) as [K N].
  destruct (spring_rot eig solve Hso Hco o "supported" (L - b) Hs ltac:(lra)) as (G1 & _).
  destruct (spring_trans eig solve Hso Hco o (L - b) L Hs ltac:(lra) NH Hq0) as (G2 & _).
  destruct (free_tip_exists (o_par o) q _ _ b (proj1 (proj1 Hs)) K N ltac:(lra)) as (z & HB & HT).
  exists (spring_of eig solve o "supported" "rot" (L - b)), (spring_of eig solve o "supported" "trans" (L - b)), z.
  rewrite G1, G2. repeat (split; [assumption || reflexivity|]).
  unfold a1_of in Z.
  rewrite (proj1 (same a "rot" (L - b) (or_introl eq_refl) ltac:(lra))),
    (proj1 (same a "trans" (L - b) (or_intror eq_refl) ltac:(lra))) in Z.
  pose proof (poly_a1_meaning (o_par o) (proj1 (proj1 Hs)) q _ _ b K N ltac:(lra) z HB tc ltac:(lra) HT) as Me.
  change (o_par (ob a)) with (o_par o) in Z. change (calc_qn (ob a)) with q in Z. change (o_tc (ob a)) with tc in Z. rewrite Z in Me. lra.
Qed.

Lemma reach_a2 a r o1 : calc_a2 eig solve brent maxeval (ob a) = (Ok r, o1) ->
  exists b, 0 < b < L /\ Rabs (b - r) <= delta /\ full_contact_at eig solve o L q tc b.
Proof.
  intros H. destruct (calc_a2_ok eig solve brent maxeval (ob a) r o1 (proj1 (proj2 Hs)) H) as (L' & EL & _ & hist & Eb & HI).
  injection EL; intros <-.
  destruct (Hrs _ _ _ _ Eb) as (x1 & v1 & x2 & v2 & I1 & I2 & [V1 V2] & B1 & B2 & D1 & D2).
  assert (V : forall x v, In (x, v) hist -> v = a2_of eig solve (ob a) L x).
  { intros x v I. destruct (HI x v I) as (kR & kN & S1 & S2 & E). apply fst_spring in S1. apply fst_spring in S2. rewrite E, S1, S2. reflexivity. }
  apply V in I1. apply V in I2. subst v1 v2.
  destruct (zero_between (a2_of eig solve (ob a) L) (L / 1000) (999 / 1000 * L) x1 x2 r delta) as (b & Z & Bb & D); auto.
  { intros x Hx. apply (a2_continuous eig solve Hso Hco (ob a) L Hs NH Hq0). lra. }
  exists b. split; [lra|]. split; [exact D|].
  apply (full_root eig solve Hso Hco o L phi cf ratio Hs NH Hq0 b ltac:(lra)).
  unfold a2_of in Z |- *. fold (ob 0).
  rewrite (proj1 (same a "rot" (L - b) (or_introl eq_refl) ltac:(lra))),
    (proj1 (same a "trans" (L - b) (or_intror eq_refl) ltac:(lra))) in Z.
  rewrite (proj1 (same 0 "rot" (L - b) (or_introl eq_refl) ltac:(lra))),
    (proj1 (same 0 "trans" (L - b) (or_intror eq_refl) ltac:(lra))). exact Z.
Qed.

Hypothesis Hr : substitute_ready eig (set_stiffness_ratio ratio o) "rested".
Lemma rest_same a l : 0 < l ->
  spring_of eig solve (set_mode ModeC (ob a)) "rested" "rot" l = spring_of eig solve (set_stiffness_ratio ratio o) "rested" "rot" l.
Proof.
  intros Hl. destruct (beam_exists eig (set_stiffness_ratio ratio o) l "rested" Hr Hl) as [[z B] _].
  assert (S2 : substitute_ready eig (set_mode ModeC (ob a)) "rested") by exact Hr. unfold spring_of.
  rewrite (proj2 (sub_rot eig solve (set_stiffness_ratio ratio o) l "rested" z Hso Hco Hr Hl B)),
    (proj2 (sub_rot eig solve (set_mode ModeC (ob a)) l "rested" z Hso Hco S2 Hl B)). reflexivity.
Qed.

Lemma lC_continuous a x : 0 < a < L -> a / 1000 <= x <= 999 / 1000 * a -> continuous (lC_of eig solve (set_mode ModeC (ob a)) L a) x.
Proof.
  intros Ha Hx. set (oC := set_mode ModeC (ob a)) in *. assert (Hr' : substitute_ready eig oC "rested") by exact Hr.
  change (tends (locally x) (lC_of eig solve oC L a) (lC_of eig solve oC L a x)).
    set (t := fun x => spring_of eig solve oC "rested" "rot" (a - x)).
    assert (T : tends (locally x) t (t x)).
    { assert (C : continuous (fun x => a - x) x) by (apply (continuous_minus (fun _ => a) (fun x => x)); [apply continuous_const|apply continuous_id]).
      apply (continuous_comp (fun x => a - x) (spring_of eig solve oC "rested" "rot") x C).
      apply spring_continuous; trivial; [left; reflexivity|lra|].
      exact (proj1 (proj1 (proj2 (spring_rot eig solve Hso Hco oC "rested" (a - x) Hr' ltac:(lra))))). }
    set (k := spring_of eig solve oC "supported" "rot" (L - a)) in *. set (n := spring_of eig solve oC "supported" "trans" (L - a)) in *.
    set (bs := bs_of (o_par oC)). set (ss := kA55 (o_par oC)). set (q' := calc_qn oC). set (tc' := o_tc oC).
    assert (X : tends (locally x) (fun y => q' * (load0 bs ss k n y + t y * load1 bs ss k n y) + - (tc' * (rest0 bs ss k n y + t y * rest1 bs ss k n y)))
      (q' * (load0 bs ss k n x + t x * load1 bs ss k n x) + - (tc' * (rest0 bs ss k n x + t x * rest1 bs ss k n x))))
      by (unfold load0, rest0, load1, rest1; tnds).
    refine (tends_ext (locally x) _ _ _ _ _ _ X); [intros y|]; unfold lC_of; rewrite lC_parts; fold k n bs ss q' tc'; unfold t; ring.
Qed.

Lemma reach_lC a r o1 : 0 < a < L -> calc_lC eig solve brent maxeval (set_mode ModeC (ob a)) = (Ok r, o1) ->
  exists b, 0 < b < a /\ Rabs (b - r) <= delta /\ rests_at eig solve o ratio L q tc a b.
Proof.
  intros Ha H. set (oC := set_mode ModeC (ob a)) in *.
  assert (Hs' : substitute_ready eig oC "supported") by exact Hs. assert (Hr' : substitute_ready eig oC "rested") by exact Hr.
  destruct (calc_lC_ok eig solve brent maxeval oC r o1 (proj1 (proj2 Hs)) H) as (L' & EL & _ & hist & Eb & HI).
  injection EL; intros <-. change (o_a oC) with a in *.
  destruct (Hrs _ _ _ _ Eb) as (x1 & v1 & x2 & v2 & I1 & I2 & [V1 V2] & B1 & B2 & D1 & D2).
  assert (V : forall x v, In (x, v) hist -> v = lC_of eig solve oC L a x).
  { intros x v I. destruct (HI x v I) as (kR & kN & kT & S1 & S2 & S3 & E). apply fst_spring in S1. apply fst_spring in S2. apply fst_spring in S3.
    rewrite E, S1, S2, S3. reflexivity. }
  apply V in I1. apply V in I2. subst v1 v2.
  destruct (kn_pos eig solve Hso Hco oC L Hs' NH Hq0 a Ha) as [K N].
  destruct (zero_between (lC_of eig solve oC L a) (a / 1000) (999 / 1000 * a) x1 x2 r delta) as (b & Z & Bb & D); auto.
  { intros x Hx. exact (lC_continuous a x Ha Hx). }
  exists b. split; [lra|]. split; [exact D|].
  destruct (spring_rot eig solve Hso Hco o "supported" (L - a) Hs ltac:(lra)) as (G1 & _).
  destruct (spring_trans eig solve Hso Hco o (L - a) L Hs ltac:(lra) NH Hq0) as (G2 & _).
  destruct (spring_rot eig solve Hso Hco (set_stiffness_ratio ratio o) "rested" (a - b) Hr ltac:(lra)) as (G3 & (P3 & _) & _).
  unfold lC_of in Z.
  pose proof (proj2 (same a "rot" (L - a) (or_introl eq_refl) ltac:(lra))) as Q1. pose proof (proj2 (same a "trans" (L - a) (or_intror eq_refl) ltac:(lra))) as Q2.
  pose proof (rest_same a (a - b) ltac:(lra)) as Q3. fold oC in Q1, Q2, Q3. rewrite Q1, Q2, Q3 in Z. rewrite Q1 in K. rewrite Q2 in N.
  destruct (contact_tip_exists (o_par o) q _ _ (spring_of eig solve (set_stiffness_ratio ratio o) "rested" "rot" (a - b)) tc b (proj1 (proj1 Hs)) K N ltac:(lra) ltac:(lra))
    as (z & HB & HC).
  exists (spring_of eig solve o "supported" "rot" (L - a)), (spring_of eig solve o "supported" "trans" (L - a)),
    (spring_of eig solve (set_stiffness_ratio ratio o) "rested" "rot" (a - b)), z.
  rewrite G1, G2, G3. repeat (split; [assumption || reflexivity|]).
  apply (lC_sign (o_par o) q _ _ b (spring_of eig solve (set_stiffness_ratio ratio o) "rested" "rot" (a - b)) tc z (proj1 (proj1 Hs)) K N ltac:(lra) ltac:(lra) HB HC). exact Z.
Qed.
End Reach.
