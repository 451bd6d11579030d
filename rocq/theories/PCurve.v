(** Proofs about plotted failure curves (C89). *)
From Coquelicot Require Import Coquelicot.
Require Import Verif.Py Verif.MTools Verif.MEnvelope Verif.SCurve Verif.PEnvelope.
Open Scope R_scope.

Lemma circle_concave a b t : -1 <= a <= 1 -> -1 <= b <= 1 -> 0 <= t <= 1 ->
  t * sqrt (1 - a ^ 2) + (1 - t) * sqrt (1 - b ^ 2) <= sqrt (1 - (t * a + (1 - t) * b) ^ 2).
Proof.
  intros Ha Hb Ht. assert (A0 : 0 <= 1 - a ^ 2) by nra. assert (B0 : 0 <= 1 - b ^ 2) by nra.
  pose proof (sqrt_pos (1 - a ^ 2)) as Pa. pose proof (sqrt_pos (1 - b ^ 2)) as Pb.
  pose proof (sqrt_sqrt _ A0) as Sa. pose proof (sqrt_sqrt _ B0) as Sb.
  set (A := sqrt (1 - a ^ 2)) in *. set (B := sqrt (1 - b ^ 2)) in *.
  assert (C : A * B <= 1 - a * b).
  { assert (Q : (A * B) ^ 2 <= (1 - a * b) ^ 2). { replace ((A * B) ^ 2) with ((A * A) * (B * B)) by ring. rewrite Sa, Sb. replace ((1 - a * b) ^ 2) with ((1 - a ^ 2) * (1 - b ^ 2) + (a - b) ^ 2) by ring. pose proof (pow2_ge_0 (a - b)). lra. }
    assert (0 <= 1 - a * b) by nra. assert (0 <= A * B) by nra. nra. }
  assert (L : 0 <= t * A + (1 - t) * B) by (apply Rplus_le_le_0_compat; apply Rmult_le_pos; lra).
  rewrite <- (sqrt_pow2 _ L). apply sqrt_le_1_alt.
  replace ((t * A + (1 - t) * B) ^ 2) with (t ^ 2 * (A * A) + (1 - t) ^ 2 * (B * B) + 2 * (t * (1 - t)) * (A * B)) by ring. rewrite Sa, Sb.
  assert (T : 0 <= t * (1 - t)) by nra. nra.
Qed.

(** A line up to the peak and a quarter ellipse beyond it. *)
Definition cap (T P k w s : R) : R :=
  T * (Rmin 1 (1 + k * (s - P)) + sqrt (1 - (Rmax 0 (Rmin (s - P) w) / w) ^ 2) - 1).
Lemma cap_left T P k w s : 0 <= k -> 0 < w -> s <= P -> cap T P k w s = T * (1 + k * (s - P)).
Proof.
  intros Hk Hw Hs. unfold cap. rewrite Rmin_right by nra. rewrite (Rmin_left (s - P) w) by lra. rewrite Rmax_left by lra.
  replace (1 - (0 / w) ^ 2) with 1 by (field; lra). rewrite sqrt_1. ring.
Qed.
Lemma cap_right T P k w s : 0 <= k -> 0 < w -> P <= s <= P + w -> cap T P k w s = T * sqrt (1 - ((s - P) / w) ^ 2).
Proof.
  intros Hk Hw Hs. unfold cap. rewrite Rmin_left by nra. rewrite (Rmin_left (s - P) w) by lra. rewrite Rmax_right by lra. ring.
Qed.
Lemma cap_beyond T P k w s : 0 <= k -> 0 < w -> P + w <= s -> cap T P k w s = 0.
Proof.
  intros Hk Hw Hs. unfold cap. rewrite Rmin_left by nra. rewrite (Rmin_right (s - P) w) by lra. rewrite Rmax_right by lra.
  replace (1 - (w / w) ^ 2) with 0 by (field; lra). rewrite sqrt_0. ring.
Qed.
Lemma cont_ext (f g : R -> R) x : (forall y, f y = g y) -> continuous f x -> continuous g x.
Proof. intros H. exact (continuous_ext f g x H). Qed.
Lemma cont_Rmin (f g : R -> R) x : continuous f x -> continuous g x -> continuous (fun y => Rmin (f y) (g y)) x.
Proof.
  intros F G. apply cont_ext with (fun y => ((f y + g y) - Rabs (f y - g y)) * / 2).
  { intros y. unfold Rmin, Rabs. destruct (Rcase_abs (f y - g y)), (Rle_dec (f y) (g y)); lra. }
  apply (continuous_mult (K := R_AbsRing)); [|apply continuous_const]. apply (continuous_minus (V := R_NormedModule)).
  - apply (continuous_plus (V := R_NormedModule)); assumption.
  - apply continuous_comp; [apply (continuous_minus (V := R_NormedModule)); assumption|apply continuous_Rabs].
Qed.
Lemma cont_Rmax (f g : R -> R) x : continuous f x -> continuous g x -> continuous (fun y => Rmax (f y) (g y)) x.
Proof.
  intros F G. apply cont_ext with (fun y => - Rmin (- f y) (- g y)).
  { intros y. unfold Rmin, Rmax. destruct (Rle_dec (- f y) (- g y)), (Rle_dec (f y) (g y)); lra. }
  apply (continuous_opp (V := R_NormedModule)). apply cont_Rmin; apply (continuous_opp (V := R_NormedModule)); assumption.
Qed.
Lemma cont_lin (a b x : R) : continuous (fun y => a * y + b) x.
Proof.
  apply (continuous_plus (V := R_NormedModule)); [|apply continuous_const]. apply (continuous_mult (K := R_AbsRing)); [apply continuous_const|apply continuous_id].
Qed.
Lemma cap_cont T P k w x : continuous (cap T P k w) x.
Proof.
  unfold cap. apply (continuous_mult (K := R_AbsRing)); [apply continuous_const|].
  apply (continuous_minus (V := R_NormedModule)); [|apply continuous_const]. apply (continuous_plus (V := R_NormedModule)).
  - apply cont_Rmin; [apply continuous_const|]. apply cont_ext with (fun y => k * y + (1 - k * P)); [intros; ring|]. apply cont_lin.
  - apply continuous_comp; [|apply continuous_sqrt].
    assert (Q : continuous (fun y => Rmax 0 (Rmin (y - P) w) / w) x).
    { apply (continuous_mult (K := R_AbsRing)); [|apply continuous_const]. apply cont_Rmax; [apply continuous_const|]. apply cont_Rmin; [|apply continuous_const].
      apply cont_ext with (fun y => 1 * y + - P); [intros; ring|]. apply cont_lin. }
    apply (continuous_minus (V := R_NormedModule)); [apply continuous_const|].
    apply cont_ext with (fun y => Rmax 0 (Rmin (y - P) w) / w * (Rmax 0 (Rmin (y - P) w) / w)); [intros y; ring|].
    apply (continuous_mult (K := R_AbsRing)); exact Q.
Qed.
Lemma cap_concave T P k w s1 s2 t : 0 <= T -> 0 <= k -> 0 < w -> s1 <= P + w -> s2 <= P + w -> 0 <= t <= 1 ->
  t * cap T P k w s1 + (1 - t) * cap T P k w s2 <= cap T P k w (t * s1 + (1 - t) * s2).
Proof.
  intros HT Hk Hw H1 H2 Ht. unfold cap. set (s := t * s1 + (1 - t) * s2). assert (Hs : s <= P + w) by (unfold s; nra).
  rewrite (Rmin_left (s1 - P) w), (Rmin_left (s2 - P) w), (Rmin_left (s - P) w) by lra.
  assert (M : t * Rmin 1 (1 + k * (s1 - P)) + (1 - t) * Rmin 1 (1 + k * (s2 - P)) <= Rmin 1 (1 + k * (s - P))).
  { pose proof (Rmin_l 1 (1 + k * (s1 - P))). pose proof (Rmin_r 1 (1 + k * (s1 - P))). pose proof (Rmin_l 1 (1 + k * (s2 - P))). pose proof (Rmin_r 1 (1 + k * (s2 - P))).
    apply Rmin_glb; [nra|]. unfold s. replace (1 + k * (t * s1 + (1 - t) * s2 - P)) with (t * (1 + k * (s1 - P)) + (1 - t) * (1 + k * (s2 - P))) by ring. nra. }
  set (r1 := Rmax 0 (s1 - P) / w). set (r2 := Rmax 0 (s2 - P) / w). set (r := Rmax 0 (s - P) / w).
  assert (D : forall q, q <= P + w -> 0 <= Rmax 0 (q - P) / w <= 1).
  { intros q Hq. assert (0 <= Rmax 0 (q - P) <= w) by (split; [apply Rmax_l|apply Rmax_lub; lra]). split; [apply Rdiv_le_0_compat; lra|]. apply Rmult_le_reg_r with w; [exact Hw|]. unfold Rdiv. rewrite Rmult_assoc, Rinv_l by lra. lra. }
  pose proof (D s1 H1) as D1. pose proof (D s2 H2) as D2. pose proof (D s Hs) as D3. fold r1 in D1. fold r2 in D2. fold r in D3.
  assert (Rr : r <= t * r1 + (1 - t) * r2).
  { unfold r, r1, r2. replace (t * (Rmax 0 (s1 - P) / w) + (1 - t) * (Rmax 0 (s2 - P) / w)) with ((t * Rmax 0 (s1 - P) + (1 - t) * Rmax 0 (s2 - P)) / w) by (field; lra).
    apply Rmult_le_compat_r; [left; apply Rinv_0_lt_compat; exact Hw|].
    pose proof (Rmax_l 0 (s1 - P)). pose proof (Rmax_r 0 (s1 - P)). pose proof (Rmax_l 0 (s2 - P)). pose proof (Rmax_r 0 (s2 - P)).
    apply Rmax_lub; [nra|]. unfold s. nra. }
  assert (C : t * sqrt (1 - r1 ^ 2) + (1 - t) * sqrt (1 - r2 ^ 2) <= sqrt (1 - r ^ 2)).
  { eapply Rle_trans; [apply circle_concave; lra|]. apply sqrt_le_1_alt. assert (0 <= t * r1 + (1 - t) * r2) by nra. nra. }
  nra.
Qed.

(** Functions equal to a cap on their range. *)
Lemma cap_curve f T P k w lo : 0 < T -> 0 <= k -> 0 < w -> lo <= P -> 0 <= 1 + k * (lo - P) ->
  (forall s, lo <= s -> f s = cap T P k w s) -> (forall s, s < lo -> f s = 0) ->
  failure_curve f lo P (P + w) T.
Proof.
  intros HT Hk Hw Hlo H0 E Z. constructor.
  - lra.
  - rewrite E by lra. rewrite cap_left by lra. ring.
  - intros s. destruct (Rlt_dec s lo) as [A|A]; [rewrite Z by exact A; lra|]. rewrite E by lra.
    destruct (Rle_dec s P) as [B|B]; [rewrite cap_left by lra; split; [apply Rmult_le_pos; [lra|nra]|]; assert (k * (s - P) <= 0) by nra; nra|].
    destruct (Rle_dec s (P + w)) as [C|C]; [|rewrite cap_beyond by lra; lra]. rewrite cap_right by lra.
    pose proof (sqrt_pos (1 - ((s - P) / w) ^ 2)) as Q. assert (Q2 : sqrt (1 - ((s - P) / w) ^ 2) <= 1).
    { rewrite <- sqrt_1 at 2. apply sqrt_le_1_alt. pose proof (pow2_ge_0 ((s - P) / w)). lra. }
    split; [nra|]. nra.
  - intros s1 s2 t H1 H2 Ht. rewrite !E by nra. apply cap_concave; lra.
  - intros s Hs. apply (continuous_ext_loc f (cap T P k w) s); [|apply cap_cont].
    exists (mkposreal (s - lo) ltac:(lra)). intros y Hy. symmetry. apply E. unfold ball in Hy. simpl in Hy. unfold AbsRing_ball, abs, minus, plus, opp in Hy. simpl in Hy.
    apply Rabs_def2 in Hy. lra.
  - intros s [A|A]; [apply Z; exact A|]. rewrite E by lra. apply cap_beyond; lra.
Qed.

Lemma cap_curve' f T P k w lo hi : hi = P + w -> 0 < T -> 0 <= k -> 0 < w -> lo <= P -> 0 <= 1 + k * (lo - P) ->
  (forall s, lo <= s -> f s = cap T P k w s) -> (forall s, s < lo -> f s = 0) ->
  failure_curve f lo P hi T.
Proof. intros ->. apply cap_curve. Qed.

Lemma ellipse_curve sc tc : 0 < sc -> 0 < tc -> failure_curve (ellipse (sc, tc)) (- sc) 0 sc tc.
Proof.
  intros Hs Ht.
  assert (I : forall x, - sc <= x <= sc -> ellipse (sc, tc) x = tc * sqrt (1 - (x / sc) ^ 2)).
  { intros x Hx. unfold ellipse, Rleb. destruct (Rle_dec (- sc) x) as [A|A]; [|lra]. destruct (Rle_dec x sc) as [B|B]; [|lra]. cbn [andb].
    replace (x ^ 2 / sc ^ 2) with ((x / sc) ^ 2) by (field; lra). ring. }
  assert (Z : forall x, x < - sc \/ sc < x -> ellipse (sc, tc) x = 0).
  { intros x Hx. unfold ellipse, Rleb. destruct (Rle_dec (- sc) x) as [A|A]; [|reflexivity]. destruct (Rle_dec x sc) as [B|B]; [lra|reflexivity]. }
  assert (Bd : forall x, - sc <= x <= sc -> -1 <= x / sc <= 1).
  { intros x Hx. split; apply Rmult_le_reg_r with sc; try exact Hs; unfold Rdiv; rewrite Rmult_assoc, Rinv_l by lra; lra. }
  assert (F : forall x, ellipse (sc, tc) x = tc * sqrt (1 - Rmin 1 ((x / sc) * (x / sc)))).
  { intros x. destruct (Rle_dec (- sc) x) as [A|A]; [destruct (Rle_dec x sc) as [B|B]|].
    - rewrite I by lra. pose proof (Bd x ltac:(lra)). rewrite Rmin_right by nra. f_equal. f_equal. ring.
    - assert (1 < x / sc) by (apply Rmult_lt_reg_r with sc; [exact Hs|]; unfold Rdiv; rewrite Rmult_assoc, Rinv_l by lra; lra).
      rewrite Z by lra. rewrite Rmin_left by nra. rewrite Rminus_eq_0, sqrt_0. ring.
    - assert (x / sc < -1) by (apply Rmult_lt_reg_r with sc; [exact Hs|]; unfold Rdiv; rewrite Rmult_assoc, Rinv_l by lra; lra).
      rewrite Z by lra. rewrite Rmin_left by nra. rewrite Rminus_eq_0, sqrt_0. ring. }
  constructor.
  - lra.
  - rewrite I by lra. replace (1 - (0 / sc) ^ 2) with 1 by (field; lra). rewrite sqrt_1. ring.
  - intros s. rewrite F. set (m := Rmin 1 (s / sc * (s / sc))). assert (0 <= m <= 1) by (split; [apply Rmin_glb; [lra|apply Rle_0_sqr]|apply Rmin_l]).
    pose proof (sqrt_pos (1 - m)). assert (sqrt (1 - m) <= 1) by (rewrite <- sqrt_1 at 2; apply sqrt_le_1_alt; lra). split; [apply Rmult_le_pos; lra|]. rewrite <- (Rmult_1_r tc) at 2. apply Rmult_le_compat_l; lra.
  - intros s1 s2 t H1 H2 Hb. rewrite !I by nra. pose proof (circle_concave _ _ t (Bd s1 H1) (Bd s2 H2) Hb) as C.
    replace ((t * s1 + (1 - t) * s2) / sc) with (t * (s1 / sc) + (1 - t) * (s2 / sc)) by (field; lra). nra.
  - intros s _. apply cont_ext with (fun x => tc * sqrt (1 - Rmin 1 ((x / sc) * (x / sc)))); [intros; symmetry; apply F|].
    apply (continuous_mult (K := R_AbsRing)); [apply continuous_const|]. apply continuous_comp; [|apply continuous_sqrt].
    apply (continuous_minus (V := R_NormedModule)); [apply continuous_const|]. apply cont_Rmin; [apply continuous_const|].
    apply (continuous_mult (K := R_AbsRing)); apply cont_ext with (fun y => / sc * y + 0); try (intros; field; lra); apply cont_lin.
  - intros s [A|A]; [apply Z; lra|]. destruct (Req_dec s sc) as [->|N]; [|apply Z; lra]. rewrite I by lra. replace (1 - (sc / sc) ^ 2) with 0 by (field; lra). rewrite sqrt_0. ring.
Qed.

Lemma mede_curve p0 tT pT : 0 < p0 -> 0 < tT ->
  failure_curve (fun sigma => if (Rleb (pT - p0) sigma && Rleb sigma pT)%bool then tT / p0 * sigma + (tT - tT * pT / p0)
      else if (Rltb pT sigma && Rleb sigma (pT + p0))%bool
      then sqrt (tT ^ 2 - tT ^ 2 / p0 ^ 2 * (sigma - pT) ^ 2)
      else 0) (pT - p0) pT (pT + p0) tT.
Proof.
  intros Hp HT. assert (Hk : 0 < / p0) by (apply Rinv_0_lt_compat; exact Hp).
  apply (cap_curve _ tT pT (/ p0) p0 (pT - p0)); try lra.
  - assert (/ p0 * (pT - p0 - pT) = -1) by (field; lra). lra.
  - intros s Hs. unfold Rleb, Rltb. destruct (Rle_dec (pT - p0) s) as [A|A]; [|lra]. cbn [andb].
    destruct (Rle_dec s pT) as [B|B].
    + rewrite cap_left by lra. field. lra.
    + destruct (Rlt_dec pT s) as [C|C]; [|lra]. destruct (Rle_dec s (pT + p0)) as [D|D]; cbn [andb]; [|rewrite cap_beyond by lra; reflexivity].
      rewrite cap_right by lra. replace (tT ^ 2 - tT ^ 2 / p0 ^ 2 * (s - pT) ^ 2) with (tT ^ 2 * (1 - ((s - pT) / p0) ^ 2)) by (field; lra).
      rewrite sqrt_mult_alt by nra. rewrite sqrt_pow2 by lra. reflexivity.
  - intros s Hs. unfold Rleb, Rltb. destruct (Rle_dec (pT - p0) s) as [A|A]; [lra|]. cbn [andb]. destruct (Rlt_dec pT s) as [C|C]; [lra|reflexivity].
Qed.
Lemma chandel_so c sT sC m : 0 < c -> 0 <= sT < sC -> 0 <= m ->
  failure_curve (fun sigma => if (Rltb sT sigma && Rleb sigma sC)%bool then (c + sT * m) * sqrt (1 - ((sigma - sT) / (sC - sT)) ^ 2)
        else if (Rleb sigma sT && Rleb 0 sigma)%bool then c + sigma * m else 0) 0 sT sC (c + sT * m).
Proof.
  intros Hc Hs Hm. assert (HT : 0 < c + sT * m) by nra.
 assert (K : 0 <= m / (c + sT * m)) by (apply Rdiv_le_0_compat; lra).
  apply (cap_curve' _ (c + sT * m) sT (m / (c + sT * m)) (sC - sT) 0 sC); try lra.
  - replace (1 + m / (c + sT * m) * (0 - sT)) with (c / (c + sT * m)) by (field; lra). apply Rdiv_le_0_compat; lra.
  - intros s H0. unfold Rleb, Rltb. destruct (Rlt_dec sT s) as [A|A].
    + destruct (Rle_dec s sC) as [B|B]; cbn [andb].
      * rewrite cap_right by lra. reflexivity.
      * destruct (Rle_dec s sT); [lra|]. cbn [andb]. rewrite cap_beyond by lra. reflexivity.
    + cbn [andb]. destruct (Rle_dec s sT); [|lra]. destruct (Rle_dec 0 s); [|lra]. cbn [andb]. rewrite cap_left by lra. field. lra.
  - intros s H0. unfold Rleb, Rltb. destruct (Rlt_dec sT s); [lra|]. destruct (Rle_dec 0 s); [lra|]. cbn [andb]. destruct (Rle_dec s sT); reflexivity.
Qed.
Lemma chandel_sf s0 t0 : 0 < s0 -> 0 < t0 ->
  failure_curve (fun sigma => if (Rleb sigma s0 && Rleb 0 sigma)%bool then t0 * sqrt (1 - (sigma / s0) ^ 2) else 0) 0 0 s0 t0.
Proof.
  intros Hs Ht. apply (cap_curve' _ t0 0 0 s0 0 s0); try lra.
  - intros s H0. unfold Rleb. destruct (Rle_dec s s0) as [A|A]; destruct (Rle_dec 0 s) as [B|B]; try lra; cbn [andb].
    + rewrite cap_right by lra. rewrite Rminus_0_r. reflexivity.
    + rewrite cap_beyond by lra. reflexivity.
  - intros s H0. unfold Rleb. destruct (Rle_dec 0 s); [lra|]. destruct (Rle_dec s s0); reflexivity.
Qed.
