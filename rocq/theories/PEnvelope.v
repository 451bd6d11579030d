(** Proofs about failure and toughness envelopes (C59, C60). *)
Require Import Verif.Py Verif.MEnvelope.

Lemma Rltb_true x y : x < y -> Rltb x y = true.
Proof. intros H. unfold Rltb. destruct (Rlt_dec x y); [reflexivity|contradiction]. Qed.
Lemma Rltb_false x y : y <= x -> Rltb x y = false.
Proof. intros H. unfold Rltb. destruct (Rlt_dec x y); [lra|reflexivity]. Qed.
Lemma Rleb_true x y : x <= y -> Rleb x y = true.
Proof. intros H. unfold Rleb. destruct (Rle_dec x y); [reflexivity|contradiction]. Qed.
Lemma Rleb_false x y : y < x -> Rleb x y = false.
Proof. intros H. unfold Rleb. destruct (Rle_dec x y); [lra|reflexivity]. Qed.

Lemma rpow_pos x y : 0 < x -> 0 < rpow x y.
Proof. intros H. unfold rpow. destruct (Req_EM_T x 0); [lra|]. apply exp_pos. Qed.
Lemma rpow_Rpower x y : 0 < x -> rpow x y = Rpower x y.
Proof. intros H. unfold rpow. destruct (Req_EM_T x 0); [lra|reflexivity]. Qed.
Lemma rpow_0 y : y <> 0 -> rpow 0 y = 0.
Proof. intros H. unfold rpow. destruct (Req_EM_T 0 0); [|lra]. destruct (Req_EM_T y 0); [contradiction|reflexivity]. Qed.
Lemma rpow_nonneg x y : 0 <= x -> 0 <= rpow x y.
Proof.
  intros H. destruct (Req_dec x 0) as [->|N]; [|left; apply rpow_pos; lra].
  unfold rpow. destruct (Req_EM_T 0 0); [|lra]. destruct (Req_EM_T y 0); lra.
Qed.
Lemma rpow_lt a b y : 0 <= a < b -> 0 < y -> rpow a y < rpow b y.
Proof.
  intros [A B] Y. destruct (Req_dec a 0) as [->|N].
  - rewrite rpow_0 by lra. apply rpow_pos. lra.
  - rewrite !rpow_Rpower by lra. apply Rlt_Rpower_l; lra.
Qed.
Lemma rpow_le1 x y : 0 <= x <= 1 -> 0 < y -> 0 <= rpow x y <= 1.
Proof.
  intros [A B] Y. split; [apply rpow_nonneg; lra|].
  assert (O : rpow 1 y = 1) by (rewrite rpow_Rpower by lra; unfold Rpower; rewrite ln_1, Rmult_0_r; apply exp_0).
  destruct (Req_dec x 1) as [->|N]; [lra|]. rewrite <- O at 1. left. apply rpow_lt; lra.
Qed.

Lemma quadratic_lt c s t1 t2 : 0 < snd c -> 0 <= t1 < t2 -> quadratic c s t1 < quadratic c s t2.
Proof.
  intros C [A B]. unfold quadratic. apply Rplus_lt_compat_l. unfold Rdiv. rewrite !Rpow_mult_distr.
  apply Rmult_lt_compat_r; [apply pow_lt; apply Rinv_0_lt_compat; exact C|]. nra.
Qed.
Lemma quadratic_ellipse sc tc x : 0 < sc -> 0 < tc -> - sc <= x <= sc -> quadratic (sc, tc) (Rabs x) (Rabs (ellipse (sc, tc) x)) = 1.
Proof.
  intros S T [A B]. unfold quadratic, ellipse. rewrite Rleb_true, Rleb_true by lra. cbn [andb fst snd].
  assert (X : 0 <= 1 - x ^ 2 / sc ^ 2).
  { assert (x ^ 2 / sc ^ 2 <= 1); [|lra]. apply Rmult_le_reg_r with (sc ^ 2); [apply pow_lt; exact S|].
    unfold Rdiv. rewrite Rmult_assoc, Rinv_l by (apply pow_nonzero; lra). nra. }
  rewrite (Rabs_right (_ * tc)) by (apply Rle_ge; apply Rmult_le_pos; [apply sqrt_pos|lra]).
  unfold Rdiv at 2. rewrite Rmult_assoc, Rinv_r, Rmult_1_r by lra.
  rewrite <- (Rsqr_pow2 (sqrt _)), Rsqr_sqrt by exact X.
  unfold Rdiv. rewrite Rpow_mult_distr, pow2_abs. field. lra.
Qed.
(** Inside the ellipse exactly when below it. *)
Lemma quadratic_below sc tc x t : 0 < sc -> 0 < tc -> - sc <= x <= sc ->
  (quadratic (sc, tc) (Rabs x) (Rabs t) < 1 <-> Rabs t < ellipse (sc, tc) x).
Proof.
  intros S T X. pose proof (quadratic_ellipse sc tc x S T X) as E.
  assert (P : 0 <= ellipse (sc, tc) x).
  { unfold ellipse. rewrite Rleb_true, Rleb_true by lra. cbn [andb]. apply Rmult_le_pos; [apply sqrt_pos|lra]. }
  rewrite (Rabs_right (ellipse _ _)) in E by lra. pose proof (Rabs_pos t) as HP. split; intros H.
  - destruct (Rlt_dec (Rabs t) (ellipse (sc, tc) x)) as [L|L]; [exact L|]. exfalso.
    destruct (Req_dec (Rabs t) (ellipse (sc, tc) x)) as [Q|Q]; [rewrite Q in H; lra|].
    assert (quadratic (sc, tc) (Rabs x) (ellipse (sc, tc) x) < quadratic (sc, tc) (Rabs x) (Rabs t)) by (apply quadratic_lt; [exact T|lra]). lra.
  - rewrite <- E. apply quadratic_lt; [exact T|lra].
Qed.
Lemma quadratic_beyond sc tc x t : 0 < sc -> 0 < tc -> sc < Rabs x -> 1 < quadratic (sc, tc) (Rabs x) (Rabs t).
Proof.
  intros S T X. unfold quadratic. cbn [fst snd]. assert (1 < (Rabs x / sc) ^ 2).
  { assert (1 < Rabs x / sc). { apply Rmult_lt_reg_r with sc; [exact S|]. unfold Rdiv. rewrite Rmult_assoc, Rinv_l by lra. lra. } nra. }
  pose proof (pow2_ge_0 (Rabs t / tc)). lra.
Qed.

(** * Toughness *)
Definition gap (y : R) : R := y - rpow y (100 / 99).
Lemma gap_bound y : 0 < y <= 1 -> 0 <= gap y <= 6 / 1000.
Proof.
  intros [A B]. unfold gap. rewrite rpow_Rpower by exact A.
  replace (100 / 99) with (1 + 1 / 99) by lra. rewrite Rpower_plus, Rpower_1 by exact A.
  assert (P : Rpower y (1 / 99) = exp (1 / 99 * ln y)) by reflexivity.
  assert (L : ln y <= 0).
  { destruct (Req_dec y 1) as [->|N]; [rewrite ln_1; lra|]. left. rewrite <- ln_1. apply ln_increasing; lra. }
  assert (U : Rpower y (1 / 99) <= 1).
  { rewrite P. apply Rle_trans with (exp 0); [|rewrite exp_0; lra]. destruct (Rle_lt_or_eq_dec _ _ L) as [N|E]; [left; apply exp_increasing; lra|rewrite E, Rmult_0_r; lra]. }
  assert (D : 1 + 1 / 99 * ln y <= Rpower y (1 / 99)).
  { rewrite P. apply exp_ineq1_le. }
  (* - y ln y <= 1/e <= 1/2 *)
  assert (X : - (y * ln y) <= 1 / 2).
  { assert (Y : 2 * y * (1 + ln (/ (2 * y))) <= 1).
    { assert (Z : 1 + ln (/ (2 * y)) <= / (2 * y)).
      { pose proof (exp_ineq1_le (ln (/ (2 * y)))) as Q. rewrite exp_ln in Q by (apply Rinv_0_lt_compat; lra). exact Q. }
      apply Rle_trans with (2 * y * / (2 * y)); [apply Rmult_le_compat_l; lra|]. rewrite Rinv_r by lra. lra. }
    rewrite ln_Rinv, ln_mult in Y by lra.
    assert (L2 : ln 2 <= 1). { rewrite <- (ln_exp 1). destruct (Rle_lt_or_eq_dec 2 (exp 1)) as [G|G]; [pose proof (exp_ineq1_le 1); lra|left; apply ln_increasing; lra|rewrite <- G; lra]. }
    nra. }
  set (P' := Rpower y (1 / 99)) in *. assert (Q : y * (1 + 1 / 99 * ln y) <= y * P') by (apply Rmult_le_compat_l; lra).
  split; [nra|lra].
Qed.
Lemma gap_strict y : 0 < y < 1 -> 0 < gap y.
Proof.
  intros [A B]. unfold gap. rewrite rpow_Rpower by exact A.
  replace (100 / 99) with (1 + 1 / 99) by lra. rewrite Rpower_plus, Rpower_1 by exact A.
  assert (Rpower y (1 / 99) < 1).
  { unfold Rpower. apply Rlt_le_trans with (exp 0); [|rewrite exp_0; lra]. apply exp_increasing. assert (ln y < 0) by (rewrite <- ln_1; apply ln_increasing; lra). lra. }
  nra.
Qed.
(** The criterion on the plotted envelope. *)
Lemma criterion_on_envelope G : 0 <= G <= 56 / 100 ->
  let y := 1 - rpow (G / (56 / 100)) 5 in
  0 <= y <= 1 /\ fracture_toughness_criterion G (fracture_toughness_envelope G) = 1 - y + rpow y (100 / 99).
Proof.
  intros [A B] y.
  assert (X : 0 <= G / (56 / 100) <= 1) by lra.
  assert (Y : 0 <= y <= 1) by (unfold y; pose proof (rpow_le1 (G / (56 / 100)) 5 X ltac:(lra)); lra).
  split; [exact Y|].
  unfold fracture_toughness_criterion, fracture_toughness_envelope. rewrite Rleb_true, Rleb_true by lra. cbn [andb].
  fold y. rewrite (Rabs_right G) by lra. replace (1 / (2 / 10)) with 5 by lra.
  replace (rpow (G / (56 / 100)) 5) with (1 - y) by (unfold y; lra). f_equal.
  pose proof (rpow_nonneg y (1 / (22 / 10)) (proj1 Y)) as N.
  rewrite Rabs_right by lra. replace (79 / 100 * rpow y (1 / (22 / 10)) / (79 / 100)) with (rpow y (1 / (22 / 10))) by lra.
  destruct (Req_dec y 0) as [->|NZ]; [rewrite !rpow_0 by lra; reflexivity|].
  assert (P : 0 < y) by lra. pose proof (rpow_pos y (1 / (22 / 10)) P).
  rewrite rpow_Rpower by assumption. rewrite !rpow_Rpower by assumption. rewrite Rpower_mult. f_equal. lra.
Qed.
Lemma criterion_increasing a1 b1 a2 b2 : Rabs a1 <= Rabs a2 -> Rabs b1 <= Rabs b2 -> Rabs a1 < Rabs a2 \/ Rabs b1 < Rabs b2 ->
  fracture_toughness_criterion a1 b1 < fracture_toughness_criterion a2 b2.
Proof.
  intros A B C. unfold fracture_toughness_criterion. pose proof (Rabs_pos a1). pose proof (Rabs_pos b1).
  assert (M : forall x y c e, 0 < c -> 0 < e -> 0 <= x < y -> rpow (x / c) e < rpow (y / c) e).
  { intros x y c e Hc He [X Y]. apply rpow_lt; [|exact He]. split.
    - apply Rmult_le_pos; [lra|left; apply Rinv_0_lt_compat; exact Hc].
    - apply Rmult_lt_compat_r; [apply Rinv_0_lt_compat; exact Hc|exact Y]. }
  assert (W : forall x y c e, 0 < c -> 0 < e -> 0 <= x <= y -> rpow (x / c) e <= rpow (y / c) e).
  { intros x y c e Hc He [X Y]. destruct (Req_dec x y) as [->|N]; [lra|]. left. apply M; try assumption. lra. }
  destruct C as [C|C].
  - apply Rplus_lt_le_compat; [apply M|apply W]; lra.
  - apply Rplus_le_lt_compat; [apply W|apply M]; lra.
Qed.
