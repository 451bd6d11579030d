(** Cracks just beyond full contact (C109): the polynomials. *)
From Coq Require Import Lra Lia.
From Coquelicot Require Import Coquelicot.
Require Import Verif.Py Verif.MTools Verif.MEigen Verif.MFields Verif.SAdm Verif.MRaster
  Verif.MSolution Verif.SBeam Verif.SBvp Verif.SEig Verif.SContact Verif.SWindow Verif.PSetup Verif.PBeam Verif.PBeam2 Verif.PBalance Verif.PDepend
  Verif.PSub Verif.PTouch Verif.PContact Verif.PRigid Verif.PWindow Verif.PWindow2 Verif.PGap.
Open Scope R_scope.

Section Poly.
Variables b s kR kN : R.
Hypotheses (Hb : 0 < b) (Hs : 0 < s) (HR : 0 < kR) (HN : 0 < kN).

Lemma tip_low y : 0 < y ->
  load0 b s kR kN (y / 1000) * rest0 b s kR kN y < load0 b s kR kN y * rest0 b s kR kN (y / 1000) /\
  load1 b s kR kN (y / 1000) * rest0 b s kR kN y < load0 b s kR kN y * rest1 b s kR kN (y / 1000).
Proof.
  intros Hy. set (x := y / 1000). assert (E : y = 1000 * x) by (unfold x; lra). assert (Hx : 0 < x) by lra. clearbody x. subst y. clear Hy.
  unfold load0, rest0, load1, rest1. split; apply Rminus_gt_0_lt.
  - match goal with |- 0 < ?t => replace t with
     (71999999999928000000 * (b ^ 1 * s ^ 4 * kR ^ 2 * kN ^ 2 * x ^ 8) + 144002159997839999856 * (b ^ 2 * s ^ 3 * kR ^ 2 * kN ^ 2 * x ^ 6) +
      144431999999567856000 * (b ^ 2 * s ^ 4 * kR ^ 1 * kN ^ 2 * x ^ 7) + 3452544000000 * (b ^ 2 * s ^ 4 * kR ^ 2 * kN ^ 1 * x ^ 5) + 4319999999995680
      * (b ^ 3 * s ^ 2 * kR ^ 2 * kN ^ 2 * x ^ 4) + 868325178811679136 * (b ^ 3 * s ^ 3 * kR ^ 1 * kN ^ 2 * x ^ 5) + 6901642361088 * (b ^ 3 * s ^ 3 *
      kR ^ 2 * kN ^ 1 * x ^ 3) + 863999999999136000 * (b ^ 3 * s ^ 4 * kN ^ 2 * x ^ 6) + 6911993088000 * (b ^ 3 * s ^ 4 * kR ^ 1 * kN ^ 1 * x ^ 4) +
      10367989632 * (b ^ 4 * s ^ 1 * kR ^ 2 * kN ^ 2 * x ^ 2) + 10378357621632 * (b ^ 4 * s ^ 2 * kR ^ 1 * kN ^ 2 * x ^ 3) + 20715264 * (b ^ 4 * s ^ 2
      * kR ^ 2 * kN ^ 1 * x ^ 1) + 10367989632000 * (b ^ 4 * s ^ 3 * kN ^ 2 * x ^ 4) + 10367989632 * (b ^ 4 * s ^ 3 * kR ^ 1 * kN ^ 1 * x ^ 2) +
      10357632000 * (b ^ 4 * s ^ 4 * kN ^ 1 * x ^ 3)) by ring end.
    repeat apply Rplus_lt_0_compat; repeat apply Rmult_lt_0_compat; try lra; apply pow_lt; lra.
  - match goal with |- 0 < ?t => replace t with
     (143999999999568000000 * (b ^ 1 * s ^ 3 * kR ^ 2 * kN ^ 2 * x ^ 7) + 4319994815999136 * (b ^ 2 * s ^ 2 * kR ^ 2 * kN ^ 2 * x ^ 5) +
      144863999997839136000 * (b ^ 2 * s ^ 3 * kR ^ 1 * kN ^ 2 * x ^ 6) + 6901632000000 * (b ^ 2 * s ^ 3 * kR ^ 2 * kN ^ 1 * x ^ 4) + 10367989632 * (b
      ^ 3 * s ^ 1 * kR ^ 2 * kN ^ 2 * x ^ 3) + 4330362805627680 * (b ^ 3 * s ^ 2 * kR ^ 1 * kN ^ 2 * x ^ 4) + 20715264 * (b ^ 3 * s ^ 2 * kR ^ 2 * kN
      ^ 1 * x ^ 2) + 863999999995680000 * (b ^ 3 * s ^ 3 * kN ^ 2 * x ^ 5) + 6911979264000 * (b ^ 3 * s ^ 3 * kR ^ 1 * kN ^ 1 * x ^ 3) + 10367989632 *
      (b ^ 4 * s ^ 1 * kR ^ 1 * kN ^ 2 * x ^ 2) + 10367989632000 * (b ^ 4 * s ^ 2 * kN ^ 2 * x ^ 3) + 20715264 * (b ^ 4 * s ^ 2 * kR ^ 1 * kN ^ 1 * x
      ^ 1) + 10347264000 * (b ^ 4 * s ^ 3 * kN ^ 1 * x ^ 2)) by ring end.
    repeat apply Rplus_lt_0_compat; repeat apply Rmult_lt_0_compat; try lra; apply pow_lt; lra.
Qed.

Lemma tip_high y : 0 < y -> let x := 999 / 1000 * y in let r := s * y / 1000 in
  load0 b s kR kN x * rest0 b s kR kN y < load0 b s kR kN y * rest0 b s kR kN x /\
  (load0 b s kR kN x + r * load1 b s kR kN x) * rest0 b s kR kN y < load0 b s kR kN y * (rest0 b s kR kN x + r * rest1 b s kR kN x).
Proof.
  intros Hy. cbv zeta. set (x := y / 1000). replace (s * y / 1000) with (s * x) by (unfold x; field).
  replace (999 / 1000 * y) with (999 * x) by (unfold x; field). assert (E : y = 1000 * x) by (unfold x; lra).
  assert (Hx : 0 < x) by lra. clearbody x. subst y. clear Hy.
  unfold load0, rest0, load1, rest1. split; apply Rminus_gt_0_lt.
  - match goal with |- 0 < ?t => replace t with
     (286993438920431928000000 * (b ^ 1 * s ^ 4 * kR ^ 2 * kN ^ 2 * x ^ 8) + 5171051515680863856 * (b ^ 2 * s ^ 3 * kR ^ 2 * kN ^ 2 * x ^ 6) +
      2009959195681295856000 * (b ^ 2 * s ^ 4 * kR ^ 1 * kN ^ 2 * x ^ 7) + 3449091456000000 * (b ^ 2 * s ^ 4 * kR ^ 2 * kN ^ 1 * x ^ 5) +
      17254097275680 * (b ^ 3 * s ^ 2 * kR ^ 2 * kN ^ 2 * x ^ 4) + 22419103095360864 * (b ^ 3 * s ^ 3 * kR ^ 1 * kN ^ 2 * x ^ 5) + 10357638912 * (b ^
      3 * s ^ 3 * kR ^ 2 * kN ^ 1 * x ^ 3) + 3447368635680864000 * (b ^ 3 * s ^ 4 * kN ^ 2 * x ^ 6) + 13803270912000 * (b ^ 3 * s ^ 4 * kR ^ 1 * kN ^
      1 * x ^ 4) + 20725632 * (b ^ 4 * s ^ 1 * kR ^ 2 * kN ^ 2 * x ^ 2) + 41430538368 * (b ^ 4 * s ^ 2 * kR ^ 1 * kN ^ 2 * x ^ 3) + 20736 * (b ^ 4 * s
      ^ 2 * kR ^ 2 * kN ^ 1 * x ^ 1) + 20704906368000 * (b ^ 4 * s ^ 3 * kN ^ 2 * x ^ 4) + 20725632 * (b ^ 4 * s ^ 3 * kR ^ 1 * kN ^ 1 * x ^ 2) +
      10357632000 * (b ^ 4 * s ^ 4 * kN ^ 1 * x ^ 3)) by ring end.
    repeat apply Rplus_lt_0_compat; repeat apply Rmult_lt_0_compat; try lra; apply pow_lt; lra.
  - match goal with |- 0 < ?t => replace t with
     (1005123238272360000000 * (b ^ 1 * s ^ 4 * kR ^ 2 * kN ^ 2 * x ^ 8) + 3458579337500544720 * (b ^ 2 * s ^ 3 * kR ^ 2 * kN ^ 2 * x ^ 6) +
      6033612954816720000 * (b ^ 2 * s ^ 4 * kR ^ 1 * kN ^ 2 * x ^ 7) + 6905088000000 * (b ^ 2 * s ^ 4 * kR ^ 2 * kN ^ 1 * x ^ 5) + 17274802182048 *
      (b ^ 3 * s ^ 2 * kR ^ 2 * kN ^ 2 * x ^ 4) + 17283424915004544 * (b ^ 3 * s ^ 3 * kR ^ 1 * kN ^ 2 * x ^ 5) + 10378354176 * (b ^ 3 * s ^ 3 * kR ^
      2 * kN ^ 1 * x ^ 3) + 8622732956544000 * (b ^ 3 * s ^ 4 * kN ^ 2 * x ^ 6) + 20722176000 * (b ^ 3 * s ^ 4 * kR ^ 1 * kN ^ 1 * x ^ 4) + 20725632 *
      (b ^ 4 * s ^ 1 * kR ^ 2 * kN ^ 2 * x ^ 2) + 41451264000 * (b ^ 4 * s ^ 2 * kR ^ 1 * kN ^ 2 * x ^ 3) + 20736 * (b ^ 4 * s ^ 2 * kR ^ 2 * kN ^ 1 *
      x ^ 1) + 20725632000000 * (b ^ 4 * s ^ 3 * kN ^ 2 * x ^ 4) + 20746368 * (b ^ 4 * s ^ 3 * kR ^ 1 * kN ^ 1 * x ^ 2) + 10368000 * (b ^ 4 * s ^ 4 *
      kN ^ 1 * x ^ 3)) by ring end.
    repeat apply Rplus_lt_0_compat; repeat apply Rmult_lt_0_compat; try lra; apply pow_lt; lra.
Qed.
End Poly.

(** ** Near full contact *)
Lemma tends_id (b : R) : tends (locally b) (fun t => t) b.
Proof. intros P H. exact H. Qed.
Lemma tends_neg (b : R) f v : tends (locally b) f v -> v < 0 -> locally b (fun t => f t < 0).
Proof. intros H Hv. apply (H (fun y => y < 0)). exact (open_lt 0 v Hv). Qed.
Ltac tnd := repeat first [assumption | match goal with
  | |- tends _ (fun t => @?f t + @?g t) _ => apply (tends_plus (locally _))
  | |- tends _ (fun t => @?f t * @?g t) _ => apply (tends_mult (locally _))
  | |- tends _ (fun t => - @?f t) _ => apply (tends_opp (locally _))
  | |- tends _ (fun t => @?f t ^ ?m) _ => apply (tends_pow (locally _))
  | |- tends _ (fun t => t) _ => apply tends_id
  | |- tends _ (fun _ => ?c) _ => apply (tends_const (locally _))
  end].

Section Gap.
Variable eig : mat6 -> list eigpair.
Variable solve : nat -> matrix -> vector -> res vector.
Variable brent : R -> R -> list (R * R) -> bstep.
Variable maxeval : nat.
Hypotheses (Hso : sound_solver solve) (Hco : complete_solver solve).
Variables (o : obj) (L : R).
Hypotheses (Hs : substitute_ready eig o "supported") (NH : never_hidden o L) (Hq0 : 0 <= level_load o)
  (Hq : 0 < calc_qn o) (Ht : 0 < o_tc o).
Let k x := spring_of eig solve o "supported" "rot" (L - x).
Let n x := spring_of eig solve o "supported" "trans" (L - x).
Let bs := bs_of (o_par o).
Let ss := kA55 (o_par o).
Let q := calc_qn o.
Let tc := o_tc o.

Lemma kn_pos x : 0 < x < L -> 0 < k x /\ 0 < n x.
Proof.
  intros Hx. split.
  - exact (proj1 (proj1 (proj2 (spring_rot eig solve Hso Hco o "supported" (L - x) Hs ltac:(lra))))).
  - exact (proj1 (proj2 (spring_trans eig solve Hso Hco o (L - x) L Hs ltac:(lra) NH Hq0))).
Qed.
Lemma kn_tends b : 0 < b < L -> tends (locally b) k (k b) /\ tends (locally b) n (n b).
Proof.
  intros Hb. destruct (kn_pos b Hb) as [K N].
  assert (C : continuous (fun x => L - x) b) by (apply (continuous_minus (fun _ => L) (fun x => x)); [apply continuous_const|apply continuous_id]).
  split; [apply (continuous_comp (fun x => L - x) (spring_of eig solve o "supported" "rot") b C)
         |apply (continuous_comp (fun x => L - x) (spring_of eig solve o "supported" "trans") b C)];
    apply spring_continuous; trivial; try lra; [left; reflexivity|right; reflexivity].
Qed.
Lemma a1_continuous b : 0 < b < L -> continuous (a1_of eig solve o L) b.
Proof.
  intros Hb. destruct (kn_pos b Hb) as [K N]. destruct (kn_tends b Hb) as [TK TN].
  assert (I : forall f v, 0 < v -> tends (locally b) f v -> tends (locally b) (fun t => / f t) (/ v)).
  { intros f v Hv H. apply (tends_comp (locally b) Rinv f v); [apply continuous_Rinv; lra|exact H]. }
  assert (I1 : tends (locally b) (fun t => / (2 * k t)) (/ (2 * k b))) by (apply I; [lra|tnd]).
  assert (I2 : tends (locally b) (fun t => / n t) (/ n b)) by (apply I; [lra|tnd]).
  change (tends (locally b) (a1_of eig solve o L) (a1_of eig solve o L b)). unfold a1_of, poly_a1. fold bs ss q tc.
  change (spring_of eig solve o "supported" "rot" (L - b)) with (k b). change (spring_of eig solve o "supported" "trans" (L - b)) with (n b).
  assert (X : tends (locally b) (fun t => 1 / (8 * bs) * t ^ 4 + 1 * / (2 * k t) * t ^ 3 + 1 / (2 * ss) * t ^ 2 + 1 * / n t * t + - tc / q) (1 / (8 * bs) * b ^ 4 + 1 * / (2 * k b) * b ^ 3 + 1 / (2 * ss) * b ^ 2 + 1 * / n b * b + - tc / q)) by tnd.
  refine (tends_ext (locally b) _ _ _ _ _ _ X); [intros t; unfold k, n, Rdiv; ring|unfold Rdiv; ring].
Qed.
Lemma a2_continuous b : 0 < b < L -> continuous (a2_of eig solve o L) b.
Proof.
  intros Hb. destruct (kn_tends b Hb) as [TK TN].
  change (tends (locally b) (a2_of eig solve o L) (a2_of eig solve o L b)).
  assert (X : tends (locally b) (fun t => q * load0 bs ss (k t) (n t) t + - (tc * rest0 bs ss (k t) (n t) t))
    (q * load0 bs ss (k b) (n b) b + - (tc * rest0 bs ss (k b) (n b) b))) by (unfold load0, rest0; tnd).
  refine (tends_ext (locally b) _ _ _ _ _ _ X); [intros t|]; unfold a2_of; rewrite a2_parts; unfold k, n; fold bs ss q tc; ring.
Qed.

Lemma near_full b m : 0 < b < L -> a2_of eig solve o L b = 0 -> m * b ^ 2 < 12000000 * ss ->
  exists e, 0 < e /\ e < b /\ e < L - b /\ forall a, Rabs (a - b) < e ->
    m * a ^ 2 < 12000000 * ss /\
    (forall r, 0 <= r -> poly_lC bs ss q tc (k a) (n a) r (a / 1000) < 0) /\
    (forall r, 0 <= r <= ss * a / 1000 -> poly_lC bs ss q tc (k a) (n a) r (999 / 1000 * a) < 0).
Proof.
  intros Hb H0 Hm. destruct (kn_pos b Hb) as [K N]. destruct (kn_tends b Hb) as [TK TN].
  assert (Pb : 0 < bs) by (unfold bs; rewrite bs_bend; exact (bend_pos _ (proj1 (proj1 Hs)))).
  assert (Ps : 0 < ss) by exact (ss_pos _ (proj1 (proj1 Hs))).
  unfold a2_of in H0. rewrite a2_parts in H0. fold bs ss q tc in H0.
  change (spring_of eig solve o "supported" "rot" (L - b)) with (k b) in H0. change (spring_of eig solve o "supported" "trans" (L - b)) with (n b) in H0.
  destruct (parts_pos bs ss Pb Ps (k b) (n b) b K N ltac:(lra)) as (_ & R0 & _ & _).
  assert (Tr : forall u v, u * rest0 bs ss (k b) (n b) b < load0 bs ss (k b) (n b) b * v -> q * u - tc * v < 0).
  { intros u v Huv. apply Rlt_minus. apply Rmult_lt_reg_r with (rest0 bs ss (k b) (n b) b); [exact R0|].
    replace (tc * v * rest0 bs ss (k b) (n b) b) with (tc * rest0 bs ss (k b) (n b) b * v) by ring.
    replace (tc * rest0 bs ss (k b) (n b) b) with (q * load0 bs ss (k b) (n b) b) by lra.
    rewrite !Rmult_assoc. apply Rmult_lt_compat_l; [exact Hq|exact Huv]. }
  destruct (tip_low bs ss (k b) (n b) Pb Ps K N b ltac:(lra)) as (V1 & V2). apply Tr in V1. apply Tr in V2.
  destruct (tip_high bs ss (k b) (n b) Pb Ps K N b ltac:(lra)) as (V3 & V4). apply Tr in V3. apply Tr in V4. clear Tr.
  assert (Tl : tends (locally b) (fun t => t * / 1000) (b * / 1000)) by tnd.
  assert (Th : tends (locally b) (fun t => 999 / 1000 * t) (999 / 1000 * b)) by tnd.
  assert (N1 : locally b (fun t => q * load0 bs ss (k t) (n t) (t / 1000) - tc * rest0 bs ss (k t) (n t) (t / 1000) < 0)).
  { eapply tends_neg; [|exact V1]. unfold load0, rest0, Rminus, Rdiv. tnd. }
  assert (N2 : locally b (fun t => q * load1 bs ss (k t) (n t) (t / 1000) - tc * rest1 bs ss (k t) (n t) (t / 1000) < 0)).
  { eapply tends_neg; [|exact V2]. unfold load1, rest1, Rminus, Rdiv. tnd. }
  assert (N3 : locally b (fun t => q * load0 bs ss (k t) (n t) (999 / 1000 * t) - tc * rest0 bs ss (k t) (n t) (999 / 1000 * t) < 0)).
  { eapply tends_neg; [|exact V3]. unfold load0, rest0, Rminus. tnd. }
  assert (N4 : locally b (fun t => q * (load0 bs ss (k t) (n t) (999 / 1000 * t) + ss * t / 1000 * load1 bs ss (k t) (n t) (999 / 1000 * t))
     - tc * (rest0 bs ss (k t) (n t) (999 / 1000 * t) + ss * t / 1000 * rest1 bs ss (k t) (n t) (999 / 1000 * t)) < 0)).
  { assert (Tss : tends (locally b) (fun t => ss * t) (ss * b)) by tnd. eapply tends_neg; [|exact V4]. unfold load0, rest0, load1, rest1, Rminus. unfold Rdiv in *. tnd. }
  assert (N5 : locally b (fun t => m * t ^ 2 - 12000000 * ss < 0)).
  { eapply tends_neg; [|apply Rlt_minus; exact Hm]. unfold Rminus. tnd. }
  destruct (filter_and _ _ N1 (filter_and _ _ N2 (filter_and _ _ N3 (filter_and _ _ N4 N5)))) as [[e He] P].
  exists (Rmin e (Rmin (b / 2) ((L - b) / 2))). pose proof (Rmin_l e (Rmin (b / 2) ((L - b) / 2))). pose proof (Rmin_r e (Rmin (b / 2) ((L - b) / 2))).
  pose proof (Rmin_l (b / 2) ((L - b) / 2)). pose proof (Rmin_r (b / 2) ((L - b) / 2)).
  split; [repeat apply Rmin_glb_lt; lra|]. split; [lra|]. split; [lra|].
  intros a Ha. destruct (P a) as (P1 & P2 & P3 & P4 & P5).
  { unfold ball. simpl. unfold AbsRing_ball, abs, minus, plus, opp. simpl. fold (a - b). lra. }
  assert (Pa : 0 < a) by (apply Rabs_def2 in Ha; lra).
  split; [lra|]. split.
  - intros r Hr. rewrite lC_parts.
    assert (r * (q * load1 bs ss (k a) (n a) (a / 1000) - tc * rest1 bs ss (k a) (n a) (a / 1000)) <= 0).
    { rewrite <- (Rmult_0_r r). apply Rmult_le_compat_l; lra. }
    lra.
  - intros r Hr. rewrite lC_parts. set (rm := ss * a / 1000) in *.
    assert (Prm : 0 < rm) by (unfold rm; apply Rdiv_lt_0_compat; [apply Rmult_lt_0_compat|]; lra).
    set (A := q * load0 bs ss (k a) (n a) (999 / 1000 * a) - tc * rest0 bs ss (k a) (n a) (999 / 1000 * a)) in *.
    set (B := q * load1 bs ss (k a) (n a) (999 / 1000 * a) - tc * rest1 bs ss (k a) (n a) (999 / 1000 * a)).
    replace (q * (load0 bs ss (k a) (n a) (999 / 1000 * a) + r * load1 bs ss (k a) (n a) (999 / 1000 * a)) -
      tc * (rest0 bs ss (k a) (n a) (999 / 1000 * a) + r * rest1 bs ss (k a) (n a) (999 / 1000 * a))) with (A + r * B) by (unfold A, B; ring).
    assert (P4' : A + rm * B < 0) by (unfold A, B; lra).
    destruct (Rle_dec B 0) as [C|C].
    + assert (r * B <= 0) by (rewrite <- (Rmult_0_r r); apply Rmult_le_compat_l; lra). lra.
    + assert (r * B <= rm * B) by (apply Rmult_le_compat_r; lra). lra.
Qed.
End Gap.
