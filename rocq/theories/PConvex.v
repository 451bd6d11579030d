(** Energy release rates and toughness criterion against the weight of skiers (C103). *)
From Coquelicot Require Import Coquelicot.
Require Import Verif.Py Verif.MTools Verif.MEigen Verif.MFields Verif.MRaster Verif.MAnalysis Verif.MEnvelope Verif.SAdm
  Verif.MSolution Verif.SBeam Verif.SBvp Verif.SEig Verif.SMirror Verif.SEnergy Verif.PSetup Verif.PBeam2 Verif.PBvp Verif.PWell2 Verif.PBvp6
  Verif.PMirror Verif.PEnvelope Verif.PEnergy Verif.PEnergy2.

(** ** Powers are convex *)
Lemma ln_le x : 0 < x -> ln x <= x - 1.
Proof.
  intros H. pose proof (exp_ineq1_le (ln x)) as E. rewrite exp_ln in E by exact H. lra.
Qed.
Lemma ln_chord q v : 0 < v -> 0 <= q <= 1 -> q * ln v <= ln (1 - q + q * v).
Proof.
  intros Hv Hq. assert (P : 0 < 1 - q + q * v).
  { destruct (Req_EM_T q 0) as [->|N]; [lra|]. assert (0 < q * v) by (apply Rmult_lt_0_compat; lra). lra. }
  set (s := 1 - q + q * v) in *.
  assert (I : 0 < / s) by (apply Rinv_0_lt_compat; exact P).
  pose proof (ln_le (/ s) I) as L1. rewrite ln_Rinv in L1 by exact P.
  assert (V : 0 < v * / s) by (apply Rmult_lt_0_compat; assumption).
  pose proof (ln_le (v * / s) V) as L2. rewrite ln_mult, ln_Rinv in L2 by assumption.
  assert (E : s * / s = 1) by (apply Rinv_r; lra).
  assert (K : (1 - q) * / s + q * (v * / s) = 1) by (transitivity (s * / s); [unfold s at 3; ring|exact E]).
  nra.
Qed.
Lemma bernoulli s y : 0 <= s -> 1 <= y -> 1 + y * (s - 1) <= rpow s y.
Proof.
  intros Hs Hy. destruct (Req_EM_T s 0) as [->|N].
  { rewrite rpow_0 by lra. lra. }
  assert (P : 0 < s) by lra. rewrite rpow_Rpower by exact P. unfold Rpower.
  destruct (Rle_dec (1 + y * (s - 1)) 0) as [L|L].
  { eapply Rle_trans; [exact L|]. left. apply exp_pos. }
  apply Rnot_le_lt in L. set (v := 1 + y * (s - 1)) in *.
  assert (Q : 0 <= / y <= 1).
  { split; [left; apply Rinv_0_lt_compat; lra|]. rewrite <- Rinv_1. apply Rinv_le_contravar; lra. }
  pose proof (ln_chord (/ y) v L Q) as C.
  assert (E : 1 - / y + / y * v = s) by (unfold v; field; lra). rewrite E in C.
  rewrite <- (exp_ln v L) at 1.
  assert (M : ln v <= y * ln s).
  { apply Rmult_le_reg_l with (/ y); [apply Rinv_0_lt_compat; lra|]. rewrite <- Rmult_assoc, Rinv_l, Rmult_1_l by lra. exact C. }
  destruct M as [M|M]; [left; apply exp_increasing; exact M|right; rewrite M; reflexivity].
Qed.
Lemma rpow_mult a b y : 0 <= a -> 0 < b -> y <> 0 -> rpow (a * b) y = rpow a y * rpow b y.
Proof.
  intros Ha Hb Hy. destruct (Req_EM_T a 0) as [->|N]; [rewrite Rmult_0_l, rpow_0 by exact Hy; ring|].
  rewrite !rpow_Rpower; [|lra|lra|apply Rmult_lt_0_compat; lra]. symmetry. apply Rpower_mult_distr; lra.
Qed.
Lemma rpow_convex a b y t : 0 <= a -> 0 <= b -> 1 <= y -> 0 <= t <= 1 ->
  rpow ((1 - t) * a + t * b) y <= (1 - t) * rpow a y + t * rpow b y.
Proof.
  intros Ha Hb Hy Ht. set (m := (1 - t) * a + t * b).
  pose proof (rpow_nonneg a y Ha) as Ra. pose proof (rpow_nonneg b y Hb) as Rb.
  assert (Hm : 0 <= m) by (unfold m; apply Rplus_le_le_0_compat; apply Rmult_le_pos; lra).
  destruct (Req_EM_T m 0) as [E|N].
  { rewrite E, rpow_0 by lra. apply Rplus_le_le_0_compat; apply Rmult_le_pos; lra. }
  assert (P : 0 < m) by lra. assert (I : 0 < / m) by (apply Rinv_0_lt_compat; exact P).
  assert (S1 : forall x, 0 <= x -> rpow m y * (1 + y * (x * / m - 1)) <= rpow x y).
  { intros x Hx. replace x with ((x * / m) * m) at 2 by (field; lra).
    rewrite rpow_mult; [|apply Rmult_le_pos; lra|exact P|lra]. rewrite (Rmult_comm (rpow (x * / m) y)).
    apply Rmult_le_compat_l; [apply rpow_nonneg; exact Hm|]. apply bernoulli; [apply Rmult_le_pos; lra|exact Hy]. }
  pose proof (S1 a Ha) as A. pose proof (S1 b Hb) as B.
  assert (K : (1 - t) * (rpow m y * (1 + y * (a * / m - 1))) + t * (rpow m y * (1 + y * (b * / m - 1))) = rpow m y).
  { replace ((1 - t) * (rpow m y * (1 + y * (a * / m - 1))) + t * (rpow m y * (1 + y * (b * / m - 1))))
      with (rpow m y * (1 + y * (((1 - t) * a + t * b) * / m - 1))) by ring.
    fold m. rewrite Rinv_r by lra. ring. }
  rewrite <- K. apply Rplus_le_compat; apply Rmult_le_compat_l; lra.
Qed.
Lemma rpow_mono a b y : 0 <= a <= b -> 0 < y -> rpow a y <= rpow b y.
Proof. intros [H [L| ->]] Hy; [left; apply rpow_lt; lra|right; reflexivity]. Qed.
Lemma criterion_convex t a1 a2 b1 b2 c1 c2 : 0 <= t <= 1 -> 0 <= a1 -> 0 <= a2 -> 0 <= b1 -> 0 <= b2 -> 0 <= c1 -> 0 <= c2 ->
  c1 <= (1 - t) * a1 + t * b1 -> c2 <= (1 - t) * a2 + t * b2 ->
  fracture_toughness_criterion c1 c2 <= (1 - t) * fracture_toughness_criterion a1 a2 + t * fracture_toughness_criterion b1 b2.
Proof.
  intros Ht A1 A2 B1 B2 D1 D2 H1 H2. unfold fracture_toughness_criterion. rewrite !Rabs_pos_eq by assumption.
  assert (G : forall s y a b c, 0 < s -> 1 <= y -> 0 <= a -> 0 <= b -> 0 <= c -> c <= (1 - t) * a + t * b ->
    rpow (c / s) y <= (1 - t) * rpow (a / s) y + t * rpow (b / s) y).
  { intros s y a b c Hs Hy Ha Hb Hc H.
    assert (I : 0 < / s) by (apply Rinv_0_lt_compat; exact Hs).
    eapply Rle_trans; [apply (rpow_mono _ ((1 - t) * (a / s) + t * (b / s)))|apply rpow_convex; try assumption; try lra; apply Rmult_le_pos; lra].
    - split; [apply Rmult_le_pos; lra|]. replace ((1 - t) * (a / s) + t * (b / s)) with (((1 - t) * a + t * b) * / s) by (unfold Rdiv; ring).
      apply Rmult_le_compat_r; lra.
    - lra. }
  pose proof (G (56 / 100) (1 / (2 / 10)) a1 b1 c1 ltac:(lra) ltac:(lra) A1 B1 D1 H1).
  pose proof (G (79 / 100) (1 / (45 / 100)) a2 b2 c2 ltac:(lra) ltac:(lra) A2 B2 D2 H2). lra.
Qed.

(** ** Weights of the tips *)
Lemma forallb_firstn (ki : list bool) m : forallb negb (firstn m ki) = true <-> forall i, (i < m)%nat -> nth i ki false = false.
Proof.
  revert m. induction ki as [|k ki IH]; intros m.
  - rewrite firstn_nil. split; [intros _ i _; destruct i; reflexivity|reflexivity].
  - destruct m as [|m]; [split; [intros _ i Hi; lia|reflexivity]|]. cbn [firstn forallb]. rewrite andb_true_iff, IH. split.
    + intros [A B] [|i] Hi; [destruct k; [discriminate|reflexivity]|]. simpl. apply B. lia.
    + intros A. split; [pose proof (A 0%nat ltac:(lia)) as A0; simpl in A0; rewrite A0; reflexivity|]. intros i Hi. apply (A (S i)). lia.
Qed.
Lemma forallb_skipn (ki : list bool) m : forallb negb (skipn m ki) = true <-> forall i, (m <= i < List.length ki)%nat -> nth i ki false = false.
Proof.
  revert m. induction ki as [|k ki IH]; intros m.
  - rewrite skipn_nil. split; [intros _ i Hi; destruct i; reflexivity|reflexivity].
  - destruct m as [|m].
    + cbn [skipn forallb]. rewrite andb_true_iff. specialize (IH 0%nat). cbn [skipn] in IH. rewrite IH. simpl List.length. split.
      * intros [A B] [|i] Hi; [destruct k; [discriminate|reflexivity]|]. simpl. apply B. lia.
      * intros A. split; [pose proof (A 0%nat ltac:(lia)) as A0; simpl in A0; rewrite A0; reflexivity|]. intros i Hi. apply (A (S i)). lia.
    + cbn [skipn]. rewrite IH. simpl List.length. split.
      * intros A [|i] Hi; [lia|]. simpl. apply A. lia.
      * intros A i Hi. apply (A (S i)). lia.
Qed.
Definition weight_at (ki : list bool) (j : nat) : R :=
  if (forallb negb (firstn (S j) ki) || forallb negb (skipn (S j) ki))%bool then 1 else 1 / 2.
Lemma weight_at_ok ki : tip_weights ki (List.length ki) (weight_at ki).
Proof.
  intros j Hj _. unfold weight_at.
  assert (E : (forallb negb (firstn (S j) ki) || forallb negb (skipn (S j) ki))%bool = true <-> edge_crack ki (List.length ki) j).
  { rewrite orb_true_iff, forallb_firstn, forallb_skipn. unfold edge_crack.
    split; (intros [A|A]; [left; intros m Hm; apply A; lia|right; intros m Hm; apply A; lia]). }
  destruct (_ || _)%bool; split; intros H; try reflexivity.
  - exfalso. apply H, E. reflexivity.
  - exfalso. apply E in H. discriminate.
Qed.
Lemma weight_at_pos ki j : 0 <= weight_at ki j.
Proof. unfold weight_at. destruct (_ || _)%bool; lra. Qed.

(** ** Quadratic forms of the states *)
Lemma GI_combo p t x y : kn p <> 0 ->
  GI p (combo (1 - t) x t y) = (1 - t) * GI p x + t * GI p y - t * (1 - t) * GI p (combo 1 y (-1) x).
Proof. intros H. unfold GI, combo; cbn [z_w]. field. exact H. Qed.
Lemma GII_combo p t x y : kt p <> 0 ->
  GII p (combo (1 - t) x t y) = (1 - t) * GII p x + t * GII p y - t * (1 - t) * GII p (combo 1 y (-1) x).
Proof. intros H. unfold GII, combo; cbn [z_w z_u z_psi z_dw]. field. exact H. Qed.
Lemma tip_sum_lin ki n t f g h : tip_sum ki n (fun j => (1 - t) * f j + t * g j - t * (1 - t) * h j)
  = (1 - t) * tip_sum ki n f + t * tip_sum ki n g - t * (1 - t) * tip_sum ki n h.
Proof.
  rewrite !tip_sum_filter. induction (crack_tips ki n) as [|j js IH]; simpl; [ring|]. rewrite IH. ring.
Qed.
Lemma tip_sum_nonneg ki n f : (forall j, (j < n)%nat -> 0 <= f j) -> 0 <= tip_sum ki n f.
Proof.
  rewrite tip_sum_filter. intros H. assert (G : forall j, In j (crack_tips ki n) -> 0 <= f j) by (intros j I; apply H; apply crack_tips_in in I; lia).
  induction (crack_tips ki n) as [|j js IH]; simpl; [lra|]. pose proof (G j (or_introl eq_refl)). assert (0 <= rsum (map f js)) by (apply IH; intros; apply G; right; assumption). lra.
Qed.
Lemma tip_sum_ext ki n f g : (forall j, (j < n)%nat -> f j = g j) -> tip_sum ki n f = tip_sum ki n g.
Proof.
  rewrite !tip_sum_filter. intros H. f_equal. apply map_ext_in. intros j I. apply H. apply crack_tips_in in I. lia.
Qed.
