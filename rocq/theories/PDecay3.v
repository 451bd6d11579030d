(** Exponential decay along a supported slab (C111, C112). *)
From Coquelicot Require Import Coquelicot.
Require Import Verif.Py Verif.MTools Verif.MEigen Verif.MFields Verif.SAdm Verif.MRaster
  Verif.MSolution Verif.SBeam Verif.SBvp Verif.SEig Verif.SMirror Verif.SSkier Verif.SDecay Verif.PBeam Verif.PBeam2 Verif.PBvp Verif.PBvp2 Verif.PBalance
  Verif.PWell Verif.PWell2 Verif.PWell3 Verif.PBvp6 Verif.PMirror Verif.PSkier Verif.PDecay Verif.PDecay2.

(** ** The weight *)
Definition wgt (k X s : R) : R := / (exp (2 * k * (s - X)) + exp (- (2 * k * (s - X)))).
Definition dwgt (k X s : R) : R :=
  - (2 * k * exp (2 * k * (s - X)) - 2 * k * exp (- (2 * k * (s - X)))) / (exp (2 * k * (s - X)) + exp (- (2 * k * (s - X)))) ^ 2.
Lemma wgt_den k X s : 0 < exp (2 * k * (s - X)) + exp (- (2 * k * (s - X))).
Proof. pose proof (exp_pos (2 * k * (s - X))). pose proof (exp_pos (- (2 * k * (s - X)))). lra. Qed.
Lemma wgt_pos k X s : 0 < wgt k X s.
Proof. apply Rinv_0_lt_compat, wgt_den. Qed.
Lemma wgt_derive k X s : is_derive (wgt k X) s (dwgt k X s).
Proof.
  unfold wgt, dwgt. pose proof (wgt_den k X s). auto_derive; [apply Rgt_not_eq; exact H|]. unfold Rminus in *. field. lra.
Qed.
Lemma dwgt_bound k X s : 0 < k -> Rabs (dwgt k X s) <= 2 * k * wgt k X s.
Proof.
  intros Hk. unfold dwgt, wgt. pose proof (exp_pos (2 * k * (s - X))) as A. pose proof (exp_pos (- (2 * k * (s - X)))) as B.
  set (a := exp (2 * k * (s - X))) in *. set (b := exp (- (2 * k * (s - X)))) in *.
  replace (- (2 * k * a - 2 * k * b) / (a + b) ^ 2) with (2 * k * / (a + b) * ((b - a) / (a + b))) by (field; lra).
  rewrite Rabs_mult. assert (I : 0 < / (a + b)) by (apply Rinv_0_lt_compat; lra).
  assert (P0 : 0 < 2 * k * / (a + b)) by (apply Rmult_lt_0_compat; lra).
  rewrite (Rabs_pos_eq (2 * k * / (a + b))) by lra. rewrite <- (Rmult_1_r (2 * k * / (a + b))) at 2.
  apply Rmult_le_compat_l; [lra|]. apply Rabs_le. split; apply Rmult_le_reg_r with (a + b); try lra; unfold Rdiv; rewrite Rmult_assoc, Rinv_l by lra; lra.
Qed.
Lemma wgt_here k X : wgt k X X = 1 / 2.
Proof. unfold wgt. replace (2 * k * (X - X)) with 0 by ring. rewrite Ropp_0, exp_0. field. Qed.
Lemma wgt_le k X s : wgt k X s <= exp (- (2 * k * Rabs (s - X))).
Proof.
  unfold wgt. rewrite <- (Rinv_inv (exp (- (2 * k * Rabs (s - X))))). apply Rinv_le_contravar.
  - apply Rinv_0_lt_compat, exp_pos.
  - rewrite <- exp_Ropp, Ropp_involutive. pose proof (exp_pos (2 * k * (s - X))). pose proof (exp_pos (- (2 * k * (s - X)))).
    unfold Rabs. destruct Rcase_abs.
    + replace (2 * k * - (s - X)) with (- (2 * k * (s - X))) by ring. lra.
    + lra.
Qed.
Lemma wgt_root k X s : sqrt (wgt k X s) <= exp (- (k * Rabs (s - X))).
Proof.
  rewrite <- (sqrt_Rsqr (exp (- (k * Rabs (s - X))))) by (left; apply exp_pos). apply sqrt_le_1_alt.
  eapply Rle_trans; [apply wgt_le|]. right. unfold Rsqr. rewrite <- exp_plus. f_equal. ring.
Qed.

(** ** Sizes *)
Lemma size6_sq z : size6 z ^ 2 = z_u z ^ 2 + z_du z ^ 2 + z_w z ^ 2 + z_dw z ^ 2 + z_psi z ^ 2 + z_dpsi z ^ 2.
Proof.
  unfold size6. rewrite <- Rsqr_pow2. apply Rsqr_sqrt.
  pose proof (pow2_ge_0 (z_u z)). pose proof (pow2_ge_0 (z_du z)). pose proof (pow2_ge_0 (z_w z)).
  pose proof (pow2_ge_0 (z_dw z)). pose proof (pow2_ge_0 (z_psi z)). pose proof (pow2_ge_0 (z_dpsi z)). lra.
Qed.
Lemma size6_nsq z : size6 z ^ 2 <= 3 * nsq z.
Proof.
  rewrite size6_sq. unfold nsq, gam. pose proof (pow2_ge_0 (z_u z)). pose proof (pow2_ge_0 (z_du z)). pose proof (pow2_ge_0 (z_w z)).
  pose proof (pow2_ge_0 (z_psi z)). pose proof (pow2_ge_0 (z_dpsi z)).
  pose proof (pow2_ge_0 (2 * z_dw z + 3 * z_psi z)). nra.
Qed.
Lemma nsq_size6 z : nsq z <= 3 * size6 z ^ 2.
Proof.
  rewrite size6_sq. unfold nsq, gam. pose proof (pow2_ge_0 (z_u z)). pose proof (pow2_ge_0 (z_du z)). pose proof (pow2_ge_0 (z_w z)).
  pose proof (pow2_ge_0 (z_psi z)). pose proof (pow2_ge_0 (z_dpsi z)).
  pose proof (pow2_ge_0 (z_dw z - z_psi z)). pose proof (pow2_ge_0 (z_dw z)). nra.
Qed.
Lemma le_of_sq a b : 0 <= b -> a ^ 2 <= b ^ 2 -> a <= b.
Proof. intros Hb H. apply Rnot_lt_le. intros N. simpl in H. nra. Qed.

(** ** Decay of fields *)
Definition chain (p : params) (n : nat) (l Ft Fn : nat -> R) (z : nat -> R -> vec6) : Prop :=
  (forall i, (i <= n)%nat -> 0 <= l i) /\
  (forall i x, (i <= n)%nat -> 0 <= x <= l i -> balance p no_loads true 0 (z i) x) /\
  (forall i, (i < n)%nat -> jump6 p (Ft i) (Fn i) (z i (l i)) (z (S i) 0)).

Lemma decay_fields p : lam_ok p -> fnd_ok p -> stable p -> exists c C kap, 0 < C /\ 0 < kap /\
  (forall v, Rabs (Qc p c v) <= C * size6 v ^ 2) /\
  (forall n l Ft Fn z i x, chain p n l Ft Fn z -> d2 (z 0%nat 0) = 0 -> d2 (z n (l n)) = 0 -> (i <= n)%nat -> 0 <= x <= l i ->
    let B := C * sumn n (fun j => (Rabs (Ft j) + Rabs (Fn j)) * exp (- (kap * Rabs (pos l i + x - pos l (S j))))) in
    sqrt (d2 (z i x)) <= B /\ (1 <= l i -> size6 (z i x) <= B)) /\
  (forall n l z i x, chain p n l (fun _ => 0) (fun _ => 0) z -> (i <= n)%nat -> 0 <= x <= l i -> 1 <= l i ->
    size6 (z i x) ^ 2 <= C * (exp (- (2 * kap * (pos l i + x))) * Rabs (Qc p c (z 0%nat 0))
      + exp (- (2 * kap * (pos l (S n) - (pos l i + x)))) * Rabs (Qc p c (z n (l n))))).
Proof.
  intros Hl Hf Hs.
  destruct (coercive p Hl Hf Hs) as (c & mu & Hc & Hmu & Hco). destruct (Q_bounded p c) as (K & HK & HQ).
  destruct (bq_d2d) as (L1 & H1 & B1). destruct (bq_d2) as (L2 & H2 & B2).
  destruct (bq_n2d p) as (L3 & H3 & B3). destruct (bq_n2 p) as (L4 & H4 & B4). destruct (nsq_n2 p Hl) as (L5 & H5 & B5).
  set (L := L1 + L2 + L3 + L4). assert (HL : 0 < L) by (unfold L; lra).
  assert (Up : forall a q, a <= L -> (forall z, Rabs (q z) <= a * nsq z) -> forall z, Rabs (q z) <= L * nsq z).
  { intros a q Ha H z. eapply Rle_trans; [apply H|]. apply Rmult_le_compat_r; [apply nsq_nonneg|exact Ha]. }
  assert (U1 := Up L1 d2d ltac:(unfold L; lra) B1). assert (U2 := Up L2 d2 ltac:(unfold L; lra) B2).
  assert (U3 := Up L3 (n2d p) ltac:(unfold L; lra) B3). assert (U4 := Up L4 (n2 p) ltac:(unfold L; lra) B4).
  set (kap := rate mu K). assert (Hk : 0 < kap) by (apply rate_pos; assumption).
  set (cq := Cq mu K L). assert (Hcq : 0 < cq) by (apply Cq_pos; assumption).
  set (cn := Cn mu K L). assert (Hcn : 0 < cn).
  { unfold cn, Cn. fold cq. assert (0 < 2 * L / mu) by (apply Rdiv_lt_0_compat; lra). lra. }
  set (P := Pc p). assert (HP : 1 <= P) by (unfold P, Pc; pose proof (Rabs_pos (hh p)); lra).
  set (m := 2 * cq + 6 * L5 * cn). assert (Hm : 0 < m) by (unfold m; assert (0 < L5 * cn) by (apply Rmult_lt_0_compat; lra); lra).
  set (r := sqrt m * P * sqrt cq).
  assert (Hr : 0 < r) by (unfold r; repeat apply Rmult_lt_0_compat; try (apply sqrt_lt_R0; assumption); lra).
  exists c, (3 * K + m + r), kap. split; [lra|]. split; [exact Hk|].
  split; [|split].
  - intros v. eapply Rle_trans; [apply HQ|]. pose proof (nsq_size6 v). pose proof (pow2_ge_0 (size6 v)).
    assert (K * nsq v <= K * (3 * size6 v ^ 2)) by (apply Rmult_le_compat_l; lra).
    assert (0 <= (m + r) * size6 v ^ 2) by (apply Rmult_le_pos; lra). lra.
  - intros n l Ft Fn z i x (Hpos & HB & HT) Z0 Zn Hi Hx B. set (X := pos l i + x).
    pose proof (loads_bound p c mu K L Hmu HK HL Hco HQ U1 U2 (wgt kap X) (dwgt kap X) (wgt_derive kap X) (wgt_pos kap X)
      (fun s => dwgt_bound kap X s Hk) n l Ft Fn z Hpos HB HT Z0 Zn) as T. fold cq P in T.
    set (TI := total_inc p c (wgt kap X) n l z) in *. set (LS := load_size (wgt kap X) n l Ft Fn) in *.
    assert (LS0 : 0 <= LS).
    { unfold LS, load_size. apply Rle_trans with (sumn n (fun _ => 0)); [right; clear; induction n as [|m IH]; simpl; [reflexivity|rewrite <- IH; ring]|].
      apply sumn_le. intros j _. apply Rmult_le_pos; [pose proof (Rabs_pos (Ft j)); pose proof (Rabs_pos (Fn j)); lra|apply sqrt_pos]. }
    assert (LB : r * LS <= B).
    { apply Rle_trans with (r * sumn n (fun j => (Rabs (Ft j) + Rabs (Fn j)) * exp (- (kap * Rabs (X - pos l (S j)))))).
      - apply Rmult_le_compat_l; [lra|]. unfold LS, load_size. apply sumn_le. intros j _.
        apply Rmult_le_compat_l; [pose proof (Rabs_pos (Ft j)); pose proof (Rabs_pos (Fn j)); lra|].
        eapply Rle_trans; [apply wgt_root|]. rewrite Rabs_minus_sym. lra.
      - unfold B. fold X. apply Rmult_le_compat_r; [|lra].
        apply Rle_trans with (sumn n (fun _ => 0)); [right; clear; induction n as [|m IH]; simpl; [reflexivity|rewrite <- IH; ring]|].
        apply sumn_le. intros j _. apply Rmult_le_pos; [pose proof (Rabs_pos (Ft j)); pose proof (Rabs_pos (Fn j)); lra|left; apply exp_pos]. }
    assert (Sq : (r * LS) ^ 2 = m * (P * sqrt cq * LS) ^ 2).
    { unfold r. replace ((sqrt m * P * sqrt cq * LS) ^ 2) with ((sqrt m * sqrt m) * (P * sqrt cq * LS) ^ 2) by ring.
      rewrite sqrt_sqrt by lra. reflexivity. }
    assert (T0 : 0 <= TI).
    { apply (sum_inc_nonneg p c mu K Hmu HK Hco HQ (wgt kap X) (dwgt kap X) (wgt_derive kap X) (wgt_pos kap X)
        (fun s => dwgt_bound kap X s Hk) n l z Hpos HB (S n)). lia. }
    assert (RL : 0 <= r * LS) by (apply Rmult_le_pos; lra).
    split.
    + eapply Rle_trans; [|exact LB]. apply le_of_sq; [exact RL|]. rewrite Sq.
      replace (sqrt (d2 (z i x)) ^ 2) with (d2 (z i x)) by (simpl; rewrite Rmult_1_r; symmetry; apply sqrt_sqrt, d2_nonneg).
      pose proof (disp_bound p c mu K L Hmu HK HL Hco HQ U1 U2 (wgt kap X) (dwgt kap X) (wgt_derive kap X) (wgt_pos kap X)
        (fun s => dwgt_bound kap X s Hk) n l Ft Fn z Hpos HB HT i x Hi Hx) as D. fold cq TI X in D. rewrite wgt_here, Z0, Rmult_0_r, Rplus_0_l in D.
      assert (d2 (z i x) <= 2 * cq * TI) by lra.
      assert (2 * cq * TI <= m * TI) by (apply Rmult_le_compat_r; [exact T0|]; unfold m; assert (0 < L5 * cn) by (apply Rmult_lt_0_compat; lra); lra).
      assert (m * TI <= m * (P * sqrt cq * LS) ^ 2) by (apply Rmult_le_compat_l; [lra|exact T]). lra.
    + intros H1l. eapply Rle_trans; [|exact LB]. apply le_of_sq; [exact RL|]. rewrite Sq.
      pose proof (full_bound p c mu K L Hmu HK HL Hco HQ U3 U4 (wgt kap X) (dwgt kap X) (wgt_derive kap X) (wgt_pos kap X)
        (fun s => dwgt_bound kap X s Hk) n l z Hpos HB i x Hi H1l Hx) as D. fold cn TI X in D. rewrite wgt_here in D.
      pose proof (size6_nsq (z i x)). pose proof (B5 (z i x)).
      assert (L5 * n2 p (z i x) <= L5 * (2 * (cn * TI))) by (apply Rmult_le_compat_l; lra).
      assert (6 * L5 * cn * TI <= m * TI) by (apply Rmult_le_compat_r; [exact T0|]; unfold m; lra).
      assert (m * TI <= m * (P * sqrt cq * LS) ^ 2) by (apply Rmult_le_compat_l; [lra|exact T]). lra.
  - intros n l z i x (Hpos & HB & HT) Hi Hx H1l. set (X := pos l i + x).
    pose proof (full_bound p c mu K L Hmu HK HL Hco HQ U3 U4 (wgt kap X) (dwgt kap X) (wgt_derive kap X) (wgt_pos kap X)
      (fun s => dwgt_bound kap X s Hk) n l z Hpos HB i x Hi H1l Hx) as D. fold cn in D. set (TI := total_inc p c (wgt kap X) n l z) in *. fold X in D. rewrite wgt_here in D.
    pose proof (total_value p c (wgt kap X) n l (fun _ => 0) (fun _ => 0) z HT) as TV. fold TI in TV.
    rewrite (sumn_ext n _ (fun _ => 0 * 0)) in TV by (intros j _; unfold power; ring). rewrite sumn_scal, Rmult_0_l, Rplus_0_r in TV.
    assert (PS : forall k, pos l (S k) = pos l k + l k) by reflexivity.
    assert (XL : X <= pos l (S n)).
    { unfold X. assert (G : forall d, (S i + d <= S n)%nat -> pos l (S i) <= pos l (S i + d)).
      { induction d as [|d IH]; intros Hd; [rewrite Nat.add_0_r; lra|]. rewrite Nat.add_succ_r, (PS (S i + d)%nat).
        pose proof (IH ltac:(lia)) as I1. pose proof (Hpos (S i + d)%nat ltac:(lia)). lra. }
      pose proof (G (n - i)%nat ltac:(lia)) as I2. replace (S i + (n - i))%nat with (S n) in I2 by lia. rewrite PS in I2 at 1. lra. }
    assert (X0 : 0 <= X).
    { unfold X. assert (G : forall d, (d <= n)%nat -> 0 <= pos l d).
      { induction d as [|d IH]; intros Hd; [unfold pos; simpl; lra|]. unfold pos in *. simpl. pose proof (IH ltac:(lia)). pose proof (Hpos d ltac:(lia)). lra. }
      pose proof (G i Hi). lra. }
    assert (TB : TI <= exp (- (2 * kap * X)) * Rabs (Qc p c (z 0%nat 0)) + exp (- (2 * kap * (pos l (S n) - X))) * Rabs (Qc p c (z n (l n)))).
    { rewrite TV. unfold En, energy. replace (pos l n + l n) with (pos l (S n)) by reflexivity. replace (pos l 0 + 0) with 0 by (unfold pos; simpl; ring).
      pose proof (wgt_le kap X 0) as W0. pose proof (wgt_le kap X (pos l (S n))) as W1.
      rewrite (Rabs_left1 (0 - X)) in W0 by lra. rewrite (Rabs_pos_eq (pos l (S n) - X)) in W1 by lra.
      replace (2 * kap * - (0 - X)) with (2 * kap * X) in W0 by ring.
      pose proof (wgt_pos kap X 0). pose proof (wgt_pos kap X (pos l (S n))).
      assert (A1 : wgt kap X (pos l (S n)) * Qc p c (z n (l n)) <= exp (- (2 * kap * (pos l (S n) - X))) * Rabs (Qc p c (z n (l n)))).
      { eapply Rle_trans; [apply Rmult_le_compat_l; [lra|apply Rle_abs]|]. apply Rmult_le_compat_r; [apply Rabs_pos|exact W1]. }
      assert (A0 : - (wgt kap X 0 * Qc p c (z 0%nat 0)) <= exp (- (2 * kap * X)) * Rabs (Qc p c (z 0%nat 0))).
      { rewrite <- Ropp_mult_distr_r_reverse. eapply Rle_trans; [apply Rmult_le_compat_l; [lra|apply Rle_abs]|]. rewrite Rabs_Ropp.
        apply Rmult_le_compat_r; [apply Rabs_pos|exact W0]. }
      lra. }
    pose proof (size6_nsq (z i x)). pose proof (B5 (z i x)).
    assert (L5 * n2 p (z i x) <= L5 * (2 * (cn * TI))) by (apply Rmult_le_compat_l; lra).
    set (E := exp (- (2 * kap * X)) * Rabs (Qc p c (z 0%nat 0)) + exp (- (2 * kap * (pos l (S n) - X))) * Rabs (Qc p c (z n (l n)))) in *.
    assert (E0 : 0 <= E).
    { unfold E. apply Rplus_le_le_0_compat; apply Rmult_le_pos; try apply Rabs_pos; left; apply exp_pos. }
    assert (6 * L5 * cn * TI <= 6 * L5 * cn * E).
    { apply Rmult_le_compat_l; [|exact TB]. assert (0 < L5 * cn) by (apply Rmult_lt_0_compat; lra). lra. }
    assert (6 * L5 * cn * E <= (3 * K + m + r) * E) by (apply Rmult_le_compat_r; [exact E0|]; unfold m; lra). lra.
Qed.
