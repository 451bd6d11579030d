(** Decay of disturbances along a supported slab (C111, C112). *)
From Coquelicot Require Import Coquelicot.
Require Import Verif.Py Verif.MTools Verif.MEigen Verif.MFields Verif.SAdm Verif.MRaster
  Verif.MSolution Verif.SBeam Verif.SBvp Verif.SEig Verif.SMirror Verif.SSkier Verif.PBeam Verif.PBeam2 Verif.PBvp Verif.PBvp2 Verif.PBalance
  Verif.PWell Verif.PWell2 Verif.PWell3 Verif.PBvp6 Verif.PMirror Verif.PSkier.

Lemma amgm x y : x * y <= (x ^ 2 + y ^ 2) / 2.
Proof. pose proof (pow2_ge_0 (x - y)). nra. Qed.
Lemma amgm_neg x y : - (x * y) <= (x ^ 2 + y ^ 2) / 2.
Proof. pose proof (pow2_ge_0 (x + y)). nra. Qed.
Lemma amgm_abs a x y : a * x * y <= Rabs a * (x ^ 2 + y ^ 2) / 2 /\ - (a * x * y) <= Rabs a * (x ^ 2 + y ^ 2) / 2.
Proof.
  pose proof (amgm x y). pose proof (amgm_neg x y). pose proof (pow2_ge_0 x). pose proof (pow2_ge_0 y).
  unfold Rabs; destruct Rcase_abs; split; nra.
Qed.
(** A positive definite form in two variables dominates a multiple of the sum of squares. *)
Lemma quad_lower a b d : 0 < a -> 0 < d -> b ^ 2 - a * d < 0 ->
  exists v, 0 < v /\ forall x y, v * (x ^ 2 + y ^ 2) <= a * x ^ 2 + 2 * b * x * y + d * y ^ 2.
Proof.
  intros Ha Hd Hb. set (v := (a * d - b ^ 2) / (a + d)).
  assert (Hv : 0 < v) by (apply Rdiv_lt_0_compat; lra).
  exists v. split; [exact Hv|]. intros x y.
  assert (E : v * (a + d) = a * d - b ^ 2) by (unfold v; field; lra).
  assert (P : 0 < a - v).
  { apply Rmult_lt_reg_r with (a + d); [lra|]. replace ((a - v) * (a + d)) with (a * (a + d) - v * (a + d)) by ring.
    rewrite E. pose proof (pow2_ge_0 b). nra. }
  assert (I : (a - v) * (a * x ^ 2 + 2 * b * x * y + d * y ^ 2 - v * (x ^ 2 + y ^ 2)) = ((a - v) * x + b * y) ^ 2 + v ^ 2 * y ^ 2).
  { assert (E2 : (a - v) * (d - v) = b ^ 2 + v ^ 2) by (replace ((a - v) * (d - v)) with (a * d - v * (a + d) + v ^ 2) by ring; rewrite E; ring).
    replace ((a - v) * (a * x ^ 2 + 2 * b * x * y + d * y ^ 2 - v * (x ^ 2 + y ^ 2)))
      with ((a - v) ^ 2 * x ^ 2 + 2 * (a - v) * b * x * y + ((a - v) * (d - v)) * y ^ 2) by ring.
    rewrite E2. ring. }
  assert (0 <= ((a - v) * x + b * y) ^ 2 + v ^ 2 * y ^ 2).
  { pose proof (pow2_ge_0 ((a - v) * x + b * y)). pose proof (pow2_ge_0 (v * y)). nra. }
  rewrite <- I in H. apply Rmult_le_reg_l with (a - v); [exact P|]. nra.
Qed.

(** Sizes of a state. *)
Definition nsq (z : vec6) : R := z_du z ^ 2 + z_dpsi z ^ 2 + gam z ^ 2 + z_w z ^ 2 + z_psi z ^ 2 + z_u z ^ 2.
Definition d2 (z : vec6) : R := z_u z ^ 2 + z_w z ^ 2 + z_psi z ^ 2.
Definition n2 (p : params) (z : vec6) : R := sN p z ^ 2 + sM p z ^ 2 + sV p z ^ 2 + d2 z.
(** Work minus a term that controls the rotation, and its derivative. *)
Definition Qc (p : params) (c : R) (z : vec6) : R := work p z - c * z_psi z * z_w z.
Definition Qd (p : params) (c : R) (z : vec6) : R :=
  density p true z - c * z_dpsi z * z_w z - c * z_psi z * gam z + c * z_psi z ^ 2.
Definition d2d (z : vec6) : R := 2 * z_u z * z_du z + 2 * z_w z * (gam z - z_psi z) + 2 * z_psi z * z_dpsi z.
Definition n2d (p : params) (z : vec6) : R :=
  2 * sN p z * (kt p * slip p z) + 2 * sM p z * (sV p z + (hh p + wt p) / 2 * (kt p * slip p z)) + 2 * sV p z * (kn p * z_w z) + d2d z.

Lemma nsq_nonneg z : 0 <= nsq z.
Proof.
  unfold nsq. pose proof (pow2_ge_0 (z_du z)). pose proof (pow2_ge_0 (z_dpsi z)). pose proof (pow2_ge_0 (gam z)).
  pose proof (pow2_ge_0 (z_w z)). pose proof (pow2_ge_0 (z_psi z)). pose proof (pow2_ge_0 (z_u z)). lra.
Qed.
Lemma d2_nonneg z : 0 <= d2 z.
Proof. unfold d2. pose proof (pow2_ge_0 (z_w z)). pose proof (pow2_ge_0 (z_psi z)). pose proof (pow2_ge_0 (z_u z)). lra. Qed.
Lemma d2_nsq z : d2 z <= nsq z.
Proof. unfold d2, nsq. pose proof (pow2_ge_0 (z_du z)). pose proof (pow2_ge_0 (z_dpsi z)). pose proof (pow2_ge_0 (gam z)). lra. Qed.

Lemma Q_derive p c z x : balance p no_loads true 0 z x -> is_derive (fun s => Qc p c (z s)) x (Qd p c (z x)).
Proof.
  intros H. pose proof (work_derive p true z x H) as W. destruct H as (_ & H2 & H3 & _).
  pose proof (is_derive_mult (fun s => z_psi (z s)) (fun s => z_w (z s)) x _ _ H3 H2 Rmult_comm) as P.
  pose proof (is_derive_scal _ x (- c) _ P) as P'.
  eapply is_derive_eq; [eapply is_derive_extR; [|exact (is_derive_plusR _ _ _ _ _ W P')]|].
  - intros s. unfold Qc. simpl. unfold mult; simpl. ring.
  - unfold Qd, plus, mult; simpl. unfold gam. ring.
Qed.
Lemma sq_derive (f : R -> R) x d : is_derive f x d -> is_derive (fun s => f s ^ 2) x (2 * f x * d).
Proof. intros H. eapply is_derive_eq; [exact (is_derive_pow f 2 x d H)|]. simpl. ring. Qed.
Lemma d2_derive p k z x : balance p no_loads k 0 z x -> is_derive (fun s => d2 (z s)) x (d2d (z x)).
Proof.
  intros (H1 & H2 & H3 & _). apply sq_derive in H1. apply sq_derive in H2. apply sq_derive in H3.
  eapply is_derive_eq; [exact (is_derive_plusR _ _ _ _ _ (is_derive_plusR _ _ _ _ _ H1 H2) H3)|].
  unfold d2d, gam. ring.
Qed.
Lemma n2_derive p z x : balance p no_loads true 0 z x -> is_derive (fun s => n2 p (z s)) x (n2d p (z x)).
Proof.
  intros H. pose proof (d2_derive _ _ _ _ H) as D. destruct H as (_ & _ & _ & H4 & H5 & H6).
  apply sq_derive in H4. apply sq_derive in H5. apply sq_derive in H6.
  eapply is_derive_eq; [exact (is_derive_plusR _ _ _ _ _ (is_derive_plusR _ _ _ _ _ (is_derive_plusR _ _ _ _ _ H4 H6) H5) D)|].
  unfold n2d, s_tau, s_sig, slip, no_loads. simpl. ring.
Qed.

Section Constants.
Variable p : params.
Hypothesis Hl : lam_ok p.
Hypothesis Hf : fnd_ok p.
Hypothesis Hs : stable p.

(** The derivative dominates every component of the state. *)
Lemma coercive : exists c mu, 0 < c /\ 0 < mu /\ forall z, mu * nsq z <= Qd p c z.
Proof.
  destruct Hl as (HA & HD & HS & HK & HK0). destruct Hf as (Hn & Ht & Hw).
  destruct (quad_lower (A11 p) (B11 p) (D11 p) HA HD ltac:(lra)) as (v1 & V1 & Q1).
  destruct (quad_lower (kt p) (kt p * wt p / 4) (kA55 p) Ht HS) as (v2 & V2 & Q2).
  { unfold stable in Hs. assert (0 < kt p * (16 * kA55 p - kt p * wt p ^ 2)) as P by (apply Rmult_lt_0_compat; lra).
    simpl. simpl in P. lra. }
  set (v := Rmin v1 (Rmin v2 (kn p))).
  assert (Hv : 0 < v) by (unfold v; repeat apply Rmin_pos; assumption).
  assert (L1 : v <= v1) by apply Rmin_l.
  assert (L2 : v <= v2) by (eapply Rle_trans; [apply Rmin_r|apply Rmin_l]).
  assert (L3 : v <= kn p) by (eapply Rle_trans; [apply Rmin_r|apply Rmin_r]).
  set (a := (hh p + wt p) / 2). set (b := wt p / 2).
  set (t := 12 * (1 + a ^ 2 + b ^ 2)).
  assert (Ht1 : 0 < t) by (unfold t; pose proof (pow2_ge_0 a); pose proof (pow2_ge_0 b); lra).
  assert (Ha : 12 * a ^ 2 <= t) by (unfold t; pose proof (pow2_ge_0 a); pose proof (pow2_ge_0 b); lra).
  assert (Hb : 12 * b ^ 2 <= t) by (unfold t; pose proof (pow2_ge_0 a); pose proof (pow2_ge_0 b); lra).
  assert (Ht2 : 12 <= t) by (unfold t; pose proof (pow2_ge_0 a); pose proof (pow2_ge_0 b); lra).
  exists v, (v / t). split; [exact Hv|]. split; [apply Rdiv_lt_0_compat; assumption|]. intros z.
  pose proof (Q1 (z_du z) (z_dpsi z)) as A1. pose proof (Q2 (slip p z) (gam z)) as A2.
  assert (E : kt p * slip p z ^ 2 + 2 * (kt p * wt p / 4) * slip p z * gam z + kA55 p * gam z ^ 2
      = kA55 p * gam z ^ 2 + kt p * slip p z * (slip p z + wt p / 2 * gam z)) by field.
  rewrite E in A2.
  assert (D : v * (z_du z ^ 2 + z_dpsi z ^ 2 + slip p z ^ 2 + gam z ^ 2 + z_w z ^ 2) <= density p true z).
  { unfold density. pose proof (pow2_ge_0 (z_du z)). pose proof (pow2_ge_0 (z_dpsi z)). pose proof (pow2_ge_0 (gam z)).
    pose proof (pow2_ge_0 (z_w z)). pose proof (pow2_ge_0 (slip p z)).
    assert (v * (z_du z ^ 2 + z_dpsi z ^ 2) <= v1 * (z_du z ^ 2 + z_dpsi z ^ 2)) by (apply Rmult_le_compat_r; lra).
    assert (v * (slip p z ^ 2 + gam z ^ 2) <= v2 * (slip p z ^ 2 + gam z ^ 2)) by (apply Rmult_le_compat_r; lra).
    assert (v * z_w z ^ 2 <= kn p * z_w z ^ 2) by (apply Rmult_le_compat_r; lra). lra. }
  assert (G : v / 2 * (z_du z ^ 2 + z_dpsi z ^ 2 + slip p z ^ 2 + gam z ^ 2 + z_w z ^ 2 + z_psi z ^ 2) <= Qd p v z).
  { unfold Qd. pose proof (amgm (z_dpsi z) (z_w z)). pose proof (amgm (z_psi z) (gam z)).
    assert (v * (z_dpsi z * z_w z) <= v * ((z_dpsi z ^ 2 + z_w z ^ 2) / 2)) by (apply Rmult_le_compat_l; lra).
    assert (v * (z_psi z * gam z) <= v * ((z_psi z ^ 2 + gam z ^ 2) / 2)) by (apply Rmult_le_compat_l; lra).
    assert (0 <= v * z_du z ^ 2) by (apply Rmult_le_pos; [lra|apply pow2_ge_0]).
    assert (0 <= v * slip p z ^ 2) by (apply Rmult_le_pos; [lra|apply pow2_ge_0]). lra. }
  eapply Rle_trans; [|exact G].
  assert (U : z_u z = slip p z - a * z_psi z + b * gam z) by (unfold slip, gam, a, b; field).
  assert (U2 : z_u z ^ 2 <= 3 * (slip p z ^ 2 + a ^ 2 * z_psi z ^ 2 + b ^ 2 * gam z ^ 2)).
  { rewrite U. set (x := slip p z). set (y := a * z_psi z). set (w := b * gam z).
    replace (a ^ 2 * z_psi z ^ 2) with (y ^ 2) by (unfold y; ring). replace (b ^ 2 * gam z ^ 2) with (w ^ 2) by (unfold w; ring).
    pose proof (pow2_ge_0 (x + y)). pose proof (pow2_ge_0 (x - w)). pose proof (pow2_ge_0 (y + w)). nra. }
  assert (U3 : z_u z ^ 2 <= t / 4 * (slip p z ^ 2 + z_psi z ^ 2 + gam z ^ 2)).
  { pose proof (pow2_ge_0 (z_psi z)). pose proof (pow2_ge_0 (gam z)). pose proof (pow2_ge_0 (slip p z)).
    assert (a ^ 2 * z_psi z ^ 2 <= t / 12 * z_psi z ^ 2) by (apply Rmult_le_compat_r; lra).
    assert (b ^ 2 * gam z ^ 2 <= t / 12 * gam z ^ 2) by (apply Rmult_le_compat_r; lra).
    assert (1 * slip p z ^ 2 <= t / 12 * slip p z ^ 2) by (apply Rmult_le_compat_r; lra). lra. }
  assert (N : nsq z <= t / 2 * (z_du z ^ 2 + z_dpsi z ^ 2 + slip p z ^ 2 + gam z ^ 2 + z_w z ^ 2 + z_psi z ^ 2)).
  { unfold nsq. pose proof (pow2_ge_0 (z_psi z)). pose proof (pow2_ge_0 (gam z)). pose proof (pow2_ge_0 (slip p z)).
    pose proof (pow2_ge_0 (z_du z)). pose proof (pow2_ge_0 (z_dpsi z)). pose proof (pow2_ge_0 (z_w z)).
    set (r := z_du z ^ 2 + z_dpsi z ^ 2 + gam z ^ 2 + z_w z ^ 2 + z_psi z ^ 2).
    assert (R1 : 1 * r <= t / 4 * r) by (apply Rmult_le_compat_r; unfold r; lra).
    assert (R2 : 0 <= t / 4 * (slip p z ^ 2)) by (apply Rmult_le_pos; lra).
    assert (R3 : 0 <= t / 4 * (z_du z ^ 2 + z_dpsi z ^ 2 + z_w z ^ 2)) by (apply Rmult_le_pos; lra).
    unfold r in *. lra. }
  apply Rle_trans with (v / t * (t / 2 * (z_du z ^ 2 + z_dpsi z ^ 2 + slip p z ^ 2 + gam z ^ 2 + z_w z ^ 2 + z_psi z ^ 2))).
  - apply Rmult_le_compat_l; [left; apply Rdiv_lt_0_compat; assumption|exact N].
  - right. field. lra.
Qed.

Lemma Q_bounded c : exists K, 0 < K /\ forall z, Rabs (Qc p c z) <= K * nsq z.
Proof.
  exists (1 + Rabs (A11 p) + 2 * Rabs (B11 p) + Rabs (D11 p) + Rabs (kA55 p) + Rabs c).
  pose proof (Rabs_pos (A11 p)). pose proof (Rabs_pos (B11 p)). pose proof (Rabs_pos (D11 p)).
  pose proof (Rabs_pos (kA55 p)). pose proof (Rabs_pos c). split; [lra|]. intros z.
  replace (Qc p c z) with (A11 p * z_du z * z_u z + B11 p * z_dpsi z * z_u z + B11 p * z_du z * z_psi z + D11 p * z_dpsi z * z_psi z
    + kA55 p * gam z * z_w z - c * z_psi z * z_w z) by (unfold Qc, work, sN, sM, sV, gam; ring).
  destruct (amgm_abs (A11 p) (z_du z) (z_u z)). destruct (amgm_abs (B11 p) (z_dpsi z) (z_u z)).
  destruct (amgm_abs (B11 p) (z_du z) (z_psi z)). destruct (amgm_abs (D11 p) (z_dpsi z) (z_psi z)).
  destruct (amgm_abs (kA55 p) (gam z) (z_w z)). destruct (amgm_abs c (z_psi z) (z_w z)).
  pose proof (pow2_ge_0 (z_du z)) as S1. pose proof (pow2_ge_0 (z_dpsi z)) as S2. pose proof (pow2_ge_0 (gam z)) as S3.
  pose proof (pow2_ge_0 (z_w z)) as S4. pose proof (pow2_ge_0 (z_psi z)) as S5. pose proof (pow2_ge_0 (z_u z)) as S6.
  assert (G : forall a x y, 0 <= a -> 0 <= x ^ 2 -> 0 <= y ^ 2 -> x ^ 2 + y ^ 2 <= nsq z -> a * (x ^ 2 + y ^ 2) / 2 <= a * nsq z).
  { intros a x y H1' H2' H3' H4'. assert (a * (x ^ 2 + y ^ 2) <= a * nsq z) by (apply Rmult_le_compat_l; assumption).
    assert (0 <= a * (x ^ 2 + y ^ 2)) by (apply Rmult_le_pos; lra). lra. }
  pose proof (G (Rabs (A11 p)) (z_du z) (z_u z) ltac:(lra) S1 S6 ltac:(unfold nsq; lra)).
  pose proof (G (Rabs (B11 p)) (z_dpsi z) (z_u z) ltac:(lra) S2 S6 ltac:(unfold nsq; lra)).
  pose proof (G (Rabs (B11 p)) (z_du z) (z_psi z) ltac:(lra) S1 S5 ltac:(unfold nsq; lra)).
  pose proof (G (Rabs (D11 p)) (z_dpsi z) (z_psi z) ltac:(lra) S2 S5 ltac:(unfold nsq; lra)).
  pose proof (G (Rabs (kA55 p)) (gam z) (z_w z) ltac:(lra) S3 S4 ltac:(unfold nsq; lra)).
  pose proof (G (Rabs c) (z_psi z) (z_w z) ltac:(lra) S5 S4 ltac:(unfold nsq; lra)).
  pose proof (nsq_nonneg z). apply Rabs_le. split; lra.
Qed.
(** Every quadratic form in the state is bounded. *)
Definition lb (f : vec6 -> R) : Prop := exists L, 0 < L /\ forall z, f z ^ 2 <= L * nsq z.
Definition bq (q : vec6 -> R) : Prop := exists L, 0 < L /\ forall z, Rabs (q z) <= L * nsq z.
Lemma lb_add f g : lb f -> lb g -> lb (fun z => f z + g z).
Proof.
  intros (L & HL & A) (M & HM & B). exists (2 * L + 2 * M). split; [lra|]. intros z.
  specialize (A z). specialize (B z). pose proof (amgm (f z) (g z)). nra.
Qed.
Lemma lb_scal a f : lb f -> lb (fun z => a * f z).
Proof.
  intros (L & HL & A). exists ((1 + a ^ 2) * L). pose proof (pow2_ge_0 a). split; [apply Rmult_lt_0_compat; lra|]. intros z.
  specialize (A z). pose proof (nsq_nonneg z). replace ((a * f z) ^ 2) with (a ^ 2 * f z ^ 2) by ring.
  assert (a ^ 2 * f z ^ 2 <= a ^ 2 * (L * nsq z)) by (apply Rmult_le_compat_l; lra).
  assert (0 <= L * nsq z) by (apply Rmult_le_pos; lra). lra.
Qed.
Lemma bq_mul f g : lb f -> lb g -> bq (fun z => f z * g z).
Proof.
  intros (L & HL & A) (M & HM & B). exists ((L + M) / 2). split; [lra|]. intros z.
  specialize (A z). specialize (B z). pose proof (amgm (f z) (g z)). pose proof (amgm_neg (f z) (g z)). apply Rabs_le. split; lra.
Qed.
Lemma bq_add f g : bq f -> bq g -> bq (fun z => f z + g z).
Proof.
  intros (L & HL & A) (M & HM & B). exists (L + M). split; [lra|]. intros z.
  specialize (A z). specialize (B z). pose proof (Rabs_triang (f z) (g z)). lra.
Qed.
Lemma bq_ext f g : bq f -> (forall z, g z = f z) -> bq g.
Proof. intros (L & HL & A) E. exists L. split; [exact HL|]. intros z. rewrite E. apply A. Qed.
Ltac lb_comp := exists 1; split; [lra|]; intros z; unfold nsq; pose proof (pow2_ge_0 (z_du z)); pose proof (pow2_ge_0 (z_dpsi z));
  pose proof (pow2_ge_0 (gam z)); pose proof (pow2_ge_0 (z_w z)); pose proof (pow2_ge_0 (z_psi z)); pose proof (pow2_ge_0 (z_u z)); lra.
Lemma lb_u : lb z_u. Proof. lb_comp. Qed.
Lemma lb_du : lb z_du. Proof. lb_comp. Qed.
Lemma lb_w : lb z_w. Proof. lb_comp. Qed.
Lemma lb_psi : lb z_psi. Proof. lb_comp. Qed.
Lemma lb_dpsi : lb z_dpsi. Proof. lb_comp. Qed.
Lemma lb_gam : lb gam. Proof. lb_comp. Qed.
Lemma lb_ext f g : lb f -> (forall z, g z = f z) -> lb g.
Proof. intros (L & HL & A) E. exists L. split; [exact HL|]. intros z. rewrite E. apply A. Qed.
Lemma lb_dw : lb z_dw.
Proof. apply (lb_ext _ _ (lb_add _ _ lb_gam (lb_scal (-1) _ lb_psi))). intros z. unfold gam. ring. Qed.
Lemma lb_N : lb (sN p). Proof. exact (lb_add _ _ (lb_scal (A11 p) _ lb_du) (lb_scal (B11 p) _ lb_dpsi)). Qed.
Lemma lb_M : lb (sM p). Proof. exact (lb_add _ _ (lb_scal (B11 p) _ lb_du) (lb_scal (D11 p) _ lb_dpsi)). Qed.
Lemma lb_V : lb (sV p). Proof. exact (lb_scal (kA55 p) _ lb_gam). Qed.
Lemma lb_slip : lb (slip p).
Proof.
  apply (lb_ext _ _ (lb_add _ _ (lb_add _ _ lb_u (lb_scal (hh p / 2) _ lb_psi)) (lb_scal (- (wt p / 2)) _ lb_dw))).
  intros z. unfold slip. ring.
Qed.
Lemma bq_d2d : bq d2d.
Proof.
  apply (bq_ext _ _ (bq_add _ _ (bq_add _ _ (bq_mul _ _ (lb_scal 2 _ lb_u) lb_du) (bq_mul _ _ (lb_scal 2 _ lb_w) lb_dw)) (bq_mul _ _ (lb_scal 2 _ lb_psi) lb_dpsi))).
  intros z. unfold d2d, gam. ring.
Qed.
Lemma bq_d2 : bq d2.
Proof.
  apply (bq_ext _ _ (bq_add _ _ (bq_add _ _ (bq_mul _ _ lb_u lb_u) (bq_mul _ _ lb_w lb_w)) (bq_mul _ _ lb_psi lb_psi))).
  intros z. unfold d2. ring.
Qed.
Lemma bq_n2 : bq (n2 p).
Proof.
  apply (bq_ext _ _ (bq_add _ _ (bq_add _ _ (bq_add _ _ (bq_mul _ _ lb_N lb_N) (bq_mul _ _ lb_M lb_M)) (bq_mul _ _ lb_V lb_V)) bq_d2)).
  intros z. unfold n2. ring.
Qed.
Lemma bq_n2d : bq (n2d p).
Proof.
  assert (T : lb (fun z => sV p z + (hh p + wt p) / 2 * (kt p * slip p z))).
  { exact (lb_add _ _ lb_V (lb_scal ((hh p + wt p) / 2) _ (lb_scal (kt p) _ lb_slip))). }
  exact (bq_add _ _ (bq_add _ _ (bq_add _ _ (bq_mul _ _ (lb_scal 2 _ lb_N) (lb_scal (kt p) _ lb_slip)) (bq_mul _ _ (lb_scal 2 _ lb_M) T))
    (bq_mul _ _ (lb_scal 2 _ lb_V) (lb_scal (kn p) _ lb_w))) bq_d2d).
Qed.
(** Conversely section forces and displacements determine the state. *)
Lemma nsq_n2 : exists L, 0 < L /\ forall z, nsq z <= L * n2 p z.
Proof.
  destruct Hl as (HA & HD & HS & HK & HK0). set (k := - K0 p). assert (Hk : 0 < k) by (unfold k; lra).
  exists (1 + 2 * (D11 p ^ 2 + 2 * B11 p ^ 2 + A11 p ^ 2) / k ^ 2 + / kA55 p ^ 2).
  assert (K2 : 0 < k ^ 2) by (apply pow_lt; exact Hk). assert (S2 : 0 < kA55 p ^ 2) by (apply pow_lt; exact HS).
  pose proof (pow2_ge_0 (D11 p)) as PD. pose proof (pow2_ge_0 (B11 p)) as PB. pose proof (pow2_ge_0 (A11 p)) as PA.
  assert (F1 : 0 <= 2 * (D11 p ^ 2 + 2 * B11 p ^ 2 + A11 p ^ 2) / k ^ 2) by (apply Rmult_le_pos; [lra|left; apply Rinv_0_lt_compat; exact K2]).
  assert (F2 : 0 < / kA55 p ^ 2) by (apply Rinv_0_lt_compat; exact S2).
  split; [lra|]. intros z.
  assert (E1 : z_du z = (D11 p * sN p z - B11 p * sM p z) / k) by (unfold k, sN, sM; rewrite HK; field; lra).
  assert (E2 : z_dpsi z = (A11 p * sM p z - B11 p * sN p z) / k) by (unfold k, sN, sM; rewrite HK; field; lra).
  assert (E3 : gam z = sV p z / kA55 p) by (unfold gam, sV; field; lra).
  set (m := n2 p z). pose proof (d2_nonneg z) as P0.
  pose proof (pow2_ge_0 (sN p z)) as P1. pose proof (pow2_ge_0 (sM p z)) as P2. pose proof (pow2_ge_0 (sV p z)) as P3.
  assert (B1 : z_du z ^ 2 + z_dpsi z ^ 2 <= 2 * (D11 p ^ 2 + 2 * B11 p ^ 2 + A11 p ^ 2) / k ^ 2 * m).
  { rewrite E1, E2.
    replace (((D11 p * sN p z - B11 p * sM p z) / k) ^ 2 + ((A11 p * sM p z - B11 p * sN p z) / k) ^ 2)
      with (((D11 p * sN p z - B11 p * sM p z) ^ 2 + (A11 p * sM p z - B11 p * sN p z) ^ 2) / k ^ 2) by (field; lra).
    replace (2 * (D11 p ^ 2 + 2 * B11 p ^ 2 + A11 p ^ 2) / k ^ 2 * m) with (2 * (D11 p ^ 2 + 2 * B11 p ^ 2 + A11 p ^ 2) * m / k ^ 2) by (field; lra).
    apply Rmult_le_compat_r; [left; apply Rinv_0_lt_compat; exact K2|].
    assert (G : forall a b, (a - b) ^ 2 <= 2 * a ^ 2 + 2 * b ^ 2) by (intros a b; pose proof (pow2_ge_0 (a + b)); nra).
    pose proof (G (D11 p * sN p z) (B11 p * sM p z)). pose proof (G (A11 p * sM p z) (B11 p * sN p z)).
    rewrite !Rpow_mult_distr in *.
    assert (M1 : sN p z ^ 2 <= m) by (unfold m, n2; lra). assert (M2 : sM p z ^ 2 <= m) by (unfold m, n2; lra).
    assert (D11 p ^ 2 * sN p z ^ 2 <= D11 p ^ 2 * m) by (apply Rmult_le_compat_l; lra).
    assert (B11 p ^ 2 * sM p z ^ 2 <= B11 p ^ 2 * m) by (apply Rmult_le_compat_l; lra).
    assert (A11 p ^ 2 * sM p z ^ 2 <= A11 p ^ 2 * m) by (apply Rmult_le_compat_l; lra).
    assert (B11 p ^ 2 * sN p z ^ 2 <= B11 p ^ 2 * m) by (apply Rmult_le_compat_l; lra). lra. }
  assert (B2 : gam z ^ 2 <= / kA55 p ^ 2 * m).
  { rewrite E3. replace ((sV p z / kA55 p) ^ 2) with (/ kA55 p ^ 2 * sV p z ^ 2) by (field; lra).
    apply Rmult_le_compat_l; [lra|]. unfold m, n2; lra. }
  assert (B3 : z_w z ^ 2 + z_psi z ^ 2 + z_u z ^ 2 <= m) by (unfold m, n2, d2 in *; lra).
  unfold nsq. lra.
Qed.
End Constants.
