(** Growth and control of states along forced segments (C115, C116). *)
From Coquelicot Require Import Coquelicot.
Require Import Verif.Py Verif.MTools Verif.MEigen Verif.MFields Verif.SAdm Verif.MRaster
  Verif.MSolution Verif.SBeam Verif.SBvp Verif.SEig Verif.SMirror Verif.SSkier Verif.SDecay Verif.PBeam Verif.PBeam2 Verif.PBvp Verif.PBvp2 Verif.PBalance
  Verif.PWell Verif.PWell2 Verif.PWell3 Verif.PBvp6 Verif.PMirror Verif.PSkier Verif.PDecay Verif.PDecay2 Verif.PDecay3.

(** Equilibrium of a segment; constant force densities act where there is no weak layer. *)
Definition on (k : bool) (g : R) : R := if k then 0 else g.
Definition forced (p : params) (k : bool) (gN gM gV : R) (z : R -> vec6) (x : R) : Prop :=
  is_derive (fun s => z_u (z s)) x (z_du (z x)) /\ is_derive (fun s => z_w (z s)) x (z_dw (z x)) /\
  is_derive (fun s => z_psi (z s)) x (z_dpsi (z x)) /\
  is_derive (fun s => sN p (z s)) x (s_tau p k (z x) + on k gN) /\
  is_derive (fun s => sV p (z s)) x (- s_sig p k (z x) + on k gV) /\
  is_derive (fun s => sM p (z s)) x (sV p (z x) + (hh p + wt p) / 2 * s_tau p k (z x) + on k gM).

Definition n2dk (p : params) (k : bool) (z : vec6) : R :=
  2 * sN p z * s_tau p k z + 2 * sM p z * (sV p z + (hh p + wt p) / 2 * s_tau p k z) + 2 * sV p z * (- s_sig p k z) + d2d z.
Lemma n2_forced p k gN gM gV z x : forced p k gN gM gV z x ->
  is_derive (fun s => n2 p (z s)) x (n2dk p k (z x) + 2 * (sN p (z x) * on k gN + sM p (z x) * on k gM + sV p (z x) * on k gV)).
Proof.
  intros (H1 & H2 & H3 & H4 & H5 & H6). apply sq_derive in H1. apply sq_derive in H2. apply sq_derive in H3.
  apply sq_derive in H4. apply sq_derive in H5. apply sq_derive in H6.
  eapply is_derive_eq; [exact (is_derive_plusR _ _ _ _ _ (is_derive_plusR _ _ _ _ _ (is_derive_plusR _ _ _ _ _ H4 H6) H5)
    (is_derive_plusR _ _ _ _ _ (is_derive_plusR _ _ _ _ _ H1 H2) H3))|].
  unfold n2dk, d2d, gam. ring.
Qed.
Lemma work_forced p k gN gM gV z x : forced p k gN gM gV z x ->
  is_derive (fun s => work p (z s)) x (density p k (z x) + (on k gN * z_u (z x) + on k gM * z_psi (z x) + on k gV * z_w (z x))).
Proof.
  intros (H1 & H2 & H3 & H4 & H5 & H6). unfold work.
  pose proof (is_derive_mult (fun s => sN p (z s)) (fun s => z_u (z s)) x _ _ H4 H1 Rmult_comm) as P1.
  pose proof (is_derive_mult (fun s => sM p (z s)) (fun s => z_psi (z s)) x _ _ H6 H3 Rmult_comm) as P2.
  pose proof (is_derive_mult (fun s => sV p (z s)) (fun s => z_w (z s)) x _ _ H5 H2 Rmult_comm) as P3.
  eapply is_derive_eq.
  - apply (is_derive_plusR _ _ _ _ _ (is_derive_plusR _ _ _ _ _ P1 P2) P3).
  - unfold plus, mult; simpl. unfold density, gam, slip, sN, sM, sV, s_tau, s_sig. destruct k; simpl; field.
Qed.
Lemma n2_nonneg p z : 0 <= n2 p z.
Proof. unfold n2. pose proof (d2_nonneg z). pose proof (pow2_ge_0 (sN p z)). pose proof (pow2_ge_0 (sM p z)). pose proof (pow2_ge_0 (sV p z)). lra. Qed.

Section Constants.
Variable p : params.
Hypothesis Hl : lam_ok p.
Hypothesis Hf : fnd_ok p.
Hypothesis Hs : stable p.

Lemma bq_n2dk k : bq (n2dk p k).
Proof.
  destruct k.
  - apply (bq_ext _ _ (bq_n2d p)). intros z. unfold n2dk, n2d, s_tau, s_sig, slip. ring.
  - apply (bq_ext _ _ (bq_add _ _ (bq_mul _ _ (lb_scal 2 _ (lb_M p)) (lb_V p)) bq_d2d)). intros z. unfold n2dk, s_tau, s_sig. ring.
Qed.
Lemma n2_rate : exists L, 0 < L /\ forall k z, Rabs (n2dk p k z) <= L * n2 p z.
Proof.
  destruct (bq_n2dk true) as (L1 & H1 & B1). destruct (bq_n2dk false) as (L2 & H2 & B2). destruct (nsq_n2 p Hl) as (L5 & H5 & B5).
  exists ((L1 + L2) * L5). split; [apply Rmult_lt_0_compat; lra|]. intros k z. pose proof (nsq_nonneg z) as N0. pose proof (B5 z) as N1.
  assert (A : Rabs (n2dk p k z) <= (L1 + L2) * nsq z).
  { assert (0 <= L1 * nsq z) by (apply Rmult_le_pos; lra). assert (0 <= L2 * nsq z) by (apply Rmult_le_pos; lra).
    destruct k; [pose proof (B1 z)|pose proof (B2 z)]; lra. }
  eapply Rle_trans; [exact A|]. rewrite Rmult_assoc. apply Rmult_le_compat_l; lra.
Qed.

Definition force2 (gN gM gV : R) : R := gN ^ 2 + gM ^ 2 + gV ^ 2.
Lemma force2_nonneg gN gM gV : 0 <= force2 gN gM gV.
Proof. unfold force2. pose proof (pow2_ge_0 gN). pose proof (pow2_ge_0 gM). pose proof (pow2_ge_0 gV). lra. Qed.
Lemma push_bound k gN gM gV z : Rabs (2 * (sN p z * on k gN + sM p z * on k gM + sV p z * on k gV)) <= n2 p z + force2 gN gM gV.
Proof.
  assert (O2 : forall g, on k g ^ 2 <= g ^ 2) by (intros g; unfold on; destruct k; [simpl; pose proof (pow2_ge_0 g); simpl in *; lra|lra]).
  pose proof (O2 gN). pose proof (O2 gM). pose proof (O2 gV). pose proof (d2_nonneg z).
  pose proof (amgm (sN p z) (on k gN)). pose proof (amgm (sM p z) (on k gM)). pose proof (amgm (sV p z) (on k gV)).
  pose proof (amgm_neg (sN p z) (on k gN)). pose proof (amgm_neg (sM p z) (on k gM)). pose proof (amgm_neg (sV p z) (on k gV)).
  unfold n2, force2. apply Rabs_le. split; lra.
Qed.
(** States grow at most exponentially, in both directions. *)
Lemma grow : exists L, 0 < L /\ forall k gN gM gV z a b, a <= b -> (forall x, a <= x <= b -> forced p k gN gM gV z x) ->
  n2 p (z b) + force2 gN gM gV <= exp (L * (b - a)) * (n2 p (z a) + force2 gN gM gV) /\
  n2 p (z a) + force2 gN gM gV <= exp (L * (b - a)) * (n2 p (z b) + force2 gN gM gV).
Proof.
  destruct n2_rate as (L & HL & B). exists (L + 1). split; [lra|]. intros k gN gM gV z a b Hab HF.
  set (G := force2 gN gM gV). assert (G0 : 0 <= G) by apply force2_nonneg.
  set (r := fun x => n2dk p k (z x) + 2 * (sN p (z x) * on k gN + sM p (z x) * on k gM + sV p (z x) * on k gV)).
  assert (Rb : forall x, Rabs (r x) <= (L + 1) * (n2 p (z x) + G)).
  { intros x. unfold r. eapply Rle_trans; [apply Rabs_triang|]. pose proof (B k (z x)). pose proof (push_bound k gN gM gV (z x)). fold G in H0.
    assert (0 <= L * G) by (apply Rmult_le_pos; lra). lra. }
  assert (Ed : forall c t0 x, is_derive (fun s => exp (c * (s - t0))) x (c * exp (c * (x - t0)))).
  { intros c t0 x. auto_derive; [exact I|]. unfold Rminus. ring. }
  assert (Yd : forall x, a <= x <= b -> is_derive (fun s => n2 p (z s) + G) x (r x)).
  { intros x Hx. eapply is_derive_eq; [exact (is_derive_plusR _ (fun _ => G) _ _ 0 (n2_forced _ _ _ _ _ _ _ (HF x Hx)) (is_derive_const (K := R_AbsRing) (V := R_NormedModule) _ _))|].
    fold (r x). ring. }
  assert (D : forall c t0 x, a <= x <= b -> is_derive (fun s => exp (c * (s - t0)) * (n2 p (z s) + G)) x (exp (c * (x - t0)) * (c * (n2 p (z x) + G) + r x))).
  { intros c t0 x Hx. eapply is_derive_eq; [exact (is_derive_mult _ _ x _ _ (Ed c t0 x) (Yd x Hx) Rmult_comm)|]. unfold plus, mult; simpl. ring. }
  split.
  - assert (I : - (exp (- (L + 1) * (a - b)) * (n2 p (z a) + G)) <= - (exp (- (L + 1) * (b - b)) * (n2 p (z b) + G))).
    { apply (derive_nonneg_incr (fun s => - (exp (- (L + 1) * (s - b)) * (n2 p (z s) + G)))
        (fun x => - (exp (- (L + 1) * (x - b)) * (- (L + 1) * (n2 p (z x) + G) + r x))) a b Hab).
      - intros x Hx. apply (is_derive_opp (K := R_AbsRing) (V := R_NormedModule) (fun s => exp (- (L + 1) * (s - b)) * (n2 p (z s) + G))). exact (D _ b x Hx).
      - intros x _. pose proof (Rb x) as H. apply Rabs_le_between in H. pose proof (exp_pos (- (L + 1) * (x - b))) as E0.
        rewrite Ropp_mult_distr_r. apply Rmult_le_pos; lra. }
    replace (- (L + 1) * (b - b)) with 0 in I by ring. rewrite exp_0 in I. replace (- (L + 1) * (a - b)) with ((L + 1) * (b - a)) in I by ring. lra.
  - assert (I : exp ((L + 1) * (a - a)) * (n2 p (z a) + G) <= exp ((L + 1) * (b - a)) * (n2 p (z b) + G)).
    { apply (derive_nonneg_incr (fun s => exp ((L + 1) * (s - a)) * (n2 p (z s) + G))
        (fun x => exp ((L + 1) * (x - a)) * ((L + 1) * (n2 p (z x) + G) + r x)) a b Hab); [intros x Hx; exact (D _ a x Hx)|].
      intros x _. pose proof (Rb x) as H. apply Rabs_le_between in H. pose proof (exp_pos ((L + 1) * (x - a))) as E0. apply Rmult_le_pos; lra. }
    replace ((L + 1) * (a - a)) with 0 in I by ring. rewrite exp_0 in I. lra.
Qed.

(** What the density controls. *)
Definition parts (z : vec6) : R := z_du z ^ 2 + z_dpsi z ^ 2 + slip p z ^ 2 + gam z ^ 2 + z_w z ^ 2.
Lemma parts_nonneg z : 0 <= parts z.
Proof.
  unfold parts. pose proof (pow2_ge_0 (z_du z)). pose proof (pow2_ge_0 (z_dpsi z)). pose proof (pow2_ge_0 (gam z)).
  pose proof (pow2_ge_0 (z_w z)). pose proof (pow2_ge_0 (slip p z)). lra.
Qed.
Lemma density_low : exists v, 0 < v /\ forall z, v * parts z <= density p true z.
Proof.
  destruct Hl as (HA & HD & HS & HK & HK0). destruct Hf as (Hn & Ht & Hw).
  destruct (quad_lower (A11 p) (B11 p) (D11 p) HA HD ltac:(lra)) as (v1 & V1 & Q1).
  destruct (quad_lower (kt p) (kt p * wt p / 4) (kA55 p) Ht HS) as (v2 & V2 & Q2).
  { unfold stable in Hs. assert (0 < kt p * (16 * kA55 p - kt p * wt p ^ 2)) as P by (apply Rmult_lt_0_compat; lra).
    simpl. simpl in P. lra. }
  set (v := Rmin v1 (Rmin v2 (kn p))).
  assert (Hv : 0 < v) by (unfold v; repeat apply Rmin_pos; assumption).
  assert (L1 : v <= v1) by apply Rmin_l.
  assert (L2 : v <= v2) by (eapply Rle_trans; [apply Rmin_r|apply Rmin_l]).
  assert (L3 : v <= kn p) by (eapply Rle_trans; [apply Rmin_r|apply Rmin_r]).
  exists v. split; [exact Hv|]. intros z.
  pose proof (Q1 (z_du z) (z_dpsi z)) as A1. pose proof (Q2 (slip p z) (gam z)) as A2.
  assert (E : kt p * slip p z ^ 2 + 2 * (kt p * wt p / 4) * slip p z * gam z + kA55 p * gam z ^ 2
      = kA55 p * gam z ^ 2 + kt p * slip p z * (slip p z + wt p / 2 * gam z)) by field.
  rewrite E in A2. unfold density, parts. pose proof (pow2_ge_0 (z_du z)). pose proof (pow2_ge_0 (z_dpsi z)). pose proof (pow2_ge_0 (gam z)).
  pose proof (pow2_ge_0 (z_w z)). pose proof (pow2_ge_0 (slip p z)).
  assert (v * (z_du z ^ 2 + z_dpsi z ^ 2) <= v1 * (z_du z ^ 2 + z_dpsi z ^ 2)) by (apply Rmult_le_compat_r; lra).
  assert (v * (slip p z ^ 2 + gam z ^ 2) <= v2 * (slip p z ^ 2 + gam z ^ 2)) by (apply Rmult_le_compat_r; lra).
  assert (v * z_w z ^ 2 <= kn p * z_w z ^ 2) by (apply Rmult_le_compat_r; lra). lra.
Qed.
Lemma nsq_parts : exists t, 0 < t /\ forall z, nsq z <= t * (parts z + z_psi z ^ 2).
Proof.
  set (a := (hh p + wt p) / 2). set (b := wt p / 2). exists (1 + 3 * (1 + a ^ 2 + b ^ 2)).
  pose proof (pow2_ge_0 a) as A0. pose proof (pow2_ge_0 b) as B0. split; [lra|]. intros z.
  assert (U : z_u z = slip p z - a * z_psi z + b * gam z) by (unfold slip, gam, a, b; field).
  assert (U2 : z_u z ^ 2 <= 3 * (slip p z ^ 2 + a ^ 2 * z_psi z ^ 2 + b ^ 2 * gam z ^ 2)).
  { rewrite U. set (x := slip p z). set (y := a * z_psi z). set (w := b * gam z).
    replace (a ^ 2 * z_psi z ^ 2) with (y ^ 2) by (unfold y; ring). replace (b ^ 2 * gam z ^ 2) with (w ^ 2) by (unfold w; ring).
    pose proof (pow2_ge_0 (x + y)). pose proof (pow2_ge_0 (x - w)). pose proof (pow2_ge_0 (y + w)). nra. }
  pose proof (pow2_ge_0 (z_psi z)). pose proof (pow2_ge_0 (gam z)). pose proof (pow2_ge_0 (slip p z)).
  pose proof (pow2_ge_0 (z_du z)). pose proof (pow2_ge_0 (z_dpsi z)). pose proof (pow2_ge_0 (z_w z)).
  set (q := parts z + z_psi z ^ 2). assert (Q0 : 0 <= q) by (unfold q; pose proof (parts_nonneg z); lra).
  assert (a ^ 2 * z_psi z ^ 2 <= a ^ 2 * q) by (apply Rmult_le_compat_l; [lra|unfold q, parts; lra]).
  assert (b ^ 2 * gam z ^ 2 <= b ^ 2 * q) by (apply Rmult_le_compat_l; [lra|unfold q, parts; lra]).
  assert (slip p z ^ 2 <= q) by (unfold q, parts; lra).
  assert (z_du z ^ 2 + z_dpsi z ^ 2 + gam z ^ 2 + z_w z ^ 2 + z_psi z ^ 2 <= q) by (unfold q, parts; lra).
  unfold nsq. lra.
Qed.

(** On a supported piece of unit length the state is controlled by the work done there. *)
Lemma window_full : exists C, 0 < C /\ forall gN gM gV z a, (forall x, a <= x <= a + 1 -> forced p true gN gM gV z x) ->
  forall x, a <= x <= a + 1 -> n2 p (z x) <= C * (work p (z (a + 1)) - work p (z a)).
Proof.
  destruct density_low as (v & Hv & Dl). destruct nsq_parts as (t & Ht & Np). destruct (bq_n2 p) as (L4 & H4 & B4). destruct grow as (Lg & HLg & Gr).
  exists (exp Lg * (L4 * (t * (2 * (640 / v))))).
  assert (V0 : 0 < 640 / v) by (apply Rdiv_lt_0_compat; lra).
  split; [repeat apply Rmult_lt_0_compat; try lra; apply exp_pos|]. intros gN gM gV z0 a HF0.
  (* without forces *)
  assert (HF : forall x, a <= x <= a + 1 -> forced p true 0 0 0 z0 x) by exact HF0. clear HF0. set (z := z0) in *.
  set (c := v / 10).
  set (rr := fun x => (x - a) * (a + 1 - x)). set (ss := fun x => 2 * a + 1 - 2 * x).
  set (F := fun x => work p (z x) - c * (rr x) ^ 2 * (z_psi (z x) * z_w (z x))).
  set (dF := fun x => density p true (z x) - c * (2 * rr x * ss x * (z_psi (z x) * z_w (z x)) + rr x ^ 2 * (z_dpsi (z x) * z_w (z x) + z_psi (z x) * (gam (z x) - z_psi (z x))))).
  assert (DF : forall x, a <= x <= a + 1 -> is_derive F x (dF x)).
  { intros x Hx. pose proof (work_forced _ _ _ _ _ _ _ (HF x Hx)) as W. destruct (HF x Hx) as (_ & H2 & H3 & _).
    pose proof (is_derive_mult (fun s => z_psi (z s)) (fun s => z_w (z s)) x _ _ H3 H2 Rmult_comm) as P.
    assert (R2 : is_derive (fun s => - c * (rr s) ^ 2) x (- c * (2 * rr x * ss x))).
    { unfold rr, ss. auto_derive; [exact I|]. unfold Rminus. simpl. ring. }
    pose proof (is_derive_mult _ _ x _ _ R2 P Rmult_comm) as PP.
    eapply is_derive_eq; [eapply is_derive_extR; [|exact (is_derive_plusR _ _ _ _ _ W PP)]|].
    - intros s. unfold F. simpl. unfold mult; simpl. ring.
    - unfold dF, on, plus, mult, gam; simpl. ring. }
  assert (Low : forall x, a <= x <= a + 1 -> v / 2 * parts (z x) + c / 2 * (rr x ^ 2 * z_psi (z x) ^ 2) <= dF x).
  { intros x Hx. unfold dF. pose proof (Dl (z x)) as D0.
    assert (R0 : 0 <= rr x) by (unfold rr; apply Rmult_le_pos; lra).
    assert (R1 : rr x <= 1) by (unfold rr; rewrite <- (Rmult_1_l 1); apply Rmult_le_compat; lra).
    assert (S1 : ss x ^ 2 <= 1) by (unfold ss; pose proof (Rmult_le_pos (x - a) (a + 1 - x) ltac:(lra) ltac:(lra)); nra).
    set (r := rr x) in *. set (s := ss x) in *. set (y := z_psi (z x)). set (w := z_w (z x)). set (g := gam (z x)). set (d := z_dpsi (z x)).
    assert (r2 : r ^ 2 <= 1) by (simpl; nra).
    assert (A1 : 2 * r * s * (y * w) <= r ^ 2 * y ^ 2 / 4 + 4 * w ^ 2).
    { assert (2 * (r * y) * (s * w) <= (r * y) ^ 2 / 4 + 4 * (s * w) ^ 2) by (pose proof (pow2_ge_0 (r * y / 2 - 2 * (s * w))); nra).
      assert ((s * w) ^ 2 <= 1 * w ^ 2) by (rewrite Rpow_mult_distr; apply Rmult_le_compat_r; [apply pow2_ge_0|exact S1]).
      rewrite Rpow_mult_distr in H. lra. }
    assert (A2 : r ^ 2 * (d * w) <= (d ^ 2 + w ^ 2) / 2).
    { pose proof (amgm d w). assert (r ^ 2 * (d * w) <= r ^ 2 * ((d ^ 2 + w ^ 2) / 2)) by (apply Rmult_le_compat_l; [apply pow2_ge_0|lra]).
      pose proof (pow2_ge_0 d). pose proof (pow2_ge_0 w). assert (r ^ 2 * ((d ^ 2 + w ^ 2) / 2) <= 1 * ((d ^ 2 + w ^ 2) / 2)) by (apply Rmult_le_compat_r; lra). lra. }
    assert (A3 : r ^ 2 * (y * g) <= r ^ 2 * y ^ 2 / 4 + g ^ 2).
    { assert (y * g <= y ^ 2 / 4 + g ^ 2) by (pose proof (pow2_ge_0 (y / 2 - g)); nra).
      assert (r ^ 2 * (y * g) <= r ^ 2 * (y ^ 2 / 4 + g ^ 2)) by (apply Rmult_le_compat_l; [apply pow2_ge_0|lra]).
      assert (r ^ 2 * g ^ 2 <= 1 * g ^ 2) by (apply Rmult_le_compat_r; [apply pow2_ge_0|lra]). lra. }
    assert (A4 : 2 * r * s * (y * w) + r ^ 2 * (d * w + y * (g - y)) <= 5 * parts (z x) - r ^ 2 * y ^ 2 / 2).
    { unfold parts. fold y w g d. pose proof (pow2_ge_0 (z_du (z x))). pose proof (pow2_ge_0 (slip p (z x))).
      pose proof (pow2_ge_0 d). pose proof (pow2_ge_0 w). pose proof (pow2_ge_0 g).
      replace (r ^ 2 * (d * w + y * (g - y))) with (r ^ 2 * (d * w) + r ^ 2 * (y * g) - r ^ 2 * y ^ 2) by ring. lra. }
    assert (C0 : 0 < c) by (unfold c; lra).
    apply (Rmult_le_compat_l c _ _ (Rlt_le _ _ C0)) in A4.
    assert (c * (5 * parts (z x)) = v / 2 * parts (z x)) by (unfold c; field). lra. }
  assert (DFp : forall x, a <= x <= a + 1 -> 0 <= dF x).
  { intros x Hx. eapply Rle_trans; [|exact (Low x Hx)]. pose proof (parts_nonneg (z x)).
    assert (0 <= v / 2 * parts (z x)) by (apply Rmult_le_pos; lra).
    assert (0 <= c / 2 * (rr x ^ 2 * z_psi (z x) ^ 2)) by (apply Rmult_le_pos; [unfold c; lra|apply Rmult_le_pos; apply pow2_ge_0]). lra. }
  assert (Inc : forall s t, a <= s -> s <= t -> t <= a + 1 -> F s <= F t).
  { intros s t' A B C. apply (derive_nonneg_incr F dF s t' B); intros y Hy; [apply DF; lra|apply DFp; lra]. }
  assert (Fa : F a = work p (z a)) by (unfold F, rr; ring).
  assert (Fb : F (a + 1) = work p (z (a + 1))) by (unfold F, rr; ring).
  destruct (MVT_gen F (a + 1 / 4) (a + 3 / 4) dF) as (y & Hy & E).
  { intros x Hx. rewrite Rmin_left, Rmax_right in Hx by lra. apply DF; lra. }
  { intros x Hx. rewrite Rmin_left, Rmax_right in Hx by lra. apply derivable_continuous_pt. exists (dF x). apply is_derive_Reals. apply DF; lra. }
  rewrite Rmin_left, Rmax_right in Hy by lra.
  replace (a + 3 / 4 - (a + 1 / 4)) with (1 / 2) in E by field.
  set (W := work p (z (a + 1)) - work p (z a)).
  assert (DW : dF y <= 2 * W).
  { pose proof (Inc a (a + 1 / 4) ltac:(lra) ltac:(lra) ltac:(lra)). pose proof (Inc (a + 3 / 4) (a + 1) ltac:(lra) ltac:(lra) ltac:(lra)).
    unfold W. rewrite <- Fa, <- Fb. lra. }
  assert (Ny : nsq (z y) <= t * (2 * (640 / v)) * W).
  { pose proof (Low y ltac:(lra)) as Lo.
    assert (R0 : 3 / 16 <= rr y).
    { unfold rr. pose proof (Rmult_le_pos (y - (a + 1 / 4)) (a + 3 / 4 - y) ltac:(lra) ltac:(lra)). nra. }
    assert (R2 : 1 / 32 <= rr y ^ 2) by (simpl; nra).
    pose proof (pow2_ge_0 (z_psi (z y))) as P0. pose proof (parts_nonneg (z y)) as P1.
    assert (1 / 32 * z_psi (z y) ^ 2 <= rr y ^ 2 * z_psi (z y) ^ 2) by (apply Rmult_le_compat_r; lra).
    assert (c / 2 * (1 / 32 * z_psi (z y) ^ 2) <= c / 2 * (rr y ^ 2 * z_psi (z y) ^ 2)) by (apply Rmult_le_compat_l; [unfold c; lra|lra]).
    assert (c / 2 * (1 / 32 * z_psi (z y) ^ 2) = v / 640 * z_psi (z y) ^ 2) by (unfold c; field).
    assert (v / 640 * parts (z y) <= v / 2 * parts (z y)) by (apply Rmult_le_compat_r; lra).
    assert (Q : v / 640 * (parts (z y) + z_psi (z y) ^ 2) <= 2 * W) by lra.
    eapply Rle_trans; [apply Np|].
    replace (t * (2 * (640 / v)) * W) with (t * ((640 / v) * (2 * W))) by ring. apply Rmult_le_compat_l; [lra|].
    apply (Rmult_le_compat_l (640 / v)) in Q; [|lra]. replace (640 / v * (v / 640 * (parts (z y) + z_psi (z y) ^ 2))) with (parts (z y) + z_psi (z y) ^ 2) in Q by (field; lra). exact Q. }
  assert (N2 : n2 p (z y) <= L4 * (t * (2 * (640 / v))) * W).
  { pose proof (B4 (z y)) as B. pose proof (Rle_abs (n2 p (z y))). rewrite Rmult_assoc.
    eapply Rle_trans; [|apply Rmult_le_compat_l; [lra|exact Ny]]. lra. }
  intros x Hx. rewrite (Rmult_assoc (exp Lg)).
  assert (Z2 : force2 0 0 0 = 0) by (unfold force2; ring).
  assert (G : n2 p (z x) <= exp Lg * n2 p (z y)).
  { pose proof (n2_nonneg p (z y)) as M0.
    assert (Ex : forall q, q <= 1 -> exp (Lg * q) * n2 p (z y) <= exp Lg * n2 p (z y)).
    { intros q Hq. apply Rmult_le_compat_r; [exact M0|]. assert (Lg * q <= Lg) by (rewrite <- (Rmult_1_r Lg) at 2; apply Rmult_le_compat_l; lra).
      destruct (Req_EM_T (Lg * q) Lg) as [->|N]; [lra|]. left. apply exp_increasing. lra. }
    destruct (Rle_or_lt x y) as [Hxy|Hxy].
    - destruct (Gr true 0 0 0 z x y Hxy) as [_ G2]; [intros s Hs'; apply HF; lra|]. rewrite Z2, !Rplus_0_r in G2.
      pose proof (Ex (y - x) ltac:(lra)). lra.
    - destruct (Gr true 0 0 0 z y x (Rlt_le _ _ Hxy)) as [G1 _]; [intros s Hs'; apply HF; lra|]. rewrite Z2, !Rplus_0_r in G1.
      pose proof (Ex (x - y) ltac:(lra)). lra. }
  eapply Rle_trans; [exact G|]. apply Rmult_le_compat_l; [left; apply exp_pos|exact N2].
Qed.
End Constants.
