(** Weighted energy of a chain of supported segments (C111, C112). *)
From Coquelicot Require Import Coquelicot.
Require Import Verif.Py Verif.MTools Verif.MEigen Verif.MFields Verif.SAdm Verif.MRaster
  Verif.MSolution Verif.SBeam Verif.SBvp Verif.SEig Verif.SMirror Verif.SSkier Verif.PBeam Verif.PBeam2 Verif.PBvp Verif.PBvp2 Verif.PBalance
  Verif.PWell Verif.PWell2 Verif.PWell3 Verif.PBvp6 Verif.PMirror Verif.PSkier Verif.PDecay.

Section Weighted.
Variable p : params.
Variables c mu K L : R.
Hypothesis Hmu : 0 < mu.
Hypothesis HK : 0 < K.
Hypothesis HL : 0 < L.
Hypothesis Hco : forall z, mu * nsq z <= Qd p c z.
Hypothesis HQ : forall z, Rabs (Qc p c z) <= K * nsq z.
Hypothesis Hd2d : forall z, Rabs (d2d z) <= L * nsq z.
Hypothesis Hd2 : forall z, Rabs (d2 z) <= L * nsq z.
Hypothesis Hn2d : forall z, Rabs (n2d p z) <= L * nsq z.
Hypothesis Hn2 : forall z, Rabs (n2 p z) <= L * nsq z.
Definition rate : R := mu / (4 * K).
Lemma rate_pos : 0 < rate.
Proof. apply Rdiv_lt_0_compat; lra. Qed.
Variables wg dwg : R -> R.
Hypothesis Wd : forall s, is_derive wg s (dwg s).
Hypothesis Wp : forall s, 0 < wg s.
Hypothesis Wb : forall s, Rabs (dwg s) <= 2 * rate * wg s.

Section Segment.
Variable P l : R.
Variable z : R -> vec6.
Hypothesis HB : forall x, 0 <= x <= l -> balance p no_loads true 0 z x.
Definition energy (s : R) : R := wg (P + s) * Qc p c (z s).
Definition denergy (s : R) : R := dwg (P + s) * Qc p c (z s) + wg (P + s) * Qd p c (z s).

Lemma shift_derive s : is_derive (fun t => wg (P + t)) s (dwg (P + s)).
Proof.
  eapply is_derive_eq; [apply (is_derive_comp wg (fun t => P + t) s (dwg (P + s)) 1); [apply Wd|]|].
  - eapply is_derive_eq; [apply (is_derive_plusR (fun _ => P) (fun t => t) s 0 1); [apply (is_derive_const (K := R_AbsRing) (V := R_NormedModule))|apply (is_derive_id (K := R_AbsRing))]|ring].
  - unfold scal; simpl. unfold mult; simpl. ring.
Qed.
Lemma wmul_derive (f : R -> R) s d : is_derive f s d ->
  is_derive (fun t => wg (P + t) * f t) s (dwg (P + s) * f s + wg (P + s) * d).
Proof.
  intros H. eapply is_derive_eq; [exact (is_derive_mult _ _ s _ _ (shift_derive s) H Rmult_comm)|].
  unfold plus, mult; simpl. ring.
Qed.
Lemma energy_derive x : 0 <= x <= l -> is_derive energy x (denergy x).
Proof. intros Hx. exact (wmul_derive _ _ _ (Q_derive p c z x (HB x Hx))). Qed.
Lemma denergy_lower x : mu / 2 * (wg (P + x) * nsq (z x)) <= denergy x.
Proof.
  unfold denergy. pose proof (Wp (P + x)) as W0. pose proof (nsq_nonneg (z x)) as N0.
  assert (A : wg (P + x) * (mu * nsq (z x)) <= wg (P + x) * Qd p c (z x)) by (apply Rmult_le_compat_l; [lra|apply Hco]).
  assert (B : Rabs (dwg (P + x) * Qc p c (z x)) <= (2 * rate * wg (P + x)) * (K * nsq (z x))).
  { rewrite Rabs_mult. apply Rmult_le_compat; try apply Rabs_pos; [apply Wb|apply HQ]. }
  apply Rabs_le_between in B. destruct B as [B _].
  replace (2 * rate * wg (P + x) * (K * nsq (z x))) with (mu / 2 * (wg (P + x) * nsq (z x))) in B by (unfold rate; field; lra). lra.
Qed.
Lemma denergy_nonneg x : 0 <= denergy x.
Proof.
  eapply Rle_trans; [|apply denergy_lower]. apply Rmult_le_pos; [lra|].
  apply Rmult_le_pos; [left; apply Wp|apply nsq_nonneg].
Qed.
Lemma energy_incr x y : 0 <= x -> x <= y -> y <= l -> energy x <= energy y.
Proof.
  intros A B C. apply (derive_nonneg_incr energy denergy x y B); intros s Hs; [apply energy_derive; lra|apply denergy_nonneg].
Qed.

(** Weighted quadratic quantities change no more than the energy ... *)
Definition Cq : R := 2 * (2 * rate + 1) * L / mu.
Lemma Cq_pos : 0 < Cq.
Proof. unfold Cq. apply Rdiv_lt_0_compat; [|exact Hmu]. pose proof rate_pos. apply Rmult_lt_0_compat; lra. Qed.
Section Quadratic.
Variables q qd : vec6 -> R.
Hypothesis Hq : forall v, Rabs (q v) <= L * nsq v.
Hypothesis Hqd : forall v, Rabs (qd v) <= L * nsq v.
Hypothesis Hder : forall x, 0 <= x <= l -> is_derive (fun s => q (z s)) x (qd (z x)).
Lemma wq_rate x : Rabs (dwg (P + x) * q (z x) + wg (P + x) * qd (z x)) <= (2 * rate + 1) * L * (wg (P + x) * nsq (z x)).
Proof.
  eapply Rle_trans; [apply Rabs_triang|]. rewrite !Rabs_mult. pose proof (Wp (P + x)) as W0. rewrite (Rabs_pos_eq (wg (P + x))) by lra.
  assert (A : Rabs (dwg (P + x)) * Rabs (q (z x)) <= (2 * rate * wg (P + x)) * (L * nsq (z x))).
  { apply Rmult_le_compat; try apply Rabs_pos; [apply Wb|apply Hq]. }
  assert (B : wg (P + x) * Rabs (qd (z x)) <= wg (P + x) * (L * nsq (z x))) by (apply Rmult_le_compat_l; [lra|apply Hqd]). lra.
Qed.
Lemma wq_change x y : 0 <= x -> x <= y -> y <= l ->
  wg (P + y) * q (z y) - wg (P + x) * q (z x) <= Cq * (energy y - energy x).
Proof.
  intros A B C.
  assert (I : Cq * energy x - wg (P + x) * q (z x) <= Cq * energy y - wg (P + y) * q (z y)); [|lra].
  apply (derive_nonneg_incr (fun s => Cq * energy s - wg (P + s) * q (z s))
    (fun s => Cq * denergy s - (dwg (P + s) * q (z s) + wg (P + s) * qd (z s))) x y B); intros s Hs.
  - assert (Hs' : 0 <= s <= l) by lra.
    pose proof (is_derive_scal _ s Cq _ (energy_derive s Hs')) as D1.
    pose proof (is_derive_scal _ s (-1) _ (wmul_derive _ _ _ (Hder s Hs'))) as D2.
    eapply is_derive_eq; [eapply is_derive_extR; [|exact (is_derive_plusR _ _ _ _ _ D1 D2)]|].
    + intros t. simpl. ring.
    + cbv beta. ring.
  - pose proof (wq_rate s) as W. apply Rabs_le_between in W. pose proof (denergy_lower s) as D.
    assert (E : (2 * rate + 1) * L * (wg (P + s) * nsq (z s)) = Cq * (mu / 2 * (wg (P + s) * nsq (z s)))) by (unfold Cq; field; lra).
    pose proof Cq_pos. assert (Cq * (mu / 2 * (wg (P + s) * nsq (z s))) <= Cq * denergy s) by (apply Rmult_le_compat_l; lra). lra.
Qed.
(** ... and are bounded by its change over a window of length one half. *)
Lemma wq_window a b x : 0 <= a -> b <= l -> b = a + 1 / 2 -> x = a \/ x = b ->
  wg (P + x) * q (z x) <= 2 * (2 * L / mu + Cq) * (energy b - energy a).
Proof.
  intros Ha Hb Eb Hx. pose proof Cq_pos as C0. pose proof rate_pos as R0.
  set (C := 2 * L / mu + Cq). assert (HC : 0 < 2 * L / mu) by (apply Rdiv_lt_0_compat; lra).
  assert (Low : forall s t, 0 <= t <= 1 / 2 -> 0 <= C * denergy s - wg (P + s) * q (z s) - t * Rabs (dwg (P + s) * q (z s) + wg (P + s) * qd (z s))).
  { intros s t Ht. pose proof (wq_rate s) as W. pose proof (denergy_lower s) as D.
    assert (N0 : 0 <= wg (P + s) * nsq (z s)) by (apply Rmult_le_pos; [left; apply Wp|apply nsq_nonneg]).
    assert (C * (mu / 2 * (wg (P + s) * nsq (z s))) <= C * denergy s) by (apply Rmult_le_compat_l; [unfold C; lra|exact D]).
    assert (E : C * (mu / 2 * (wg (P + s) * nsq (z s))) = L * (wg (P + s) * nsq (z s)) + (2 * rate + 1) * L * (wg (P + s) * nsq (z s)))
      by (unfold C, Cq; field; lra).
    assert (A : wg (P + s) * q (z s) <= L * (wg (P + s) * nsq (z s))).
    { replace (L * (wg (P + s) * nsq (z s))) with (wg (P + s) * (L * nsq (z s))) by ring. apply Rmult_le_compat_l; [left; apply Wp|].
      pose proof (Hq (z s)) as H'. apply Rabs_le_between in H'. lra. }
    assert (B : t * Rabs (dwg (P + s) * q (z s) + wg (P + s) * qd (z s)) <= 1 * ((2 * rate + 1) * L * (wg (P + s) * nsq (z s)))).
    { apply Rmult_le_compat; [lra|apply Rabs_pos|lra|exact W]. }
    lra. }
  assert (Dq : forall s, 0 <= s <= l -> is_derive (fun t => wg (P + t) * q (z t)) s (dwg (P + s) * q (z s) + wg (P + s) * qd (z s))).
  { intros s Hs. exact (wmul_derive _ _ _ (Hder s Hs)). }
  assert (Lin : forall s t0 e, is_derive (fun t => e * (t - t0)) s e).
  { intros s t0 e. eapply is_derive_eq; [apply (is_derive_scal (fun t => t - t0) s e 1)|ring].
    eapply is_derive_eq; [eapply is_derive_extR; [|apply (is_derive_plusR (fun t => t) (fun _ => - t0) s 1 0);
      [apply (is_derive_id (K := R_AbsRing))|apply (is_derive_const (K := R_AbsRing) (V := R_NormedModule))]]|ring].
    intros t. simpl. ring. }
  destruct Hx as [->| ->].
  - assert (I : C * energy a - (1 * (a - b)) * (wg (P + a) * q (z a)) <= C * energy b - (1 * (b - b)) * (wg (P + b) * q (z b))).
    { apply (derive_nonneg_incr (fun s => C * energy s - (1 * (s - b)) * (wg (P + s) * q (z s)))
        (fun s => C * denergy s - (1 * (wg (P + s) * q (z s)) + (1 * (s - b)) * (dwg (P + s) * q (z s) + wg (P + s) * qd (z s)))) a b); [lra| |]; intros s Hs.
      - assert (Hs' : 0 <= s <= l) by lra.
        pose proof (is_derive_scal _ s C _ (energy_derive s Hs')) as D1.
        pose proof (is_derive_scal _ s (-1) _ (is_derive_mult _ _ s _ _ (Lin s b 1) (Dq s Hs') Rmult_comm)) as D2.
        eapply is_derive_eq; [eapply is_derive_extR; [|exact (is_derive_plusR _ _ _ _ _ D1 D2)]|].
        + intros t. simpl. unfold mult; simpl. ring.
        + unfold plus, mult; simpl. ring.
      - pose proof (Low s (b - s) ltac:(lra)) as Lw. set (r := dwg (P + s) * q (z s) + wg (P + s) * qd (z s)) in *.
        assert (1 * (s - b) * r <= (b - s) * Rabs r).
        { replace (1 * (s - b) * r) with ((b - s) * - r) by ring. apply Rmult_le_compat_l; [lra|]. rewrite <- Rabs_Ropp. apply Rle_abs. }
        lra. }
    rewrite Eb in I at 1. replace (1 * (a - (a + 1 / 2))) with (- (1 / 2)) in I by field.
    replace (1 * (b - b)) with 0 in I by ring. fold C. lra.
  - assert (I : C * energy a - (1 * (a - a)) * (wg (P + a) * q (z a)) <= C * energy b - (1 * (b - a)) * (wg (P + b) * q (z b))).
    { apply (derive_nonneg_incr (fun s => C * energy s - (1 * (s - a)) * (wg (P + s) * q (z s)))
        (fun s => C * denergy s - (1 * (wg (P + s) * q (z s)) + (1 * (s - a)) * (dwg (P + s) * q (z s) + wg (P + s) * qd (z s)))) a b); [lra| |]; intros s Hs.
      - assert (Hs' : 0 <= s <= l) by lra.
        pose proof (is_derive_scal _ s C _ (energy_derive s Hs')) as D1.
        pose proof (is_derive_scal _ s (-1) _ (is_derive_mult _ _ s _ _ (Lin s a 1) (Dq s Hs') Rmult_comm)) as D2.
        eapply is_derive_eq; [eapply is_derive_extR; [|exact (is_derive_plusR _ _ _ _ _ D1 D2)]|].
        + intros t. simpl. unfold mult; simpl. ring.
        + unfold plus, mult; simpl. ring.
      - pose proof (Low s (s - a) ltac:(lra)) as Lw. set (r := dwg (P + s) * q (z s) + wg (P + s) * qd (z s)) in *.
        assert (1 * (s - a) * r <= (s - a) * Rabs r).
        { replace (1 * (s - a) * r) with ((s - a) * r) by ring. apply Rmult_le_compat_l; [lra|]. apply Rle_abs. }
        lra. }
    assert (E : 1 * (b - a) = 1 / 2) by lra. rewrite E in I. replace (1 * (a - a)) with 0 in I by ring. fold C. lra.
Qed.
Definition Cn : R := 2 * (2 * L / mu + Cq).
Lemma wq_inside x : 1 <= l -> 0 <= x <= l -> wg (P + x) * q (z x) <= Cn * (energy l - energy 0).
Proof.
  intros H1 Hx. assert (C0 : 0 < Cn).
  { unfold Cn. pose proof Cq_pos. assert (0 < 2 * L / mu) by (apply Rdiv_lt_0_compat; lra). lra. }
  assert (G : exists a b, 0 <= a /\ b <= l /\ b = a + 1 / 2 /\ (x = a \/ x = b)).
  { destruct (Rle_dec (1 / 2) x) as [A|A].
    - exists (x - 1 / 2), x. (split; [lra|split; [lra|split; [lra|right; reflexivity]]]).
    - exists x, (x + 1 / 2). (split; [lra|split; [lra|split; [lra|left; reflexivity]]]). }
  destruct G as (a & b & Ha & Hb & E & X). eapply Rle_trans; [exact (wq_window a b x Ha Hb E X)|]. fold Cn.
  apply Rmult_le_compat_l; [lra|]. pose proof (energy_incr 0 a ltac:(lra) Ha ltac:(lra)). pose proof (energy_incr b l ltac:(lra) Hb ltac:(lra)). lra.
Qed.
End Quadratic.
End Segment.

Section Chain.
Variable n : nat.
Variable l : nat -> R.
Variables Ft Fn : nat -> R.
Variable z : nat -> R -> vec6.
Hypothesis Hpos : forall i, (i <= n)%nat -> 0 <= l i.
Hypothesis HB : forall i x, (i <= n)%nat -> 0 <= x <= l i -> balance p no_loads true 0 (z i) x.
Hypothesis HT : forall i, (i < n)%nat -> jump6 p (Ft i) (Fn i) (z i (l i)) (z (S i) 0).
Definition pos (i : nat) : R := sumn i l.
Definition En (i : nat) (s : R) : R := energy (pos i) (z i) s.
Definition inc (i : nat) : R := En i (l i) - En i 0.
Definition total_inc : R := sumn (S n) inc.

Lemma inc_nonneg i : (i <= n)%nat -> 0 <= inc i.
Proof.
  intros Hi. pose proof (energy_incr (pos i) (l i) (z i) (fun x Hx => HB i x Hi Hx) 0 (l i) ltac:(lra) (Hpos i Hi) ltac:(lra)).
  unfold inc, En. lra.
Qed.
Lemma sum_inc_le i : (i <= S n)%nat -> sumn i inc <= total_inc.
Proof.
  intros Hi. unfold total_inc. assert (G : forall d, (i + d <= S n)%nat -> sumn i inc <= sumn (i + d) inc).
  { induction d as [|d IH]; intros H; [rewrite Nat.add_0_r; lra|]. rewrite Nat.add_succ_r. simpl.
    pose proof (inc_nonneg (i + d) ltac:(lia)). pose proof (IH ltac:(lia)). lra. }
  replace (S n) with (i + (S n - i))%nat by lia. apply G. lia.
Qed.
Lemma sum_inc_nonneg i : (i <= S n)%nat -> 0 <= sumn i inc.
Proof. induction i as [|i IH]; intros H; simpl; [lra|]. pose proof (inc_nonneg i ltac:(lia)). pose proof (IH ltac:(lia)). lra. Qed.
Lemma inc_le i : (i <= n)%nat -> inc i <= total_inc.
Proof.
  intros Hi. pose proof (sum_inc_le (S i) ltac:(lia)) as H. simpl in H. pose proof (sum_inc_nonneg i ltac:(lia)). lra.
Qed.
Lemma En_jump i : (i < n)%nat -> En i (l i) - En (S i) 0 = wg (pos (S i)) * power p (Ft i) (Fn i) (z i (l i)).
Proof.
  intros Hi. unfold En, energy. replace (pos i + l i) with (pos (S i)) by reflexivity. rewrite Rplus_0_r.
  rewrite <- (jump_work _ _ _ _ _ (HT i Hi)). destruct (HT i Hi) as (_ & H2 & H3 & _). unfold Qc. rewrite <- H2, <- H3. ring.
Qed.
Lemma total_value : total_inc = En n (l n) - En 0 0 + sumn n (fun i => wg (pos (S i)) * power p (Ft i) (Fn i) (z i (l i))).
Proof. apply (telescope (fun i => En i 0) (fun i => En i (l i))). exact En_jump. Qed.

(** Displacements anywhere, all quantities inside segments that are not too short. *)
Lemma disp_start i : (i <= n)%nat -> wg (pos i) * d2 (z i 0) <= wg 0 * d2 (z 0%nat 0) + Cq * sumn i inc.
Proof.
  induction i as [|i IH]; intros Hi; [unfold pos; simpl; lra|].
  pose proof (IH ltac:(lia)) as A.
  pose proof (wq_change (pos i) (l i) (z i) (fun x Hx => HB i x ltac:(lia) Hx) d2 d2d Hd2 Hd2d
    (fun x Hx => d2_derive _ _ _ _ (HB i x ltac:(lia) Hx)) 0 (l i) ltac:(lra) (Hpos i ltac:(lia)) ltac:(lra)) as B.
  rewrite Rplus_0_r in B. destruct (HT i ltac:(lia)) as (H1 & H2 & H3 & _).
  replace (d2 (z (S i) 0)) with (d2 (z i (l i))) by (unfold d2; rewrite H1, H2, H3; reflexivity).
  replace (pos (S i)) with (pos i + l i) by reflexivity. cbn [sumn]. unfold inc at 2, En. lra.
Qed.
Lemma disp_bound i x : (i <= n)%nat -> 0 <= x <= l i -> wg (pos i + x) * d2 (z i x) <= wg 0 * d2 (z 0%nat 0) + Cq * total_inc.
Proof.
  intros Hi Hx. pose proof (disp_start i Hi) as A. pose proof Cq_pos as C0.
  pose proof (wq_change (pos i) (l i) (z i) (fun x Hx => HB i x ltac:(lia) Hx) d2 d2d Hd2 Hd2d
    (fun x Hx => d2_derive _ _ _ _ (HB i x ltac:(lia) Hx)) 0 x ltac:(lra) ltac:(lra) ltac:(lra)) as B.
  rewrite Rplus_0_r in B.
  pose proof (energy_incr (pos i) (l i) (z i) (fun x Hx => HB i x ltac:(lia) Hx) x (l i) ltac:(lra) ltac:(lra) ltac:(lra)) as D.
  pose proof (sum_inc_le (S i) ltac:(lia)) as E. cbn [sumn] in E. unfold inc at 2, En in E.
  assert (Cq * (sumn i inc + (energy (pos i) (z i) x - energy (pos i) (z i) 0)) <= Cq * total_inc) by (apply Rmult_le_compat_l; lra). lra.
Qed.
Lemma full_bound i x : (i <= n)%nat -> 1 <= l i -> 0 <= x <= l i -> wg (pos i + x) * n2 p (z i x) <= Cn * total_inc.
Proof.
  intros Hi H1 Hx. eapply Rle_trans; [exact (wq_inside (pos i) (l i) (z i) (fun x Hx => HB i x Hi Hx) (n2 p) (n2d p) Hn2 Hn2d
    (fun x Hx => n2_derive _ _ _ (HB i x Hi Hx)) x H1 Hx)|].
  apply Rmult_le_compat_l; [|exact (inc_le i Hi)].
  unfold Cn. pose proof Cq_pos. assert (0 < 2 * L / mu) by (apply Rdiv_lt_0_compat; lra). lra.
Qed.

(** With ends at rest the loads bound the energy. *)
Definition Pc : R := 1 + Rabs (hh p) / 2.
Lemma power_bound a b v : Rabs (power p a b v) <= Pc * (Rabs a + Rabs b) * sqrt (d2 v).
Proof.
  assert (G : forall x, x ^ 2 <= d2 v -> Rabs x <= sqrt (d2 v)).
  { intros x H. rewrite <- sqrt_Rsqr_abs. apply sqrt_le_1_alt. unfold Rsqr. simpl in H. lra. }
  assert (U : Rabs (z_u v) <= sqrt (d2 v)) by (apply G; unfold d2; pose proof (pow2_ge_0 (z_w v)); pose proof (pow2_ge_0 (z_psi v)); lra).
  assert (W : Rabs (z_w v) <= sqrt (d2 v)) by (apply G; unfold d2; pose proof (pow2_ge_0 (z_u v)); pose proof (pow2_ge_0 (z_psi v)); lra).
  assert (S0 : Rabs (z_psi v) <= sqrt (d2 v)) by (apply G; unfold d2; pose proof (pow2_ge_0 (z_u v)); pose proof (pow2_ge_0 (z_w v)); lra).
  pose proof (sqrt_pos (d2 v)) as Q0. unfold power. eapply Rle_trans; [apply Rabs_triang|]. rewrite !Rabs_mult.
  assert (A : Rabs (z_u v - hh p / 2 * z_psi v) <= Pc * sqrt (d2 v)).
  { unfold Rminus. eapply Rle_trans; [apply Rabs_triang|]. rewrite Rabs_Ropp, Rabs_mult. unfold Rdiv. rewrite Rabs_mult, (Rabs_pos_eq (/ 2)) by lra.
    assert (Rabs (hh p) * / 2 * Rabs (z_psi v) <= Rabs (hh p) * / 2 * sqrt (d2 v)) by (apply Rmult_le_compat_l; [pose proof (Rabs_pos (hh p)); lra|exact S0]).
    unfold Pc. lra. }
  assert (B : Rabs a * Rabs (z_u v - hh p / 2 * z_psi v) <= Rabs a * (Pc * sqrt (d2 v))) by (apply Rmult_le_compat_l; [apply Rabs_pos|exact A]).
  assert (P1 : 1 <= Pc) by (unfold Pc; pose proof (Rabs_pos (hh p)); lra).
  assert (C' : Rabs b * Rabs (z_w v) <= Rabs b * (Pc * sqrt (d2 v))).
  { apply Rmult_le_compat_l; [apply Rabs_pos|]. eapply Rle_trans; [exact W|]. rewrite <- (Rmult_1_l (sqrt (d2 v))) at 1. apply Rmult_le_compat_r; assumption. }
  lra.
Qed.
Lemma root_bound T a : 0 <= T -> 0 <= a -> T <= a * sqrt T -> T <= a ^ 2.
Proof.
  intros H0 Ha H. destruct (Req_EM_T T 0) as [->|N]; [apply pow2_ge_0|].
  assert (Q : 0 < sqrt T) by (apply sqrt_lt_R0; lra).
  assert (E : sqrt T * sqrt T = T) by (apply sqrt_sqrt; exact H0).
  assert (sqrt T <= a). { apply Rmult_le_reg_r with (sqrt T); [exact Q|]. lra. }
  rewrite <- E. simpl. rewrite Rmult_1_r. apply Rmult_le_compat; lra.
Qed.
Definition load_size : R := sumn n (fun i => (Rabs (Ft i) + Rabs (Fn i)) * sqrt (wg (pos (S i)))).
Lemma sumn_le m f g : (forall i, (i < m)%nat -> f i <= g i) -> sumn m f <= sumn m g.
Proof.
  induction m as [|m IH]; intros H; simpl; [lra|]. pose proof (IH (fun i Hi => H i ltac:(lia))). pose proof (H m ltac:(lia)). lra.
Qed.
Lemma loads_bound : d2 (z 0%nat 0) = 0 -> d2 (z n (l n)) = 0 -> total_inc <= (Pc * sqrt Cq * load_size) ^ 2.
Proof.
  intros Z0 Zn.
  assert (Q0 : forall v, d2 v = 0 -> Qc p c v = 0).
  { intros v H. unfold d2 in H. pose proof (pow2_ge_0 (z_u v)). pose proof (pow2_ge_0 (z_w v)). pose proof (pow2_ge_0 (z_psi v)).
    assert (S2 : forall x, x ^ 2 = 0 -> x = 0) by (intros x E; destruct (Req_EM_T x 0) as [|N]; [assumption|exfalso; exact (pow_nonzero x 2 N E)]).
    assert (A : z_u v = 0) by (apply S2; lra). assert (B : z_w v = 0) by (apply S2; lra). assert (D : z_psi v = 0) by (apply S2; lra).
    unfold Qc, work. rewrite A, B, D. ring. }
  assert (T0 : 0 <= total_inc) by (apply (sum_inc_nonneg (S n)); lia).
  apply root_bound; [exact T0| |].
  - apply Rmult_le_pos; [apply Rmult_le_pos; [unfold Pc; pose proof (Rabs_pos (hh p)); lra|apply sqrt_pos]|].
    unfold load_size. apply Rle_trans with (sumn n (fun _ => 0)); [right; clear; induction n as [|m IH]; simpl; [reflexivity|rewrite <- IH; ring]|].
    apply sumn_le. intros i _. apply Rmult_le_pos; [pose proof (Rabs_pos (Ft i)); pose proof (Rabs_pos (Fn i)); lra|apply sqrt_pos].
  - rewrite total_value at 1. unfold En at 1 2, energy. rewrite (Q0 _ Z0), (Q0 _ Zn).
    replace (Pc * sqrt Cq * load_size * sqrt total_inc) with (sumn n (fun i => Pc * sqrt Cq * sqrt total_inc * ((Rabs (Ft i) + Rabs (Fn i)) * sqrt (wg (pos (S i)))))).
    2:{ rewrite sumn_scal. unfold load_size. ring. }
    rewrite !Rmult_0_r, Rminus_0_r, Rplus_0_l. apply sumn_le. intros i Hi.
    assert (W0 : 0 <= wg (pos (S i))) by (left; apply Wp).
    pose proof (power_bound (Ft i) (Fn i) (z i (l i))) as PB.
    pose proof (disp_bound i (l i) ltac:(lia) ltac:(pose proof (Hpos i ltac:(lia)); lra)) as D. rewrite Z0, Rmult_0_r, Rplus_0_l in D.
    replace (pos i + l i) with (pos (S i)) in D by reflexivity.
    assert (D' : sqrt (wg (pos (S i))) * sqrt (d2 (z i (l i))) <= sqrt Cq * sqrt total_inc).
    { rewrite <- !sqrt_mult; [|left; apply Cq_pos|exact T0|exact W0|apply d2_nonneg]. apply sqrt_le_1_alt. exact D. }
    set (F := Rabs (Ft i) + Rabs (Fn i)) in *.
    assert (F0 : 0 <= F) by (unfold F; pose proof (Rabs_pos (Ft i)); pose proof (Rabs_pos (Fn i)); lra).
    assert (P0 : 0 <= Pc) by (unfold Pc; pose proof (Rabs_pos (hh p)); lra).
    apply Rle_trans with (wg (pos (S i)) * (Pc * F * sqrt (d2 (z i (l i))))).
    { apply Rmult_le_compat_l; [exact W0|]. eapply Rle_trans; [apply Rle_abs|exact PB]. }
    replace (wg (pos (S i)) * (Pc * F * sqrt (d2 (z i (l i))))) with (Pc * F * sqrt (wg (pos (S i))) * (sqrt (wg (pos (S i))) * sqrt (d2 (z i (l i))))).
    2:{ rewrite <- (sqrt_sqrt (wg (pos (S i))) W0) at 3. ring. }
    replace (Pc * sqrt Cq * sqrt total_inc * (F * sqrt (wg (pos (S i))))) with (Pc * F * sqrt (wg (pos (S i))) * (sqrt Cq * sqrt total_inc)) by ring.
    apply Rmult_le_compat_l; [|exact D']. apply Rmult_le_pos; [apply Rmult_le_pos; assumption|apply sqrt_pos].
Qed.
End Chain.
End Weighted.
