(** States of a chain of segments with cracks inside (C115, C116). *)
From Coquelicot Require Import Coquelicot.
Require Import Verif.Py Verif.MTools Verif.MEigen Verif.MFields Verif.SAdm Verif.MRaster
  Verif.MSolution Verif.SBeam Verif.SBvp Verif.SEig Verif.SMirror Verif.SSkier Verif.SDecay Verif.PBeam Verif.PBeam2 Verif.PBvp Verif.PBvp2 Verif.PBalance
  Verif.PWell Verif.PWell2 Verif.PWell3 Verif.PBvp6 Verif.PMirror Verif.PSkier Verif.PDecay Verif.PDecay2 Verif.PDecay3 Verif.PDecay5.

Definition fchain (p : params) (n : nat) (l : nat -> R) (k : nat -> bool) (gN gM gV : R) (Ft Fn : nat -> R) (z : nat -> R -> vec6) : Prop :=
  (forall i, (i <= n)%nat -> 0 <= l i) /\
  (forall i x, (i <= n)%nat -> 0 <= x <= l i -> forced p (k i) gN gM gV (z i) x) /\
  (forall i, (i < n)%nat -> jump6 p (Ft i) (Fn i) (z i (l i)) (z (S i) 0)).

Section Chain.
Variable p : params.
Hypothesis Hl : lam_ok p.
Hypothesis Hf : fnd_ok p.
Hypothesis Hs : stable p.
Variable Lg : R.
Hypothesis HLg : 0 < Lg.
Hypothesis Grow : forall k gN gM gV z a b, a <= b -> (forall x, a <= x <= b -> forced p k gN gM gV z x) ->
  n2 p (z b) + force2 gN gM gV <= exp (Lg * (b - a)) * (n2 p (z a) + force2 gN gM gV) /\
  n2 p (z a) + force2 gN gM gV <= exp (Lg * (b - a)) * (n2 p (z b) + force2 gN gM gV).
Variable Cw : R.
Hypothesis HCw : 0 < Cw.
Hypothesis Window : forall gN gM gV z a, (forall x, a <= x <= a + 1 -> forced p true gN gM gV z x) ->
  forall x, a <= x <= a + 1 -> n2 p (z x) <= Cw * (work p (z (a + 1)) - work p (z a)).

(** A supported segment: its work grows and controls the states. *)
Lemma supported_work gN gM gV z a b : a <= b -> (forall x, a <= x <= b -> forced p true gN gM gV z x) -> work p (z a) <= work p (z b).
Proof.
  intros Hab HF. apply (derive_nonneg_incr (fun s => work p (z s)) (fun x => density p true (z x)) a b Hab).
  - intros x Hx. eapply is_derive_eq; [exact (work_forced _ _ _ _ _ _ _ (HF x Hx))|]. unfold on. ring.
  - intros x _. apply density_nonneg; assumption.
Qed.
Lemma supported_states gN gM gV z l x : 1 <= l -> (forall x, 0 <= x <= l -> forced p true gN gM gV z x) -> 0 <= x <= l ->
  n2 p (z x) <= Cw * (work p (z l) - work p (z 0)).
Proof.
  intros H1 HF Hx. set (a := Rmin x (l - 1)).
  assert (Ha : 0 <= a /\ a + 1 <= l /\ a <= x <= a + 1).
  { unfold a, Rmin. destruct Rle_dec; lra. }
  destruct Ha as (Ha & Hb & Hc).
  eapply Rle_trans; [apply (Window gN gM gV z a); [intros s Hs'; apply HF; lra|exact Hc]|]. apply Rmult_le_compat_l; [lra|].
  pose proof (supported_work gN gM gV z 0 a ltac:(lra) (fun s Hs' => HF s ltac:(lra))).
  pose proof (supported_work gN gM gV z (a + 1) l ltac:(lra) (fun s Hs' => HF s ltac:(lra))). lra.
Qed.
Lemma work_bound v : Rabs (work p v) <= sqrt (n2 p v) * sqrt (d2 v).
Proof.
  rewrite <- sqrt_mult by (apply n2_nonneg || apply d2_nonneg). rewrite <- sqrt_Rsqr_abs. apply sqrt_le_1_alt.
  unfold work, n2, Rsqr. pose proof (d2_nonneg v) as D0.
  set (N := sN p v). set (M := sM p v). set (V := sV p v).
  assert (C : (N * z_u v + M * z_psi v + V * z_w v) ^ 2 <= (N ^ 2 + M ^ 2 + V ^ 2) * d2 v).
  { unfold d2. pose proof (pow2_ge_0 (N * z_psi v - M * z_u v)). pose proof (pow2_ge_0 (N * z_w v - V * z_u v)).
    pose proof (pow2_ge_0 (M * z_w v - V * z_psi v)). nra. }
  pose proof (Rmult_le_pos _ _ D0 D0). lra.
Qed.

Section Fixed.
Variable n : nat.
Variable l : nat -> R.
Variable k : nat -> bool.
Variables gN gM gV : R.
Variables Ft Fn : nat -> R.
Variable z : nat -> R -> vec6.
Hypothesis HC : fchain p n l k gN gM gV Ft Fn z.
Let Hpos := proj1 HC.
Let HF := proj1 (proj2 HC).
Let HT := proj2 (proj2 HC).
Let G2 := force2 gN gM gV.
Let G := sqrt G2.
Let Y (v : vec6) := sqrt (n2 p v + G2).
Let P := Pc p.
Let f (i : nat) := Rabs (Ft i) + Rabs (Fn i).
Lemma f_nonneg i : 0 <= f i.
Proof. unfold f. pose proof (Rabs_pos (Ft i)). pose proof (Rabs_pos (Fn i)). lra. Qed.
Lemma P_ge : 1 <= P.
Proof. unfold P, Pc. pose proof (Rabs_pos (hh p)). lra. Qed.
Lemma G2_nonneg : 0 <= G2. Proof. apply force2_nonneg. Qed.
Lemma Y_nonneg v : 0 <= Y v. Proof. apply sqrt_pos. Qed.
Lemma Y_sq v : Y v ^ 2 = n2 p v + G2.
Proof. unfold Y. rewrite <- Rsqr_pow2. apply Rsqr_sqrt. pose proof (n2_nonneg p v). pose proof G2_nonneg. lra. Qed.
Lemma Y_ge a v : a ^ 2 <= n2 p v + G2 -> Rabs a <= Y v.
Proof. intros H. rewrite <- sqrt_Rsqr_abs. apply sqrt_le_1_alt. unfold Rsqr. simpl in H. lra. Qed.
Lemma Y_disp v : sqrt (d2 v) <= Y v.
Proof.
  apply sqrt_le_1_alt. unfold n2. pose proof G2_nonneg. pose proof (pow2_ge_0 (sN p v)). pose proof (pow2_ge_0 (sM p v)). pose proof (pow2_ge_0 (sV p v)). lra.
Qed.
Lemma Y_up v : Y v <= sqrt (n2 p v) + G.
Proof.
  apply le_of_sq; [pose proof (sqrt_pos (n2 p v)); pose proof (sqrt_pos G2); unfold G; lra|]. rewrite Y_sq.
  assert (A : sqrt (n2 p v) ^ 2 = n2 p v) by (rewrite <- Rsqr_pow2; apply Rsqr_sqrt, n2_nonneg).
  assert (B : G ^ 2 = G2) by (rewrite <- Rsqr_pow2; apply Rsqr_sqrt, G2_nonneg).
  assert (0 <= sqrt (n2 p v) * G) by (apply Rmult_le_pos; apply sqrt_pos). nra.
Qed.
Lemma Y_grow i a b : (i <= n)%nat -> 0 <= a -> a <= b -> b <= l i -> Y (z i b) <= exp (Lg / 2 * (b - a)) * Y (z i a).
Proof.
  intros Hi Ha Hab Hb. destruct (Grow (k i) gN gM gV (z i) a b Hab) as [A _]; [intros x Hx; apply HF; [exact Hi|lra]|].
  apply le_of_sq; [apply Rmult_le_pos; [left; apply exp_pos|apply Y_nonneg]|]. rewrite Rpow_mult_distr, !Y_sq.
  replace (exp (Lg / 2 * (b - a)) ^ 2) with (exp (Lg * (b - a))); [exact A|].
  rewrite <- Rsqr_pow2. unfold Rsqr. rewrite <- exp_plus. f_equal. field.
Qed.
Lemma Y_jump i : (i < n)%nat -> Y (z (S i) 0) <= Y (z i (l i)) + P * f i.
Proof.
  intros Hi. destruct (HT i Hi) as (H1 & H2 & H3 & H4 & H5 & H6). set (a := z i (l i)) in *. set (b := z (S i) 0) in *.
  pose proof (f_nonneg i) as F0. pose proof P_ge as P1. pose proof (Y_nonneg a) as Y0.
  assert (PF : 0 <= P * f i) by (apply Rmult_le_pos; lra).
  apply le_of_sq; [lra|]. rewrite Y_sq.
  assert (EN : sN p b = sN p a - Ft i) by lra. assert (EM : sM p b = sM p a + hh p / 2 * Ft i) by lra. assert (EV : sV p b = sV p a - Fn i) by lra.
  assert (ED : d2 b = d2 a) by (unfold d2; rewrite H1, H2, H3; reflexivity).
  replace (n2 p b + G2) with (n2 p a + G2 + (2 * (sN p a * - Ft i + sM p a * (hh p / 2 * Ft i) + sV p a * - Fn i) + ((1 + (hh p / 2) ^ 2) * Ft i ^ 2 + Fn i ^ 2))).
  2:{ unfold n2. rewrite EN, EM, EV, ED. ring. }
  replace ((Y a + P * f i) ^ 2) with (Y a ^ 2 + (2 * (Y a * (P * f i)) + (P * f i) ^ 2)) by ring. rewrite Y_sq.
  pose proof (pow2_ge_0 (sN p a)) as N0. pose proof (pow2_ge_0 (sM p a)) as M0. pose proof (pow2_ge_0 (sV p a)) as V0. pose proof (d2_nonneg a) as D0. pose proof G2_nonneg as G0.
  assert (BN : Rabs (sN p a) <= Y a) by (apply Y_ge; unfold n2; lra). assert (BM : Rabs (sM p a) <= Y a) by (apply Y_ge; unfold n2; lra).
  assert (BV : Rabs (sV p a) <= Y a) by (apply Y_ge; unfold n2; lra).
  assert (Hh : Rabs (hh p / 2) = Rabs (hh p) / 2) by (unfold Rdiv; rewrite Rabs_mult, (Rabs_pos_eq (/ 2)); lra).
  pose proof (Rabs_pos (hh p)) as H0. pose proof (Rabs_pos (Ft i)) as T0. pose proof (Rabs_pos (Fn i)) as T1.
  assert (A1 : sN p a * - Ft i <= Y a * Rabs (Ft i)).
  { eapply Rle_trans; [apply Rle_abs|]. rewrite Rabs_mult, Rabs_Ropp. apply Rmult_le_compat_r; lra. }
  assert (A2 : sM p a * (hh p / 2 * Ft i) <= Y a * (Rabs (hh p) / 2 * Rabs (Ft i))).
  { eapply Rle_trans; [apply Rle_abs|]. rewrite !Rabs_mult, Hh. apply Rmult_le_compat_r; [|exact BM]. apply Rmult_le_pos; lra. }
  assert (A3 : sV p a * - Fn i <= Y a * Rabs (Fn i)).
  { eapply Rle_trans; [apply Rle_abs|]. rewrite Rabs_mult, Rabs_Ropp. apply Rmult_le_compat_r; lra. }
  assert (A4 : Y a * Rabs (Ft i) + Y a * (Rabs (hh p) / 2 * Rabs (Ft i)) + Y a * Rabs (Fn i) <= Y a * (P * f i)).
  { replace (Y a * Rabs (Ft i) + Y a * (Rabs (hh p) / 2 * Rabs (Ft i)) + Y a * Rabs (Fn i)) with (Y a * (P * Rabs (Ft i) + Rabs (Fn i))) by (unfold P, Pc; ring).
    apply Rmult_le_compat_l; [exact Y0|]. unfold f. assert (1 * Rabs (Fn i) <= P * Rabs (Fn i)) by (apply Rmult_le_compat_r; lra). lra. }
  assert (A5 : (1 + (hh p / 2) ^ 2) * Ft i ^ 2 + Fn i ^ 2 <= (P * f i) ^ 2).
  { rewrite <- (pow2_abs (Ft i)), <- (pow2_abs (Fn i)), <- (pow2_abs (hh p / 2)), Hh. unfold P, Pc, f.
    set (h := Rabs (hh p) / 2). assert (0 <= h) by (unfold h; lra). set (x := Rabs (Ft i)) in *. set (y := Rabs (Fn i)) in *.
    replace (((1 + h) * (x + y)) ^ 2) with ((1 + h ^ 2) * x ^ 2 + y ^ 2 + (2 * (h * x ^ 2) + (h * y) ^ 2 + 2 * (h * y ^ 2) + 2 * ((1 + h) ^ 2 * (x * y)))) by ring.
    assert (0 <= h * x ^ 2) by (apply Rmult_le_pos; [lra|apply pow2_ge_0]). assert (0 <= h * y ^ 2) by (apply Rmult_le_pos; [lra|apply pow2_ge_0]).
    assert (0 <= (1 + h) ^ 2 * (x * y)) by (apply Rmult_le_pos; [apply pow2_ge_0|apply Rmult_le_pos; lra]). pose proof (pow2_ge_0 (h * y)). lra. }
  lra.
Qed.

Variable Lam : R.
Hypothesis Hn : (0 < n)%nat.
Hypothesis HLam : pos l n - pos l 1 <= Lam.
Let E := exp (Lg / 2 * Lam).
Let SF := sumn n f.
Let D := E * (Y (z 0%nat (l 0%nat)) + P * SF).
Lemma pos_mono i j : (i <= j)%nat -> (j <= S n)%nat -> pos l i <= pos l j.
Proof.
  intros H. induction H as [|j H IH]; intros Hj; [lra|]. pose proof (IH ltac:(lia)) as I1. pose proof (Hpos j ltac:(lia)) as I2. unfold pos in *. simpl. lra.
Qed.
Lemma exp_ge1 x : 0 <= x -> 1 <= exp (Lg / 2 * x).
Proof. intros H. rewrite <- exp_0. destruct (Req_EM_T x 0) as [->|N]; [rewrite Rmult_0_r; lra|]. left. apply exp_increasing. apply Rmult_lt_0_compat; lra. Qed.
Lemma exp_mono x y : x <= y -> exp (Lg / 2 * x) <= exp (Lg / 2 * y).
Proof. intros H. destruct (Req_EM_T x y) as [->|N]; [lra|]. left. apply exp_increasing. apply Rmult_lt_compat_l; lra. Qed.
Lemma SF_part i : (i <= n)%nat -> 0 <= sumn i f <= SF.
Proof.
  intros Hi. split.
  - induction i as [|i IH]; simpl; [lra|]. pose proof (IH ltac:(lia)). pose proof (f_nonneg i). lra.
  - unfold SF. induction Hi as [|m Hm IH]; [lra|]. simpl. pose proof (f_nonneg m).
    assert (X : forall q, (i <= q)%nat -> sumn i f <= sumn q f) by (intros q Hq; induction Hq as [|q Hq IHq]; [lra|]; simpl; pose proof (f_nonneg q); lra).
    pose proof (X m Hm). lra.
Qed.
(** At all points between the outer segments. *)
Lemma inner_start i : (1 <= i)%nat -> (i <= n)%nat -> Y (z i 0) <= exp (Lg / 2 * (pos l i - pos l 1)) * (Y (z 0%nat (l 0%nat)) + P * sumn i f).
Proof.
  induction i as [|i IH]; intros H1 Hi; [lia|]. destruct (Nat.eq_dec i 0) as [->|N].
  - rewrite Rminus_eq_0, Rmult_0_r, exp_0, Rmult_1_l. simpl sumn. rewrite Rplus_0_l. apply Y_jump. lia.
  - pose proof (IH ltac:(lia) ltac:(lia)) as I1. pose proof (Y_jump i ltac:(lia)) as J. pose proof (Hpos i ltac:(lia)) as L0.
    pose proof (Y_grow i 0 (l i) ltac:(lia) ltac:(lra) L0 ltac:(lra)) as G1. rewrite Rminus_0_r in G1.
    replace (pos l (S i) - pos l 1) with (l i + (pos l i - pos l 1)) by (unfold pos; simpl; ring).
    rewrite (Rmult_plus_distr_l (Lg / 2)), exp_plus.
    set (e1 := exp (Lg / 2 * l i)) in *. set (e2 := exp (Lg / 2 * (pos l i - pos l 1))) in *. set (B := Y (z 0%nat (l 0%nat))) in *.
    assert (E1 : 1 <= e1) by (apply exp_ge1; exact L0).
    assert (E2 : 1 <= e2) by (apply exp_ge1; pose proof (pos_mono 1 i ltac:(lia) ltac:(lia)); lra).
    assert (A1 : e1 * Y (z i 0) <= e1 * (e2 * (B + P * sumn i f))) by (apply Rmult_le_compat_l; lra).
    assert (A2 : 1 * (P * f i) <= e1 * e2 * (P * f i)).
    { apply Rmult_le_compat_r; [apply Rmult_le_pos; [pose proof P_ge; lra|apply f_nonneg]|]. rewrite <- (Rmult_1_l 1). apply Rmult_le_compat; lra. }
    simpl sumn. replace (e1 * e2 * (B + P * (sumn i f + f i))) with (e1 * (e2 * (B + P * sumn i f)) + e1 * e2 * (P * f i)) by ring. lra.
Qed.
Lemma base_nonneg i : (i <= n)%nat -> 0 <= Y (z 0%nat (l 0%nat)) + P * sumn i f.
Proof. intros Hi. pose proof (Y_nonneg (z 0%nat (l 0%nat))). pose proof (SF_part i Hi). assert (0 <= P * sumn i f) by (apply Rmult_le_pos; [pose proof P_ge; lra|lra]). lra. Qed.
Lemma base_le i : (i <= n)%nat -> Y (z 0%nat (l 0%nat)) + P * sumn i f <= Y (z 0%nat (l 0%nat)) + P * SF.
Proof. intros Hi. pose proof (SF_part i Hi). assert (P * sumn i f <= P * SF) by (apply Rmult_le_compat_l; [pose proof P_ge; lra|lra]). lra. Qed.
Lemma inner_states i x : (1 <= i)%nat -> (i <= n)%nat -> 0 <= x <= l i -> (i < n)%nat \/ x = 0 -> Y (z i x) <= D.
Proof.
  intros H1 Hi Hx Hor. pose proof (inner_start i H1 Hi) as S0. pose proof (Y_grow i 0 x Hi ltac:(lra) ltac:(lra) ltac:(lra)) as G1. rewrite Rminus_0_r in G1.
  eapply Rle_trans; [exact G1|]. eapply Rle_trans; [apply Rmult_le_compat_l; [left; apply exp_pos|exact S0]|].
  rewrite <- Rmult_assoc, <- exp_plus, <- Rmult_plus_distr_l. unfold D. apply Rmult_le_compat; [left; apply exp_pos|apply base_nonneg; exact Hi| |apply base_le; exact Hi].
  apply exp_mono. destruct Hor as [Hlt| ->].
  - pose proof (pos_mono (S i) n Hlt ltac:(lia)) as M. unfold pos in M at 1. simpl in M. fold (pos l i) in M. lra.
  - pose proof (pos_mono i n Hi ltac:(lia)). lra.
Qed.
Lemma D_base : Y (z 0%nat (l 0%nat)) <= D.
Proof.
  assert (0 <= Lam) by (pose proof (pos_mono 1 n ltac:(lia) ltac:(lia)); lra).
  pose proof (base_nonneg n ltac:(lia)) as B0. fold SF in B0. pose proof (SF_part n ltac:(lia)) as S0. fold SF in S0.
  assert (0 <= P * SF) by (apply Rmult_le_pos; [pose proof P_ge; lra|lra]).
  unfold D. pose proof (exp_ge1 Lam H) as E1. fold E in E1. assert (1 * (Y (z 0%nat (l 0%nat)) + P * SF) <= E * (Y (z 0%nat (l 0%nat)) + P * SF)) by (apply Rmult_le_compat_r; lra). lra.
Qed.
Lemma D_nonneg : 0 <= D. Proof. pose proof D_base. pose proof (Y_nonneg (z 0%nat (l 0%nat))). lra. Qed.

(** Work lost between the outer segments. *)
Lemma G_nonneg : 0 <= G. Proof. apply sqrt_pos. Qed.
Lemma push_small i v : Rabs (on (k i) gN * z_u v + on (k i) gM * z_psi v + on (k i) gV * z_w v) <= 3 * G * Y v.
Proof.
  pose proof (pow2_ge_0 gN). pose proof (pow2_ge_0 gM). pose proof (pow2_ge_0 gV).
  assert (B : forall g, g ^ 2 <= G2 -> Rabs (on (k i) g) <= G).
  { intros g Hg. unfold on. destruct (k i); [rewrite Rabs_R0; apply G_nonneg|]. rewrite <- sqrt_Rsqr_abs. apply sqrt_le_1_alt. unfold Rsqr. simpl in Hg. lra. }
  pose proof (pow2_ge_0 (sN p v)) as N0. pose proof (pow2_ge_0 (sM p v)) as M0. pose proof (pow2_ge_0 (sV p v)) as V0. pose proof G2_nonneg as G0.
  pose proof (pow2_ge_0 (z_u v)) as U0. pose proof (pow2_ge_0 (z_psi v)) as P0. pose proof (pow2_ge_0 (z_w v)) as W0.
  assert (C : forall g x, g ^ 2 <= G2 -> x ^ 2 <= n2 p v + G2 -> Rabs (on (k i) g * x) <= G * Y v).
  { intros g x Hg Hx. rewrite Rabs_mult. apply Rmult_le_compat; try apply Rabs_pos; [exact (B g Hg)|exact (Y_ge x v Hx)]. }
  pose proof (C gN (z_u v) ltac:(unfold G2, force2; lra) ltac:(unfold n2, d2; lra)).
  pose proof (C gM (z_psi v) ltac:(unfold G2, force2; lra) ltac:(unfold n2, d2; lra)).
  pose proof (C gV (z_w v) ltac:(unfold G2, force2; lra) ltac:(unfold n2, d2; lra)).
  eapply Rle_trans; [apply Rabs_triang|]. eapply Rle_trans; [apply Rplus_le_compat_r, Rabs_triang|]. lra.
Qed.
Lemma inner_work i : (1 <= i)%nat -> (i < n)%nat -> work p (z i 0) - 3 * G * D * l i <= work p (z i (l i)).
Proof.
  intros H1 Hi. pose proof (Hpos i ltac:(lia)) as L0.
  assert (I0 : work p (z i 0) + 3 * G * D * 0 <= work p (z i (l i)) + 3 * G * D * l i); [|lra].
  apply (derive_nonneg_incr (fun s => work p (z i s) + 3 * G * D * s)
    (fun x => density p (k i) (z i x) + (on (k i) gN * z_u (z i x) + on (k i) gM * z_psi (z i x) + on (k i) gV * z_w (z i x)) + 3 * G * D) 0 (l i) L0).
  - intros x Hx. apply is_derive_plusR; [exact (work_forced _ _ _ _ _ _ _ (HF i x ltac:(lia) Hx))|].
    eapply is_derive_eq; [apply (is_derive_scal (fun s : R => s) x (3 * G * D) 1); apply (is_derive_id (K := R_AbsRing))|ring].
  - intros x Hx. pose proof (proj1 (density_nonneg p (k i) (z i x) Hl Hf Hs)) as D0. pose proof (push_small i (z i x)) as Q. apply Rabs_le_between in Q.
    pose proof (inner_states i x H1 ltac:(lia) Hx (or_introl Hi)) as Yb.
    assert (3 * G * Y (z i x) <= 3 * G * D) by (apply Rmult_le_compat_l; [pose proof G_nonneg; lra|exact Yb]). lra.
Qed.
Lemma jump_loss i : (i < n)%nat -> work p (z i (l i)) - P * f i * D <= work p (z (S i) 0).
Proof.
  intros Hi. pose proof (jump_work _ _ _ _ _ (HT i Hi)) as J. pose proof (power_bound p (Ft i) (Fn i) (z i (l i))) as B.
  apply Rabs_le_between in B. fold P (f i) in B.
  assert (Yb : sqrt (d2 (z i (l i))) <= D).
  { eapply Rle_trans; [apply Y_disp|]. destruct i; [apply D_base|]. apply inner_states; try lia. pose proof (Hpos (S i) ltac:(lia)). lra. }
  assert (P * f i * sqrt (d2 (z i (l i))) <= P * f i * D).
  { apply Rmult_le_compat_l; [apply Rmult_le_pos; [pose proof P_ge; lra|apply f_nonneg]|exact Yb]. }
  lra.
Qed.
Lemma work_kept i : (1 <= i)%nat -> (i <= n)%nat -> work p (z 0%nat (l 0%nat)) - 3 * G * D * (pos l i - pos l 1) - P * sumn i f * D <= work p (z i 0).
Proof.
  induction i as [|i IH]; intros H1 Hi; [lia|]. pose proof (jump_loss i ltac:(lia)) as J. destruct (Nat.eq_dec i 0) as [->|N].
  - rewrite Rminus_eq_0, Rmult_0_r. simpl sumn. lra.
  - pose proof (IH ltac:(lia) ltac:(lia)) as I1. pose proof (inner_work i ltac:(lia) ltac:(lia)) as I2.
    replace (pos l (S i) - pos l 1) with (l i + (pos l i - pos l 1)) by (unfold pos; simpl; ring). simpl sumn. lra.
Qed.

(** Everything is bounded by what happens at the ends and by the loads. *)
Hypothesis H0 : k 0%nat = true.
Hypothesis Hkn : k n = true.
Hypothesis L0 : 1 <= l 0%nat.
Hypothesis Ln : 1 <= l n.
Let e0 := sqrt (d2 (z 0%nat 0)).
Let e1 := sqrt (d2 (z n (l n))).
Let c := sqrt Cw.
Let A := P * SF + (3 * Lam + 1) * G.
Let T0 := work p (z 0%nat (l 0%nat)) - work p (z 0%nat 0).
Let Tn := work p (z n (l n)) - work p (z n 0).
Let t := sqrt (T0 + Tn).
Lemma chain_first x : 0 <= x <= l 0%nat -> n2 p (z 0%nat x) <= Cw * T0.
Proof. intros Hx. apply (supported_states gN gM gV (z 0%nat) (l 0%nat) x L0); [|exact Hx]. intros s Hs'. rewrite <- H0. apply HF; [lia|exact Hs']. Qed.
Lemma chain_last x : 0 <= x <= l n -> n2 p (z n x) <= Cw * Tn.
Proof. intros Hx. apply (supported_states gN gM gV (z n) (l n) x Ln); [|exact Hx]. intros s Hs'. rewrite <- Hkn. apply HF; [lia|exact Hs']. Qed.
Lemma T_nonneg : 0 <= T0 /\ 0 <= Tn.
Proof.
  split.
  - pose proof (chain_first 0 ltac:(lra)) as B. pose proof (n2_nonneg p (z 0%nat 0)). apply Rmult_le_reg_l with Cw; [exact HCw|]. lra.
  - pose proof (chain_last 0 ltac:(lra)) as B. pose proof (n2_nonneg p (z n 0)). apply Rmult_le_reg_l with Cw; [exact HCw|]. lra.
Qed.
Lemma t_sq : t ^ 2 = T0 + Tn.
Proof. unfold t. rewrite <- Rsqr_pow2. apply Rsqr_sqrt. destruct T_nonneg. lra. Qed.
Lemma outer_root v q : n2 p v <= Cw * q -> q <= T0 + Tn -> sqrt (n2 p v) <= c * t.
Proof.
  intros H Hq. unfold c, t. rewrite <- sqrt_mult; [|lra|destruct T_nonneg; lra]. apply sqrt_le_1_alt.
  eapply Rle_trans; [exact H|]. apply Rmult_le_compat_l; lra.
Qed.
Lemma total_bound : t ^ 2 <= t * (c * (e0 + e1) + c * (A * E)) + (A * E) ^ 2.
Proof.
  rewrite t_sq at 1. destruct T_nonneg as [P0 P1].
  assert (LamP : 0 <= Lam) by (pose proof (pos_mono 1 n ltac:(lia) ltac:(lia)); lra).
  pose proof (exp_ge1 Lam LamP) as E1. fold E in E1. pose proof G_nonneg as G0. pose proof P_ge as P2. pose proof (SF_part n ltac:(lia)) as S0. fold SF in S0.
  assert (PS : 0 <= P * SF) by (apply Rmult_le_pos; lra).
  assert (A0 : 0 <= A) by (unfold A; assert (0 <= (3 * Lam + 1) * G) by (apply Rmult_le_pos; lra); lra).
  assert (c0 : 0 <= c) by apply sqrt_pos. assert (t0 : 0 <= t) by apply sqrt_pos. pose proof D_nonneg as D0.
  pose proof (work_kept n ltac:(lia) ltac:(lia)) as W. fold SF in W.
  assert (W2 : (3 * G * (pos l n - pos l 1) + P * SF) * D <= A * D).
  { apply Rmult_le_compat_r; [exact D0|]. unfold A. assert (3 * G * (pos l n - pos l 1) <= 3 * G * Lam) by (apply Rmult_le_compat_l; lra). lra. }
  assert (B0 : Rabs (work p (z 0%nat 0)) <= c * t * e0).
  { eapply Rle_trans; [apply work_bound|]. apply Rmult_le_compat_r; [apply sqrt_pos|]. apply (outer_root _ T0); [apply chain_first; lra|lra]. }
  assert (B1 : Rabs (work p (z n (l n))) <= c * t * e1).
  { eapply Rle_trans; [apply work_bound|]. apply Rmult_le_compat_r; [apply sqrt_pos|]. apply (outer_root _ Tn); [apply chain_last; lra|lra]. }
  assert (B2 : D <= E * (c * t + A)).
  { unfold D. apply Rmult_le_compat_l; [lra|]. pose proof (Y_up (z 0%nat (l 0%nat))) as U.
    pose proof (outer_root _ T0 (chain_first (l 0%nat) ltac:(lra)) ltac:(lra)) as U2.
    assert (G <= (3 * Lam + 1) * G) by (assert (0 <= Lam * G) by (apply Rmult_le_pos; lra); lra). unfold A. lra. }
  apply Rabs_le_between in B0. apply Rabs_le_between in B1.
  assert (B3 : A * D <= A * (E * (c * t + A))) by (apply Rmult_le_compat_l; lra).
  assert (B4 : A * E * A <= (A * E) ^ 2).
  { replace ((A * E) ^ 2) with (A * E * (A * E)) by ring. apply Rmult_le_compat_l; [apply Rmult_le_pos; lra|].
    rewrite <- (Rmult_1_r A) at 1. apply Rmult_le_compat_l; lra. }
  unfold T0, Tn. lra.
Qed.
Lemma quad_root b q : 0 <= b -> 0 <= q -> t ^ 2 <= t * b + q ^ 2 -> t <= b + q.
Proof.
  intros Hb Hq H. assert (t0 : 0 <= t) by apply sqrt_pos. apply Rnot_lt_le. intros N.
  assert ((b + q) * t < t * t) by (apply Rmult_lt_compat_r; lra). assert (q * q <= q * t) by (apply Rmult_le_compat_l; lra). simpl in H. lra.
Qed.
Definition big : R := E * (c * (c + c * E + E) + 1).
Lemma chain_bound i x : (i <= n)%nat -> 0 <= x <= l i -> sqrt (n2 p (z i x)) <= big * (e0 + e1 + A).
Proof.
  intros Hi Hx. destruct T_nonneg as [P0 P1].
  assert (LamP : 0 <= Lam) by (pose proof (pos_mono 1 n ltac:(lia) ltac:(lia)); lra).
  pose proof (exp_ge1 Lam LamP) as E1. fold E in E1. pose proof G_nonneg as G0. pose proof P_ge as P2. pose proof (SF_part n ltac:(lia)) as S0. fold SF in S0.
  assert (PS : 0 <= P * SF) by (apply Rmult_le_pos; lra).
  assert (A0 : 0 <= A) by (unfold A; assert (0 <= (3 * Lam + 1) * G) by (apply Rmult_le_pos; lra); lra).
  assert (c0 : 0 <= c) by apply sqrt_pos. assert (t0 : 0 <= t) by apply sqrt_pos.
  assert (q0 : 0 <= e0) by apply sqrt_pos. assert (q1 : 0 <= e1) by apply sqrt_pos.
  assert (AE : 0 <= A * E) by (apply Rmult_le_pos; lra).
  assert (Tb : t <= c * (e0 + e1) + c * (A * E) + A * E).
  { apply quad_root; [|exact AE|exact total_bound]. assert (0 <= c * (e0 + e1)) by (apply Rmult_le_pos; lra). assert (0 <= c * (A * E)) by (apply Rmult_le_pos; lra). lra. }
  set (s := e0 + e1 + A).
  assert (Tb2 : t <= (c + c * E + E) * s).
  { eapply Rle_trans; [exact Tb|]. unfold s.
    assert (0 <= c * A) by (apply Rmult_le_pos; lra). assert (0 <= c * E) by (apply Rmult_le_pos; lra).
    assert (0 <= c * E * (e0 + e1)) by (apply Rmult_le_pos; lra). assert (0 <= E * (e0 + e1)) by (apply Rmult_le_pos; lra). lra. }
  assert (B : c * t + A <= (c * (c + c * E + E) + 1) * s).
  { apply (Rmult_le_compat_l c _ _ c0) in Tb2. unfold s in *. lra. }
  assert (Z : sqrt (n2 p (z i x)) <= E * (c * t + A)).
  { assert (Ob : forall v q, n2 p v <= Cw * q -> q <= T0 + Tn -> sqrt (n2 p v) <= E * (c * t + A)).
    { intros v q Hv Hq. eapply Rle_trans; [exact (outer_root v q Hv Hq)|]. assert (0 <= c * t) by (apply Rmult_le_pos; lra).
      assert (1 * (c * t + A) <= E * (c * t + A)) by (apply Rmult_le_compat_r; lra). lra. }
    destruct (Nat.eq_dec i 0) as [->|N0]; [apply (Ob _ T0); [apply chain_first; exact Hx|lra]|].
    destruct (Nat.eq_dec i n) as [->|Nn]; [apply (Ob _ Tn); [apply chain_last; exact Hx|lra]|].
    assert (Yi : Y (z i x) <= D) by (apply inner_states; try lia; exact Hx).
    assert (S1 : sqrt (n2 p (z i x)) <= Y (z i x)) by (apply sqrt_le_1_alt; pose proof G2_nonneg; lra).
    assert (B2 : D <= E * (c * t + A)).
    { unfold D. apply Rmult_le_compat_l; [lra|]. pose proof (Y_up (z 0%nat (l 0%nat))) as U.
      pose proof (outer_root _ T0 (chain_first (l 0%nat) ltac:(lra)) ltac:(lra)) as U2.
      assert (G <= (3 * Lam + 1) * G) by (assert (0 <= Lam * G) by (apply Rmult_le_pos; lra); lra). unfold A. lra. }
    lra. }
  eapply Rle_trans; [exact Z|]. unfold big. rewrite Rmult_assoc. apply Rmult_le_compat_l; lra.
Qed.
End Fixed.
End Chain.

Lemma fchain_bound p Lam : lam_ok p -> fnd_ok p -> stable p -> exists C, 0 < C /\
  forall n l k gN gM gV Ft Fn z i x, fchain p n l k gN gM gV Ft Fn z -> (0 < n)%nat -> pos l n - pos l 1 <= Lam ->
  k 0%nat = true -> k n = true -> 1 <= l 0%nat -> 1 <= l n -> (i <= n)%nat -> 0 <= x <= l i ->
  size6 (z i x) <= C * (sqrt (d2 (z 0%nat 0)) + sqrt (d2 (z n (l n))) + sumn n (fun j => Rabs (Ft j) + Rabs (Fn j)) + sqrt (force2 gN gM gV)).
Proof.
  intros Hl Hf Hs. destruct (grow p Hl) as (Lg & HLg & Gr). destruct (window_full p Hl Hf Hs) as (Cw & HCw & Wi). destruct (nsq_n2 p Hl) as (L5 & H5 & B5).
  set (Lm := Rmax Lam 0). set (bg := big Lg Cw Lm).
  assert (P1 : 1 <= Pc p) by (unfold Pc; pose proof (Rabs_pos (hh p)); lra).
  assert (Lm0 : 0 <= Lm) by apply Rmax_r.
  assert (bg0 : 0 < bg).
  { unfold bg, big. pose proof (exp_pos (Lg / 2 * Lm)) as E0. pose proof (sqrt_lt_R0 Cw HCw) as c0. set (E := exp _) in *. set (c := sqrt Cw) in *.
    apply Rmult_lt_0_compat; [exact E0|]. assert (0 < c * (c + c * E + E)); [|lra]. apply Rmult_lt_0_compat; [exact c0|].
    assert (0 < c * E) by (apply Rmult_lt_0_compat; assumption). lra. }
  set (m := Pc p + 3 * Lm + 1). assert (m0 : 1 <= m) by (unfold m; lra).
  exists (sqrt (3 * L5) * (bg * m)). split.
  { apply Rmult_lt_0_compat; [apply sqrt_lt_R0; lra|]. apply Rmult_lt_0_compat; lra. }
  intros n l k gN gM gV Ft Fn z i x HC Hn HL H0 Hkn L0 Ln Hi Hx.
  pose proof (chain_bound p Hl Hf Hs Lg HLg Gr Cw HCw Wi n l k gN gM gV Ft Fn z HC Lm Hn ltac:(pose proof (Rmax_l Lam 0); unfold Lm; lra) H0 Hkn L0 Ln i x Hi Hx) as B.
  fold bg in B. set (e0 := sqrt (d2 (z 0%nat 0))) in *. set (e1 := sqrt (d2 (z n (l n)))) in *. set (SF := sumn n _) in *. set (G := sqrt (force2 gN gM gV)) in *.
  assert (q0 : 0 <= e0) by apply sqrt_pos. assert (q1 : 0 <= e1) by apply sqrt_pos. assert (G0 : 0 <= G) by apply sqrt_pos.
  assert (S0 : 0 <= SF).
  { unfold SF. clear. induction n as [|n IH]; simpl; [lra|]. pose proof (Rabs_pos (Ft n)). pose proof (Rabs_pos (Fn n)). lra. }
  assert (M : e0 + e1 + (Pc p * SF + (3 * Lm + 1) * G) <= m * (e0 + e1 + SF + G)).
  { unfold m. assert (0 <= (Pc p + 3 * Lm) * (e0 + e1)) by (apply Rmult_le_pos; lra). assert (0 <= Pc p * G) by (apply Rmult_le_pos; lra).
    assert (0 <= (3 * Lm + 1) * SF) by (apply Rmult_le_pos; lra). lra. }
  set (s := e0 + e1 + SF + G) in *.
  assert (B2 : sqrt (n2 p (z i x)) <= bg * m * s).
  { eapply Rle_trans; [exact B|]. rewrite Rmult_assoc. apply Rmult_le_compat_l; lra. }
  apply Rle_trans with (sqrt (3 * L5) * sqrt (n2 p (z i x))).
  - rewrite <- sqrt_mult; [|lra|apply n2_nonneg]. rewrite <- (sqrt_Rsqr (size6 (z i x))) by apply sqrt_pos. apply sqrt_le_1_alt.
    rewrite Rsqr_pow2. pose proof (size6_nsq (z i x)). pose proof (B5 (z i x)). lra.
  - rewrite Rmult_assoc. apply Rmult_le_compat_l; [apply sqrt_pos|]. exact B2.
Qed.
