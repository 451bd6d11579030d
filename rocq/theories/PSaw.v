(** Proofs about saw tests with cuts of different lengths (C126). *)
From Coquelicot Require Import Coquelicot.
Require Import Verif.Py Verif.MTools Verif.MEigen Verif.MFields Verif.SAdm Verif.MRaster
  Verif.MSolution Verif.SBeam Verif.SBvp Verif.SEig Verif.SMirror Verif.SSaw Verif.SEnergy Verif.PBeam Verif.PBeam2 Verif.PBvp Verif.PBvp2 Verif.PBalance
  Verif.PWell Verif.PWell2 Verif.PWell3 Verif.PBvp6 Verif.PMirror.
Open Scope R_scope.

Lemma flat_const (f : R -> R) a b : a <= b -> (forall x, a <= x <= b -> is_derive f x 0) -> f a = f b.
Proof.
  intros H D. apply Rle_antisym.
  - apply (derive_nonneg_incr f (fun _ => 0) a b H D). intros; lra.
  - apply Ropp_le_cancel. apply (derive_nonneg_incr (fun x => - f x) (fun _ => 0) a b H); [|intros; lra].
    intros x Hx. eapply is_derive_eq; [apply (is_derive_opp f); exact (D x Hx)|]. unfold opp; simpl; ring.
Qed.
(** Statics of the hanging part: section forces at the tip from those at the end. *)
Lemma hanging_forces p ld em z a N M V : 0 <= a -> (forall x, 0 <= x <= a -> balance p ld false em z x) -> forces p (z a) N M V ->
  let q := qn ld + pn ld in let c := - zs p * qt ld + hh p / 2 * pt ld + em in
  sN p (z 0) = N + (qt ld + pt ld) * a /\ sV p (z 0) = V + q * a /\ sM p (z 0) = M - c * a - V * a - q / 2 * a ^ 2.
Proof.
  intros Ha B (FN & FM & FV) q c.
  assert (L : forall k s, is_derive (fun x => k * x) s k) by (intros k s; auto_derive; [exact Logic.I|ring]).
  assert (V0 : forall x, 0 <= x <= a -> sV p (z x) + q * x = V + q * a).
  { intros x Hx. rewrite <- FV. apply (flat_const (fun s => sV p (z s) + q * s)); [lra|]. intros s Hs.
    destruct (B s ltac:(lra)) as (_ & _ & _ & _ & D & _). eapply is_derive_eq; [exact (is_derive_plusR _ _ _ _ _ D (L q s))|]. unfold s_sig, q. ring. }
  split; [|split].
  - assert (X : sN p (z 0) + (qt ld + pt ld) * 0 = sN p (z a) + (qt ld + pt ld) * a); [|rewrite FN in X; lra].
    apply (flat_const (fun s => sN p (z s) + (qt ld + pt ld) * s)); [lra|]. intros s Hs.
    destruct (B s Hs) as (_ & _ & _ & D & _). eapply is_derive_eq; [exact (is_derive_plusR _ _ _ _ _ D (L _ s))|]. unfold s_tau. ring.
  - specialize (V0 0 ltac:(lra)). lra.
  - assert (X : sM p (z 0) + (- c * 0 + (- (V + q * a) * 0 + q / 2 * 0 ^ 2)) = sM p (z a) + (- c * a + (- (V + q * a) * a + q / 2 * a ^ 2))); [|rewrite FM in X; lra].
    apply (flat_const (fun s => sM p (z s) + (- c * s + (- (V + q * a) * s + q / 2 * s ^ 2)))); [lra|]. intros s Hs.
    destruct (B s Hs) as (_ & _ & _ & _ & _ & D).
    assert (D2 : is_derive (fun s => - c * s + (- (V + q * a) * s + q / 2 * s ^ 2)) s (- c - (V + q * a) + q * s)) by (auto_derive; [exact Logic.I|field]).
    eapply is_derive_eq; [exact (is_derive_plusR _ _ _ _ _ D D2)|]. specialize (V0 s Hs). unfold s_tau, c. replace (sV p (z s)) with (V + q * a - q * s) by lra. ring.
Qed.
Lemma end_forces o kR phi : hanging o -> exists N M V, forall k z,
  (left_end o kR phi k z -> forces (o_par o) z N M V) /\ (right_end o kR phi k z -> forces (o_par o) z N M V).
Proof.
  intros [[Hk Hm]|[Hk _]].
  - exists 0, 0, 0. intros k z. unfold left_end, right_end. rewrite Hk. unfold pst_end. rewrite Hm. destruct k; auto.
  - unfold left_end, right_end. rewrite Hk. unfold face_end. destruct (calc_vertical_bc_center_of_gravity (o_slab o) phi) as [[xs zs] m].
    eexists _, _, _. intros k z. split; intros H; exact H.
Qed.

(** Mixture of three states. *)
Definition mix (w0 w1 w2 : R) (z0 z1 z2 : vec6) : vec6 := combo 1 (combo w0 z0 w1 z1) w2 z2.
Section Four.
Variables (o : obj) (kR phi : R) (n : nat) (l m : nat -> R) (k : nat -> bool).
Variables (i0 : nat) (w0 w1 w2 a0 a1 a2 a : R) (z0 z1 z2 z : nat -> R -> vec6).
Hypothesis Hr : ready o.
Hypothesis Hs : stable (o_par o).
Hypothesis Hh : hanging o.
Hypothesis Hl : forall i, (i <= n)%nat -> 0 <= l i.
Hypothesis Hi : (i0 <= n)%nat.
Hypothesis Hk : k i0 = true.
Hypothesis Hi1 : 0 < l i0.
Hypothesis Ha : 0 <= a0 /\ 0 <= a1 /\ 0 <= a2 /\ 0 <= a.
Hypothesis W0 : w0 + w1 + w2 = 1.
Hypothesis W1 : w0 * a0 + w1 * a1 + w2 * a2 = a.
Hypothesis W2 : w0 * a0 ^ 2 + w1 * a1 ^ 2 + w2 * a2 ^ 2 = a ^ 2.
Let len (b : R) (i : nat) : R := if Nat.leb i n then l i else b.
Let sup (i : nat) : bool := if Nat.leb i n then k i else false.
Hypothesis F0 : fbvp o kR phi (S n) (len a0) m sup z0.
Hypothesis F1 : fbvp o kR phi (S n) (len a1) m sup z1.
Hypothesis F2 : fbvp o kR phi (S n) (len a2) m sup z2.
Hypothesis F : fbvp o kR phi (S n) (len a) m sup z.

Lemma inside b i : (i <= n)%nat -> len b i = l i /\ sup i = k i.
Proof. intros H. unfold len, sup. rewrite (proj2 (Nat.leb_le i n) H). auto. Qed.
Lemma outside b : len b (S n) = b /\ sup (S n) = false.
Proof. unfold len, sup. rewrite (proj2 (Nat.leb_gt (S n) n) ltac:(lia)). auto. Qed.
Lemma mixed i x : (i <= n)%nat -> 0 <= x <= l i -> z i x = mix w0 w1 w2 (z0 i x) (z1 i x) (z2 i x).
Proof.
  intros Hin Hx. pose proof Hr as (La & Fn & _). destruct (end_forces o kR phi Hh) as (N & M & V & HE).
  set (p := o_par o) in *. set (ld := loads_of o phi).
  (* forces and displacements at the tip *)
  assert (Tip : forall b y, 0 <= b -> fbvp o kR phi (S n) (len b) m sup y -> exists y', transition o phi (m n) (y n (l n)) y' /\
    let q := qn ld + pn ld in let c := - zs p * qt ld + hh p / 2 * pt ld + extra_moment p ld false in
    sN p y' = N + (qt ld + pt ld) * b /\ sV p y' = V + q * b /\ sM p y' = M - c * b - V * b - q / 2 * b ^ 2).
  { intros b y Hb (_ & B1 & B2 & B3). specialize (B2 n ltac:(lia)). rewrite (proj1 (inside b n (Nat.le_refl n))) in B2. exists (y (S n) 0). split; [exact B2|].
    destruct (outside b) as [E1 E2]. rewrite E1, E2 in B1. apply HE in B1.
    apply (hanging_forces p ld (extra_moment p ld false) (y (S n)) b N M V Hb); [|exact B1].
    intros s Hs'. specialize (B3 (S n) s ltac:(lia)). rewrite E1, E2 in B3. exact (B3 Hs'). }
  destruct Ha as (Ha0 & Ha1 & Ha2 & Ha3).
  destruct (Tip a0 z0 Ha0 F0) as (t0 & T0 & N0 & V0 & M0). destruct (Tip a1 z1 Ha1 F1) as (t1 & T1 & N1 & V1 & M1).
  destruct (Tip a2 z2 Ha2 F2) as (t2 & T2 & N2 & V2 & M2). destruct (Tip a z Ha3 F) as (t & T & N3 & V3 & M3). clear Tip.
  set (q := qn ld + pn ld) in *. set (c := - zs p * qt ld + hh p / 2 * pt ld + extra_moment p ld false) in *.
  apply diff_zero. unfold mix.
  apply (homogeneous_unique p n l k (fun i s => combo 1 (z i s) (-1) (combo 1 (combo w0 (z0 i s) w1 (z1 i s)) w2 (z2 i s))) i0); try assumption.
  - intros j s Hj Hsx. destruct F as (_ & _ & _ & B). destruct F0 as (_ & _ & _ & B0). destruct F1 as (_ & _ & _ & B1). destruct F2 as (_ & _ & _ & B2).
    specialize (B j s ltac:(lia)). specialize (B0 j s ltac:(lia)). specialize (B1 j s ltac:(lia)). specialize (B2 j s ltac:(lia)).
    rewrite (proj1 (inside a j Hj)), (proj2 (inside a j Hj)) in B. rewrite (proj1 (inside a0 j Hj)), (proj2 (inside a j Hj)) in B0.
    rewrite (proj1 (inside a1 j Hj)), (proj2 (inside a j Hj)) in B1. rewrite (proj1 (inside a2 j Hj)), (proj2 (inside a j Hj)) in B2.
    pose proof (balance_combo _ _ _ _ _ _ _ _ 1 (-1) _ (B Hsx) (balance_combo _ _ _ _ _ _ _ _ 1 w2 _ (balance_combo _ _ _ _ _ _ _ _ w0 w1 _ (B0 Hsx) (B1 Hsx)) (B2 Hsx))) as H.
    cbn [qn qt pn pt] in H. assert (Q : forall x, 1 * x + -1 * (1 * (w0 * x + w1 * x) + w2 * x) = 0) by (intros y; replace w2 with (1 - w0 - w1) by lra; ring).
    rewrite !Q in H. exact H.
  - intros j Hj. destruct F as (_ & _ & B & _). destruct F0 as (_ & _ & B0 & _). destruct F1 as (_ & _ & B1 & _). destruct F2 as (_ & _ & B2 & _).
    specialize (B j ltac:(lia)). specialize (B0 j ltac:(lia)). specialize (B1 j ltac:(lia)). specialize (B2 j ltac:(lia)).
    assert (Hj' : (j <= n)%nat) by lia. rewrite (proj1 (inside a j Hj')) in B. rewrite (proj1 (inside a0 j Hj')) in B0. rewrite (proj1 (inside a1 j Hj')) in B1. rewrite (proj1 (inside a2 j Hj')) in B2.
    destruct B as (A1 & A2 & A3 & A4 & A5 & A6). destruct B0 as (C1 & C2 & C3 & C4 & C5 & C6). destruct B1 as (D1 & D2 & D3 & D4 & D5 & D6). destruct B2 as (E1 & E2 & E3 & E4 & E5 & E6).
    fold p in A4, A5, A6, C4, C5, C6, D4, D5, D6, E4, E5, E6.
    unfold same6. rewrite !combo_N, !combo_M, !combo_V. cbn [z_u z_w z_psi combo]. unfold combo. cbn [z_u z_w z_psi].
    rewrite A1, A2, A3, C1, C2, C3, D1, D2, D3, E1, E2, E3. split; [reflexivity|]. split; [reflexivity|]. split; [reflexivity|].
    assert (Q : forall x0 y0 x1 y1 x2 y2 x y e, x0 = y0 + e -> x1 = y1 + e -> x2 = y2 + e -> x = y + e -> 1 * x + -1 * (1 * (w0 * x0 + w1 * x1) + w2 * x2) = 1 * y + -1 * (1 * (w0 * y0 + w1 * y1) + w2 * y2)).
    { intros x0 y0 x1 y1 x2 y2 x' y e -> -> -> ->. replace w2 with (1 - w0 - w1) by lra. ring. }
    split; [|split].
    + apply (Q _ _ _ _ _ _ _ _ (sN p (z0 j (l j)) - sN p (z0 (S j) 0))); lra.
    + apply (Q _ _ _ _ _ _ _ _ (sM p (z0 j (l j)) - sM p (z0 (S j) 0))); lra.
    + apply (Q _ _ _ _ _ _ _ _ (sV p (z0 j (l j)) - sV p (z0 (S j) 0))); lra.
  - destruct F as (B & _). destruct F0 as (B0 & _). destruct F1 as (B1 & _). destruct F2 as (B2 & _).
    apply HE in B. apply HE in B0. apply HE in B1. apply HE in B2.
    destruct B as (A1 & A2 & A3). destruct B0 as (C1 & C2 & C3). destruct B1 as (D1 & D2 & D3). destruct B2 as (E1 & E2 & E3). fold p in A1, A2, A3, C1, C2, C3, D1, D2, D3, E1, E2, E3.
    unfold work. rewrite !combo_N, !combo_M, !combo_V. rewrite A1, A2, A3, C1, C2, C3, D1, D2, D3, E1, E2, E3.
    assert (Q : forall x, 1 * x + -1 * (1 * (w0 * x + w1 * x) + w2 * x) = 0) by (intros y; replace w2 with (1 - w0 - w1) by lra; ring). rewrite !Q. lra.
  - destruct T as (_ & _ & _ & A4 & A5 & A6). destruct T0 as (_ & _ & _ & C4 & C5 & C6). destruct T1 as (_ & _ & _ & D4 & D5 & D6). destruct T2 as (_ & _ & _ & E4 & E5 & E6).
    fold p in A4, A5, A6, C4, C5, C6, D4, D5, D6, E4, E5, E6.
    assert (Q : forall e0 e1 e2 x0 x1 x2 x, x0 = e0 + e1 * a0 + e2 * a0 ^ 2 -> x1 = e0 + e1 * a1 + e2 * a1 ^ 2 -> x2 = e0 + e1 * a2 + e2 * a2 ^ 2 -> x = e0 + e1 * a + e2 * a ^ 2 ->
      1 * x + -1 * (1 * (w0 * x0 + w1 * x1) + w2 * x2) = 0).
    { intros e0 e1 e2 x0 x1 x2 y -> -> -> ->. rewrite <- W2, <- W1. replace e0 with (e0 * (w0 + w1 + w2)) at 1 by (rewrite W0; ring). ring. }
    unfold work. rewrite !combo_N, !combo_M, !combo_V.
    rewrite (Q (sN p (z0 n (l n)) - sN p t0 + N) (qt ld + pt ld) 0) by lra.
    rewrite (Q (sM p (z0 n (l n)) - sM p t0 + M) (- c - V) (- (q / 2))) by lra.
    rewrite (Q (sV p (z0 n (l n)) - sV p t0 + V) q 0) by lra. lra.
Qed.
End Four.

Lemma weights a0 a1 a2 a : a0 <> a1 -> a0 <> a2 -> a1 <> a2 ->
  let w0 := (a - a1) * (a - a2) / ((a0 - a1) * (a0 - a2)) in let w1 := (a - a0) * (a - a2) / ((a1 - a0) * (a1 - a2)) in
  let w2 := (a - a0) * (a - a1) / ((a2 - a0) * (a2 - a1)) in
  w0 + w1 + w2 = 1 /\ w0 * a0 + w1 * a1 + w2 * a2 = a /\ w0 * a0 ^ 2 + w1 * a1 ^ 2 + w2 * a2 ^ 2 = a ^ 2.
Proof. intros H1 H2 H3 w0 w1 w2. unfold w0, w1, w2. repeat split; field; repeat split; lra. Qed.
Lemma fbvp_ext o kR phi n l l' m k k' z : (forall i, (i <= n)%nat -> l i = l' i /\ k i = k' i) ->
  fbvp o kR phi n l m k z -> fbvp o kR phi n l' m k' z.
Proof.
  intros H (A & B & C & D). split; [rewrite <- (proj2 (H 0%nat ltac:(lia))); exact A|].
  split; [rewrite <- (proj1 (H n ltac:(lia))), <- (proj2 (H n ltac:(lia))); exact B|]. split.
  - intros i Hi. rewrite <- (proj1 (H i ltac:(lia))). apply C. exact Hi.
  - intros i x Hi. rewrite <- (proj1 (H i Hi)), <- (proj2 (H i Hi)). apply D. exact Hi.
Qed.
Lemma mix_parabolic a0 a1 a2 z0 z1 z2 a :
  parabolic a0 a1 a2 z0 z1 z2 a (mix ((a - a1) * (a - a2) / ((a0 - a1) * (a0 - a2))) ((a - a0) * (a - a2) / ((a1 - a0) * (a1 - a2)))
    ((a - a0) * (a - a1) / ((a2 - a0) * (a2 - a1))) z0 z1 z2).
Proof. intros f Hf. unfold parabola, mix, combo. repeat (destruct Hf as [<-|Hf]; [cbn; ring|]). contradiction. Qed.

(** Polynomials. *)
Lemma quartic_scal c f : quartic f -> quartic (fun a => c * f a).
Proof. intros (c0 & c1 & c2 & c3 & c4 & H). exists (c * c0), (c * c1), (c * c2), (c * c3), (c * c4). intros a. rewrite H. ring. Qed.
Lemma quartic_plus f g : quartic f -> quartic g -> quartic (fun a => f a + g a).
Proof.
  intros (c0 & c1 & c2 & c3 & c4 & H) (d0 & d1 & d2 & d3 & d4 & K). exists (c0 + d0), (c1 + d1), (c2 + d2), (c3 + d3), (c4 + d4). intros a. rewrite H, K. ring.
Qed.
Lemma quartic_zero : quartic (fun _ => 0).
Proof. exists 0, 0, 0, 0, 0. intros a. ring. Qed.
Lemma parabola_square a0 a1 a2 y0 y1 y2 : quartic (fun a => parabola a0 a1 a2 y0 y1 y2 a ^ 2).
Proof.
  unfold parabola, Rdiv. set (e0 := / ((a0 - a1) * (a0 - a2))). set (e1 := / ((a1 - a0) * (a1 - a2))). set (e2 := / ((a2 - a0) * (a2 - a1))).
  set (k0 := y0 * e0 * (a1 * a2) + y1 * e1 * (a0 * a2) + y2 * e2 * (a0 * a1)).
  set (k1 := - (y0 * e0 * (a1 + a2) + y1 * e1 * (a0 + a2) + y2 * e2 * (a0 + a1))). set (k2 := y0 * e0 + y1 * e1 + y2 * e2).
  exists (k0 ^ 2), (2 * k0 * k1), (k1 ^ 2 + 2 * k0 * k2), (2 * k1 * k2), (k2 ^ 2). intros a. unfold k0, k1, k2. ring.
Qed.
Lemma quartic_tips ki n (f : nat -> R -> R) : (forall j, (j < n)%nat -> quartic (f j)) -> quartic (fun a => tip_sum ki n (fun j => f j a)).
Proof.
  intros H. unfold tip_sum. assert (G : forall js, (forall j, In j js -> (j < n)%nat) ->
    quartic (fun a => rsum (map (fun j => if Bool.bool_dec (nth j ki false) (nth (S j) ki false) then 0 else f j a) js))).
  { induction js as [|j js IH]; intros Hj; [exact quartic_zero|]. cbn [map]. unfold rsum in IH |- *. cbn [fold_right].
    apply (quartic_plus (fun a => if Bool.bool_dec (nth j ki false) (nth (S j) ki false) then 0 else f j a)).
    - destruct (Bool.bool_dec _ _); [exact quartic_zero|]. apply H, Hj. left. reflexivity.
    - apply IH. intros i Hi. apply Hj. right. exact Hi. }
  apply G. intros j Hj. apply in_seq in Hj. lia.
Qed.
