(** Proofs about short saw cuts on level ground (C127). *)
From Coquelicot Require Import Coquelicot.
Require Import Verif.Py Verif.MTools Verif.MEigen Verif.MFields Verif.SAdm Verif.MRaster
  Verif.MSolution Verif.SBeam Verif.SBvp Verif.SEig Verif.SMirror Verif.SSaw Verif.SEnergy Verif.PBeam Verif.PBeam2 Verif.PBvp Verif.PBvp2 Verif.PBalance
  Verif.PWell Verif.PWell2 Verif.PWell3 Verif.PBvp6 Verif.PMirror Verif.PSaw.
Open Scope R_scope.

Section Level.
Variables (o : obj) (kR phi : R) (n : nat) (l m : nat -> R) (k : nat -> bool) (i0 : nat).
Hypothesis Hr : ready o.
Hypothesis Hs : stable (o_par o).
Hypothesis Hkd : kind_of (o_system o) = Some KPst.
Hypothesis Hmd : o_mode o = Some ModeA.
Hypothesis Hl : forall i, (i <= n)%nat -> 0 <= l i.
Hypothesis Hi : (i0 <= n)%nat.
Hypothesis Hk : k i0 = true.
Hypothesis Hi1 : 0 < l i0.
Let p := o_par o.
Let ld := loads_of o phi.
Hypothesis Hqt : qt ld = 0.
Hypothesis Hpt : pt ld = 0.
Let q := qn ld + pn ld.
Let len (b : R) (i : nat) : R := if Nat.leb i n then l i else b.
Let sup (i : nat) : bool := if Nat.leb i n then k i else false.
Let F (b : R) (z : nat -> R -> vec6) : Prop := fbvp o kR phi (S n) (len b) m sup z.

Lemma inner b i : (i <= n)%nat -> len b i = l i /\ sup i = k i.
Proof. intros H. unfold len, sup. rewrite (proj2 (Nat.leb_le i n) H). auto. Qed.
Lemma outer b : len b (S n) = b /\ sup (S n) = false.
Proof. unfold len, sup. rewrite (proj2 (Nat.leb_gt (S n) n) ltac:(lia)). auto. Qed.
Lemma no_extra b : extra_moment p ld b = 0.
Proof. unfold extra_moment. destruct b; [reflexivity|]. rewrite Hpt. ring. Qed.
Lemma ends_free b z : F b z -> forces p (z 0%nat 0) 0 0 0 /\ forces p (z (S n) b) 0 0 0.
Proof.
  intros (A & B & _). rewrite (proj1 (outer b)) in B. unfold left_end in A. unfold right_end in B. rewrite Hkd in A, B. unfold pst_end in A, B. rewrite Hmd in A, B.
  split; [destruct (sup 0)|destruct (sup (S n))]; assumption.
Qed.
(** Forces at the tip: shear force linear, bending moment quadratic in the cut length. *)
Lemma tip_forces b z : 0 <= b -> F b z -> exists y, transition o phi (m n) (z n (l n)) y /\
  sN p y = 0 /\ sV p y = q * b /\ sM p y = - (q / 2 * b ^ 2).
Proof.
  intros Hb HF. destruct (ends_free b z HF) as [_ E]. destruct HF as (_ & _ & B2 & B3). exists (z (S n) 0).
  specialize (B2 n ltac:(lia)). rewrite (proj1 (inner b n (Nat.le_refl n))) in B2. split; [exact B2|].
  destruct (outer b) as [E1 E2].
  destruct (hanging_forces p ld 0 (z (S n)) b 0 0 0 Hb) as (A1 & A2 & A3); [|exact E|].
  - intros x Hx. specialize (B3 (S n) x ltac:(lia)). rewrite E1, E2 in B3. fold p in B3. fold ld in B3. rewrite no_extra in B3. exact (B3 Hx).
  - rewrite Hqt, Hpt in *. fold q in A2, A3. rewrite A1, A2, A3. repeat split; ring.
Qed.

Variables (a0 a1 a2 v0 v1 v2 : R) (z0 z1 z2 : nat -> R -> vec6).
Hypothesis Ha : 0 <= a0 /\ 0 <= a1 /\ 0 <= a2.
Hypothesis V0 : v0 + v1 + v2 = 0.
Hypothesis V1 : v0 * a0 + v1 * a1 + v2 * a2 = 1.
Hypothesis V2 : v0 * a0 ^ 2 + v1 * a1 ^ 2 + v2 * a2 ^ 2 = 0.
Hypothesis F0 : F a0 z0.
Hypothesis F1 : F a1 z1.
Hypothesis F2 : F a2 z2.
(** The tip gives way in the direction of the shear force. *)
Lemma linear_part : q <> 0 -> 0 < q * z_w (mix v0 v1 v2 (z0 n (l n)) (z1 n (l n)) (z2 n (l n))).
Proof.
  intros Hq. pose proof Hr as (La & Fn & _). fold p in La, Fn. destruct Ha as (Ha0 & Ha1 & Ha2).
  destruct (tip_forces a0 z0 Ha0 F0) as (t0 & T0 & N0 & S0 & M0). destruct (tip_forces a1 z1 Ha1 F1) as (t1 & T1 & N1 & S1 & M1).
  destruct (tip_forces a2 z2 Ha2 F2) as (t2 & T2 & N2 & S2 & M2).
  set (y := fun i s => mix v0 v1 v2 (z0 i s) (z1 i s) (z2 i s)).
  assert (Q : forall x, 1 * (v0 * x + v1 * x) + v2 * x = 0) by (intros x; replace v2 with (- v0 - v1) by lra; ring).
  assert (Tf : sN p (y n (l n)) = 0 /\ sM p (y n (l n)) = 0 /\ sV p (y n (l n)) = q).
  { destruct T0 as (_ & _ & _ & C4 & C5 & C6). destruct T1 as (_ & _ & _ & D4 & D5 & D6). destruct T2 as (_ & _ & _ & E4 & E5 & E6).
    fold p in C4, C5, C6, D4, D5, D6, E4, E5, E6.
    assert (X : forall e0 e1 e2 x0 x1 x2, x0 = e0 + e1 * a0 + e2 * a0 ^ 2 -> x1 = e0 + e1 * a1 + e2 * a1 ^ 2 -> x2 = e0 + e1 * a2 + e2 * a2 ^ 2 ->
      1 * (v0 * x0 + v1 * x1) + v2 * x2 = e1).
    { intros e0 e1 e2 x0 x1 x2 -> -> ->. transitivity (e0 * (v0 + v1 + v2) + e1 * (v0 * a0 + v1 * a1 + v2 * a2) + e2 * (v0 * a0 ^ 2 + v1 * a1 ^ 2 + v2 * a2 ^ 2)); [ring|].
      rewrite V0, V1, V2. ring. }
    unfold y, mix. rewrite !combo_N, !combo_M, !combo_V.
    rewrite (X (sN p (z0 n (l n)) - sN p t0) 0 0) by lra.
    rewrite (X (sM p (z0 n (l n)) - sM p t0) 0 (- (q / 2))) by lra.
    rewrite (X (sV p (z0 n (l n)) - sV p t0) q 0) by lra. auto. }
  destruct Tf as (TN & TM & TV). change (0 < q * z_w (y n (l n))). apply Rnot_le_lt. intros Neg.
  assert (Z : y n (l n) = vzero).
  { apply (homogeneous_unique p n l k y i0); try assumption; try lia; [| | | |specialize (Hl n ltac:(lia)); lra].
    - intros j s Hj Hsx. destruct F0 as (_ & _ & _ & B0). destruct F1 as (_ & _ & _ & B1). destruct F2 as (_ & _ & _ & B2).
      specialize (B0 j s ltac:(lia)). specialize (B1 j s ltac:(lia)). specialize (B2 j s ltac:(lia)).
      rewrite (proj1 (inner a0 j Hj)), (proj2 (inner a0 j Hj)) in B0. rewrite (proj1 (inner a1 j Hj)), (proj2 (inner a0 j Hj)) in B1. rewrite (proj1 (inner a2 j Hj)), (proj2 (inner a0 j Hj)) in B2.
      pose proof (balance_combo _ _ _ _ _ _ _ _ 1 v2 _ (balance_combo _ _ _ _ _ _ _ _ v0 v1 _ (B0 Hsx) (B1 Hsx)) (B2 Hsx)) as H.
      cbn [qn qt pn pt] in H. rewrite !Q in H. exact H.
    - intros j Hj. destruct F0 as (_ & _ & B0 & _). destruct F1 as (_ & _ & B1 & _). destruct F2 as (_ & _ & B2 & _).
      specialize (B0 j ltac:(lia)). specialize (B1 j ltac:(lia)). specialize (B2 j ltac:(lia)). assert (Hj' : (j <= n)%nat) by lia.
      rewrite (proj1 (inner a0 j Hj')) in B0. rewrite (proj1 (inner a1 j Hj')) in B1. rewrite (proj1 (inner a2 j Hj')) in B2.
      destruct B0 as (C1 & C2 & C3 & C4 & C5 & C6). destruct B1 as (D1 & D2 & D3 & D4 & D5 & D6). destruct B2 as (E1 & E2 & E3 & E4 & E5 & E6).
      fold p in C4, C5, C6, D4, D5, D6, E4, E5, E6.
      unfold same6, y, mix. rewrite !combo_N, !combo_M, !combo_V. unfold combo. cbn [z_u z_w z_psi].
      rewrite C1, C2, C3, D1, D2, D3, E1, E2, E3. split; [reflexivity|]. split; [reflexivity|]. split; [reflexivity|].
      assert (X : forall x0 y0 x1 y1 x2 y2 e, x0 = y0 + e -> x1 = y1 + e -> x2 = y2 + e -> 1 * (v0 * x0 + v1 * x1) + v2 * x2 = 1 * (v0 * y0 + v1 * y1) + v2 * y2).
      { intros x0 y0 x1 y1 x2 y2 e -> -> ->. replace v2 with (- v0 - v1) by lra. ring. }
      split; [|split].
      + apply (X _ _ _ _ _ _ (sN p (z0 j (l j)) - sN p (z0 (S j) 0))); lra.
      + apply (X _ _ _ _ _ _ (sM p (z0 j (l j)) - sM p (z0 (S j) 0))); lra.
      + apply (X _ _ _ _ _ _ (sV p (z0 j (l j)) - sV p (z0 (S j) 0))); lra.
    - destruct (ends_free a0 z0 F0) as [(C1 & C2 & C3) _]. destruct (ends_free a1 z1 F1) as [(D1 & D2 & D3) _]. destruct (ends_free a2 z2 F2) as [(E1 & E2 & E3) _].
      unfold work, y, mix. rewrite !combo_N, !combo_M, !combo_V, C1, C2, C3, D1, D2, D3, E1, E2, E3, !Q. lra.
    - unfold work. rewrite TN, TM, TV. lra. }
  apply Hq. rewrite <- TV, Z. unfold sV, vzero. cbn. ring.
Qed.
End Level.

(** Before the cut the whole slab rests uniformly. *)
Section Rest.
Variables (o : obj) (kR phi : R) (n : nat) (l : nat -> R) (z : nat -> R -> vec6) (i0 : nat).
Hypothesis Hr : ready o.
Hypothesis Hs : stable (o_par o).
Hypothesis Hkd : kind_of (o_system o) = Some KPst.
Hypothesis Hmd : o_mode o = Some ModeA.
Hypothesis Hl : forall i, (i <= n)%nat -> 0 <= l i.
Hypothesis Hi : (i0 <= n)%nat.
Hypothesis Hi1 : 0 < l i0.
Let p := o_par o.
Let ld := loads_of o phi.
Hypothesis Hqt : qt ld = 0.
Hypothesis Hpt : pt ld = 0.
Let q := qn ld + pn ld.
Hypothesis HF : fbvp o kR phi (S n) (fun i => if Nat.leb i n then l i else 0) (fun _ => 0) (fun i => if Nat.leb i n then true else false) z.
Let rest := mkV 0 0 (q / kn p) 0 0 0.
Lemma uncut i x : (i <= n)%nat -> 0 <= x <= l i -> z i x = rest.
Proof.
  intros Hin Hx. pose proof Hr as (La & Fn & _). fold p in La, Fn. pose proof Fn as (Kn & _).
  assert (TT : forall x y, transition o phi 0 x y -> z_u x = z_u y /\ z_w x = z_w y /\ z_psi x = z_psi y /\ sN p x = sN p y /\ sM p x = sM p y /\ sV p x = sV p y).
  { intros u v. unfold transition. rewrite Hkd. cbv zeta. intros (H1 & H2 & H3 & H4 & H5 & H6). fold p in H4, H5, H6.
    replace (0 * o_g o / 1000 / o_lski o) with 0 in H4, H5, H6 by (unfold Rdiv; ring). repeat split; lra. }
  destruct (ends_free o kR phi n l (fun _ => 0) (fun _ => true) i0 Hkd Hmd Hi 0 z HF) as [(A1 & A2 & A3) _]. fold p in A1, A2, A3.
  destruct (tip_forces o kR phi n l (fun _ => 0) (fun _ => true) i0 Hkd Hmd Hi Hqt Hpt 0 z (Rle_refl 0) HF) as (t & T & T1 & T2 & T3). fold p in T1, T2, T3.
  apply TT in T. destruct T as (_ & _ & _ & B1 & B2 & B3). destruct HF as (_ & _ & Tr & Ba).
  assert (RN : sN p rest = 0 /\ sM p rest = 0 /\ sV p rest = 0) by (unfold sN, sM, sV, rest; cbn; repeat split; ring). destruct RN as (R1 & R2 & R3).
  apply diff_zero.
  apply (homogeneous_unique p n l (fun _ => true) (fun i s => combo 1 (z i s) (-1) rest) i0); try assumption; try reflexivity.
  - intros j s Hj Hsx. specialize (Ba j s ltac:(lia)). cbv beta in Ba. rewrite (proj2 (Nat.leb_le j n) Hj) in Ba. specialize (Ba Hsx). fold p in Ba. fold ld in Ba.
    assert (Rb : balance p ld true 0 (fun _ => rest) s).
    { assert (Dc : forall c d : R, d = 0 -> is_derive (fun _ : R => c) s d) by (intros c d ->; apply (is_derive_const (V := R_NormedModule))).
      unfold balance. split6; apply Dc; unfold rest, s_tau, s_sig, sV, sN, sM; cbn [z_u z_du z_w z_dw z_psi z_dpsi]; rewrite ?Hqt, ?Hpt; try ring.
      fold q. unfold q. field. lra. }
    pose proof (balance_combo _ _ _ _ _ _ _ _ 1 (-1) _ Ba Rb) as H. cbn [qn qt pn pt] in H.
    assert (Q : forall x, 1 * x + -1 * x = 0) by (intros; ring). unfold extra_moment in H. rewrite !Q in H. exact H.
  - intros j Hj. specialize (Tr j ltac:(lia)). cbv beta in Tr. rewrite (proj2 (Nat.leb_le j n) ltac:(lia)) in Tr. apply TT in Tr.
    destruct Tr as (C1 & C2 & C3 & C4 & C5 & C6). unfold same6. rewrite !combo_N, !combo_M, !combo_V. unfold combo. cbn [z_u z_w z_psi]. rewrite C1, C2, C3, C4, C5, C6. auto 10.
  - unfold work. rewrite !combo_N, !combo_M, !combo_V, A1, A2, A3, R1, R2, R3. lra.
  - unfold work. rewrite !combo_N, !combo_M, !combo_V, B1, B2, B3, T1, T2, T3, R1, R2, R3. replace (0 ^ 2) with 0 by ring. fold q. lra.
Qed.
End Rest.
Lemma fbvp_ext2 o kR phi n l l' m m' k k' z : (forall i, (i <= n)%nat -> l i = l' i /\ k i = k' i /\ m i = m' i) ->
  fbvp o kR phi n l m k z -> fbvp o kR phi n l' m' k' z.
Proof.
  intros H (A & B & C & D). apply (fbvp_ext o kR phi n l l' m' k k'); [intros i Hi; destruct (H i Hi) as (? & ? & ?); auto|].
  split; [exact A|]. split; [exact B|]. split; [|exact D]. intros i Hi. destruct (H i ltac:(lia)) as (_ & _ & <-). apply C. exact Hi.
Qed.
