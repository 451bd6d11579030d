(** Uniqueness for arbitrary fields; mirror symmetry (C24) and superposition (C56). *)
From Coquelicot Require Import Coquelicot.
Require Import Verif.Py Verif.MTools Verif.MEigen Verif.MFields Verif.SAdm Verif.MRaster
  Verif.MSolution Verif.SBeam Verif.SBvp Verif.SEig Verif.SMirror Verif.PBeam Verif.PBeam2 Verif.PBvp Verif.PBvp2 Verif.PBalance
  Verif.PWell Verif.PWell2 Verif.PWell3 Verif.PBvp6.

(** The boundary value problem for arbitrary fields. *)
Definition fbvp (o : obj) (kR phi : R) (n : nat) (l m : nat -> R) (k : nat -> bool) (z : nat -> R -> vec6) : Prop :=
  left_end o kR phi (k 0%nat) (z 0%nat 0) /\ right_end o kR phi (k n) (z n (l n)) /\
  (forall i, (i < n)%nat -> transition o phi (m i) (z i (l i)) (z (S i) 0)) /\
  (forall i x, (i <= n)%nat -> 0 <= x <= l i ->
     balance (o_par o) (loads_of o phi) (k i) (extra_moment (o_par o) (loads_of o phi) (k i)) (z i) x).

Lemma combo_N p a x b y : sN p (combo a x b y) = a * sN p x + b * sN p y.
Proof. unfold sN, combo; simpl; ring. Qed.
Lemma combo_M p a x b y : sM p (combo a x b y) = a * sM p x + b * sM p y.
Proof. unfold sM, combo; simpl; ring. Qed.
Lemma combo_V p a x b y : sV p (combo a x b y) = a * sV p x + b * sV p y.
Proof. unfold sV, combo; simpl; ring. Qed.
Lemma combo_tau p k a x b y : s_tau p k (combo a x b y) = a * s_tau p k x + b * s_tau p k y.
Proof. unfold s_tau, combo; destruct k; simpl; ring. Qed.
Lemma combo_sig p k a x b y : s_sig p k (combo a x b y) = a * s_sig p k x + b * s_sig p k y.
Proof. unfold s_sig, combo; destruct k; simpl; ring. Qed.

Lemma is_derive_combo (f g : R -> R) a b x df dg : is_derive f x df -> is_derive g x dg ->
  is_derive (fun s => a * f s + b * g s) x (a * df + b * dg).
Proof.
  intros Hf Hg. apply (is_derive_plus (V := R_NormedModule) (fun s => a * f s) (fun s => b * g s));
    [apply (is_derive_scal f x a df Hf)|apply (is_derive_scal g x b dg Hg)].
Qed.

Lemma balance_combo p l1 l2 bed e1 e2 f g a b x : balance p l1 bed e1 f x -> balance p l2 bed e2 g x ->
  balance p (mkLd (a * qn l1 + b * qn l2) (a * qt l1 + b * qt l2) (a * pn l1 + b * pn l2) (a * pt l1 + b * pt l2)) bed
    (a * e1 + b * e2) (fun s => combo a (f s) b (g s)) x.
Proof.
  intros (H1 & H2 & H3 & H4 & H5 & H6) (G1 & G2 & G3 & G4 & G5 & G6). unfold balance.
  rewrite combo_tau, combo_sig, combo_V. cbn [qn qt pn pt].
  split6.
  - apply (is_derive_combo _ _ a b _ _ _ H1 G1).
  - apply (is_derive_combo _ _ a b _ _ _ H2 G2).
  - apply (is_derive_combo _ _ a b _ _ _ H3 G3).
  - eapply is_derive_eq; [eapply is_derive_ext; [|apply (is_derive_combo _ _ a b _ _ _ H4 G4)]|].
    + intros s. simpl. rewrite combo_N. reflexivity.
    + ring.
  - eapply is_derive_eq; [eapply is_derive_ext; [|apply (is_derive_combo _ _ a b _ _ _ H5 G5)]|].
    + intros s. simpl. rewrite combo_V. reflexivity.
    + ring.
  - eapply is_derive_eq; [eapply is_derive_ext; [|apply (is_derive_combo _ _ a b _ _ _ H6 G6)]|].
    + intros s. simpl. rewrite combo_M. reflexivity.
    + ring.
Qed.

Lemma diff_zero x y : combo 1 x (-1) y = vzero -> x = y.
Proof.
  intros H. injection H as H1 H2 H3 H4 H5 H6. apply vec6_eq; lra.
Qed.

(** Difference of two states with the same end condition. *)
Lemma left_work o kR phi k x y : 0 <= kR -> left_end o kR phi k x -> left_end o kR phi k y ->
  0 <= work (o_par o) (combo 1 x (-1) y).
Proof.
  intros HR. unfold left_end, work. rewrite combo_N, combo_M, combo_V.
  destruct (kind_of (o_system o)) as [[]|]; [|..|contradiction].
  - unfold pst_end. destruct k; [|destruct (o_mode o) as [[]|]; [| | |contradiction]].
    + intros (A1 & A2 & A3) (B1 & B2 & B3). rewrite A1, A2, A3, B1, B2, B3. lra.
    + intros (A1 & A2 & A3) (B1 & B2 & B3). rewrite A1, A2, A3, B1, B2, B3. lra.
    + intros (A1 & A2 & A3) (B1 & B2 & B3). rewrite A1, A2, B1, B2. simpl. rewrite A3, B3. lra.
    + intros (A1 & A2 & A3) (B1 & B2 & B3). rewrite A1, B1. simpl. rewrite A3, B3.
      replace (sM (o_par o) x) with (kR * z_psi x) by lra. replace (sM (o_par o) y) with (kR * z_psi y) by lra.
      pose proof (Rmult_le_pos _ _ HR (pow2_ge_0 (z_psi x - z_psi y))). nra.
  - unfold face_end. destruct (calc_vertical_bc_center_of_gravity (o_slab o) phi) as [[xs zs] m].
    intros (A1 & A2 & A3) (B1 & B2 & B3). rewrite A1, A2, A3, B1, B2, B3. lra.
  - intros (A1 & A2 & A3) (B1 & B2 & B3). simpl. rewrite A1, A2, A3, B1, B2, B3. lra.
  - intros (A1 & A2 & A3) (B1 & B2 & B3). rewrite A1, A2, A3, B1, B2, B3. lra.
  - intros (A1 & A2 & A3) (B1 & B2 & B3). rewrite A1, A2, A3, B1, B2, B3. lra.
Qed.
Lemma right_work o kR phi k x y : 0 <= kR -> right_end o kR phi k x -> right_end o kR phi k y ->
  work (o_par o) (combo 1 x (-1) y) <= 0.
Proof.
  intros HR. unfold right_end, work. rewrite combo_N, combo_M, combo_V.
  destruct (kind_of (o_system o)) as [[]|]; [|..|contradiction].
  - unfold pst_end. destruct k; [|destruct (o_mode o) as [[]|]; [| | |contradiction]].
    + intros (A1 & A2 & A3) (B1 & B2 & B3). rewrite A1, A2, A3, B1, B2, B3. lra.
    + intros (A1 & A2 & A3) (B1 & B2 & B3). rewrite A1, A2, A3, B1, B2, B3. lra.
    + intros (A1 & A2 & A3) (B1 & B2 & B3). rewrite A1, A2, B1, B2. simpl. rewrite A3, B3. lra.
    + intros (A1 & A2 & A3) (B1 & B2 & B3). rewrite A1, B1. simpl. rewrite A3, B3.
      replace (sM (o_par o) x) with (- (kR * z_psi x)) by lra. replace (sM (o_par o) y) with (- (kR * z_psi y)) by lra.
      pose proof (Rmult_le_pos _ _ HR (pow2_ge_0 (z_psi x - z_psi y))). nra.
  - unfold face_end. destruct (calc_vertical_bc_center_of_gravity (o_slab o) phi) as [[xs zs] m].
    intros (A1 & A2 & A3) (B1 & B2 & B3). rewrite A1, A2, A3, B1, B2, B3. lra.
  - intros (A1 & A2 & A3) (B1 & B2 & B3). simpl. rewrite A1, A2, A3, B1, B2, B3. lra.
  - intros (A1 & A2 & A3) (B1 & B2 & B3). rewrite A1, A2, A3, B1, B2, B3. lra.
  - intros (A1 & A2 & A3) (B1 & B2 & B3). rewrite A1, A2, A3, B1, B2, B3. lra.
Qed.

Lemma fbvp_unique o kR phi n l m k y z i0 : lam_ok (o_par o) -> fnd_ok (o_par o) -> stable (o_par o) -> 0 <= kR ->
  (forall i, (i <= n)%nat -> 0 <= l i) -> (i0 <= n)%nat -> k i0 = true -> 0 < l i0 ->
  fbvp o kR phi n l m k y -> fbvp o kR phi n l m k z ->
  forall i x, (i <= n)%nat -> 0 <= x <= l i -> y i x = z i x.
Proof.
  intros Hl Hf Hs HR Hp Hi0 Hk0 Hl0 (A1 & A2 & A3 & A4) (B1 & B2 & B3 & B4) i x Hi Hx.
  apply diff_zero.
  apply (homogeneous_unique (o_par o) n l k (fun i s => combo 1 (y i s) (-1) (z i s)) i0); try assumption.
  - intros j s Hj Hsx. pose proof (balance_combo _ _ _ _ _ _ _ _ 1 (-1) _ (A4 j s Hj Hsx) (B4 j s Hj Hsx)) as H.
    replace (mkLd _ _ _ _) with no_loads in H by (unfold no_loads; f_equal; ring).
    replace (1 * _ + _) with 0 in H by ring. exact H.
  - intros j Hj. destruct (A3 j Hj) as (T1 & T2 & T3 & T4 & T5 & T6). destruct (B3 j Hj) as (U1 & U2 & U3 & U4 & U5 & U6).
    unfold same6. rewrite !combo_N, !combo_M, !combo_V. simpl. repeat split; lra.
  - exact (left_work o kR phi _ _ _ HR A1 B1).
  - exact (right_work o kR phi _ _ _ HR A2 B2).
Qed.

Lemma bvp_fbvp o kR phi li mi ki Cs : ready o -> li <> [] -> bvp o kR phi li mi ki Cs ->
  fbvp o kR phi (List.length li - 1) (fun i => nth i li 0) (fun i => nth i mi 0) (fun i => nth i ki false)
    (fun i => field o phi (nth i li 0) (nth i ki false) (nth i Cs [])).
Proof.
  intros Hr Hn (H1 & H2 & H3). assert (L : (0 < List.length li)%nat) by (destruct li; [congruence|simpl; lia]).
  destruct Hr as (Hl & Hf & He).
  split; [exact H1|]. split; [exact H2|]. split.
  - intros i Hi. apply H3. lia.
  - intros i x _ _. apply field_balance; [exact Hl|exact Hf|]. apply ready_eig. exact (conj Hl (conj Hf He)).
Qed.

(** ** Mirror *)
Lemma mirror_N p z : sN p (mirror z) = sN p z. Proof. unfold sN, mirror; simpl; ring. Qed.
Lemma mirror_M p z : sM p (mirror z) = sM p z. Proof. unfold sM, mirror; simpl; ring. Qed.
Lemma mirror_V p z : sV p (mirror z) = - sV p z. Proof. unfold sV, mirror; simpl; ring. Qed.
Lemma mirror_tau p k z : s_tau p k (mirror z) = - s_tau p k z.
Proof. unfold s_tau, mirror; destruct k; simpl; lra. Qed.
Lemma mirror_sig p k z : s_sig p k (mirror z) = s_sig p k z. Proof. reflexivity. Qed.

Lemma is_derive_flip (f : R -> R) l x d : is_derive f (l - x) d -> is_derive (fun s => f (l - s)) x (- d).
Proof.
  intros H. eapply is_derive_eq.
  - apply (is_derive_comp f (fun s => l - s) x d (-1)); [exact H|].
    eapply is_derive_eq; [apply (is_derive_minus (V := R_NormedModule) (fun _ => l) (fun s => s)); [apply is_derive_const|apply is_derive_id]|].
    unfold minus, plus, opp, zero, one; simpl. ring.
  - unfold scal; simpl; unfold mult; simpl. ring.
Qed.

Definition flip (ld : loads) : loads := mkLd (qn ld) (- qt ld) (pn ld) (- pt ld).
Lemma balance_mirror p ld bed em z l x : balance p ld bed em z (l - x) ->
  balance p (flip ld) bed (- em) (fun s => mirror (z (l - s))) x.
Proof.
  intros (H1 & H2 & H3 & H4 & H5 & H6). unfold balance. rewrite mirror_tau, mirror_sig, mirror_V.
  unfold flip. cbn [qn qt pn pt].
  assert (O : forall (f : R -> R) d, is_derive f (l - x) d -> is_derive (fun s => - f (l - s)) x d).
  { intros f d H. apply is_derive_flip in H.
    eapply is_derive_eq; [apply (is_derive_opp (fun s => f (l - s))); exact H|]. unfold opp; simpl; ring. }
  split6.
  - apply (O _ _ H1).
  - apply (is_derive_flip _ l x _ H2).
  - apply (O _ _ H3).
  - eapply is_derive_eq; [eapply is_derive_ext; [|apply (is_derive_flip _ l x _ H4)]|].
    + intros s. simpl. rewrite mirror_N. reflexivity.
    + ring.
  - eapply is_derive_eq; [eapply is_derive_ext; [|apply (O _ _ H5)]|].
    + intros s. simpl. rewrite mirror_V. reflexivity.
    + ring.
  - eapply is_derive_eq; [eapply is_derive_ext; [|apply (is_derive_flip _ l x _ H6)]|].
    + intros s. simpl. rewrite mirror_M. reflexivity.
    + ring.
Qed.

Lemma neg_deg phi : deg2rad (- phi) = - deg2rad phi.
Proof. unfold deg2rad, Rdiv. ring. Qed.
Lemma loads_mirror o o' phi : o_g o' = o_g o -> o_p o' = o_p o -> o_slab o' = o_slab o ->
  loads_of o' (- phi) = flip (loads_of o phi).
Proof.
  intros G P S0. unfold loads_of, get_weight_load, get_surface_load, flip. rewrite G, P, S0, neg_deg, cos_neg, sin_neg.
  cbn [qn qt pn pt]. f_equal; ring.
Qed.

Definition mirrored_kind (k : syskind) : Prop := k = KPst \/ k = KSkier.

Section Mirror.
Variables (o o' : obj) (kR phi : R) (kd : syskind).
Hypothesis S0 : same_structure o o'.
Hypothesis L0 : same_loading o o'.
Hypothesis K0' : kind_of (o_system o) = Some kd.
Hypothesis K1' : kind_of (o_system o') = Some kd.
Hypothesis MK : mirrored_kind kd.

Lemma mloads : loads_of o' (- phi) = flip (loads_of o phi).
Proof. destruct S0 as (_ & _ & S1 & _). destruct L0 as (G & P & _). apply loads_mirror; assumption. Qed.
Lemma pst_mirror sgn k z : pst_end o kR phi sgn k z -> pst_end o' kR (- phi) (- sgn) k (mirror z).
Proof.
  destruct S0 as (P1 & _ & _ & _ & P2 & P3 & P4). destruct L0 as (_ & _ & P5).
  unfold pst_end. rewrite P1, P2, P3, P4, P5, mloads. unfold forces. rewrite mirror_N, mirror_M, mirror_V.
  destruct k; [intros (A & B & C); repeat split; lra|].
  destruct (o_mode o) as [[]|]; [| | |intros []].
  - intros (A & B & C); repeat split; lra.
  - intros (A & B & C). repeat split; try lra; simpl; lra.
  - intros (A & B & C). unfold flip. cbn [qt pt]. repeat split; try (simpl; lra). rewrite A. ring.
Qed.
Lemma far_mirror z : far_field o phi z -> far_field o' (- phi) (mirror z).
Proof.
  destruct S0 as (P1 & _). unfold far_field. rewrite P1, mloads. intros (A & B & C). unfold mirror, flip.
  simpl in *. rewrite A, B, C. unfold Rdiv. repeat split; ring.
Qed.
Lemma left_mirror k z : right_end o kR phi k z -> left_end o' kR (- phi) k (mirror z).
Proof.
  unfold left_end, right_end. rewrite K0', K1'. destruct MK as [-> | ->].
  - intros H. exact (pst_mirror 1 k z H).
  - apply far_mirror.
Qed.
Lemma right_mirror k z : left_end o kR phi k z -> right_end o' kR (- phi) k (mirror z).
Proof.
  unfold left_end, right_end. rewrite K0', K1'. destruct MK as [-> | ->].
  - intros H. apply pst_mirror in H. replace (- (-1)) with 1 in H by ring. exact H.
  - apply far_mirror.
Qed.
Lemma transition_mirror m x y : transition o phi m x y -> transition o' (- phi) m (mirror y) (mirror x).
Proof.
  destruct S0 as (P1 & _ & _ & P2 & _). destruct L0 as (P3 & _).
  unfold transition. rewrite K0', K1', P1, P2, P3, !mirror_N, !mirror_M, !mirror_V.
  replace (- phi * PI / 180) with (- (phi * PI / 180)) by (unfold Rdiv; ring). rewrite cos_neg, sin_neg.
  intros (A & B & C & D & E & F). simpl. repeat split; lra.
Qed.

Lemma fbvp_mirror n l m k z : fbvp o kR phi n l m k z ->
  fbvp o' kR (- phi) n (fun i => l (n - i)%nat) (fun i => m (n - S i)%nat) (fun i => k (n - i)%nat)
    (fun i s => mirror (z (n - i)%nat (l (n - i)%nat - s))).
Proof.
  intros (H1 & H2 & H3 & H4). split; [|split; [|split]].
  - rewrite Nat.sub_0_r, Rminus_0_r. apply left_mirror. exact H2.
  - rewrite Nat.sub_diag. replace (l 0%nat - l 0%nat) with 0 by ring. apply right_mirror. exact H1.
  - intros i Hi. replace (l (n - i)%nat - l (n - i)%nat) with 0 by ring. rewrite Rminus_0_r.
    apply transition_mirror. replace (n - i)%nat with (S (n - S i)) by lia. apply H3. lia.
  - intros i x Hi Hx. specialize (H4 (n - i)%nat (l (n - i)%nat - x) ltac:(lia) ltac:(lra)).
    destruct S0 as (P1 & _). rewrite P1, mloads.
    apply balance_mirror in H4.
    replace (extra_moment (o_par o) (flip (loads_of o phi)) (k (n - i)%nat))
      with (- extra_moment (o_par o) (loads_of o phi) (k (n - i)%nat)); [exact H4|].
    unfold extra_moment, flip. destruct (k (n - i)%nat); simpl; ring.
Qed.

Lemma mirror_fields li mi ki Cs Cs' : ready o -> stable (o_par o) -> 0 <= kR -> proper_segments li ki ->
  List.length ki = List.length li -> List.length li = S (List.length mi) ->
  bvp o kR phi li mi ki Cs -> bvp o' kR (- phi) (rev li) (rev mi) (rev ki) Cs' ->
  forall i s, (i < List.length li)%nat -> 0 <= s <= nth i li 0 ->
    field o' (- phi) (nth i li 0) (nth i ki false) (nth (List.length li - 1 - i) Cs' []) s
    = mirror (field o phi (nth i li 0) (nth i ki false) (nth i Cs []) (nth i li 0 - s)).
Proof.
  intros Hr Hs HR (Hp & i0 & Hi0 & Hk0 & Hl0) Lk Lm HB HB'.
  assert (Hn : li <> []) by (destruct li; [simpl in Lm; lia|discriminate]).
  pose proof S0 as (P1 & P2 & _).
  assert (Hr' : ready o') by (unfold ready; rewrite P1, P2; exact Hr).
  assert (Hn' : rev li <> []) by (intros E; apply Hn; rewrite <- (rev_involutive li), E; reflexivity).
  pose proof (fbvp_mirror _ _ _ _ _ (bvp_fbvp o kR phi li mi ki Cs Hr Hn HB)) as F1.
  pose proof (bvp_fbvp o' kR (- phi) (rev li) (rev mi) (rev ki) Cs' Hr' Hn' HB') as F2.
  rewrite rev_length in F2. set (n := (List.length li - 1)%nat) in *.
  set (z' := fun i => field o' (- phi) (nth i (rev li) 0) (nth i (rev ki) false) (nth i Cs' [])) in F2.
  assert (E1 : forall i, (i <= n)%nat -> nth i (rev li) 0 = nth (n - i) li 0).
  { intros i Hi. rewrite rev_nth by lia. f_equal. lia. }
  assert (E2 : forall i, (i <= n)%nat -> nth i (rev ki) false = nth (n - i) ki false).
  { intros i Hi. rewrite rev_nth by lia. f_equal. lia. }
  assert (E3 : forall i, (i < n)%nat -> nth i (rev mi) 0 = nth (n - S i) mi 0).
  { intros i Hi. rewrite rev_nth by lia. f_equal. lia. }
  assert (F3 : fbvp o' kR (- phi) n (fun i => nth (n - i) li 0) (fun i => nth (n - S i) mi 0) (fun i => nth (n - i) ki false) z').
  { destruct F2 as (G1 & G2 & G3 & G4). split; [|split; [|split]].
    - rewrite <- E2 by lia. exact G1.
    - rewrite <- E2, <- E1 by lia. exact G2.
    - intros i Hi. rewrite <- E1, <- E3 by lia. apply G3. exact Hi.
    - intros i x Hi Hx. rewrite <- E2 by lia. rewrite <- E1 in Hx by lia. apply G4; assumption. }
  destruct Hr as (Hl & Hf & _).
  intros i s Hi Hx.
  assert (Q : z' (n - i)%nat s = mirror (field o phi (nth (n - (n - i)) li 0) (nth (n - (n - i)) ki false) (nth (n - (n - i)) Cs []) (nth (n - (n - i)) li 0 - s))).
  { apply (fbvp_unique o' kR (- phi) n _ _ _ z' _ (n - i0)%nat) with (9 := F3) (10 := F1).
    - rewrite P1; exact Hl.
    - rewrite P1; exact Hf.
    - rewrite P1; exact Hs.
    - exact HR.
    - intros j Hj. apply Hp. lia.
    - lia.
    - replace (n - (n - i0))%nat with i0 by lia. exact Hk0.
    - replace (n - (n - i0))%nat with i0 by lia. exact Hl0.
    - lia.
    - replace (n - (n - i))%nat with i by lia. exact Hx. }
  unfold z' in Q. rewrite E1, E2 in Q by lia. replace (n - (n - i))%nat with i in Q by lia. exact Q.
Qed.
End Mirror.

(** ** Superposition *)
Lemma combo_loads a b o1 o2 o3 phi : o_slab o2 = o_slab o1 -> o_slab o3 = o_slab o1 ->
  o_g o3 = a * o_g o1 + b * o_g o2 -> o_p o3 = a * o_p o1 + b * o_p o2 ->
  let l1 := loads_of o1 phi in let l2 := loads_of o2 phi in
  loads_of o3 phi = mkLd (a * qn l1 + b * qn l2) (a * qt l1 + b * qt l2) (a * pn l1 + b * pn l2) (a * pt l1 + b * pt l2).
Proof.
  intros E2 E3 G P. unfold loads_of, get_weight_load, get_surface_load. rewrite E2, E3, G, P.
  assert (W : forall g, rsum (map (fun p => p_rho p * (1 / 1000000000000) * g * p_h p) (o_slab o1))
    = g * rsum (map (fun p => p_rho p * (1 / 1000000000000) * p_h p) (o_slab o1))).
  { intros g. generalize (o_slab o1). intros sl. induction sl as [|q s IH]; simpl; [ring|]. rewrite IH. ring. }
  rewrite !W. cbn [qn qt pn pt]. f_equal; ring.
Qed.

Section Combine.
Variables (a b : R) (o1 o2 o3 : obj) (kR phi : R) (kd : syskind).
Hypothesis S2 : same_structure o1 o2.
Hypothesis S3 : same_structure o1 o3.
Hypothesis K1' : kind_of (o_system o1) = Some kd.
Hypothesis K2' : kind_of (o_system o2) = Some kd.
Hypothesis K3' : kind_of (o_system o3) = Some kd.
Hypothesis NU : kd = KPst \/ kd = KVpst \/ kd = KSkier.
Variables m1 m2 m3 : list R.
Hypothesis HC : combined_loading a b o1 o2 o3 m1 m2 m3.

Lemma cl : let l1 := loads_of o1 phi in let l2 := loads_of o2 phi in
  loads_of o3 phi = mkLd (a * qn l1 + b * qn l2) (a * qt l1 + b * qt l2) (a * pn l1 + b * pn l2) (a * pt l1 + b * pt l2).
Proof.
  destruct S2 as (_ & _ & E2 & _). destruct S3 as (_ & _ & E3 & _). destruct HC as (G & P & _).
  exact (combo_loads a b o1 o2 o3 phi E2 E3 G P).
Qed.
Lemma pst_combo sgn k x y : pst_end o1 kR phi sgn k x -> pst_end o2 kR phi sgn k y -> pst_end o3 kR phi sgn k (combo a x b y).
Proof.
  destruct S2 as (P1 & _ & _ & _ & P2 & P3 & P4). destruct S3 as (Q1 & _ & _ & _ & Q2 & Q3 & Q4). destruct HC as (_ & _ & T & _).
  unfold pst_end. rewrite P1, P2, P3, P4, Q1, Q2, Q3, Q4, T, cl. cbv zeta. cbn [qt pt]. unfold forces. rewrite combo_N, combo_M, combo_V.
  destruct k; [intros (A & B & C) (A' & B' & C'); rewrite A, B, C, A', B', C'; repeat split; ring|].
  destruct (o_mode o1) as [[]|]; [| | |intros []].
  - intros (A & B & C) (A' & B' & C'); rewrite A, B, C, A', B', C'; repeat split; ring.
  - intros (A & B & C) (A' & B' & C'). rewrite A, B, A', B'. simpl. rewrite C, C'. repeat split; ring.
  - intros (A & B & C) (A' & B' & C'). rewrite A, A'. simpl. rewrite C, C'. repeat split; try ring.
    replace (a * sM (o_par o1) x + b * sM (o_par o1) y + sgn * kR * (a * z_psi x + b * z_psi y))
      with (a * (sM (o_par o1) x + sgn * kR * z_psi x) + b * (sM (o_par o1) y + sgn * kR * z_psi y)) by ring.
    rewrite B, B'. ring.
Qed.
Lemma face_combo x y : face_end o1 phi x -> face_end o2 phi y -> face_end o3 phi (combo a x b y).
Proof.
  destruct S2 as (P1 & _ & P2 & _). destruct S3 as (Q1 & _ & Q2 & _). destruct HC as (G & _).
  unfold face_end. rewrite P1, P2, Q1, Q2, G. destruct (calc_vertical_bc_center_of_gravity (o_slab o1) phi) as [[xs zs] m].
  unfold forces. rewrite combo_N, combo_M, combo_V.
  intros (A & B & C) (A' & B' & C'); rewrite A, B, C, A', B', C'; repeat split; ring.
Qed.
Lemma far_combo x y : far_field o1 phi x -> far_field o2 phi y -> far_field o3 phi (combo a x b y).
Proof.
  destruct S2 as (P1 & _). destruct S3 as (Q1 & _).
  unfold far_field. rewrite P1, Q1, cl. cbv zeta. simpl.
  intros (A & B & C) (A' & B' & C'); rewrite A, B, C, A', B', C'. unfold Rdiv. repeat split; ring.
Qed.
Lemma left_combo k x y : left_end o1 kR phi k x -> left_end o2 kR phi k y -> left_end o3 kR phi k (combo a x b y).
Proof.
  unfold left_end. rewrite K1', K2', K3'. destruct NU as [->|[-> | ->]]; [apply pst_combo|apply face_combo|apply far_combo].
Qed.
Lemma right_combo k x y : right_end o1 kR phi k x -> right_end o2 kR phi k y -> right_end o3 kR phi k (combo a x b y).
Proof.
  unfold right_end. rewrite K1', K2', K3'. destruct NU as [->|[-> | ->]]; [apply pst_combo|apply face_combo|apply far_combo].
Qed.
Lemma transition_combo i x x' y y' : transition o1 phi (nth i m1 0) x x' -> transition o2 phi (nth i m2 0) y y' ->
  transition o3 phi (nth i m3 0) (combo a x b y) (combo a x' b y').
Proof.
  destruct S2 as (P1 & _ & _ & P2 & _). destruct S3 as (Q1 & _ & _ & Q2 & _). destruct HC as (_ & _ & _ & M).
  unfold transition. rewrite K1', K2', K3', P1, P2, Q1, Q2, !combo_N, !combo_M, !combo_V.
  specialize (M i). 
  assert (F : nth i m3 0 * o_g o3 / 1000 / o_lski o1
    = a * (nth i m1 0 * o_g o1 / 1000 / o_lski o1) + b * (nth i m2 0 * o_g o2 / 1000 / o_lski o1)).
  { rewrite M. unfold Rdiv. ring. }
  assert (U : match kd with KRot | KTrans => true | _ => false end = false) by (destruct NU as [->|[-> | ->]]; reflexivity).
  rewrite U, F.
  set (F1 := nth i m1 0 * o_g o1 / 1000 / o_lski o1). set (F2 := nth i m2 0 * o_g o2 / 1000 / o_lski o1).
  intros (A1 & A2 & A3 & A4 & A5 & A6) (B1 & B2 & B3 & B4 & B5 & B6). simpl. rewrite A1, A2, A3, B1, B2, B3.
  set (p := o_par o1) in *. set (cs := cos (phi * PI / 180)) in *. set (sn := sin (phi * PI / 180)) in *.
  split; [reflexivity|]. split; [reflexivity|]. split; [reflexivity|]. repeat split.
  - replace (sN p x) with (sN p x' - F1 * sn) by lra. replace (sN p y) with (sN p y' - F2 * sn) by lra. ring.
  - replace (sM p x) with (sM p x' - hh p / 2 * - (F1 * sn)) by lra. replace (sM p y) with (sM p y' - hh p / 2 * - (F2 * sn)) by lra. ring.
  - replace (sV p x) with (sV p x' + F1 * cs) by lra. replace (sV p y) with (sV p y' + F2 * cs) by lra. ring.
Qed.

Lemma combine_fields li ki C1 C2 C3 : ready o1 -> stable (o_par o1) -> 0 <= kR -> proper_segments li ki -> li <> [] ->
  bvp o1 kR phi li m1 ki C1 -> bvp o2 kR phi li m2 ki C2 -> bvp o3 kR phi li m3 ki C3 ->
  forall i s, (i < List.length li)%nat -> 0 <= s <= nth i li 0 ->
    field o3 phi (nth i li 0) (nth i ki false) (nth i C3 []) s
    = combo a (field o1 phi (nth i li 0) (nth i ki false) (nth i C1 []) s)
            b (field o2 phi (nth i li 0) (nth i ki false) (nth i C2 []) s).
Proof.
  intros Hr Hs HR (Hp & i0 & Hi0 & Hk0 & Hl0) Hn B1 B2 B3 i s Hi Hx.
  pose proof S2 as (P1 & P2 & _). pose proof S3 as (Q1 & Q2 & _).
  assert (Hr2 : ready o2) by (unfold ready; rewrite P1, P2; exact Hr).
  assert (Hr3 : ready o3) by (unfold ready; rewrite Q1, Q2; exact Hr).
  apply bvp_fbvp in B1; [|assumption|assumption]. apply bvp_fbvp in B2; [|assumption|assumption]. apply bvp_fbvp in B3; [|assumption|assumption].
  set (n := (List.length li - 1)%nat) in *.
  assert (F : fbvp o3 kR phi n (fun i => nth i li 0) (fun i => nth i m3 0) (fun i => nth i ki false)
    (fun i s => combo a (field o1 phi (nth i li 0) (nth i ki false) (nth i C1 []) s)
            b (field o2 phi (nth i li 0) (nth i ki false) (nth i C2 []) s))).
  { destruct B1 as (X1 & X2 & X3 & X4). destruct B2 as (Y1 & Y2 & Y3 & Y4). split; [|split; [|split]].
    - apply left_combo; assumption.
    - apply right_combo; assumption.
    - intros j Hj. apply transition_combo; [apply X3|apply Y3]; exact Hj.
    - intros j x Hj Hxj. pose proof (X4 j x Hj Hxj) as X. pose proof (Y4 j x Hj Hxj) as Y. rewrite P1 in Y. rewrite Q1.
      pose proof (balance_combo _ _ _ _ _ _ _ _ a b _ X Y) as Z. rewrite cl. cbv zeta.
      replace (extra_moment (o_par o1) (mkLd _ _ _ _) (nth j ki false))
        with (a * extra_moment (o_par o1) (loads_of o1 phi) (nth j ki false) + b * extra_moment (o_par o1) (loads_of o2 phi) (nth j ki false)); [exact Z|].
      unfold extra_moment. destruct (nth j ki false); cbn [pt]; ring. }
  destruct Hr as (Hl & Hf & _).
  apply (fbvp_unique o3 kR phi n _ _ _ _ _ i0) with (9 := B3) (10 := F); try assumption; try (rewrite Q1; assumption); try lia.
  intros j Hj. apply Hp. lia.
Qed.
End Combine.

(** ** The library's solutions *)
Lemma solved_lengths eig solve o aslist phi li mi ki Cs : assemble_and_solve eig solve o aslist phi li mi ki = Ok Cs ->
  List.length ki = List.length li /\ List.length li = S (List.length mi).
Proof.
  intros H. unfold assemble_and_solve, assemble_and_solve_with in H.
  destruct (check_segments o li mi ki) as [[]|] eqn:EC; [|discriminate]. exact (valid_lengths o li mi ki EC).
Qed.

Lemma mirror_library eig solve o o' aslist phi li mi ki Cs Cs' kd kR :
  sound_solver solve -> ready o -> stable (o_par o) -> (2 <= List.length li)%nat -> proper_segments li ki ->
  same_structure o o' -> same_loading o o' -> kind_of (o_system o) = Some kd -> kind_of (o_system o') = Some kd -> mirrored_kind kd ->
  (kd = KPst -> o_mode o = Some ModeC -> o_phi o = phi /\ o_phi o' = - phi /\
     fst (substitute_stiffness eig solve o (o_a o - o_td o) "rested" "rot") = Ok kR /\
     fst (substitute_stiffness eig solve o' (o_a o - o_td o) "rested" "rot") = Ok kR) ->
  assemble_and_solve eig solve o aslist phi li mi ki = Ok Cs ->
  assemble_and_solve eig solve o' aslist (- phi) (rev li) (rev mi) (rev ki) = Ok Cs' ->
  forall i s, (i < List.length li)%nat -> 0 <= s <= nth i li 0 ->
    field o' (- phi) (nth i li 0) (nth i ki false) (nth (List.length li - 1 - i) Cs' []) s
    = mirror (field o phi (nth i li 0) (nth i ki false) (nth i Cs []) (nth i li 0 - s)).
Proof.
  intros Hso Hr Hs HN Hp S0 L0 K0' K1' MK HC H H'.
  destruct (solved_lengths _ _ _ _ _ _ _ _ _ H) as [Lk Lm].
  pose proof S0 as (P1 & P2 & _ & _ & P3 & P4 & P5).
  assert (Hr' : ready o') by (unfold ready; rewrite P1, P2; exact Hr).
  set (kr := match kd, o_mode o with KPst, Some ModeC => kR | _, _ => 0 end).
  assert (HR : 0 <= kr).
  { unfold kr. destruct kd; try lra. destruct (o_mode o) as [[]|] eqn:EM; try lra.
    destruct (HC eq_refl eq_refl) as (_ & _ & H1 & _). exact (substitute_nonneg _ _ _ _ _ _ _ H1). }
  assert (B : bvp o kr phi li mi ki Cs).
  { apply (solved_bvp eig solve o aslist phi li mi ki Cs kd kr Hso Hr HN K0'); [|destruct MK as [-> | ->]; discriminate|exact H].
    intros E1 E2. destruct (HC E1 E2) as (Q1 & _ & Q2 & _). unfold kr. rewrite E1, E2. auto. }
  assert (B' : bvp o' kr (- phi) (rev li) (rev mi) (rev ki) Cs').
  { apply (solved_bvp eig solve o' aslist (- phi) (rev li) (rev mi) (rev ki) Cs' kd kr Hso Hr'); [rewrite rev_length; exact HN|exact K1'| |destruct MK as [-> | ->]; discriminate|exact H'].
    intros E1 E2. rewrite P3 in E2. destruct (HC E1 E2) as (_ & Q1 & _ & Q2). unfold kr. rewrite E1, E2, P4, P5. auto. }
  exact (mirror_fields o o' kr phi kd S0 L0 K0' K1' MK li mi ki Cs Cs' Hr Hs HR Hp Lk Lm B B').
Qed.

(** Superposition of the segment solution. *)
Lemma lincomb_combo a b cols C1 C2 : List.length C1 = List.length C2 ->
  lincomb cols (map2 (fun c d => a * c + b * d) C1 C2) = combo a (lincomb cols C1) b (lincomb cols C2).
Proof.
  revert C1 C2. induction cols as [|z cols IH]; intros [|c C1] [|d C2] H; try discriminate;
    try (apply vec6_eq; simpl; ring).
  simpl. rewrite IH by (simpl in H; lia). apply vec6_eq; simpl; ring.
Qed.
Lemma zsol_combo p e l1 l2 x C1 C2 l k a b : lam_ok p -> fnd_ok p -> List.length C1 = List.length C2 ->
  zsol p e (mkLd (a * qn l1 + b * qn l2) (a * qt l1 + b * qt l2) (a * pn l1 + b * pn l2) (a * pt l1 + b * pt l2)) x
    (map2 (fun c d => a * c + b * d) C1 C2) l k
  = combo a (zsol p e l1 x C1 l k) b (zsol p e l2 x C2 l k).
Proof.
  intros _ _ H. unfold zsol. rewrite lincomb_combo by exact H. unfold zp.
  destruct k; apply vec6_eq; simpl; unfold Rdiv; ring.
Qed.
