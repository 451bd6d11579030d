(** Response of the slab to its skiers (C102). *)
From Coquelicot Require Import Coquelicot.
Require Import Verif.Py Verif.MTools Verif.MEigen Verif.MFields Verif.SAdm Verif.MRaster
  Verif.MSolution Verif.SBeam Verif.SBvp Verif.SEig Verif.SMirror Verif.SSkier Verif.PBeam Verif.PBeam2 Verif.PBvp Verif.PBvp2 Verif.PBalance
  Verif.PWell Verif.PWell2 Verif.PWell3 Verif.PBvp6 Verif.PMirror.

(** A segment that stores nothing and does not move at one point is undeformed. *)
Lemma rest_spreads p k (z : R -> vec6) l y : lam_ok p -> fnd_ok p -> stable p -> 0 < l ->
  (forall x, 0 <= x <= l -> balance p no_loads k 0 z x) -> work p (z 0) = work p (z l) ->
  0 <= y <= l -> z_u (z y) = 0 -> z_w (z y) = 0 -> z_psi (z y) = 0 ->
  forall x, 0 <= x <= l -> z x = vzero.
Proof.
  intros Hl Hf Hs Hlp HB Hnw Hy Zu Zw Zp x Hx.
  assert (I : forall x, 0 < x < l -> z_du (z x) = 0 /\ z_dpsi (z x) = 0 /\ gam (z x) = 0).
  { intros s Hx'. destruct (density_nonneg p k (z s) Hl Hf Hs) as [_ D].
    destruct (D (no_work p Hl Hf Hs k z l HB s Hnw Hx')) as (D1 & D2 & D3 & _). auto. }
  assert (CC : forall x, 0 <= x <= l -> _) by (exact (fun x Hx => comps_continuous p _ _ _ z x Hl (HB x Hx))).
  assert (U : forall s, 0 <= s <= l -> z_u (z s) = 0).
  { intros s H. rewrite (const_inside l (fun s => z_u (z s)) (fun s => z_du (z s))) with (y := y); try assumption.
    - intros s' Hs'. apply (HB s' Hs').
    - intros s' Hs'. apply (I s' Hs'). }
  assert (P : forall s, 0 <= s <= l -> z_psi (z s) = 0).
  { intros s H. rewrite (const_inside l (fun s => z_psi (z s)) (fun s => z_dpsi (z s))) with (y := y); try assumption.
    - intros s' Hs'. apply (HB s' Hs').
    - intros s' Hs'. apply (I s' Hs'). }
  assert (DW : forall s, 0 < s < l -> z_dw (z s) = 0).
  { intros s H. destruct (I s H) as (_ & _ & G). unfold gam in G. rewrite P in G by lra. lra. }
  assert (W : forall s, 0 <= s <= l -> z_w (z s) = 0).
  { intros s H. rewrite (const_inside l (fun s => z_w (z s)) (fun s => z_dw (z s))) with (y := y); try assumption.
    intros s' Hs'. apply (HB s' Hs'). }
  apply vec6_eq; simpl.
  - apply U; exact Hx.
  - apply (zero_extends (fun s => z_du (z s)) 0 l Hlp); [intros s H; apply CC; exact H|intros s H; apply I; exact H|exact Hx].
  - apply W; exact Hx.
  - apply (zero_extends (fun s => z_dw (z s)) 0 l Hlp); [intros s H; apply CC; exact H|exact DW|exact Hx].
  - apply P; exact Hx.
  - apply (zero_extends (fun s => z_dpsi (z s)) 0 l Hlp); [intros s H; apply CC; exact H|intros s H; apply I; exact H|exact Hx].
Qed.

(** Jump of the six transmitted quantities at a point load (Ft, Fn) at the top. *)
Definition jump6 (p : params) (Ft Fn : R) (a b : vec6) : Prop :=
  z_u a = z_u b /\ z_w a = z_w b /\ z_psi a = z_psi b /\
  sN p a - sN p b = Ft /\ sM p a - sM p b = - (hh p / 2 * Ft) /\ sV p a - sV p b = Fn.
Definition power (p : params) (Ft Fn : R) (z : vec6) : R := Ft * (z_u z - hh p / 2 * z_psi z) + Fn * z_w z.
Lemma jump_work p Ft Fn a b : jump6 p Ft Fn a b -> work p a - work p b = power p Ft Fn a.
Proof.
  intros (H1 & H2 & H3 & H4 & H5 & H6). unfold work, power. rewrite <- H1, <- H2, <- H3.
  replace (sN p a) with (sN p b + Ft) by lra. replace (sM p a) with (sM p b - hh p / 2 * Ft) by lra.
  replace (sV p a) with (sV p b + Fn) by lra. ring.
Qed.

Section Loaded.
Variable p : params.
Hypothesis Hl : lam_ok p.
Hypothesis Hf : fnd_ok p.
Hypothesis Hs : stable p.
Variable n : nat.
Variable l : nat -> R.
Variable k : nat -> bool.
Variables Ft Fn : nat -> R.
Variable z : nat -> R -> vec6.
Hypothesis Hpos : forall i, (i <= n)%nat -> 0 <= l i.
Hypothesis HB : forall i x, (i <= n)%nat -> 0 <= x <= l i -> balance p no_loads (k i) 0 (z i) x.
Hypothesis HT : forall i, (i < n)%nat -> jump6 p (Ft i) (Fn i) (z i (l i)) (z (S i) 0).
Hypothesis HW0 : 0 <= work p (z 0%nat 0).
Hypothesis HWn : work p (z n (l n)) <= 0.

Lemma loaded_inc i : (i < S n)%nat -> 0 <= work p (z i (l i)) - work p (z i 0).
Proof.
  intros Hi. assert (0 <= l i) by (apply Hpos; lia).
  pose proof (work_incr p Hl Hf Hs (k i) (z i) (l i) (fun x Hx => HB i x ltac:(lia) Hx)
    0 (l i) ltac:(lra) ltac:(lra) ltac:(lra)). lra.
Qed.
Lemma loaded_sum : sumn (S n) (fun i => work p (z i (l i)) - work p (z i 0)) <= sumn n (fun i => power p (Ft i) (Fn i) (z i (l i))).
Proof.
  rewrite (telescope (fun i => work p (z i 0)) (fun i => work p (z i (l i))) (fun i => power p (Ft i) (Fn i) (z i (l i))) n); [lra|].
  intros i Hi. exact (jump_work _ _ _ _ _ (HT i Hi)).
Qed.
(** The loads do positive work on the displacements they cause ... *)
Lemma loaded_nonneg : 0 <= sumn n (fun i => power p (Ft i) (Fn i) (z i (l i))).
Proof.
  eapply Rle_trans; [|exact loaded_sum].
  assert (G : forall m f, (forall i, (i < m)%nat -> 0 <= f i) -> 0 <= sumn m f).
  { induction m as [|m IH]; intros f H; simpl; [lra|]. pose proof (IH f (fun i Hi => H i ltac:(lia))). pose proof (H m ltac:(lia)). lra. }
  apply G. exact loaded_inc.
Qed.
(** ... unless nothing moves at all. *)
Lemma loaded_zero i0 : (forall i, (i <= n)%nat -> 0 < l i) -> (i0 <= n)%nat -> k i0 = true ->
  sumn n (fun i => power p (Ft i) (Fn i) (z i (l i))) = 0 ->
  forall i x, (i <= n)%nat -> 0 <= x <= l i -> z i x = vzero.
Proof.
  intros Hlp Hi0 Hk0 E.
  assert (Hnw : forall i, (i <= n)%nat -> work p (z i 0) = work p (z i (l i))).
  { intros i Hi. pose proof loaded_sum as LS. rewrite E in LS.
    pose proof (sumn_nonneg_zero (S n) _ loaded_inc LS i ltac:(lia)). simpl in H. lra. }
  assert (R : forall i y, (i <= n)%nat -> 0 <= y <= l i -> z_u (z i y) = 0 -> z_w (z i y) = 0 -> z_psi (z i y) = 0 ->
    forall x, 0 <= x <= l i -> z i x = vzero).
  { intros i y Hi Hy A B C x Hx.
    apply (rest_spreads p (k i) (z i) (l i) y Hl Hf Hs (Hlp i Hi) (fun s H => HB i s Hi H) (Hnw i Hi) Hy A B C x Hx). }
  assert (H0 : forall x, 0 <= x <= l i0 -> z i0 x = vzero).
  { intros x Hx. apply (supported_zero p Hl Hf Hs (k i0) (z i0) (l i0)
      (fun s H => HB i0 s Hi0 H) (Hnw i0 Hi0) Hk0 (Hlp i0 Hi0) x Hx). }
  assert (Up : forall d, (i0 + d <= n)%nat -> forall x, 0 <= x <= l (i0 + d)%nat -> z (i0 + d)%nat x = vzero).
  { induction d as [|d IH]; intros Hd.
    - rewrite Nat.add_0_r. exact H0.
    - replace (i0 + S d)%nat with (S (i0 + d)) in * by lia.
      assert (P0 : 0 < l (i0 + d)%nat) by (apply Hlp; lia).
      assert (P1 : 0 < l (S (i0 + d))) by (apply Hlp; lia).
      destruct (HT (i0 + d)%nat ltac:(lia)) as (A & B & C & _). rewrite IH in A, B, C by (lia || lra). simpl in A, B, C.
      apply (R (S (i0 + d)) 0); [lia|lra| | |]; congruence. }
  assert (Dn : forall d, (d <= i0)%nat -> forall x, 0 <= x <= l (i0 - d)%nat -> z (i0 - d)%nat x = vzero).
  { induction d as [|d IH]; intros Hd.
    - rewrite Nat.sub_0_r. exact H0.
    - assert (P0 : 0 < l (i0 - d)%nat) by (apply Hlp; lia).
      assert (P1 : 0 < l (i0 - S d)%nat) by (apply Hlp; lia).
      destruct (HT (i0 - S d)%nat ltac:(lia)) as (A & B & C & _).
      replace (S (i0 - S d)) with (i0 - d)%nat in A, B, C by lia. rewrite IH in A, B, C by (lia || lra). simpl in A, B, C.
      apply (R (i0 - S d)%nat (l (i0 - S d)%nat)); [lia|lra| | |]; congruence. }
  intros i x Hi Hx. destruct (Nat.le_ge_cases i0 i) as [H|H].
  - replace i with (i0 + (i - i0))%nat in * by lia. apply Up; [lia|exact Hx].
  - replace i with (i0 - (i0 - i))%nat in * by lia. apply Dn; [lia|exact Hx].
Qed.
End Loaded.

(** Two lists of skiers on the same layout. *)
Definition skier_force (o : obj) (m : R) : R := m * o_g o / 1000 / o_lski o.
Definition has_skiers (o : obj) : Prop := kind_of (o_system o) <> Some KRot /\ kind_of (o_system o) <> Some KTrans.
Lemma drop_combo p phi a x b y : drop p phi (combo a x b y) = a * drop p phi x + b * drop p phi y.
Proof. unfold drop, combo; simpl. ring. Qed.
Lemma power_drop p phi F z :
  power p (- (F * sin (phi * PI / 180))) (F * cos (phi * PI / 180)) z = F * drop p phi z.
Proof. unfold power, drop. cbv zeta. ring. Qed.
Lemma transition_force o phi m zl zr : has_skiers o -> transition o phi m zl zr ->
  jump6 (o_par o) (- (skier_force o m * sin (phi * PI / 180))) (skier_force o m * cos (phi * PI / 180)) zl zr.
Proof.
  intros [N1 N2] H. unfold transition in H. unfold jump6, skier_force.
  destruct (kind_of (o_system o)) as [[]|]; try congruence; exact H.
Qed.
Lemma jump_diff p Ft Fn Gt Gn a b c d : jump6 p Ft Fn a b -> jump6 p Gt Gn c d ->
  jump6 p (Gt - Ft) (Gn - Fn) (combo 1 c (-1) a) (combo 1 d (-1) b).
Proof.
  intros (H1 & H2 & H3 & H4 & H5 & H6) (G1 & G2 & G3 & G4 & G5 & G6). unfold jump6.
  rewrite !combo_N, !combo_M, !combo_V. simpl. repeat split; lra.
Qed.

Section Two.
Variable o : obj.
Variables kR phi : R.
Variable n : nat.
Variables l m m' : nat -> R.
Variable k : nat -> bool.
Variables y z : nat -> R -> vec6.
Hypothesis Hl : lam_ok (o_par o).
Hypothesis Hf : fnd_ok (o_par o).
Hypothesis Hs : stable (o_par o).
Hypothesis HR : 0 <= kR.
Hypothesis Hsk : has_skiers o.
Hypothesis Hg : 0 < o_g o.
Hypothesis Hlski : 0 < o_lski o.
Hypothesis Hpos : forall i, (i <= n)%nat -> 0 <= l i.
Hypothesis Hy : fbvp o kR phi n l m k y.
Hypothesis Hz : fbvp o kR phi n l m' k z.
Let d i s := combo 1 (z i s) (-1) (y i s).
Let F i := skier_force o (m' i) - skier_force o (m i).

Lemma two_balance i x : (i <= n)%nat -> 0 <= x <= l i -> balance (o_par o) no_loads (k i) 0 (d i) x.
Proof.
  intros Hi Hx. destruct Hy as (_ & _ & _ & A). destruct Hz as (_ & _ & _ & B).
  pose proof (balance_combo _ _ _ _ _ _ _ _ 1 (-1) _ (B i x Hi Hx) (A i x Hi Hx)) as H.
  replace (mkLd _ _ _ _) with no_loads in H by (unfold no_loads; f_equal; ring).
  replace (1 * _ + _) with 0 in H by ring. exact H.
Qed.
Lemma two_jump i : (i < n)%nat ->
  jump6 (o_par o) (- (F i * sin (phi * PI / 180))) (F i * cos (phi * PI / 180)) (d i (l i)) (d (S i) 0).
Proof.
  intros Hi. destruct Hy as (_ & _ & A & _). destruct Hz as (_ & _ & B & _).
  pose proof (jump_diff _ _ _ _ _ _ _ _ _ (transition_force _ _ _ _ _ Hsk (A i Hi)) (transition_force _ _ _ _ _ Hsk (B i Hi))) as J.
  unfold F. replace (- ((skier_force o (m' i) - skier_force o (m i)) * sin (phi * PI / 180)))
    with (- (skier_force o (m' i) * sin (phi * PI / 180)) - - (skier_force o (m i) * sin (phi * PI / 180))) by ring.
  replace ((skier_force o (m' i) - skier_force o (m i)) * cos (phi * PI / 180))
    with (skier_force o (m' i) * cos (phi * PI / 180) - skier_force o (m i) * cos (phi * PI / 180)) by ring. exact J.
Qed.
Lemma two_left : 0 <= work (o_par o) (d 0%nat 0).
Proof. destruct Hy as (A & _). destruct Hz as (B & _). exact (left_work o kR phi _ _ _ HR B A). Qed.
Lemma two_right : work (o_par o) (d n (l n)) <= 0.
Proof. destruct Hy as (_ & A & _). destruct Hz as (_ & B & _). exact (right_work o kR phi _ _ _ HR B A). Qed.

Lemma two_scaled : sumn n (fun i => power (o_par o) (- (F i * sin (phi * PI / 180))) (F i * cos (phi * PI / 180)) (d i (l i)))
  = o_g o / 1000 / o_lski o * sumn n (fun i => (m' i - m i) * (drop (o_par o) phi (z i (l i)) - drop (o_par o) phi (y i (l i)))).
Proof.
  rewrite <- sumn_scal. apply sumn_ext. intros i Hi. rewrite power_drop. unfold d. rewrite drop_combo. unfold F, skier_force.
  field. lra.
Qed.
Lemma factor_pos : 0 < o_g o / 1000 / o_lski o.
Proof. apply Rdiv_lt_0_compat; [lra|exact Hlski]. Qed.

Lemma two_nonneg : 0 <= sumn n (fun i => (m' i - m i) * (drop (o_par o) phi (z i (l i)) - drop (o_par o) phi (y i (l i)))).
Proof.
  pose proof (loaded_nonneg (o_par o) Hl Hf Hs n l k (fun i => - (F i * sin (phi * PI / 180))) (fun i => F i * cos (phi * PI / 180))
    d Hpos two_balance two_jump two_left two_right) as G.
  cbv beta in G. rewrite two_scaled in G. pose proof factor_pos as P.
  apply Rmult_le_reg_l with (o_g o / 1000 / o_lski o); [exact P|]. rewrite Rmult_0_r. exact G.
Qed.
Lemma two_pos i0 j : (forall i, (i <= n)%nat -> 0 < l i) -> (i0 <= n)%nat -> k i0 = true -> (j < n)%nat -> m' j <> m j ->
  0 < sumn n (fun i => (m' i - m i) * (drop (o_par o) phi (z i (l i)) - drop (o_par o) phi (y i (l i)))).
Proof.
  intros Hlp Hi0 Hk0 Hj Hm. destruct two_nonneg as [G|G]; [exact G|]. exfalso.
  assert (E : sumn n (fun i => power (o_par o) (- (F i * sin (phi * PI / 180))) (F i * cos (phi * PI / 180)) (d i (l i))) = 0)
    by (rewrite two_scaled, <- G; ring).
  pose proof (loaded_zero (o_par o) Hl Hf Hs n l k (fun i => - (F i * sin (phi * PI / 180))) (fun i => F i * cos (phi * PI / 180))
    d Hpos two_balance two_jump two_left two_right i0 Hlp Hi0 Hk0 E) as Z.
  destruct (two_jump j Hj) as (_ & _ & _ & J1 & _ & J2).
  pose proof (Hlp j ltac:(lia)) as P0. pose proof (Hlp (S j) ltac:(lia)) as P1.
  rewrite (Z j (l j)), (Z (S j) 0) in J1, J2 by (lia || lra).
  assert (F0 : F j = 0).
  { pose proof (sin2_cos2 (phi * PI / 180)) as T. unfold Rsqr in T.
    replace (F j) with (F j * (sin (phi * PI / 180) * sin (phi * PI / 180) + cos (phi * PI / 180) * cos (phi * PI / 180))) by (rewrite T; ring).
    replace (F j * sin (phi * PI / 180)) with 0 in J1 by lra.
    replace (F j * (sin (phi * PI / 180) * sin (phi * PI / 180) + cos (phi * PI / 180) * cos (phi * PI / 180)))
      with ((F j * sin (phi * PI / 180)) * sin (phi * PI / 180) + (F j * cos (phi * PI / 180)) * cos (phi * PI / 180)) by ring.
    assert (S1 : F j * sin (phi * PI / 180) = 0) by (destruct (two_jump j Hj) as (_ & _ & _ & K1 & _); rewrite (Z j (l j)), (Z (S j) 0) in K1 by (lia || lra); lra).
    rewrite S1, <- J2. ring. }
  apply Hm. unfold F, skier_force in F0. pose proof factor_pos as P.
  assert (Q : (m' j - m j) * (o_g o / 1000 / o_lski o) = 0) by (rewrite <- F0; field; lra).
  apply Rmult_integral in Q. destruct Q; lra.
Qed.
End Two.
