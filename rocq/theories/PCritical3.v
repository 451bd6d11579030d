(** A point load on the slab does positive work (C120). *)
From Coquelicot Require Import Coquelicot.
Require Import Verif.Py Verif.MTools Verif.MEigen Verif.MFields Verif.SAdm Verif.SSlab Verif.MRaster
  Verif.MSolution Verif.MAnalysis Verif.SBeam Verif.SBvp Verif.SEig Verif.SMirror Verif.SSegment Verif.PSetup Verif.PBeam Verif.PBvp Verif.PBvp2 Verif.PBalance Verif.PWell Verif.PWell2 Verif.PMirror.
Open Scope R_scope.

Section W.
Variable p : params.
Hypothesis Hl : lam_ok p.
Hypothesis Hf : fnd_ok p.
Hypothesis Hs : stable p.
Lemma chain_work n (l : nat -> R) (k : nat -> bool) (z : nat -> R -> vec6) :
  (forall i, (i <= n)%nat -> 0 <= l i) ->
  (forall i x, (i <= n)%nat -> 0 <= x <= l i -> balance p no_loads (k i) 0 (z i) x) ->
  (forall i, (i < n)%nat -> same6 p (z i (l i)) (z (S i) 0)) -> work p (z 0%nat 0) <= work p (z n (l n)).
Proof.
  assert (W : forall n, (forall i, (i <= n)%nat -> 0 <= l i) -> (forall i x, (i <= n)%nat -> 0 <= x <= l i -> balance p no_loads (k i) 0 (z i) x) -> work p (z n 0) <= work p (z n (l n))).
  { intros m Hp HB. pose proof (Hp m ltac:(lia)).
    exact (work_incr p Hl Hf Hs (k m) (z m) (l m) (fun x Hx => HB m x ltac:(lia) Hx) 0 (l m) ltac:(lra) ltac:(lra) ltac:(lra)). }
  induction n as [|n IH]; intros Hp HB HT; [apply W; assumption|].
  pose proof (IH ltac:(intros; apply Hp; lia) ltac:(intros; apply HB; [lia|assumption]) ltac:(intros; apply HT; lia)).
  pose proof (same6_work p _ _ (HT n ltac:(lia))). pose proof (W (S n) Hp HB). lra.
Qed.
Lemma point_work n (l : nat -> R) (k : nat -> bool) (z : nat -> R -> vec6) j i0 i1 Ft Mt Fn :
  (forall i, (i <= n)%nat -> 0 <= l i) ->
  (forall i x, (i <= n)%nat -> 0 <= x <= l i -> balance p no_loads (k i) 0 (z i) x) ->
  (forall i, (i < n)%nat -> i <> j -> same6 p (z i (l i)) (z (S i) 0)) ->
  0 <= work p (z 0%nat 0) -> work p (z n (l n)) <= 0 -> (j < n)%nat ->
  (i0 <= j)%nat -> k i0 = true -> 0 < l i0 -> (j < i1 <= n)%nat -> k i1 = true -> 0 < l i1 ->
  z_u (z j (l j)) = z_u (z (S j) 0) -> z_w (z j (l j)) = z_w (z (S j) 0) -> z_psi (z j (l j)) = z_psi (z (S j) 0) ->
  sN p (z j (l j)) - sN p (z (S j) 0) = Ft -> sM p (z j (l j)) - sM p (z (S j) 0) = Mt -> sV p (z j (l j)) - sV p (z (S j) 0) = Fn ->
  Ft <> 0 \/ Fn <> 0 -> 0 < Ft * z_u (z j (l j)) + Mt * z_psi (z j (l j)) + Fn * z_w (z j (l j)).
Proof.
  intros Hp HB HT W0 Wn Hj I0 K0 L0 I1 K1 L1 U W P N M V F.
  assert (A : 0 <= work p (z j (l j))).
  { pose proof (chain_work j l k z ltac:(intros; apply Hp; lia) ltac:(intros; apply HB; [lia|assumption]) ltac:(intros; apply HT; lia)). lra. }
  set (z' := fun i => z (S j + i)%nat). set (l' := fun i => l (S j + i)%nat). set (k' := fun i => k (S j + i)%nat).
  assert (Hp' : forall i, (i <= n - S j)%nat -> 0 <= l' i) by (intros; apply Hp; lia).
  assert (HB' : forall i x, (i <= n - S j)%nat -> 0 <= x <= l' i -> balance p no_loads (k' i) 0 (z' i) x) by (intros; apply HB; [lia|assumption]).
  assert (HT' : forall i, (i < n - S j)%nat -> same6 p (z' i (l' i)) (z' (S i) 0)).
  { intros i Hi. unfold z', l'. replace (S j + S i)%nat with (S (S j + i)) by lia. apply HT; lia. }
  assert (E0 : z' 0%nat = z (S j)) by (unfold z'; f_equal; lia).
  assert (En : z' (n - S j)%nat (l' (n - S j)%nat) = z n (l n)) by (unfold z', l'; replace (S j + (n - S j))%nat with n by lia; reflexivity).
  assert (B : work p (z (S j) 0) <= 0).
  { pose proof (chain_work (n - S j) l' k' z' Hp' HB' HT') as C. rewrite En, E0 in C. lra. }
  assert (D : work p (z j (l j)) - work p (z (S j) 0) = Ft * z_u (z j (l j)) + Mt * z_psi (z j (l j)) + Fn * z_w (z j (l j))).
  { unfold work. rewrite <- U, <- W, <- P, <- N, <- M, <- V. ring. }
  destruct (Rle_lt_dec (Ft * z_u (z j (l j)) + Mt * z_psi (z j (l j)) + Fn * z_w (z j (l j))) 0) as [C|C]; [exfalso|exact C].
  assert (Z1 : z j (l j) = vzero).
  { apply (homogeneous_unique p j l k z i0 Hl Hf Hs); try assumption; try lia; try (intros; apply Hp; lia); try (intros; apply HB; [lia|assumption]); try (intros; apply HT; lia); [lra|].
    pose proof (Hp j ltac:(lia)). lra. }
  assert (Z2 : z (S j) 0 = vzero).
  { rewrite <- E0. apply (homogeneous_unique p (n - S j) l' k' z' (i1 - S j)%nat Hl Hf Hs); try assumption; try lia.
    - rewrite E0. lra.
    - rewrite En. exact Wn.
    - unfold k'. replace (S j + (i1 - S j))%nat with i1 by lia. exact K1.
    - unfold l'. replace (S j + (i1 - S j))%nat with i1 by lia. exact L1.
    - pose proof (Hp' 0%nat ltac:(lia)). lra. }
  rewrite Z1, Z2 in N, V. rewrite Rminus_eq_0 in N, V. destruct F; congruence.
Qed.
End W.

(** Difference of two solutions. *)
Definition difference (p : params) (n : nat) (l F : nat -> R) (k : nat -> bool) (a : R) (z : nat -> R -> vec6) : Prop :=
  (z_u (z 0%nat 0) = 0 /\ z_w (z 0%nat 0) = 0 /\ z_psi (z 0%nat 0) = 0) /\
    (z_u (z n (l n)) = 0 /\ z_w (z n (l n)) = 0 /\ z_psi (z n (l n)) = 0) /\
    (forall i x, (i <= n)%nat -> 0 <= x <= l i -> balance p no_loads (k i) 0 (z i) x) /\
    forall i, (i < n)%nat -> z_u (z i (l i)) = z_u (z (S i) 0) /\ z_w (z i (l i)) = z_w (z (S i) 0) /\ z_psi (z i (l i)) = z_psi (z (S i) 0) /\
    sN p (z i (l i)) - sN p (z (S i) 0) = - (F i * sin a) /\ sM p (z i (l i)) - sM p (z (S i) 0) = - (hh p / 2 * - (F i * sin a)) /\
    sV p (z i (l i)) - sV p (z (S i) 0) = F i * cos a.
Lemma bvp_difference o phi li ki m0 m1 C0 C1 : ready o -> kind_of (o_system o) = Some KSkier -> li <> [] ->
  bvp o 0 phi li m0 ki C0 -> bvp o 0 phi li m1 ki C1 ->
  difference (o_par o) (List.length li - 1) (fun i => nth i li 0) (fun i => nth i m1 0 * o_g o / 1000 / o_lski o - nth i m0 0 * o_g o / 1000 / o_lski o)
    (fun i => nth i ki false) (phi * PI / 180)
    (fun i s => combo 1 (field o phi (nth i li 0) (nth i ki false) (nth i C1 []) s) (-1) (field o phi (nth i li 0) (nth i ki false) (nth i C0 []) s)).
Proof.
  intros Hr Kd Nl B0 B1. apply bvp_fbvp in B0; [|assumption|assumption]. apply bvp_fbvp in B1; [|assumption|assumption].
  destruct B0 as (X1 & X2 & X3 & X4). destruct B1 as (Y1 & Y2 & Y3 & Y4).
  set (n := (List.length li - 1)%nat) in *. set (p := o_par o) in *. set (a := phi * PI / 180) in *.
  set (f0 := fun i => field o phi (nth i li 0) (nth i ki false) (nth i C0 [])) in *.
  set (f1 := fun i => field o phi (nth i li 0) (nth i ki false) (nth i C1 [])) in *.
  set (F := fun m : R => m * o_g o / 1000 / o_lski o).
  change (fun i s => combo 1 (field o phi (nth i li 0) (nth i ki false) (nth i C1 []) s) (-1) (field o phi (nth i li 0) (nth i ki false) (nth i C0 []) s)) with (fun i s => combo 1 (f1 i s) (-1) (f0 i s)).
  unfold difference. split; [|split; [|split]].
  - unfold left_end in X1, Y1. rewrite Kd in X1, Y1. destruct X1 as (x1 & x2 & x3). destruct Y1 as (y1 & y2 & y3). fold (f0 0%nat) in x1, x2, x3. fold (f1 0%nat) in y1, y2, y3.
    unfold combo. cbn [z_u z_w z_psi]. rewrite x1, x2, x3, y1, y2, y3. repeat split; ring.
  - unfold right_end in X2, Y2. rewrite Kd in X2, Y2. destruct X2 as (x1 & x2 & x3). destruct Y2 as (y1 & y2 & y3). fold (f0 n) in x1, x2, x3. fold (f1 n) in y1, y2, y3.
    unfold combo. cbn [z_u z_w z_psi]. rewrite x1, x2, x3, y1, y2, y3. repeat split; ring.
  - intros i x Hi Hx. pose proof (balance_combo _ _ _ _ _ _ _ _ 1 (-1) _ (Y4 i x Hi Hx) (X4 i x Hi Hx)) as H.
    replace (mkLd _ _ _ _) with no_loads in H by (unfold no_loads; f_equal; ring).
    match type of H with balance _ _ _ ?e _ _ => replace e with 0 in H by ring end. exact H.
  - intros i Hi. pose proof (X3 i Hi) as P. pose proof (Y3 i Hi) as Q. unfold transition in P, Q. rewrite Kd in P, Q. cbv zeta iota in P, Q. fold p a in P, Q. fold (F (nth i m0 0)) in P. fold (F (nth i m1 0)) in Q.
    destruct P as (p1 & p2 & p3 & p4 & p5 & p6). destruct Q as (q1 & q2 & q3 & q4 & q5 & q6). fold (F (nth i m0 0)) (F (nth i m1 0)).
    rewrite !combo_N, !combo_M, !combo_V. unfold combo. cbn [z_u z_w z_psi]. unfold f0, f1. rewrite p1, p2, p3, q1, q2, q3. fold f0 f1. repeat split; try reflexivity; nra.
Qed.

Section D.
Variable p : params.
Hypothesis Hl : lam_ok p.
Hypothesis Hf : fnd_ok p.
Hypothesis Hs : stable p.
(** One point load, anywhere, on any slope. *)
Lemma load_work n l F k a z j i0 i1 : difference p n l F k a z -> (forall i, (i <= n)%nat -> 0 <= l i) -> (j < n)%nat ->
  (i0 <= j)%nat -> k i0 = true -> 0 < l i0 -> (j < i1 <= n)%nat -> k i1 = true -> 0 < l i1 -> 0 < F j -> (forall i, i <> j -> F i = 0) ->
  0 < cos a * z_w (z j (l j)) - sin a * (z_u (z j (l j)) - hh p / 2 * z_psi (z j (l j))).
Proof.
  intros (D0 & Dn & HB & T) Hp Hj I0 K0 L0 I1 K1 L1 Fj Fi.
  assert (V : 0 < - (F j * sin a) * z_u (z j (l j)) + - (hh p / 2 * - (F j * sin a)) * z_psi (z j (l j)) + F j * cos a * z_w (z j (l j))).
  { destruct (T j Hj) as (T1 & T2 & T3 & T4 & T5 & T6). apply (point_work p Hl Hf Hs n l k z j i0 i1); try assumption.
    - intros i Hi Nij. destruct (T i Hi) as (U1 & U2 & U3 & U4 & U5 & U6). rewrite (Fi i Nij) in U4, U5, U6. unfold same6. repeat split; try assumption; lra.
    - unfold work. destruct D0 as (-> & -> & ->). lra.
    - unfold work. destruct Dn as (-> & -> & ->). lra.
    - destruct (Req_dec (sin a) 0) as [Z|Z]; [right|left; apply Ropp_neq_0_compat; apply Rmult_integral_contrapositive_currified; lra].
      apply Rmult_integral_contrapositive_currified; [lra|]. intros C. pose proof (sin2_cos2 a) as S2. unfold Rsqr in S2. rewrite Z, C in S2. lra. }
  apply (Rmult_lt_reg_l (F j)); [exact Fj|]. rewrite Rmult_0_r. eapply Rlt_le_trans; [exact V|]. right. ring.
Qed.
(** In a symmetric model the deflection under the load grows with it on every slope. *)
Lemma symmetric_deflection n l F k a z j i0 : difference p n l F k a z -> (forall i, (i <= n)%nat -> 0 <= l i) -> n = (2 * j + 1)%nat ->
  (forall i, (i <= n)%nat -> l (n - i)%nat = l i) -> (forall i, (i <= n)%nat -> k (n - i)%nat = k i) ->
  (i0 <= j)%nat -> k i0 = true -> 0 < l i0 -> 0 < F j * cos a -> (forall i, i <> j -> F i = 0) -> 0 < z_w (z j (l j)).
Proof.
  intros (D0 & Dn & HB & T) Hp En Sl Sk I0 K0 L0 Fj Fi.
  set (y := fun i s => combo 1 (z i s) 1 (mirror (z (n - i)%nat (l i - s)))).
  assert (Ey : forall i, (i < n)%nat -> z_u (z (S (n - S i)) 0) = z_u (z (n - S i)%nat (l (n - S i)%nat)) /\ (S (n - S i) = n - i)%nat).
  { intros i Hi. destruct (T (n - S i)%nat ltac:(lia)) as (U1 & _). split; [symmetry; exact U1|lia]. }
  assert (J : forall i, (i < n)%nat -> z_u (y i (l i)) = z_u (y (S i) 0) /\ z_w (y i (l i)) = z_w (y (S i) 0) /\ z_psi (y i (l i)) = z_psi (y (S i) 0) /\
    sN p (y i (l i)) - sN p (y (S i) 0) = - (F i * sin a) + F (n - S i)%nat * sin a /\
    sM p (y i (l i)) - sM p (y (S i) 0) = - (hh p / 2 * - (F i * sin a)) + hh p / 2 * - (F (n - S i)%nat * sin a) /\
    sV p (y i (l i)) - sV p (y (S i) 0) = F i * cos a + F (n - S i)%nat * cos a).
  { intros i Hi. destruct (T i Hi) as (T1 & T2 & T3 & T4 & T5 & T6). destruct (T (n - S i)%nat ltac:(lia)) as (U1 & U2 & U3 & U4 & U5 & U6).
    replace (S (n - S i)) with (n - i)%nat in * by lia. rewrite (Sl (S i)) in U1, U2, U3, U4, U5, U6 by lia.
    unfold y. replace (l i - l i) with 0 by ring. replace (l (S i) - 0) with (l (S i)) by ring.
    rewrite !combo_N, !combo_M, !combo_V, !mirror_N, !mirror_M, !mirror_V. unfold combo, mirror. cbn [z_u z_w z_psi]. repeat split; lra. }
  assert (Ej : (n - S j = j)%nat) by lia.
  assert (BY : forall i x, (i <= n)%nat -> 0 <= x <= l i -> balance p no_loads (k i) 0 (y i) x).
  { intros i x Hi Hx. pose proof (HB (n - i)%nat (l i - x) ltac:(lia) ltac:(rewrite Sl by exact Hi; lra)) as B2. apply balance_mirror in B2. rewrite Sk in B2 by exact Hi.
    pose proof (balance_combo _ _ _ _ _ _ _ _ 1 1 _ (HB i x Hi Hx) B2) as H.
    replace (mkLd _ _ _ _) with no_loads in H by (unfold no_loads, flip; cbn [qn qt pn pt]; f_equal; ring).
    match type of H with balance _ _ _ ?e _ _ => replace e with 0 in H by ring end. exact H. }
  destruct (J j ltac:(lia)) as (J1 & J2 & J3 & J4 & J5 & J6). rewrite Ej in J4, J5, J6.
  assert (V : 0 < 0 * z_u (y j (l j)) + 0 * z_psi (y j (l j)) + 2 * (F j * cos a) * z_w (y j (l j))).
  { apply (point_work p Hl Hf Hs n l k y j i0 (n - i0)%nat); try assumption; try lia; try lra.
    - intros i Hi Nij. destruct (J i Hi) as (U1 & U2 & U3 & U4 & U5 & U6). rewrite (Fi i Nij) in U4, U5, U6. rewrite (Fi (n - S i)%nat) in U4, U5, U6 by lia. unfold same6. repeat split; try assumption; lra.
    - unfold work, y. replace (n - 0)%nat with n by lia. rewrite <- (Sl 0%nat) by lia. replace (n - 0)%nat with n by lia. replace (l n - 0) with (l n) by ring.
      unfold combo, mirror. cbn [z_u z_w z_psi]. destruct D0 as (-> & -> & ->). destruct Dn as (-> & -> & ->). match goal with |- 0 <= ?e => replace e with 0 by ring end. lra.
    - unfold work, y. replace (n - n)%nat with 0%nat by lia. replace (l n - l n) with 0 by ring.
      unfold combo, mirror. cbn [z_u z_w z_psi]. destruct D0 as (-> & -> & ->). destruct Dn as (-> & -> & ->). match goal with |- ?e <= 0 => replace e with 0 by ring end. lra.
    - rewrite Sk by lia. exact K0.
    - rewrite Sl by lia. exact L0. }
  assert (W : z_w (y j (l j)) = 2 * z_w (z j (l j))).
  { unfold y, combo, mirror. cbn [z_w]. replace (l j - l j) with 0 by ring. replace (n - j)%nat with (S j) by lia. destruct (T j ltac:(lia)) as (_ & T2 & _). rewrite <- T2. ring. }
  rewrite W in V. nra.
Qed.
End D.
