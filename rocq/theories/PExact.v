(** Proofs about the exact eigensolver. *)
From Coq Require Import Lra Permutation.
Require Import Verif.Py Verif.MTools Verif.MEigen Verif.SAdm Verif.SBeam Verif.SBvp Verif.SEig
  Verif.SExact.
From Coquelicot Require Import Complex.
Open Scope R_scope.

(** The matrix has the shape of [calc_system_matrix]. *)
Definition beam_shape (K : mat6) : Prop := exists k21 k24 k25 k43 k61 k64 k65,
  K = mkM (mkV 0 1 0 0 0 0) (mkV k21 0 0 k24 k25 0) (mkV 0 0 0 1 0 0)
          (mkV 0 0 k43 0 0 (-1)) (mkV 0 0 0 0 0 1) (mkV k61 0 0 k64 k65 0).

Lemma system_shape p : beam_shape (calc_system_matrix p).
Proof. unfold beam_shape, calc_system_matrix. cbv zeta. do 7 eexists. reflexivity. Qed.

Lemma RtoC_m1 : RtoC (-1) = Copp (RtoC 1).
Proof. apply injective_projections; simpl; lra. Qed.

(** The characteristic polynomial with complex argument. *)
Definition chiC (K : mat6) (m : C) : C :=
  Cplus (Cplus (Cplus (Cmult m (Cmult m m)) (Cmult (RtoC (chi2 K)) (Cmult m m)))
               (Cmult (RtoC (chi1 K)) m)) (RtoC (chi0 K)).

Lemma chi_shape K m : beam_shape K ->
  chiC K m = Cplus (Cmult (Cminus m (RtoC (z_u (row1 K))))
     (Cplus (Cmult (Cminus m (RtoC (z_w (row3 K)))) (Cminus m (RtoC (z_psi (row5 K)))))
            (Cmult m (RtoC (z_dw (row5 K))))))
   (Cmult (RtoC (z_u (row5 K))) (Cminus (Cmult m (RtoC (z_dw (row1 K))))
     (Cmult (Cminus m (RtoC (z_w (row3 K)))) (RtoC (z_psi (row1 K)))))).
Proof.
  intros (k21 & k24 & k25 & k43 & k61 & k64 & k65 & ->).
  unfold chiC, chi2, chi1, chi0; simpl.
  unfold Rminus. repeat rewrite ?RtoC_plus, ?RtoC_mult, ?RtoC_opp. ring.
Qed.

Lemma Ceqb_true a b : Ceqb a b = true -> a = b.
Proof.
  unfold Ceqb, Reqb. destruct a as [a1 a2], b as [b1 b2]; simpl.
  destruct (Req_EM_T a1 b1); [|discriminate].
  destruct (Req_EM_T a2 b2); [|discriminate]. intros _. now subst.
Qed.

Lemma Ceqb_false a b : Ceqb a b = false -> a <> b.
Proof.
  intros H E. subst b. unfold Ceqb, Reqb in H.
  destruct (Req_EM_T (fst a) (fst a)); [|contradiction].
  destruct (Req_EM_T (snd a) (snd a)); [discriminate|contradiction].
Qed.

Lemma Reqb_true' a b : Reqb a b = true -> a = b.
Proof. unfold Reqb. destruct (Req_EM_T a b); [easy|discriminate]. Qed.
Lemma Reqb_false' a b : Reqb a b = false -> a <> b.
Proof. unfold Reqb. destruct (Req_EM_T a b); [discriminate|easy]. Qed.

(** The three equations. *)
Definition shape_eqs (K : mat6) (m u y s : C) : Prop :=
  Cminus (Cminus (Cmult (Cminus m (RtoC (z_u (row1 K)))) u) (Cmult (RtoC (z_dw (row1 K))) y))
         (Cmult (RtoC (z_psi (row1 K))) s) = RtoC 0 /\
  Cplus (Cmult (Cminus m (RtoC (z_w (row3 K)))) y) (Cmult m s) = RtoC 0 /\
  Cminus (Cminus (Cmult (Cminus m (RtoC (z_psi (row5 K)))) s) (Cmult (RtoC (z_u (row5 K))) u))
         (Cmult (RtoC (z_dw (row5 K))) y) = RtoC 0.

Lemma exact_shape_eqs K la : beam_shape K -> chiC K (Cmult la la) = RtoC 0 ->
  let '(u, y, s) := exact_shape K la in shape_eqs K (Cmult la la) u y s.
Proof.
  intros HK. rewrite chi_shape by assumption. intros Hq. unfold exact_shape. cbv zeta.
  set (m := Cmult la la) in *.
  destruct (Ceqb (Cminus m (RtoC (z_u (row1 K)))) (RtoC 0)) eqn:Ep; simpl negb; cbv iota.
  2:{ unfold shape_eqs. split; [ring|]. split; [ring|].
      transitivity (Copp (RtoC 0)); [rewrite <- Hq; ring|ring]. }
  apply Ceqb_true in Ep. rewrite Ep in Hq.
  destruct (Reqb (z_u (row5 K)) 0) eqn:E6; simpl negb; cbv iota.
  - apply Reqb_true' in E6. unfold shape_eqs. rewrite Ep, E6. split; [ring|].
    split; ring.
  - apply Reqb_false' in E6.
    assert (H6 : RtoC (z_u (row5 K)) <> RtoC 0) by (intros H; apply E6; now apply RtoC_inj).
    assert (H : Cminus (Cmult m (RtoC (z_dw (row1 K))))
     (Cmult (Cminus m (RtoC (z_w (row3 K)))) (RtoC (z_psi (row1 K)))) = RtoC 0).
    { set (X := Cminus (Cmult m _) _) in *.
      transitivity (Cmult (Cinv (RtoC (z_u (row5 K)))) (Cmult (RtoC (z_u (row5 K))) X)).
      - field. exact H6.
      - replace (Cmult (RtoC (z_u (row5 K))) X) with (RtoC 0) by (rewrite <- Hq; ring). ring. }
    unfold shape_eqs. rewrite Ep. split; [|split; ring].
    transitivity (Cmult (RtoC (z_u (row5 K))) (Cminus (Cmult m (RtoC (z_dw (row1 K))))
     (Cmult (Cminus m (RtoC (z_w (row3 K)))) (RtoC (z_psi (row1 K)))))); [ring|].
    rewrite H. ring.
Qed.

Lemma exact_vector_true K la : beam_shape K -> la <> RtoC 0 -> chiC K (Cmult la la) = RtoC 0 ->
  true_eigenpair K (la, exact_vector K la).
Proof.
  intros HK Hla Hq. pose proof (exact_shape_eqs K la HK Hq) as H.
  unfold exact_vector. destruct (exact_shape K la) as [[u y] s].
  destruct H as (H1 & H2 & H3).
  set (w := Cdiv y la).
  assert (Hy : y = Cmult la w) by (unfold w; field; exact Hla).
  assert (H4 : Cminus (Cmult (RtoC (z_w (row3 K))) w) (Cmult la s) = Cmult la y).
  { transitivity (Cminus (Cmult la y) (Cdiv (RtoC 0) la)); [|field; exact Hla].
    rewrite <- H2, Hy. field. exact Hla. }
  clearbody w. clear H2 Hq.
  destruct HK as (k21 & k24 & k25 & k43 & k61 & k64 & k65 & ->). simpl in *.
  destruct la as [l1 l2], u as [u1 u2], w as [w1 w2], y as [y1 y2], s as [s1 s2].
  apply pair_equal_spec in Hy. destruct Hy as [Hy1 Hy2].
  apply pair_equal_spec in H1. destruct H1 as [H11 H12].
  apply pair_equal_spec in H3. destruct H3 as [H31 H32].
  apply pair_equal_spec in H4. destruct H4 as [H41 H42].
  simpl in *. unfold matvec, dot6, vadd, vscale; simpl.
  split; f_equal; lra.
Qed.

(** The eigenvalues: squares, distinctness, conjugation. *)
Definition csq (z : C) : C := Cmult z z.
Definition cconj (v : C) : C := (fst v, - snd v).

Lemma roots_real_sq m z : In z (roots_real m) -> csq z = (m, 0).
Proof.
  unfold roots_real. destruct (Rlt_dec 0 m) as [Hm|Hm]; intros [<-|[<-|[]]];
    unfold csq, Cmult; simpl; apply injective_projections; simpl; try ring.
  - rewrite sqrt_sqrt by lra. ring.
  - replace (- sqrt m * - sqrt m) with (sqrt m * sqrt m) by ring. rewrite sqrt_sqrt by lra. ring.
  - rewrite sqrt_sqrt by lra. ring.
  - replace (- sqrt (- m) * - sqrt (- m)) with (sqrt (- m) * sqrt (- m)) by ring.
    rewrite sqrt_sqrt by lra. ring.
Qed.

Lemma roots_real_nodup m : m <> 0 -> NoDup (roots_real m).
Proof.
  intros H. unfold roots_real. destruct (Rlt_dec 0 m) as [Hm|Hm].
  - pose proof (sqrt_lt_R0 m Hm). constructor; [|constructor; [intros []|constructor]].
    intros [E|[]]. apply pair_equal_spec in E. lra.
  - pose proof (sqrt_lt_R0 (- m) ltac:(lra)).
    constructor; [|constructor; [intros []|constructor]].
    intros [E|[]]. apply pair_equal_spec in E. lra.
Qed.

Lemma roots_real_conj m : Permutation (map cconj (roots_real m)) (roots_real m).
Proof.
  unfold roots_real, cconj. destruct (Rlt_dec 0 m) as [Hm|Hm]; simpl.
  - rewrite Ropp_0. apply Permutation_refl.
  - rewrite Ropp_involutive. apply perm_swap.
Qed.

Lemma roots_real_length m : List.length (roots_real m) = 2%nat.
Proof. unfold roots_real. destruct (Rlt_dec 0 m); reflexivity. Qed.

Lemma rho_bounds a b : b <> 0 -> let rho := sqrt (a ^ 2 + b ^ 2) in
  rho * rho = a ^ 2 + b ^ 2 /\ 0 < rho + a /\ 0 < rho - a.
Proof.
  intros Hb rho.
  assert (0 < b ^ 2) by (replace (b ^ 2) with (b * b) by ring; now apply Rsqr_pos_lt).
  assert (Hs : rho * rho = a ^ 2 + b ^ 2) by (unfold rho; apply sqrt_sqrt; nra).
  assert (0 <= rho) by apply sqrt_pos.
  split; [exact Hs|]. split; nra.
Qed.

Lemma pair_parts a b : 0 < b ->
  let rho := sqrt (a ^ 2 + b ^ 2) in
  let x := sqrt ((rho + a) / 2) in
  let y := sqrt ((rho - a) / 2) in
  0 < x /\ 0 < y /\ x * x - y * y = a /\ 2 * x * y = b.
Proof.
  intros Hb rho x y. destruct (rho_bounds a b ltac:(lra)) as (Hs & H1 & H2).
  fold rho in Hs, H1, H2.
  assert (0 < x) by (apply sqrt_lt_R0; lra). assert (0 < y) by (apply sqrt_lt_R0; lra).
  assert (Hx : x * x = (rho + a) / 2) by (apply sqrt_sqrt; lra).
  assert (Hy : y * y = (rho - a) / 2) by (apply sqrt_sqrt; lra).
  split; [assumption|]. split; [assumption|]. split; [lra|].
  assert (E : (2 * x * y) ^ 2 = b ^ 2).
  { transitivity (4 * (x * x) * (y * y)); [ring|]. rewrite Hx, Hy. nra. }
  assert (0 < 2 * x * y) by nra.
  assert (F : (2 * x * y - b) * (2 * x * y + b) = 0) by nra.
  apply Rmult_integral in F. destruct F; lra.
Qed.

Lemma roots_pair_sq a b z : 0 < b -> In z (roots_pair a b) -> csq z = (a, b) \/ csq z = (a, - b).
Proof.
  intros Hb. pose proof (pair_parts a b Hb) as H. cbv zeta in H.
  unfold roots_pair. cbv zeta.
  set (x := sqrt ((sqrt (a ^ 2 + b ^ 2) + a) / 2)) in *.
  set (y := sqrt ((sqrt (a ^ 2 + b ^ 2) - a) / 2)) in *.
  clearbody x y. destruct H as (_ & _ & H1 & H2).
  intros [<-|[<-|[<-|[<-|[]]]]]; unfold csq, Cmult; simpl.
  - left. apply injective_projections; simpl; lra.
  - left. apply injective_projections; simpl; lra.
  - right. apply injective_projections; simpl; lra.
  - right. apply injective_projections; simpl; lra.
Qed.

Lemma roots_pair_nodup a b : 0 < b -> NoDup (roots_pair a b).
Proof.
  intros Hb. pose proof (pair_parts a b Hb) as H. cbv zeta in H.
  unfold roots_pair. cbv zeta.
  set (x := sqrt ((sqrt (a ^ 2 + b ^ 2) + a) / 2)) in *.
  set (y := sqrt ((sqrt (a ^ 2 + b ^ 2) - a) / 2)) in *.
  clearbody x y. destruct H as (Hx & Hy & _ & _).
  constructor; [intros [E|[E|[E|[]]]]; apply pair_equal_spec in E; lra|].
  constructor; [intros [E|[E|[]]]; apply pair_equal_spec in E; lra|].
  constructor; [intros [E|[]]; apply pair_equal_spec in E; lra|].
  constructor; [intros []|constructor].
Qed.

Lemma roots_pair_conj a b : Permutation (map cconj (roots_pair a b)) (roots_pair a b).
Proof.
  unfold roots_pair, cconj. cbv zeta. simpl. rewrite !Ropp_involutive.
  apply (Permutation_app_comm [_; _] [_; _]).
Qed.

Lemma nodup_app {A} (l1 l2 : list A) : NoDup l1 -> NoDup l2 ->
  (forall z, In z l1 -> In z l2 -> False) -> NoDup (l1 ++ l2).
Proof.
  intros H1 H2 H. induction l1 as [|a l1 IH]; [exact H2|]. inversion H1; subst.
  simpl. constructor.
  - rewrite in_app_iff. intros [?|?]; [contradiction|]. apply (H a); [now left|assumption].
  - apply IH; [assumption|]. intros z Hz1 Hz2. apply (H z); [now right|assumption].
Qed.

Lemma conj_app l1 l2 : Permutation (map cconj l1) l1 -> Permutation (map cconj l2) l2 ->
  Permutation (map cconj (l1 ++ l2)) (l1 ++ l2).
Proof. intros H1 H2. rewrite map_app. now apply Permutation_app. Qed.

Lemma chiC_real K m : chiC K (m, 0) = (m ^ 3 + chi2 K * m ^ 2 + chi1 K * m + chi0 K, 0).
Proof.
  unfold chiC, Cplus, Cmult, RtoC; simpl. apply injective_projections; simpl; ring.
Qed.

(** All at once. *)
Lemma exact_values K : simple_spectrum K -> chi0 K <> 0 ->
  List.length (exact_eigenvalues K) = 6%nat /\
  NoDup (exact_eigenvalues K) /\
  Permutation (map cconj (exact_eigenvalues K)) (exact_eigenvalues K) /\
  forall z, In z (exact_eigenvalues K) -> z <> RtoC 0 /\ chiC K (csq z) = RtoC 0.
Proof.
  intros Hs H0.
  assert (Hne : forall z, chiC K (csq z) = RtoC 0 -> z <> RtoC 0).
  { intros z Hz ->. apply H0. unfold csq in Hz.
    replace (Cmult (RtoC 0) (RtoC 0)) with ((0, 0) : C) in Hz
      by (unfold Cmult, RtoC; simpl; f_equal; ring).
    rewrite chiC_real in Hz. apply pair_equal_spec in Hz. destruct Hz as [Hz _]. lra. }
  unfold exact_eigenvalues. cbv zeta.
  pose proof (cubic_root_eq (chi2 K) (chi1 K) (chi0 K)) as Hr. cbv zeta in Hr.
  set (r := cubic_root (chi2 K) (chi1 K) (chi0 K)) in *. clearbody r.
  set (b := chi2 K + r). set (c := chi1 K + r * b). set (d := b ^ 2 - 4 * c).
  assert (E0 : chi0 K = - (r * c)) by (unfold c, b; lra).
  assert (E2 : chi2 K = b - r) by (unfold b; lra).
  assert (E1 : chi1 K = c - r * b) by (unfold c; lra).
  assert (Hfac : forall m, m ^ 3 + chi2 K * m ^ 2 + chi1 K * m + chi0 K
                           = (m - r) * (m ^ 2 + b * m + c))
    by (intros m; rewrite E0, E1, E2; ring).
  assert (Hder : forall m, 3 * m ^ 2 + 2 * chi2 K * m + chi1 K
                           = (m ^ 2 + b * m + c) + (m - r) * (2 * m + b))
    by (intros m; rewrite E1, E2; ring).
  assert (Hr0 : r <> 0) by (intros ->; apply H0; lra).
  assert (Hqr : r ^ 2 + b * r + c <> 0).
  { intros E. apply (Hs r Hr). rewrite Hder. rewrite E. ring. }
  assert (Hd : d <> 0).
  { intros E. set (m := - b / 2).
    assert (Em : m ^ 2 + b * m + c = 0) by (unfold m, d in *; lra).
    apply (Hs m).
    - rewrite Hfac, Em. ring.
    - rewrite Hder, Em. unfold m. field. }
  assert (HR : forall m z, m ^ 3 + chi2 K * m ^ 2 + chi1 K * m + chi0 K = 0 ->
     In z (roots_real m) -> chiC K (csq z) = RtoC 0).
  { intros m z Hm Hz. rewrite (roots_real_sq _ _ Hz), chiC_real, Hm. reflexivity. }
  clearbody b c.
  destruct (Rlt_dec 0 d) as [Hpos|Hneg].
  - set (sd := sqrt d). assert (Hsd : 0 < sd) by (apply sqrt_lt_R0; exact Hpos).
    assert (Hsd2 : sd * sd = d) by (apply sqrt_sqrt; lra).
    set (m2 := (- b + sd) / 2). set (m3 := (- b - sd) / 2).
    assert (Q2 : m2 ^ 2 + b * m2 + c = 0) by (unfold m2, d in *; nra).
    assert (Q3 : m3 ^ 2 + b * m3 + c = 0) by (unfold m3, d in *; nra).
    assert (D23 : m2 <> m3) by (unfold m2, m3; lra).
    assert (D2 : r <> m2) by (intros E; apply Hqr; rewrite E; exact Q2).
    assert (D3 : r <> m3) by (intros E; apply Hqr; rewrite E; exact Q3).
    assert (Hc0 : c <> 0) by (intros E; apply H0; rewrite E0, E; ring).
    assert (N2 : m2 <> 0) by (intros E; rewrite E in Q2; apply Hc0; lra).
    assert (N3 : m3 <> 0) by (intros E; rewrite E in Q3; apply Hc0; lra).
    assert (Dis : forall a b' z, a <> b' -> In z (roots_real a) -> In z (roots_real b') -> False).
    { intros a b' z Hab Ha Hb. apply roots_real_sq in Ha. apply roots_real_sq in Hb.
      rewrite Ha in Hb. apply pair_equal_spec in Hb. now destruct Hb. }
    split; [rewrite !app_length, !roots_real_length; reflexivity|].
    split; [|split].
    + apply nodup_app; [now apply roots_real_nodup| |].
      * apply nodup_app; [now apply roots_real_nodup|now apply roots_real_nodup|].
        intros z. now apply Dis.
      * intros z Hz Hz'. apply in_app_iff in Hz'. destruct Hz' as [Hz'|Hz'].
        -- exact (Dis _ _ _ D2 Hz Hz').
        -- exact (Dis _ _ _ D3 Hz Hz').
    + repeat apply conj_app; apply roots_real_conj.
    + intros z Hz.
      assert (Hz' : chiC K (csq z) = RtoC 0).
      { rewrite !in_app_iff in Hz. destruct Hz as [Hz|[Hz|Hz]]; revert Hz; apply HR.
        - exact Hr.
        - rewrite Hfac, Q2. ring.
        - rewrite Hfac, Q3. ring. }
      split; [now apply Hne|exact Hz'].
  - set (be := sqrt (- d) / 2).
    assert (Hbe : 0 < be) by (pose proof (sqrt_lt_R0 (- d) ltac:(lra)); unfold be; lra).
    assert (Hbe2 : be * be = - d / 4).
    { unfold be. replace (sqrt (- d) / 2 * (sqrt (- d) / 2)) with (sqrt (- d) * sqrt (- d) / 4)
        by field. rewrite sqrt_sqrt by lra. reflexivity. }
    set (a := - b / 2).
    assert (HC : forall s, s = be \/ s = - be -> chiC K (a, s) = RtoC 0).
    { intros s Hss. assert (Es : s * s = - d / 4) by (destruct Hss as [->| ->]; lra).
      unfold d in Es.
      assert (Ec : c = s * s + b ^ 2 / 4) by lra.
      unfold chiC, Cplus, Cmult, RtoC; simpl. rewrite E0, E1, E2, Ec. unfold a.
      apply injective_projections; simpl; field. }
    split; [rewrite app_length, roots_real_length; reflexivity|].
    split; [|split].
    + apply nodup_app; [now apply roots_real_nodup|now apply roots_pair_nodup|].
      intros z Hz Hz'. apply roots_real_sq in Hz. apply (roots_pair_sq a be z Hbe) in Hz'.
      rewrite Hz in Hz'. destruct Hz' as [E|E]; apply pair_equal_spec in E; lra.
    + apply conj_app; [apply roots_real_conj|apply roots_pair_conj].
    + intros z Hz.
      assert (Hz' : chiC K (csq z) = RtoC 0).
      { rewrite in_app_iff in Hz. destruct Hz as [Hz|Hz]; [revert Hz; now apply HR|].
        apply (roots_pair_sq a be z Hbe) in Hz. destruct Hz as [->| ->]; apply HC; auto. }
      split; [now apply Hne|exact Hz'].
Qed.
