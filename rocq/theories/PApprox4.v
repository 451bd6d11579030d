(** Proofs: energy release rates from inexact states (C114). *)
From Coquelicot Require Import Coquelicot.
Require Import Verif.Py Verif.MTools Verif.MEigen Verif.MFields Verif.MRaster Verif.MSolution Verif.MAnalysis
  Verif.SAdm Verif.SBeam Verif.SBvp Verif.SEig Verif.SEnergy Verif.SSplit Verif.SApprox Verif.PSetup Verif.PBeam Verif.PBeam2
  Verif.PBalance Verif.PRaster Verif.PEnergy Verif.PEnergy2
  Verif.PBvp Verif.PLinAlg Verif.PWell3 Verif.PComplete Verif.PConvex Verif.PDepend Verif.PApprox Verif.PApprox2.
Open Scope R_scope.

(** * Fields are continuous, whatever the columns *)
Lemma six_block C : List.length C = 6%nat -> C = block (fun k => nth k C 0) 0.
Proof. destruct C as [|c0 [|c1 [|c2 [|c3 [|c4 [|c5 [|]]]]]]]; try discriminate. reflexivity. Qed.
Lemma field_cont r o phi l k C x : six_cols o -> List.length C = 6%nat -> continuous (fun s => dot6 r (field o phi l k C s)) x.
Proof.
  intros H6 LC. rewrite (six_block C LC). set (X := fun k => nth k C 0).
  apply (continuous_extR (fun s => sumn 6 (fun j => dot6 r (nth j (zh (o_par o) (o_eig o) s l k) vzero) * X (6 * 0 + j)%nat)
    + dot6 r (zp (o_par o) (loads_of o phi) s k))).
  { intros s. unfold field, zsol. rewrite dot_add, dot_lincomb by apply (six_zh o H6). reflexivity. }
  pose proof (fun j => tends_zh (locally x) (fun s => s) (fun _ => l) x l (fun P HP => HP) (filterlim_const l) r (o_par o) (o_eig o) k j) as A.
  pose proof (tends_zp (locally x) (fun s => s) x (fun P HP => HP) r (o_par o) (loads_of o phi) k) as B.
  apply (tends_plus (locally x)); [|exact B].
  generalize 6%nat. induction n as [|n IH]; simpl sumn; [apply filterlim_const|].
  apply (tends_plus (locally x)); [exact IH|].
  apply (tends_mult (locally x)); [apply A|apply filterlim_const].
Qed.
Lemma field_bound r o phi l k C : six_cols o -> List.length C = 6%nat ->
  exists M, 0 <= M /\ forall x, 0 <= x <= l -> Rabs (dot6 r (field o phi l k C x)) <= M.
Proof.
  intros H6 LC. destruct (bounded_continuity (fun x => dot6 r (field o phi l k C x)) 0 l) as [M HM].
  { intros x _. apply field_cont; assumption. }
  exists (Rabs M). split; [apply Rabs_pos|]. intros x Hx. specialize (HM x Hx). unfold norm in HM. simpl in HM. unfold abs in HM. simpl in HM.
  pose proof (Rle_abs M). lra.
Qed.

(** * Products *)
Lemma prod_close a a0 b b0 e f : Rabs (a - a0) <= e -> Rabs (b - b0) <= f -> 
  Rabs (a * b - a0 * b0) <= e * Rabs b0 + Rabs a0 * f + e * f.
Proof.
  intros H1 H2. replace (a * b - a0 * b0) with ((a - a0) * b0 + a0 * (b - b0) + (a - a0) * (b - b0)) by ring.
  pose proof (Rabs_pos (a - a0)). pose proof (Rabs_pos (b - b0)). pose proof (Rabs_pos a0). pose proof (Rabs_pos b0).
  eapply Rle_trans; [apply Rabs_triang|]. eapply Rle_trans; [apply Rplus_le_compat_r, Rabs_triang|]. rewrite !Rabs_mult.
  apply Rplus_le_compat; [apply Rplus_le_compat|]; [apply Rmult_le_compat_r|apply Rmult_le_compat_l|apply Rmult_le_compat]; lra.
Qed.
(** Products of linear forms of two states. *)
Lemma form_close r s K0 K1 M0 M1 e0 e1 z0' z0 z1' z1 : 0 <= e0 -> 0 <= e1 -> 0 <= K0 -> 0 <= K1 ->
  close6 (K0 * e0) z0' z0 -> close6 (K1 * e1) z1' z1 -> Rabs (dot6 r z0) <= M0 -> Rabs (dot6 s z1) <= M1 ->
  Rabs (dot6 r z0' * dot6 s z1' - dot6 r z0 * dot6 s z1)
    <= (rownorm r * K0 * M1 + M0 * (rownorm s * K1) + rownorm r * K0 * (rownorm s * K1)) * (e0 + e1 + e0 * e1).
Proof.
  intros E0 E1 P0 P1 H0 H1 B0 B1. pose proof (rownorm_pos r) as N0. pose proof (rownorm_pos s) as N1.
  pose proof (close6_dot r _ _ _ H0) as D0. pose proof (close6_dot s _ _ _ H1) as D1.
  eapply Rle_trans; [apply prod_close; eassumption|].
  set (a := rownorm r * K0) in *. set (b := rownorm s * K1) in *.
  assert (A : 0 <= a) by (apply Rmult_le_pos; assumption). assert (B : 0 <= b) by (apply Rmult_le_pos; assumption).
  replace (rownorm r * (K0 * e0)) with (a * e0) by (unfold a; ring). replace (rownorm s * (K1 * e1)) with (b * e1) by (unfold b; ring).
  pose proof (Rabs_pos (dot6 r z0)). pose proof (Rabs_pos (dot6 s z1)).
  assert (E2 : 0 <= e0 * e1) by (apply Rmult_le_pos; assumption).
  assert (Q1 : a * e0 * Rabs (dot6 s z1) <= a * M1 * (e0 + e1 + e0 * e1)).
  { replace (a * M1 * (e0 + e1 + e0 * e1)) with (a * e0 * M1 + a * M1 * (e1 + e0 * e1)) by ring.
    assert (0 <= a * M1 * (e1 + e0 * e1)) by (apply Rmult_le_pos; [apply Rmult_le_pos|]; lra).
    assert (a * e0 * Rabs (dot6 s z1) <= a * e0 * M1) by (apply Rmult_le_compat_l; [apply Rmult_le_pos; assumption|exact B1]). lra. }
  assert (Q2 : Rabs (dot6 r z0) * (b * e1) <= M0 * b * (e0 + e1 + e0 * e1)).
  { replace (M0 * b * (e0 + e1 + e0 * e1)) with (M0 * (b * e1) + M0 * b * (e0 + e0 * e1)) by ring.
    assert (0 <= M0 * b * (e0 + e0 * e1)) by (apply Rmult_le_pos; [apply Rmult_le_pos|]; lra).
    assert (Rabs (dot6 r z0) * (b * e1) <= M0 * (b * e1)) by (apply Rmult_le_compat_r; [apply Rmult_le_pos; assumption|exact B0]). lra. }
  assert (Q3 : a * e0 * (b * e1) <= a * b * (e0 + e1 + e0 * e1)).
  { replace (a * b * (e0 + e1 + e0 * e1)) with (a * e0 * (b * e1) + a * b * (e0 + e1)) by ring.
    assert (0 <= a * b * (e0 + e1)) by (apply Rmult_le_pos; [apply Rmult_le_pos|]; lra). lra. }
  lra.
Qed.

(** * Differential energy release rate *)
Definition wrow : vec6 := mkV 0 0 1 0 0 0.
Definition srow (p : params) : vec6 := mkV 1 0 0 (- (wt p / 2)) (hh p / 2) 0.
Lemma GI_form p z : 0 < kn p -> GI p z = kn p / 2 * (dot6 wrow z * dot6 wrow z).
Proof. intros H. unfold GI, dot6, wrow. cbn [z_u z_du z_w z_dw z_psi z_dpsi]. field. lra. Qed.
Lemma GII_form p z : 0 < kt p -> GII p z = kt p / 2 * (dot6 (srow p) z * dot6 (srow p) z).
Proof. intros H. unfold GII, dot6, srow. cbn [z_u z_du z_w z_dw z_psi z_dpsi]. field. lra. Qed.

Lemma tip_sum_diff ki n f g a : (forall j, (j < n)%nat -> Rabs (f j - g j) <= a j) -> (forall j, 0 <= a j) ->
  Rabs (tip_sum ki n f - tip_sum ki n g) <= rsum (map a (seq 0 n)).
Proof.
  intros H P. unfold tip_sum. assert (I : forall j, In j (seq 0 n) -> (j < n)%nat) by (intros j Hj; apply in_seq in Hj; lia).
  induction (seq 0 n) as [|j l IH]; simpl.
  - rewrite Rminus_diag_eq, Rabs_R0 by reflexivity. apply Rle_refl.
  - specialize (IH (fun j Hj => I j (or_intror Hj))). pose proof (H j (I j (or_introl eq_refl))) as Hj. specialize (P j).
    eapply Rle_trans; [apply Rabs_pair|]. apply Rplus_le_compat; [|exact IH].
    destruct (Bool.bool_dec _ _); [rewrite Rminus_diag_eq, Rabs_R0 by reflexivity; exact P|exact Hj].
Qed.
Lemma rsum_scale (f : nat -> R) c l : rsum (map (fun j => f j * c) l) = rsum (map f l) * c.
Proof. induction l as [|j l IH]; simpl; [ring|]. fold (rsum (map (fun j => f j * c) l)). fold (rsum (map f l)). rewrite IH. ring. Qed.
Lemma rsum_nonneg (f : nat -> R) l : (forall j, 0 <= f j) -> 0 <= rsum (map f l).
Proof. intros P. induction l as [|j l IH]; simpl; [lra|]. fold (rsum (map f l)). pose proof (P j). lra. Qed.

Lemma scaled_diff c x y B : 0 <= c -> Rabs (x - y) <= B -> Rabs (c * x - c * y) <= c * B.
Proof.
  intros Hc H. replace (c * x - c * y) with (c * (x - y)) by ring. rewrite Rabs_mult, (Rabs_pos_eq c) by exact Hc.
  apply Rmult_le_compat_l; assumption.
Qed.
Lemma conv_err_pos unit c : conv_err unit = Ok c -> 0 < c.
Proof. intros H. apply conv_err_factor in H. destruct H as [[_ ->]|[[_ ->]|[_ ->]]]; lra. Qed.

Lemma gdif_close p e ld C li ki unit K :
  0 < kn p -> 0 < kt p -> 0 <= K -> List.length ki = List.length li ->
  let z j := zsol p e ld (nth j li 0) (nth j C []) (nth j li 0) (nth j ki false) in
  exists KG, 0 <= KG /\ forall C' e' d G G1 G2 H H1 H2, 0 <= d ->
  (forall j, (j < List.length li)%nat -> close6 (K * d) (zsol p e' ld (nth j li 0) (nth j C' []) (nth j li 0) (nth j ki false)) (z j)) ->
  gdif p e ld C li ki unit = Ok (G, G1, G2) -> gdif p e' ld C' li ki unit = Ok (H, H1, H2) ->
  Rabs (H1 - G1) <= KG * (d * (1 + d)) /\ Rabs (H2 - G2) <= KG * (d * (1 + d)) /\ Rabs (H - G) <= KG * (d * (1 + d)).
Proof.
  intros Hn Ht HK L z. set (n := (List.length li - 1)%nat). set (w := weight_at ki).
  assert (W : tip_weights ki (List.length li) w) by (unfold w; rewrite <- L; apply weight_at_ok).
  set (N1 := rownorm wrow * K). set (N2 := rownorm (srow p) * K).
  assert (P1 : 0 <= N1) by (apply Rmult_le_pos; [apply rownorm_pos|exact HK]).
  assert (P2 : 0 <= N2) by (apply Rmult_le_pos; [apply rownorm_pos|exact HK]).
  set (m1 := fun j => Rabs (dot6 wrow (z j))). set (m2 := fun j => Rabs (dot6 (srow p) (z j))).
  set (q1 := fun j => w j * (kn p / 2 * (N1 * m1 j + m1 j * N1 + N1 * N1) * 2)).
  set (q2 := fun j => w j * (kt p / 2 * (N2 * m2 j + m2 j * N2 + N2 * N2) * 2)).
  assert (Q1 : forall j, 0 <= q1 j).
  { intros j. unfold q1. pose proof (Rabs_pos (dot6 wrow (z j))). fold (m1 j) in *. apply Rmult_le_pos; [apply weight_at_pos|].
    apply Rmult_le_pos; [|lra]. apply Rmult_le_pos; [lra|]. repeat apply Rplus_le_le_0_compat; apply Rmult_le_pos; assumption. }
  assert (Q2 : forall j, 0 <= q2 j).
  { intros j. unfold q2. pose proof (Rabs_pos (dot6 (srow p) (z j))). fold (m2 j) in *. apply Rmult_le_pos; [apply weight_at_pos|].
    apply Rmult_le_pos; [|lra]. apply Rmult_le_pos; [lra|]. repeat apply Rplus_le_le_0_compat; apply Rmult_le_pos; assumption. }
  set (c := match conv_err unit with Ok c => c | Err _ => 0 end).
  assert (c0 : 0 <= c) by (unfold c; destruct (conv_err unit) eqn:Ec; [left; exact (conv_err_pos _ _ Ec)|lra]).
  set (S1 := rsum (map q1 (seq 0 n))). set (S2 := rsum (map q2 (seq 0 n))).
  assert (S10 : 0 <= S1) by (apply rsum_nonneg; exact Q1). assert (S20 : 0 <= S2) by (apply rsum_nonneg; exact Q2).
  exists (c * S1 + c * S2). assert (cS1 : 0 <= c * S1) by (apply Rmult_le_pos; assumption). assert (cS2 : 0 <= c * S2) by (apply Rmult_le_pos; assumption).
  split; [lra|]. intros C' e' d G G1 G2 H H1 H2 Hd CL HG HH.
  assert (D0 : 0 <= d * (1 + d)) by (apply Rmult_le_pos; lra).
  assert (Z1 : 0 <= c * S1 * (d * (1 + d))) by (apply Rmult_le_pos; assumption).
  assert (Z2 : 0 <= c * S2 * (d * (1 + d))) by (apply Rmult_le_pos; assumption).
  set (z' := fun j => zsol p e' ld (nth j li 0) (nth j C' []) (nth j li 0) (nth j ki false)) in *.
  assert (F : forall r M j, (j < List.length li)%nat -> Rabs (dot6 r (z j)) <= M ->
    Rabs (dot6 r (z' j) * dot6 r (z' j) - dot6 r (z j) * dot6 r (z j))
      <= (rownorm r * K * M + M * (rownorm r * K) + rownorm r * K * (rownorm r * K)) * 2 * (d * (1 + d))).
  { intros r M j Hj HM. eapply Rle_trans; [exact (form_close r r K K M M d d _ _ _ _ Hd Hd HK HK (CL j Hj) (CL j Hj) HM HM)|].
    set (A := _ + rownorm r * K * (rownorm r * K)). rewrite (Rmult_assoc A). apply Rmult_le_compat_l.
    - unfold A. pose proof (rownorm_pos r). pose proof (Rabs_pos (dot6 r (z j))). assert (0 <= rownorm r * K) by (apply Rmult_le_pos; assumption).
      assert (0 <= M) by lra. repeat apply Rplus_le_le_0_compat; apply Rmult_le_pos; assumption.
    - assert (0 <= d * d) by (apply Rmult_le_pos; assumption). lra. }
  assert (T1 : Rabs (tip_sum ki n (fun j => w j * GI p (z' j)) - tip_sum ki n (fun j => w j * GI p (z j))) <= S1 * (d * (1 + d))).
  { unfold S1. rewrite <- (rsum_scale q1). apply tip_sum_diff.
    - intros j Hj. unfold q1. replace (w j * (kn p / 2 * (N1 * m1 j + m1 j * N1 + N1 * N1) * 2) * (d * (1 + d)))
        with (w j * (kn p / 2 * ((N1 * m1 j + m1 j * N1 + N1 * N1) * 2 * (d * (1 + d))))) by ring.
      apply scaled_diff; [apply weight_at_pos|]. rewrite !GI_form by exact Hn. apply scaled_diff; [lra|].
      apply F; [unfold n in Hj; lia|apply Rle_refl].
    - intros j. apply Rmult_le_pos; [apply Q1|exact D0]. }
  assert (T2 : Rabs (tip_sum ki n (fun j => w j * GII p (z' j)) - tip_sum ki n (fun j => w j * GII p (z j))) <= S2 * (d * (1 + d))).
  { unfold S2. rewrite <- (rsum_scale q2). apply tip_sum_diff.
    - intros j Hj. unfold q2. replace (w j * (kt p / 2 * (N2 * m2 j + m2 j * N2 + N2 * N2) * 2) * (d * (1 + d)))
        with (w j * (kt p / 2 * ((N2 * m2 j + m2 j * N2 + N2 * N2) * 2 * (d * (1 + d))))) by ring.
      apply scaled_diff; [apply weight_at_pos|]. rewrite !GII_form by exact Ht. apply scaled_diff; [lra|].
      apply F; [unfold n in Hj; lia|apply Rle_refl].
    - intros j. apply Rmult_le_pos; [apply Q2|exact D0]. }
  destruct (gdif_value _ _ _ _ _ _ _ _ _ _ _ L W HG) as [(E & -> & -> & ->)|(cg & Eg & V1 & V2 & V)];
  destruct (gdif_value _ _ _ _ _ _ _ _ _ _ _ L W HH) as [(E' & -> & -> & ->)|(ch & Eh & U1 & U2 & U)].
  - rewrite Rminus_diag_eq, Rabs_R0 by reflexivity. repeat split; lra.
  - fold z' in U1, U2. cbv zeta in U1, U2. rewrite !tip_sum_filter in U1, U2. rewrite E in U1, U2. simpl in U1, U2.
    subst H. rewrite U1, U2, !Rmult_0_r, Rplus_0_r, Rminus_diag_eq, Rabs_R0 by reflexivity. repeat split; lra.
  - cbv zeta in V1, V2. rewrite !tip_sum_filter in V1, V2. rewrite E' in V1, V2. simpl in V1, V2.
    subst G. rewrite V1, V2, !Rmult_0_r, Rplus_0_r, Rminus_diag_eq, Rabs_R0 by reflexivity. repeat split; lra.
  - apply conv_err_factor in Eg, Eh. assert (cg = c) by (unfold c; rewrite Eg; reflexivity). assert (ch = c) by (unfold c; rewrite Eh; reflexivity).
    subst cg ch. cbv zeta in V1, V2, U1, U2. fold n in V1, V2, U1, U2. 
    assert (B1 : Rabs (H1 - G1) <= c * S1 * (d * (1 + d))).
    { rewrite U1, V1, Rmult_assoc. apply scaled_diff; [exact c0|exact T1]. }
    assert (B2 : Rabs (H2 - G2) <= c * S2 * (d * (1 + d))).
    { rewrite U2, V2, Rmult_assoc. apply scaled_diff; [exact c0|exact T2]. }
    split; [lra|]. split; [lra|]. rewrite U, V. eapply Rle_trans; [apply Rabs_pair|]. lra.
Qed.

(** * Incremental energy release rate *)
Lemma int1_form p x z0 z1 : 0 < wt p -> int1 p x z0 z1 = kn p * (dot6 wrow (z0 x) * dot6 wrow (z1 x)).
Proof. intros H. rewrite int1_value by exact H. unfold dot6, wrow. cbn [z_u z_du z_w z_dw z_psi z_dpsi]. ring. Qed.
Lemma int2_form p x z0 z1 : 0 < wt p -> int2 p x z0 z1 = - kt p * (dot6 (srow p) (z0 x) * dot6 (srow p) (z1 x)).
Proof. intros H. rewrite int2_value by exact H. unfold dot6, srow, s_tau. cbn [z_u z_du z_w z_dw z_psi z_dpsi]. ring. Qed.

(** Two integrals of close integrands, one of them computed. *)
Lemma integral_close quad q f g l D : accurate_quad quad q -> 0 <= l -> (forall x, continuous f x) -> (forall x, continuous g x) ->
  (forall x, 0 <= x <= l -> Rabs (f x - g x) <= D) -> Rabs (quad f 0 l - RInt g 0 l) <= q + l * D.
Proof.
  intros HQ Hl Cf Cg H. pose proof (HQ f 0 l Cf) as A.
  assert (If : ex_RInt f 0 l) by (apply (ex_RInt_continuous (V := R_CompleteNormedModule)); intros; apply Cf).
  assert (Ig : ex_RInt g 0 l) by (apply (ex_RInt_continuous (V := R_CompleteNormedModule)); intros; apply Cg).
  assert (B : Rabs (RInt f 0 l - RInt g 0 l) <= l * D).
  { pose proof (RInt_minus f g 0 l If Ig) as E. unfold minus, plus, opp in E. simpl in E.
    replace (RInt f 0 l - RInt g 0 l) with (RInt (fun x => f x + - g x) 0 l) by (rewrite E; ring).
    replace (l * D) with ((l - 0) * D) by ring. apply abs_RInt_le_const; [exact Hl| |].
    - apply (ex_RInt_continuous (V := R_CompleteNormedModule)). intros x _.
      apply (@continuous_plus R_UniformSpace R_AbsRing R_NormedModule); [apply Cf|]. apply (@continuous_opp R_UniformSpace R_AbsRing R_NormedModule). apply Cg.
    - intros x Hx. apply H. exact Hx. }
  replace (quad f 0 l - RInt g 0 l) with ((quad f 0 l - RInt f 0 l) + (RInt f 0 l - RInt g 0 l)) by ring.
  eapply Rle_trans; [apply Rabs_triang|]. lra.
Qed.

Lemma loop_close quad q p e e' ld D : accurate_quad quad q -> 0 <= D ->
  forall msk li C0 C1 C0' C1' r r',
  List.length li = List.length msk -> List.length C0 = List.length msk -> List.length C1 = List.length msk ->
  List.length C0' = List.length msk -> List.length C1' = List.length msk ->
  (forall i, (i < List.length msk)%nat -> nth i msk false = true -> 0 <= nth i li 0 /\
    let f1 := fun x => int1 p x (fun s => zsol p e ld s (nth i C0 []) (nth i li 0) true) (fun s => zsol p e ld s (nth i C1 []) (nth i li 0) false) in
    let f2 := fun x => int2 p x (fun s => zsol p e ld s (nth i C0 []) (nth i li 0) true) (fun s => zsol p e ld s (nth i C1 []) (nth i li 0) false) in
    let g1 := fun x => int1 p x (fun s => zsol p e' ld s (nth i C0' []) (nth i li 0) true) (fun s => zsol p e' ld s (nth i C1' []) (nth i li 0) false) in
    let g2 := fun x => int2 p x (fun s => zsol p e' ld s (nth i C0' []) (nth i li 0) true) (fun s => zsol p e' ld s (nth i C1' []) (nth i li 0) false) in
    (forall x, continuous f1 x /\ continuous f2 x /\ continuous g1 x /\ continuous g2 x) /\
    (forall x, 0 <= x <= nth i li 0 -> Rabs (g1 x - f1 x) <= D /\ Rabs (g2 x - f2 x) <= D)) ->
  ginc_loop (fun f a b => RInt f a b) p e ld (select msk C0) (select msk C1) (select msk li) = Ok r ->
  ginc_loop quad p e' ld (select msk C0') (select msk C1') (select msk li) = Ok r' ->
  Rabs (fst r' - fst r) <= INR (List.length msk) * q + rsum (select msk li) * D /\
  Rabs (snd r' - snd r) <= INR (List.length msk) * q + rsum (select msk li) * D.
Proof.
  intros HQ HD.
  assert (q0 : 0 <= q).
  { eapply Rle_trans; [apply Rabs_pos|]. apply (HQ (fun _ => 0) 0 0). intros; apply continuous_const. }
  induction msk as [|b msk IH]; intros [|l li] [|c0 C0] [|c1 C1] [|c0' C0'] [|c1' C1'] r r' L1 L2 L3 L4 L5 H Hr Hr'; try discriminate.
  - simpl in Hr, Hr'. apply Ok_inj in Hr, Hr'. subst. simpl. rewrite Rminus_diag_eq, Rabs_R0 by reflexivity. lra.
  - injection L1 as L1; injection L2 as L2; injection L3 as L3; injection L4 as L4; injection L5 as L5.
    pose proof (fun i Hi => H (S i) (proj1 (Nat.succ_lt_mono i (List.length msk)) Hi)) as H''. cbn [nth] in H''.
    change (List.length (b :: msk)) with (S (List.length msk)). rewrite S_INR.
    destruct b.
    + cbn [select] in Hr, Hr' |- *. cbn [ginc_loop] in Hr, Hr'.
      destruct (zsol_checked p e ld 0 c0 l true); cbn [bind] in Hr; [|discriminate].
      destruct (zsol_checked p e ld 0 c1 l false); cbn [bind] in Hr; [|discriminate].
      destruct (ginc_loop _ p e ld _ _ _) as [s|] eqn:Es; cbn [bind] in Hr; [|discriminate]. apply Ok_inj in Hr. subst r.
      destruct (zsol_checked p e' ld 0 c0' l true); cbn [bind] in Hr'; [|discriminate].
      destruct (zsol_checked p e' ld 0 c1' l false); cbn [bind] in Hr'; [|discriminate].
      destruct (ginc_loop quad p e' ld _ _ _) as [s'|] eqn:Es'; cbn [bind] in Hr'; [|discriminate]. apply Ok_inj in Hr'. subst r'.
      destruct (IH li C0 C1 C0' C1' s s' L1 L2 L3 L4 L5 H'' Es Es') as [I1 I2].
      destruct (H 0%nat ltac:(simpl; lia) eq_refl) as (Hl & Hc & Hd). cbn [nth] in Hl, Hc, Hd. cbv zeta in Hc, Hd.
      cbn [fst snd rsum fold_right]. fold (rsum (select msk li)).
      split; (eapply Rle_trans; [apply Rabs_pair|]).
      * pose proof (integral_close quad q (fun x => int1 p x (fun s => zsol p e' ld s c0' l true) (fun s => zsol p e' ld s c1' l false))
          (fun x => int1 p x (fun s => zsol p e ld s c0 l true) (fun s => zsol p e ld s c1 l false)) l D HQ Hl
          (fun x => proj1 (proj2 (proj2 (Hc x)))) (fun x => proj1 (Hc x)) (fun x Hx => proj1 (Hd x Hx))) as Q. eapply Rle_trans; [apply Rplus_le_compat; [exact Q|exact I1]|]. lra.
      * pose proof (integral_close quad q (fun x => int2 p x (fun s => zsol p e' ld s c0' l true) (fun s => zsol p e' ld s c1' l false))
          (fun x => int2 p x (fun s => zsol p e ld s c0 l true) (fun s => zsol p e ld s c1 l false)) l D HQ Hl
          (fun x => proj2 (proj2 (proj2 (Hc x)))) (fun x => proj1 (proj2 (Hc x))) (fun x Hx => proj2 (Hd x Hx))) as Q. eapply Rle_trans; [apply Rplus_le_compat; [exact Q|exact I2]|]. lra.
    + cbn [select] in Hr, Hr' |- *. destruct (IH li C0 C1 C0' C1' r r' L1 L2 L3 L4 L5 H'' Hr Hr') as [I1 I2]. lra.
Qed.
Lemma map2_nth (a b : list bool) i : List.length a = List.length b -> (i < List.length a)%nat ->
  nth i (map2 (fun x y => andb x (negb y)) a b) false = andb (nth i a false) (negb (nth i b false)).
Proof.
  revert b i. induction a as [|x a IH]; intros [|y b] [|i] L H; simpl in *; try lia; [reflexivity|]. apply IH; lia.
Qed.
Lemma bound_all o phi li (k : bool) C r : six_cols o -> six_each (List.length li) C ->
  exists M, 0 <= M /\ forall i x, (i < List.length li)%nat -> 0 <= x <= nth i li 0 -> Rabs (dot6 r (field o phi (nth i li 0) k (nth i C []) x)) <= M.
Proof.
  intros H6 [LC FC]. rewrite <- LC. clear LC. revert li. induction FC as [|c C Hc FC IH]; intros li.
  - exists 0. split; [lra|]. intros i x Hi. simpl in Hi. lia.
  - destruct (IH (tl li)) as (M & M0 & HM). destruct (field_bound r o phi (nth 0 li 0) k c H6 Hc) as (M1 & M10 & HM1).
    exists (M + M1). split; [lra|]. intros [|i] x Hi Hx.
    + pose proof (HM1 x Hx). simpl in *. lra.
    + assert (E : nth (S i) li 0 = nth i (tl li) 0) by (destruct li; [destruct i; reflexivity|reflexivity]).
      rewrite E in *. pose proof (HM i x ltac:(simpl in Hi; lia) Hx). simpl nth at 2. lra.
Qed.
Lemma dot_prod_cont (o : obj) phi l r s C0 C1 c x : six_cols o -> List.length C0 = 6%nat -> List.length C1 = 6%nat ->
  continuous (fun t => c * (dot6 r (field o phi l true C0 t) * dot6 s (field o phi l false C1 t))) x.
Proof.
  intros H6 L0 L1. apply continuous_mulR; [apply continuous_const|]. apply continuous_mulR; apply field_cont; assumption.
Qed.

Lemma ginc_close o phi C0 C1 li ki k0 K0 K1 :
  let p := o_par o in let ld := loads_of o phi in
  0 < kn p -> 0 < kt p -> 0 < wt p -> 0 <= K0 -> 0 <= K1 -> six_cols o ->
  List.length ki = List.length li -> List.length k0 = List.length li -> (forall i, (i < List.length li)%nat -> 0 <= nth i li 0) ->
  six_each (List.length li) C0 -> six_each (List.length li) C1 ->
  exists KG, 0 <= KG /\ forall quad q e' C0' C1' d0 d1 G G1 G2 H H1 H2, 
  accurate_quad quad q -> six_cols (with_eig o e') -> 0 <= d0 -> 0 <= d1 ->
  six_each (List.length li) C0' -> six_each (List.length li) C1' ->
  (forall i x, (i < List.length li)%nat -> 0 <= x <= nth i li 0 ->
    close6 (K0 * d0) (field (with_eig o e') phi (nth i li 0) (nth i k0 false) (nth i C0' []) x) (field o phi (nth i li 0) (nth i k0 false) (nth i C0 []) x)) ->
  (forall i x, (i < List.length li)%nat -> 0 <= x <= nth i li 0 ->
    close6 (K1 * d1) (field (with_eig o e') phi (nth i li 0) (nth i ki false) (nth i C1' []) x) (field o phi (nth i li 0) (nth i ki false) (nth i C1 []) x)) ->
  let da := crack_sum k0 ki (List.length li) (fun i => nth i li 0) in
  let B := KG * (d0 + d1 + d0 * d1) + INR (List.length li) * q / (2 * da) in
  0 < da ->
  ginc (fun f a b => RInt f a b) p (o_eig o) ld C0 C1 li ki k0 = Ok (Some G, Some G1, Some G2) ->
  ginc quad p e' ld C0' C1' li ki k0 = Ok (Some H, Some H1, Some H2) ->
  Rabs (H1 - G1) <= B /\ Rabs (H2 - G2) <= B /\ Rabs (H - G) <= 2 * B.
Proof.
  intros p ld Hn Ht Hw HK0 HK1 H6 L1 L0 Pos S0 S1.
  destruct (bound_all o phi li true C0 wrow H6 S0) as (m0 & m00 & Hm0). destruct (bound_all o phi li false C1 wrow H6 S1) as (m1 & m10 & Hm1).
  destruct (bound_all o phi li true C0 (srow p) H6 S0) as (n0 & n00 & Hn0). destruct (bound_all o phi li false C1 (srow p) H6 S1) as (n1 & n10 & Hn1).
  set (A1 := rownorm wrow * K0 * m1 + m0 * (rownorm wrow * K1) + rownorm wrow * K0 * (rownorm wrow * K1)).
  set (A2 := rownorm (srow p) * K0 * n1 + n0 * (rownorm (srow p) * K1) + rownorm (srow p) * K0 * (rownorm (srow p) * K1)).
  pose proof (rownorm_pos wrow) as R1. pose proof (rownorm_pos (srow p)) as R2.
  assert (P1 : 0 <= A1) by (unfold A1; repeat apply Rplus_le_le_0_compat; repeat apply Rmult_le_pos; assumption).
  assert (P2 : 0 <= A2) by (unfold A2; repeat apply Rplus_le_le_0_compat; repeat apply Rmult_le_pos; assumption).
  exists ((kn p * A1 + kt p * A2) / 2).
  assert (Q1 : 0 <= kn p * A1) by (apply Rmult_le_pos; lra). assert (Q2 : 0 <= kt p * A2) by (apply Rmult_le_pos; lra). split; [lra|].
  intros quad q e' C0' C1' d0 d1 G G1 G2 H H1 H2 HQ H6' Hd0 Hd1 S0' S1' CL0 CL1 da B Hda HG HH.
  set (dd := d0 + d1 + d0 * d1) in *. assert (Dd : 0 <= dd) by (unfold dd; pose proof (Rmult_le_pos d0 d1 Hd0 Hd1); lra).
  set (D := (kn p * A1 + kt p * A2) * dd). assert (HD : 0 <= D) by (apply Rmult_le_pos; lra).
  destruct S0 as [LC0 F0], S1 as [LC1 F1], S0' as [LC0' F0'], S1' as [LC1' F1'].
  assert (six : forall X, Forall (fun C : list R => List.length C = 6%nat) X -> List.length X = List.length li -> forall i, (i < List.length li)%nat -> List.length (nth i X []) = 6%nat).
  { intros X FX LX i Hi. apply (proj1 (Forall_forall _ _) FX). apply nth_In. lia. }
  unfold ginc in HG, HH. rewrite L0, L1, LC0, LC1, LC0', LC1', Nat.eqb_refl in *. cbn [negb andb] in HG, HH.
  set (m := map2 (fun a b => andb a (negb b)) k0 ki) in *.
  assert (Lm : List.length m = List.length li) by (unfold m; rewrite map2_len; congruence).
  destruct (ginc_loop _ p (o_eig o) ld _ _ _) as [r|] eqn:Er; cbn [bind] in HG; [|discriminate].
  destruct (ginc_loop quad p e' ld _ _ _) as [r'|] eqn:Er'; cbn [bind] in HH; [|discriminate].
  assert (Da : rsum (select m li) = da) by (unfold da, m; rewrite <- L1; apply select_sum1; congruence).
  destruct (loop_close quad q p (o_eig o) e' ld D HQ HD m li C0 C1 C0' C1' r r') as [X1 X2]; try congruence.
  { intros i Hi Hm. rewrite Lm in Hi. split; [apply Pos; exact Hi|]. unfold m in Hm. rewrite map2_nth in Hm by lia.
    apply andb_true_iff in Hm. destruct Hm as [K0i K1i]. apply negb_true_iff in K1i.
    pose proof (six C0 F0 LC0 i Hi) as c0. pose proof (six C1 F1 LC1 i Hi) as c1. pose proof (six C0' F0' LC0' i Hi) as c0'. pose proof (six C1' F1' LC1' i Hi) as c1'.
    cbv zeta. split.
    - intros x. repeat split.
      + apply (continuous_extR (fun t => kn p * (dot6 wrow (field o phi (nth i li 0) true (nth i C0 []) t) * dot6 wrow (field o phi (nth i li 0) false (nth i C1 []) t)))).
        { intros t. rewrite int1_form by exact Hw. reflexivity. } apply dot_prod_cont; assumption.
      + apply (continuous_extR (fun t => - kt p * (dot6 (srow p) (field o phi (nth i li 0) true (nth i C0 []) t) * dot6 (srow p) (field o phi (nth i li 0) false (nth i C1 []) t)))).
        { intros t. rewrite int2_form by exact Hw. reflexivity. } apply dot_prod_cont; assumption.
      + apply (continuous_extR (fun t => kn p * (dot6 wrow (field (with_eig o e') phi (nth i li 0) true (nth i C0' []) t) * dot6 wrow (field (with_eig o e') phi (nth i li 0) false (nth i C1' []) t)))).
        { intros t. rewrite int1_form by exact Hw. reflexivity. } apply dot_prod_cont; assumption.
      + apply (continuous_extR (fun t => - kt p * (dot6 (srow p) (field (with_eig o e') phi (nth i li 0) true (nth i C0' []) t) * dot6 (srow p) (field (with_eig o e') phi (nth i li 0) false (nth i C1' []) t)))).
        { intros t. rewrite int2_form by exact Hw. reflexivity. } apply dot_prod_cont; assumption.
    - intros x Hx. pose proof (CL0 i x Hi Hx) as c0x. pose proof (CL1 i x Hi Hx) as c1x. rewrite K0i in c0x. rewrite K1i in c1x.
      rewrite !int1_form, !int2_form by exact Hw.
      pose proof (form_close wrow wrow K0 K1 m0 m1 d0 d1 _ _ _ _ Hd0 Hd1 HK0 HK1 c0x c1x (Hm0 i x Hi Hx) (Hm1 i x Hi Hx)) as Y1.
      pose proof (form_close (srow p) (srow p) K0 K1 n0 n1 d0 d1 _ _ _ _ Hd0 Hd1 HK0 HK1 c0x c1x (Hn0 i x Hi Hx) (Hn1 i x Hi Hx)) as Y2.
      fold A1 dd in Y1. fold A2 dd in Y2.
      assert (0 <= kn p * A1 * dd) by (apply Rmult_le_pos; assumption). assert (0 <= kt p * A2 * dd) by (apply Rmult_le_pos; assumption).
      split.
      + eapply Rle_trans; [apply scaled_diff; [|exact Y1]; lra|]. unfold D. lra.
      + replace (_ - _) with (- (kt p * (dot6 (srow p) (field (with_eig o e') phi (nth i li 0) true (nth i C0' []) x) * dot6 (srow p) (field (with_eig o e') phi (nth i li 0) false (nth i C1' []) x))
          - kt p * (dot6 (srow p) (field o phi (nth i li 0) true (nth i C0 []) x) * dot6 (srow p) (field o phi (nth i li 0) false (nth i C1 []) x)))) by (unfold field; cbn [o_par with_eig o_eig]; fold p; change (loads_of (with_eig o e') phi) with ld; fold ld; ring).
        rewrite Rabs_Ropp. eapply Rle_trans; [apply scaled_diff; [|exact Y2]; lra|]. unfold D. lra. }
  rewrite Da, Lm in X1, X2.
  destruct (select m li) as [|s0 s] eqn:Es; [simpl in Da; lra|]. rewrite Da in HG, HH.
  destruct (Rlt_dec 0 da) as [_|]; [|lra]. apply Ok_inj in HG, HH. injection HG as <- <- <-. injection HH as <- <- <-.
  assert (Y : forall a b, Rabs (a - b) <= INR (List.length li) * q + da * D -> Rabs (a / (2 * da) - b / (2 * da)) <= B).
  { intros a b Hab. replace (a / (2 * da) - b / (2 * da)) with ((a - b) * / (2 * da)) by (field; lra).
    assert (I : 0 < / (2 * da)) by (apply Rinv_0_lt_compat; lra). rewrite Rabs_mult, (Rabs_pos_eq (/ (2 * da))) by lra.
    replace B with ((INR (List.length li) * q + da * D) * / (2 * da)) by (unfold B, D; field; lra).
    apply Rmult_le_compat_r; lra. }
  specialize (Y (fst r') (fst r) X1) as Y1. specialize (Y (snd r') (snd r) X2) as Y2.
  split; [exact Y1|]. split; [exact Y2|]. eapply Rle_trans; [apply Rabs_pair|]. lra.
Qed.
