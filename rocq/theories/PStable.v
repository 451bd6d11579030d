(** Proofs: backward stable numerics give small errors (C118). *)
From Coquelicot Require Import Coquelicot.
Require Import Verif.Py Verif.MTools Verif.MEigen Verif.MFields Verif.SAdm
  Verif.MSolution Verif.SBeam Verif.SBvp Verif.SEig Verif.SSplit Verif.SApprox Verif.SStable Verif.PSetup Verif.PBeam Verif.PBeam2
  Verif.PBvp Verif.PBvp2 Verif.PBvp3 Verif.PBvp4 Verif.PBvp5 Verif.PLinAlg
  Verif.PWell Verif.PIndep Verif.PWell2 Verif.PWell3 Verif.PComplete Verif.PDepend Verif.PApprox Verif.PApprox2 Verif.PApprox3.
Open Scope R_scope.

(** * Columns *)
Lemma shiftR_low ew x l : 0 <= x <= l -> ew * (x + l * shiftR ew) <= 0.
Proof. intros H. unfold shiftR. destruct (Rlt_dec 0 ew); nra. Qed.
Lemma shiftC_low ew x l : 0 <= x <= l -> fst ew * (x + l * shiftC ew) <= 0.
Proof.
  intros H. unfold shiftC. destruct (Rlt_dec 0 (fst ew)); [nra|]. destruct (Req_EM_T (fst ew) 0) as [E|E]; [rewrite E; lra|].
  assert (fst ew < 0) by lra. nra.
Qed.
Lemma exp_le1 a : a <= 0 -> 0 < exp a <= 1.
Proof. intros H. split; [apply exp_pos|]. rewrite <- exp_0. apply exp_le. exact H. Qed.
Lemma close6_small c a m : 0 <= m -> 0 <= c <= 1 -> close6 m a vzero -> close6 m (vscale c a) vzero.
Proof.
  intros Hm Hc H. apply (close6_le (Rabs c * m)); [rewrite Rabs_pos_eq by lra; nra|]. apply close6_scale. exact H.
Qed.
Lemma close6_rot m a b c s : 0 <= m -> Rabs c <= 1 -> Rabs s <= 1 -> close6 m a vzero -> close6 m b vzero ->
  close6 (2 * m) (vadd (vscale c a) (vscale s b)) vzero.
Proof.
  intros Hm Hc Hs Ha Hb. apply (close6_le (Rabs c * m + Rabs s * m)); [nra|]. apply close6_add; apply close6_scale; assumption.
Qed.
Lemma columns_sized m e x l : 0 <= m -> sized m e -> 0 <= x <= l -> Forall (fun v => close6 (2 * m) v vzero) (zh_bedded e x l).
Proof.
  intros Hm Hs Hx. unfold sized, basis in Hs. rewrite !Forall_app, !Forall_map in Hs. destruct Hs as (H1 & H2 & H3).
  assert (H23 : Forall (fun y => close6 m (fst (snd y)) vzero /\ close6 m (snd (snd y)) vzero) (eC e)).
  { rewrite Forall_forall in *. intros y Hy. split; [apply H2|apply H3]; exact Hy. }
  unfold zh_bedded. rewrite !Forall_app, !Forall_map. split; [|split].
  - eapply Forall_impl; [|exact H1]. intros [ew v] Hv. cbn [snd] in Hv. unfold colR. cbn [fst snd].
    apply (close6_le m); [lra|]. apply close6_small; [exact Hm| |exact Hv].
    destruct (exp_le1 _ (shiftR_low ew x l Hx)). lra.
  - eapply Forall_impl; [|exact H23]. intros [[re im] [vr vi]] [Hr Hi]. cbn [fst snd] in Hr, Hi. unfold colC1.
    destruct (exp_le1 _ (shiftC_low (re, im) x l Hx)) as [E1 E2]. cbn [fst] in E1, E2. apply close6_small; [lra|lra|].
    apply close6_rot; try assumption; [apply Rabs_le, COS_bound|]. rewrite Rabs_Ropp. apply Rabs_le, SIN_bound.
  - eapply Forall_impl; [|exact H23]. intros [[re im] [vr vi]] [Hr Hi]. cbn [fst snd] in Hr, Hi. unfold colC2.
    destruct (exp_le1 _ (shiftC_low (re, im) x l Hx)) as [E1 E2]. cbn [fst] in E1, E2. apply close6_small; [lra|lra|].
    apply close6_rot; try assumption; apply Rabs_le; [apply COS_bound|apply SIN_bound].
Qed.

(** At the left end the columns are the basis vectors, shortened by at most exp (lam l). *)
Definition scaled (low : R) (a b : vec6) : Prop := exists s, low <= s /\ a = vscale s b.
Definition eigs_below (lam : R) (e : eigsys) : Prop :=
  Forall (fun y => Rabs (fst y) <= lam) (eR e) /\ Forall (fun y => Rabs (fst (fst y)) <= lam) (eC e).
Lemma forall2_map (A : Type) (P : A -> Prop) (Q : vec6 -> vec6 -> Prop) f g l : Forall P l -> (forall y, P y -> Q (f y) (g y)) -> Forall2 Q (map f l) (map g l).
Proof. intros H HQ. induction H; simpl; constructor; auto. Qed.
Lemma columns_start lam e l : 0 <= lam -> 0 <= l -> eigs_below lam e -> Forall2 (scaled (exp (- (lam * l)))) (zh_bedded e 0 l) (basis e).
Proof.
  intros Hlam Hl [H1 H2].
  assert (B : forall ew sh, Rabs ew <= lam -> sh = -1 \/ sh = 0 -> exp (- (lam * l)) <= exp (ew * (0 + l * sh))).
  { intros ew sh He Hsh. apply exp_le. apply Rabs_le_between in He. destruct Hsh as [->| ->]; nra. }
  assert (SR : forall ew, shiftR ew = -1 \/ shiftR ew = 0) by (intros; unfold shiftR; destruct Rlt_dec; auto).
  assert (SC : forall ew, shiftC ew = -1 \/ shiftC ew = 0).
  { intros; unfold shiftC. destruct Rlt_dec; auto. destruct Req_EM_T; auto. destruct Rlt_dec; auto. }
  unfold zh_bedded, basis. apply Forall2_app; [|apply Forall2_app].
  - refine (forall2_map _ _ _ _ _ _ H1 _). intros [ew v] He. exists (exp (ew * (0 + l * shiftR ew))). split; [apply B; [exact He|apply SR]|reflexivity].
  - refine (forall2_map _ _ _ _ _ _ H2 _). intros [[re im] [vr vi]] He. exists (exp (re * (0 + l * shiftC (re, im)))). split; [apply B; [exact He|apply SC]|].
    unfold colC1. rewrite Rmult_0_r, cos_0, sin_0. cbn [fst snd]. apply vec6_eq; cbn [vadd vscale z_u z_du z_w z_dw z_psi z_dpsi]; ring.
  - refine (forall2_map _ _ _ _ _ _ H2 _). intros [[re im] [vr vi]] He. exists (exp (re * (0 + l * shiftC (re, im)))). split; [apply B; [exact He|apply SC]|].
    unfold colC2. rewrite Rmult_0_r, cos_0, sin_0. cbn [fst snd]. apply vec6_eq; cbn [vadd vscale z_u z_du z_w z_dw z_psi z_dpsi]; ring.
Qed.
Lemma scaled_lincomb low a b C : 0 < low -> Forall2 (scaled low) a b -> List.length C = List.length a ->
  exists C', List.length C' = List.length b /\ lincomb a C = lincomb b C' /\ low * abs_sum C <= abs_sum C'.
Proof.
  intros Hl H. revert C. induction H as [|x y a b (s & Hs & ->) H IH]; intros [|c C] L; try discriminate.
  - exists []. simpl. repeat split; lra.
  - simpl in L. destruct (IH C ltac:(lia)) as (C' & L' & E & Q). exists (s * c :: C'). split; [simpl; lia|]. split.
    + simpl. rewrite E. apply vec6_eq; cbn [vadd vscale z_u z_du z_w z_dw z_psi z_dpsi]; ring.
    + simpl. rewrite Rabs_mult, (Rabs_pos_eq s) by lra. pose proof (Rabs_pos c). nra.
Qed.
Lemma columns_conditioned kap lam e l C s : 0 <= lam -> 0 <= l -> eigs_below lam e -> conditioned kap e -> List.length C = List.length (zh_bedded e 0 l) ->
  close6 s (lincomb (zh_bedded e 0 l) C) vzero -> abs_sum C <= exp (lam * l) * (kap * s).
Proof.
  intros Hlam Hl He Hc LC H. destruct (scaled_lincomb _ _ _ C (exp_pos (- (lam * l))) (columns_start lam e l Hlam Hl He) LC) as (C' & L' & E & Q).
  rewrite E in H. specialize (Hc C' s L' H). rewrite exp_Ropp in Q. pose proof (exp_pos (lam * l)) as P.
  apply (Rmult_le_compat_l (exp (lam * l))) in Q; [|lra]. rewrite <- Rmult_assoc, Rinv_r, Rmult_1_l in Q by lra.
  eapply Rle_trans; [exact Q|]. apply Rmult_le_compat_l; lra.
Qed.

(** * Eigenvalues *)
Lemma lincomb_app a b C D : List.length C = List.length a -> lincomb (a ++ b) (C ++ D) = vadd (lincomb a C) (lincomb b D).
Proof.
  revert C. induction a as [|x a IH]; intros [|c C] L; try discriminate; simpl.
  - apply vec6_eq; cbn [vadd vzero z_u z_du z_w z_dw z_psi z_dpsi]; ring.
  - rewrite IH by (simpl in L; lia). apply vec6_eq; cbn [vadd vscale z_u z_du z_w z_dw z_psi z_dpsi]; ring.
Qed.
Lemma lincomb_zero a n : lincomb a (repeat 0 n) = vzero.
Proof.
  revert n. induction a as [|x a IH]; intros [|n]; simpl; try reflexivity. rewrite IH. apply vec6_eq; cbn [vadd vscale vzero z_u z_du z_w z_dw z_psi z_dpsi]; ring.
Qed.
Lemma abs_sum_zero n : abs_sum (repeat 0 n) = 0.
Proof. induction n as [|n IH]; simpl; [reflexivity|]. rewrite IH, Rabs_R0. ring. Qed.
(** Coefficients [c] at one place of a list. *)
Lemma one_place (A : Type) (f : A -> vec6) l (y : A) c : In y l -> exists C, List.length C = List.length l /\ lincomb (map f l) C = vscale c (f y) /\ abs_sum C = Rabs c.
Proof.
  intros H. apply in_split in H. destruct H as (l1 & l2 & ->). exists (repeat 0 (List.length l1) ++ c :: repeat 0 (List.length l2)). split; [|split].
  - rewrite !app_length. simpl. rewrite !repeat_length. lia.
  - rewrite map_app, lincomb_app by (rewrite repeat_length, map_length; reflexivity). rewrite lincomb_zero. simpl. rewrite lincomb_zero.
    apply vec6_eq; cbn [vadd vscale vzero z_u z_du z_w z_dw z_psi z_dpsi]; ring.
  - rewrite abs_sum_app. simpl. rewrite !abs_sum_zero. ring.
Qed.
Lemma two_places (A : Type) (f g : A -> vec6) l (y : A) c d : In y l -> exists C D, List.length C = List.length l /\ List.length D = List.length l /\
  lincomb (map f l) C = vscale c (f y) /\ lincomb (map g l) D = vscale d (g y) /\ abs_sum C = Rabs c /\ abs_sum D = Rabs d.
Proof.
  intros H. destruct (one_place A f l y c H) as (C & A1 & A2 & A3). destruct (one_place A g l y d H) as (D & B1 & B2 & B3).
  exists C, D. auto 10.
Qed.
Lemma matvec_sized K v m : 0 <= m -> close6 m v vzero -> close6 (matnorm K * m) (matvec K v) vzero.
Proof.
  intros Hm H. assert (Q : forall r, rownorm r <= matnorm K -> Rabs (dot6 r v - 0) <= matnorm K * m).
  { intros r Hr. pose proof (close6_dot r _ _ _ H) as P. rewrite dot_zero in P. eapply Rle_trans; [exact P|]. apply Rmult_le_compat_r; assumption. }
  pose proof (rownorm_pos (row0 K)). pose proof (rownorm_pos (row1 K)). pose proof (rownorm_pos (row2 K)). pose proof (rownorm_pos (row3 K)).
  pose proof (rownorm_pos (row4 K)). pose proof (rownorm_pos (row5 K)).
  unfold close6, matvec, vzero. cbn [z_u z_du z_w z_dw z_psi z_dpsi]. repeat split; apply Q; unfold matnorm; lra.
Qed.
Lemma close6_sym e a b : close6 e a b -> close6 e b a.
Proof. unfold close6. intros (A & B & C & D & E & F). repeat split; rewrite Rabs_minus_sym; assumption. Qed.
Lemma eigenvalues_bounded K rho m kap ews : 0 <= m -> 0 <= rho <= 1 -> 0 <= kap -> Forall (approx_eigenpair K rho) ews ->
  sized m (calc_eigensystem ews) -> conditioned kap (calc_eigensystem ews) -> eigs_below (kap * (matnorm K * m + 1)) (calc_eigensystem ews).
Proof.
  intros Hm Hrho Hk HA Hs Hc. set (e := calc_eigensystem ews) in *.
  unfold sized, basis in Hs. rewrite !Forall_app, !Forall_map in Hs. destruct Hs as (H1 & H2 & H3). rewrite Forall_forall in H1, H2, H3, HA.
  split; apply Forall_forall.
  - intros [ew v] Hy. cbn [fst]. pose proof (H1 _ Hy) as Hv. cbn [snd] in Hv.
    destruct (one_place _ snd (eR e) (ew, v) ew Hy) as (C & LC & EC & SC).
    pose proof Hy as Hy'. unfold e, calc_eigensystem in Hy'. cbn [eR] in Hy'. apply in_map_iff in Hy'. destruct Hy' as ([[re im] [vr vi]] & Ey & Hin).
    cbn [fst snd] in Ey. injection Ey as -> ->. apply filter_In in Hin. destruct Hin as [Hin Hre]. specialize (HA _ Hin). destruct HA as [HA _].
    assert (im = 0) as -> by (unfold is_real_ew, Reqb in Hre; cbn [fst snd] in Hre; destruct (Req_EM_T im 0); [assumption|discriminate]).
    set (D := repeat 0 (List.length (eC e))).
    assert (Q : close6 (rho + matnorm K * m) (lincomb (basis e) (C ++ D ++ D)) vzero).
    { unfold basis. rewrite lincomb_app by (rewrite map_length; exact LC). rewrite lincomb_app by (unfold D; rewrite repeat_length, map_length; reflexivity).
      unfold D. rewrite !lincomb_zero, EC. cbn [snd]. apply (close6_trans rho _ _ (matvec K v)); [|apply matvec_sized; assumption].
      apply close6_sym. replace (vadd _ _) with (vadd (vscale ew v) (vscale (- 0) vi)); [exact HA|].
      apply vec6_eq; cbn [vadd vscale vzero z_u z_du z_w z_dw z_psi z_dpsi]; ring. }
    apply Hc in Q; [|unfold basis, D; rewrite !app_length, !map_length, !repeat_length; lia].
    rewrite !abs_sum_app in Q. unfold D in Q. rewrite !abs_sum_zero, SC in Q.
    assert (kap * (rho + matnorm K * m) <= kap * (matnorm K * m + 1)) by (apply Rmult_le_compat_l; lra). lra.
  - intros [[re im] [vr vi]] Hy. cbn [fst]. pose proof (H2 _ Hy) as Hr. pose proof (H3 _ Hy) as Hi. cbn [fst snd] in Hr, Hi.
    destruct (two_places _ (fun y => fst (snd y)) (fun y => snd (snd y)) (eC e) _ re (- im) Hy) as (C & D & LC & LD & EC & ED & SC & SD). cbn [fst snd] in EC, ED.
    pose proof Hy as Hin. unfold e, calc_eigensystem in Hin. cbn [eC] in Hin. apply filter_In in Hin. destruct Hin as [Hin _].
    specialize (HA _ Hin). destruct HA as [HA _]. set (Z := repeat 0 (List.length (eR e))).
    assert (Q : close6 (rho + matnorm K * m) (lincomb (basis e) (Z ++ C ++ D)) vzero).
    { unfold basis. rewrite lincomb_app by (unfold Z; rewrite repeat_length, map_length; reflexivity). rewrite lincomb_app by (rewrite map_length; exact LC).
      unfold Z. rewrite lincomb_zero, EC, ED. apply (close6_trans rho _ _ (matvec K vr)); [|apply matvec_sized; assumption].
      apply close6_sym. replace (vadd vzero _) with (vadd (vscale re vr) (vscale (- im) vi)); [exact HA|].
      apply vec6_eq; cbn [vadd vscale vzero z_u z_du z_w z_dw z_psi z_dpsi]; ring. }
    apply Hc in Q; [|unfold basis, Z; rewrite !app_length, !map_length, !repeat_length; lia].
    rewrite !abs_sum_app in Q. unfold Z in Q. rewrite !abs_sum_zero, SC, SD in Q. pose proof (Rabs_pos (- im)).
    assert (kap * (rho + matnorm K * m) <= kap * (matnorm K * m + 1)) by (apply Rmult_le_compat_l; lra). lra.
Qed.

(** * The assembled matrix and right-hand side *)
Definition rows_size (p : params) (kR : R) : R :=
  rownorm rowu + rownorm roww + rownorm rowpsi + rownorm (rowN p) + rownorm (rowM p) + rownorm (rowV p) + Rabs kR.
Lemma rownorm_add a b : rownorm (vadd a b) <= rownorm a + rownorm b.
Proof.
  unfold rownorm. cbn [vadd z_u z_du z_w z_dw z_psi z_dpsi].
  pose proof (Rabs_triang (z_u a) (z_u b)). pose proof (Rabs_triang (z_du a) (z_du b)). pose proof (Rabs_triang (z_w a) (z_w b)).
  pose proof (Rabs_triang (z_dw a) (z_dw b)). pose proof (Rabs_triang (z_psi a) (z_psi b)). pose proof (Rabs_triang (z_dpsi a) (z_dpsi b)). lra.
Qed.
Lemma rownorm_spring r : rownorm (vscale r rowpsi) = Rabs r.
Proof. unfold rownorm, rowpsi. cbn [vscale z_u z_du z_w z_dw z_psi z_dpsi]. rewrite !Rmult_0_r, !Rabs_R0, Rmult_1_r. ring. Qed.
Ltac three_rows := intros [|[|[|c]]] Hc; cbn [nth]; [| | |lia].
Lemma bc_rows_size o kRr kR k pos b : (mem_str (o_system o) ["pst-"; "-pst"]%string = true -> o_mode o = Some ModeC -> kRr = Ok kR) ->
  bc_rows o kRr k pos = Ok b -> forall c, (c < 3)%nat -> rownorm (nth c b vzero) <= rows_size (o_par o) kR.
Proof.
  intros HK H. unfold rows_size.
  pose proof (rownorm_pos rowu). pose proof (rownorm_pos roww). pose proof (rownorm_pos rowpsi). pose proof (rownorm_pos (rowN (o_par o))).
  pose proof (rownorm_pos (rowM (o_par o))). pose proof (rownorm_pos (rowV (o_par o))). pose proof (Rabs_pos kR).
  assert (HC : mem_str (o_system o) ["pst-"; "-pst"]%string = true -> mode_is o ModeC = true -> kRr = Ok kR).
  { intros A B. apply HK; [exact A|]. unfold mode_is in B. destruct (o_mode o) as [[| |]|]; try discriminate. reflexivity. }
  unfold bc_rows in H. destruct (mem_str (o_system o) ["pst-"; "-pst"]%string).
  - destruct (negb k).
    + destruct (mode_is o ModeA); [injection H as <-; three_rows; lra|].
      destruct (mode_is o ModeB && mem_str pos ["r"; "right"]%string)%bool; [injection H as <-; three_rows; lra|].
      destruct (mode_is o ModeB && mem_str pos ["l"; "left"]%string)%bool; [injection H as <-; three_rows; lra|].
      pose proof (rownorm_add (rowM (o_par o)) (vscale kR rowpsi)) as Q1. rewrite rownorm_spring in Q1.
      pose proof (rownorm_add (rowM (o_par o)) (vscale (- kR) rowpsi)) as Q2. rewrite rownorm_spring, Rabs_Ropp in Q2.
      destruct (mode_is o ModeC); [|discriminate]. rewrite (HC eq_refl eq_refl) in H. cbn [andb bind] in H.
      destruct (mem_str pos ["r"; "right"]%string); [injection H as <-; three_rows; lra|].
      destruct (mem_str pos ["l"; "left"]%string); [injection H as <-; three_rows; lra|discriminate].
    + injection H as <-; three_rows; lra.
  - destruct (mem_str (o_system o) ["-vpst"; "vpst-"]%string); [injection H as <-; three_rows; lra|].
    destruct (mem_str (o_system o) ["skier"; "skiers"]%string); [injection H as <-; three_rows; lra|].
    destruct (mem_str (o_system o) ["rot"; "trans"]%string); [injection H as <-; three_rows; lra|discriminate].
Qed.
Lemma inner_rows_size p kR c : (c < 6)%nat -> rownorm (nth c (inner_rows p) vzero) <= rows_size p kR.
Proof.
  intros Hc. unfold rows_size, inner_rows.
  pose proof (rownorm_pos rowu). pose proof (rownorm_pos roww). pose proof (rownorm_pos rowpsi). pose proof (rownorm_pos (rowN p)).
  pose proof (rownorm_pos (rowM p)). pose proof (rownorm_pos (rowV p)). pose proof (Rabs_pos kR).
  destruct c as [|[|[|[|[|[|c]]]]]]; cbn [nth]; lra || lia.
Qed.
Lemma rows_size_pos p kR : 0 <= rows_size p kR.
Proof. eapply Rle_trans; [apply rownorm_pos|apply (inner_rows_size p kR 0); lia]. Qed.

Lemma close6_rownorm v : close6 (rownorm v) v vzero.
Proof.
  unfold close6, rownorm, vzero. cbn [z_u z_du z_w z_dw z_psi z_dpsi]. rewrite !Rminus_0_r.
  pose proof (Rabs_pos (z_u v)). pose proof (Rabs_pos (z_du v)). pose proof (Rabs_pos (z_w v)). pose proof (Rabs_pos (z_dw v)).
  pose proof (Rabs_pos (z_psi v)). pose proof (Rabs_pos (z_dpsi v)). repeat split; lra.
Qed.
Lemma dot_sized r m v : close6 m v vzero -> Rabs (dot6 r v) <= rownorm r * m.
Proof. intros H. pose proof (close6_dot r _ _ _ H) as Q. rewrite dot_zero, Rminus_0_r in Q. exact Q. Qed.
Definition unit_at (c0 : nat) : nat -> R := fun c => if Nat.eqb c c0 then 1 else 0.
Lemma sumn_unit n (f : nat -> R) c0 : (c0 < n)%nat -> sumn n (fun c => f c * unit_at c0 c) = f c0.
Proof.
  induction n as [|n IH]; intros H; [lia|]. simpl. unfold unit_at at 2. destruct (Nat.eqb_spec n c0) as [->|E].
  - assert (Z : sumn c0 (fun c => f c * unit_at c0 c) = 0).
    { apply sumn_zero. intros c Hc. unfold unit_at. destruct (Nat.eqb_spec c c0); [lia|ring]. }
    rewrite Z. ring.
  - rewrite IH by lia. ring.
Qed.

(** Entries of the matrix for columns of size [B]. *)
Section Entries.
Variables (o : obj) (phi : R) (li : list R) (ki : list bool) (B Z : R).
Let N := List.length li.
Hypothesis H6 : six_cols o.
Hypothesis HN : (2 <= N)%nat.
Hypothesis Hk : List.length ki = N.
Hypothesis Hl : forall i, (i < N)%nat -> 0 <= nth i li 0.
Hypothesis HB : forall i x j, (i < N)%nat -> 0 <= x <= nth i li 0 -> (j < 6)%nat -> close6 B (nth j (zh (o_par o) (o_eig o) x (nth i li 0) (nth i ki false)) vzero) vzero.
Hypothesis HZ : forall i x, (i < N)%nat -> 0 <= x <= nth i li 0 -> close6 Z (zp (o_par o) (loads_of o phi) x (nth i ki false)) vzero.
Lemma B_pos : 0 <= B.
Proof. destruct (HB 0%nat 0 0%nat ltac:(lia) ltac:(pose proof (Hl 0%nat ltac:(lia)); lra) ltac:(lia)) as (Q & _). eapply Rle_trans; [apply Rabs_pos|exact Q]. Qed.
Lemma Z_pos : 0 <= Z.
Proof. destruct (HZ 0%nat 0 ltac:(lia) ltac:(pose proof (Hl 0%nat ltac:(lia)); lra)) as (Q & _). eapply Rle_trans; [apply Rabs_pos|exact Q]. Qed.
Lemma entry_dot r c0 i x : (i < N)%nat -> 0 <= x <= nth i li 0 ->
  Rabs (dot6 r (zi o phi li ki (unit_at c0) i x) - dot6 r (zi o phi li ki (fun _ => 0) i x)) <= rownorm r * (6 * B).
Proof.
  intros Hi Hx. unfold zi, field, zsol. rewrite !dot_add, !dot_lincomb by (apply (six_zh o H6)).
  replace (_ - _) with (sumn 6 (fun j => dot6 r (nth j (zh (o_par o) (o_eig o) x (nth i li 0) (nth i ki false)) vzero) * unit_at c0 (6 * i + j)%nat)) by (cbn [sumn]; ring).
  eapply Rle_trans; [apply sumn_Rabs|]. replace (rownorm r * (6 * B)) with (INR 6 * (rownorm r * B)) by (simpl; ring). rewrite <- sumn_const. apply sumn_le. intros j Hj.
  rewrite Rabs_mult. pose proof (dot_sized r B _ (HB i x j Hi Hx Hj)) as Q. pose proof (Rabs_pos (dot6 r (nth j (zh (o_par o) (o_eig o) x (nth i li 0) (nth i ki false)) vzero))).
  unfold unit_at. destruct (Nat.eqb _ _); [rewrite Rabs_R1|rewrite Rabs_R0]; nra.
Qed.
Lemma zero_dot r i x : (i < N)%nat -> 0 <= x <= nth i li 0 -> Rabs (dot6 r (zi o phi li ki (fun _ => 0) i x)) <= rownorm r * Z.
Proof.
  intros Hi Hx. unfold zi, field, zsol. rewrite dot_add, dot_lincomb by (apply (six_zh o H6)).
  replace (sumn 6 _) with 0 by (cbn [sumn]; ring). rewrite Rplus_0_l. apply dot_sized. apply HZ; assumption.
Qed.
Lemma entries kRr kR M v : (mem_str (o_system o) ["pst-"; "-pst"]%string = true -> o_mode o = Some ModeC -> kRr = Ok kR) ->
  assemble_lhs o kRr phi N 0 li ki (fun _ _ => 0, fun _ => 0) = Ok (M, v) ->
  let W := rows_size (o_par o) kR in
  (forall r c, (r < 6 * N)%nat -> (c < 6 * N)%nat -> Rabs (M r c) <= 2 * (W * (6 * B))) /\
  (forall r, (r < 6 * N)%nat -> Rabs (v r) <= 2 * (W * Z)).
Proof.
  intros HK EL W. destruct (lhs_rows o kRr phi li ki M v H6 HN Hk EL) as (bl & br & Hbl & Hbr & HR). fold N in Hbr, HR. cbv zeta in HR.
  pose proof (bc_rows_len _ _ _ _ _ Hbl) as Ll. pose proof (bc_rows_len _ _ _ _ _ Hbr) as Lr.
  pose proof (bc_rows_size o kRr kR _ _ _ HK Hbl) as Wl. pose proof (bc_rows_size o kRr kR _ _ _ HK Hbr) as Wr. pose proof (inner_rows_size (o_par o) kR) as Wi. fold W in Wl, Wr, Wi.
  assert (Z0 : forall r, sumn (6 * N) (fun c => M r c * 0) = 0) by (intros r; apply sumn_zero; intros; ring).
  pose proof B_pos as B0. pose proof Z_pos as Zz. assert (W0 : 0 <= W) by apply rows_size_pos.
  assert (WB : forall y, y <= W -> y * (6 * B) <= W * (6 * B)) by (intros y Hy; apply Rmult_le_compat_r; lra).
  assert (WZ : forall y, y <= W -> y * Z <= W * Z) by (intros y Hy; apply Rmult_le_compat_r; lra).
  assert (B6 : 0 <= W * (6 * B)) by (apply Rmult_le_pos; lra). assert (Z6 : 0 <= W * Z) by (apply Rmult_le_pos; lra).
  assert (IV : forall z c, (c < 6)%nat -> inner_val o z c = dot6 (nth c (inner_rows (o_par o)) vzero) z) by (intros z c Hc; unfold inner_val; apply nth_dot; exact Hc).
  assert (L0 : 0 <= nth 0 li 0) by (apply Hl; lia). assert (L1 : 0 <= nth (N - 1) li 0) by (apply Hl; lia).
  destruct (HR (fun _ => 0)) as (A1 & A2 & A3). split.
  - intros r c Hr Hc. revert r Hr. apply (rows_split N _ HN). destruct (HR (unit_at c)) as (C1 & C2 & C3).
    assert (ME : forall r, M r c = (sumn (6 * N) (fun c' => M r c' * unit_at c c') + v r) - (sumn (6 * N) (fun c => M r c * 0) + v r)).
    { intros r. rewrite (sumn_unit (6 * N) (M r) c Hc), Z0. ring. }
    split; [|split].
    + intros q Hq. rewrite ME, C1, A1, !nth_dot by lia.
      eapply Rle_trans; [apply entry_dot; [lia|lra]|]. pose proof (WB _ (Wl q Hq)). lra.
    + intros q Hq. rewrite ME, C2, A2, !nth_dot by lia.
      eapply Rle_trans; [apply entry_dot; [lia|lra]|]. pose proof (WB _ (Wr q Hq)). lra.
    + intros i q Hi Hq. rewrite ME, C3, A3, !IV by assumption. pose proof (WB _ (Wi q Hq)) as Q.
      pose proof (entry_dot (nth q (inner_rows (o_par o)) vzero) c i (nth i li 0) ltac:(lia) ltac:(pose proof (Hl i ltac:(lia)); lra)) as E1.
      pose proof (entry_dot (nth q (inner_rows (o_par o)) vzero) c (S i) 0 ltac:(lia) ltac:(pose proof (Hl (S i) ltac:(lia)); lra)) as E2.
      apply Rabs_le_between in E1. apply Rabs_le_between in E2. apply Rabs_le. lra.
  - assert (VE : forall r, v r = sumn (6 * N) (fun c => M r c * 0) + v r) by (intros r; rewrite Z0; ring).
    apply (rows_split N _ HN). split; [|split].
    + intros q Hq. rewrite VE, A1, nth_dot by lia. eapply Rle_trans; [apply zero_dot; [lia|lra]|]. pose proof (WZ _ (Wl q Hq)). lra.
    + intros q Hq. rewrite VE, A2, nth_dot by lia. eapply Rle_trans; [apply zero_dot; [lia|lra]|]. pose proof (WZ _ (Wr q Hq)). lra.
    + intros i q Hi Hq. rewrite VE, A3, !IV by assumption. pose proof (WZ _ (Wi q Hq)) as Q.
      pose proof (zero_dot (nth q (inner_rows (o_par o)) vzero) i (nth i li 0) ltac:(lia) ltac:(pose proof (Hl i ltac:(lia)); lra)) as E1.
      pose proof (zero_dot (nth q (inner_rows (o_par o)) vzero) (S i) 0 ltac:(lia) ltac:(pose proof (Hl (S i) ltac:(lia)); lra)) as E2.
      apply Rabs_le_between in E1. apply Rabs_le_between in E2. apply Rabs_le. lra.
Qed.
End Entries.
