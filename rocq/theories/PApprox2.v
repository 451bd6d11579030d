(** Proofs: the error of the fields is bounded by the residuals (C113). *)
From Coquelicot Require Import Coquelicot.
Require Import Verif.Py Verif.MTools Verif.MEigen Verif.MFields Verif.SAdm
  Verif.MSolution Verif.SBeam Verif.SBvp Verif.SEig Verif.SSplit Verif.SApprox Verif.PSetup Verif.PBeam Verif.PBeam2
  Verif.PBvp Verif.PBvp2 Verif.PBvp3 Verif.PBvp4 Verif.PBvp5 Verif.PLinAlg
  Verif.PWell Verif.PIndep Verif.PWell2 Verif.PWell3 Verif.PComplete Verif.PDepend Verif.PApprox.
Open Scope R_scope.

(** * Conditions row by row *)
Section Rows.
Variable d : R.
Lemma pst_end_rows_within o kR kRv phi sgn k pos b z :
  kind_of (o_system o) = Some KPst ->
  (sgn = -1 /\ pos = "l"%string \/ sgn = 1 /\ pos = "r"%string) ->
  (o_mode o = Some ModeC -> kR = Ok kRv /\ o_phi o = phi) ->
  bc_rows o kR k pos = Ok b ->
  ((forall c, (c < 3)%nat -> within d (nth c (map (fun r => dot6 r z) b) 0) (nth c (td_vec o sgn k [0; 0; 0]) 0))
   <-> pst_end_within d o kRv phi sgn k z).
Proof.
  intros Hkd Hpos HC H. pose proof (kinds (o_system o)) as K. cbv zeta in K. rewrite Hkd in K.
  destruct K as (K1 & _). unfold bc_rows in H. rewrite K1 in H.
  rewrite forall3. unfold pst_end_within, td_vec, forces_within.
  destruct k; cbn [negb] in H.
  - apply Ok_inj in H. subst b. cbn [map nth]. rewrite dot_N, dot_M, dot_V. tauto.
  - unfold mode_is in H. destruct (o_mode o) as [[| |]|] eqn:Em.
    + apply Ok_inj in H. subst b. cbn [map nth]. rewrite dot_N, dot_M, dot_V. tauto.
    + assert (b = [rowN (o_par o); rowM (o_par o); roww]) as ->.
      { destruct Hpos as [[_ ->]|[_ ->]]; cbn [andb] in H;
          [change (mem_str "l" ["r"; "right"]%string) with false in H;
           change (mem_str "l" ["l"; "left"]%string) with true in H
          |change (mem_str "r" ["r"; "right"]%string) with true in H];
          cbv iota in H; apply Ok_inj in H; symmetry; exact H. }
      cbn [map nth]. rewrite dot_N, dot_M, dot_w. tauto.
    + destruct (HC eq_refl) as [HkR Hphi]. rewrite HkR in H.
      assert (b = [rowN (o_par o); vadd (rowM (o_par o)) (vscale (sgn * kRv) rowpsi); roww]) as ->.
      { destruct Hpos as [[-> ->]|[-> ->]]; cbn [andb] in H;
          [change (mem_str "l" ["r"; "right"]%string) with false in H;
           change (mem_str "l" ["l"; "left"]%string) with true in H
          |change (mem_str "r" ["r"; "right"]%string) with true in H];
          cbv iota in H; cbn [bind] in H; apply Ok_inj in H; rewrite <- H.
        - replace (-1 * kRv) with (- kRv) by ring. reflexivity.
        - rewrite Rmult_1_l. reflexivity. }
      cbn [map nth]. rewrite dot_add_l, dot_scale_l, dot_N, dot_M, dot_w, dot_psi.
      unfold calc_qt. rewrite Hphi.
      rewrite (Rmult_assoc sgn (_ + _)). tauto.
    + simpl in H. discriminate.
Qed.
Lemma free_rows_within o kR k pos b z (a1 a2 a3 : R) kd :
  kind_of (o_system o) = Some kd -> kd <> KPst -> kd <> KSkier ->
  bc_rows o kR k pos = Ok b ->
  ((forall c, (c < 3)%nat -> within d (nth c (map (fun r => dot6 r z) b) 0) (nth c [a1; a2; a3] 0))
   <-> forces_within d (o_par o) z a1 a2 a3).
Proof.
  intros Hkd Hn1 Hn2 H. pose proof (kinds (o_system o)) as K. cbv zeta in K. rewrite Hkd in K.
  assert (b = [rowN (o_par o); rowM (o_par o); rowV (o_par o)]) as ->.
  { unfold bc_rows in H. destruct kd; try congruence;
    destruct K as (K1 & K2 & K3 & K4 & _); rewrite K1, K2, ?K3, ?K4 in H;
    apply Ok_inj in H; symmetry; exact H. }
  rewrite forall3. cbn [map nth]. rewrite dot_N, dot_M, dot_V. unfold forces_within. tauto.
Qed.
Lemma end_rows_within o kR kRv phi sgn k pos b z kd :
  kind_of (o_system o) = Some kd ->
  (sgn = -1 /\ pos = "l"%string \/ sgn = 1 /\ pos = "r"%string) ->
  (kd = KPst -> o_mode o = Some ModeC -> kR = Ok kRv /\ o_phi o = phi) ->
  (kd = KVpst -> k = true \/ o_mode o = None \/ o_mode o = Some ModeA) ->
  bc_rows o kR k pos = Ok b ->
  ((forall c, (c < 3)%nat -> within d (nth c (map (fun r => dot6 r z) b) 0) (nth c (end_vec o phi sgn k) 0))
   <-> (if Rlt_dec sgn 0 then left_end_within d o kRv phi k z else right_end_within d o kRv phi k z)).
Proof.
  intros Hkd Hpos HC HV H. unfold end_vec, left_end_within, right_end_within. rewrite Hkd.
  destruct kd.
  - rewrite (pst_end_rows_within o kR kRv phi sgn k pos b z Hkd Hpos (HC eq_refl) H).
    destruct Hpos as [[-> _]|[-> _]]; destruct Rlt_dec; tauto || lra.
  - unfold face_end_within.
    destruct (calc_vertical_bc_center_of_gravity (o_slab o) phi) as [[xs zs] m].
    rewrite td_vec_off by (apply HV; reflexivity).
    rewrite (free_rows_within o kR k pos b z _ _ _ KVpst Hkd) by (congruence || exact H).
    rewrite deg2rad_eq.
    replace (- o_g o * m * sin (phi * PI / 180)) with (- (o_g o * m * sin (phi * PI / 180))) by ring.
    replace (- o_g o * m * (xs * cos (phi * PI / 180) + zs * sin (phi * PI / 180)))
      with (- (o_g o * m * (xs * cos (phi * PI / 180) + zs * sin (phi * PI / 180)))) by ring.
    destruct Rlt_dec; tauto.
  - pose proof (kinds (o_system o)) as K. cbv zeta in K. rewrite Hkd in K.
    destruct K as (K1 & K2 & K3 & _). unfold bc_rows in H. rewrite K1, K2, K3 in H.
    apply Ok_inj in H. subst b. rewrite forall3. cbn [map nth].
    rewrite dot_u, dot_w, dot_psi. unfold far_field_within. destruct Rlt_dec; tauto.
  - destruct Hpos as [[-> _]|[-> _]]; destruct Rlt_dec; try lra;
      apply (free_rows_within o kR k pos b z _ _ _ KRot Hkd); congruence || exact H.
  - destruct Hpos as [[-> _]|[-> _]]; destruct Rlt_dec; try lra;
      apply (free_rows_within o kR k pos b z _ _ _ KTrans Hkd); congruence || exact H.
Qed.
Lemma transition_rows_within o phi mi i zl zr :
  (forall c, (c < 6)%nat -> within d (inner_val o zl c - inner_val o zr c)
     (nth c ([0; 0; 0] ++ mid_vec o phi mi i) 0))
  <-> transition_within d o phi (nth i mi 0) zl zr.
Proof.
  rewrite forall6. unfold inner_val, inner_rows. cbn [map nth app].
  rewrite !dot_u, !dot_w, !dot_psi, !dot_N, !dot_M, !dot_V.
  unfold transition_within, mid_vec, skier_vec, get_skier_load. cbv zeta.
  assert (E : forall a b : R, within d (a - b) 0 <-> within d a b).
  { intros. unfold within. rewrite Rminus_0_r. tauto. }
  assert (E2 : forall a b c : R, b = c -> (within d a b <-> within d a c)) by (intros a b c ->; tauto).
  assert (A : forall P1 P2 P3 P4 P5 P6 Q1 Q2 Q3 Q4 Q5 Q6 : Prop, (P1 <-> Q1) -> (P2 <-> Q2) -> (P3 <-> Q3) -> (P4 <-> Q4) -> (P5 <-> Q5) -> (P6 <-> Q6) ->
    (P1 /\ P2 /\ P3 /\ P4 /\ P5 /\ P6 <-> Q1 /\ Q2 /\ Q3 /\ Q4 /\ Q5 /\ Q6)) by tauto.
  rewrite deg2rad_eq. set (a := phi * PI / 180).
  destruct (kind_of (o_system o)) as [[| | | |]|]; cbn [nth]; apply A; first [apply E | apply E2; unfold Rdiv; ring].
Qed.
End Rows.

(** The assembled equations with a residual of at most [d]. *)
Lemma assemble_within d o kR kRv phi li mi ki zh0 zp0 rhs x kd :
  let nS := List.length li in
  six_cols o -> (2 <= nS)%nat -> check_segments o li mi ki = Ok tt -> kind_of (o_system o) = Some kd ->
  (kd = KPst -> o_mode o = Some ModeC -> kR = Ok kRv /\ o_phi o = phi) ->
  (kd = KVpst -> o_mode o = None \/ o_mode o = Some ModeA) ->
  assemble o kR phi li mi ki = Ok (zh0, zp0, rhs) ->
  (forall r, (r < 6 * nS)%nat -> Rabs (sumn (6 * nS) (fun c => zh0 r c * x c) - (rhs r - zp0 r)) <= d) ->
  bvp_within d o kRv phi li mi ki (reshape_constants nS x).
Proof.
  intros nS H6 HN Hchk Hkd HC HV H HX.
  destruct (valid_lengths o li mi ki Hchk) as [Lk Lm].
  assert (Hsk : kd = KSkier -> nth 0 ki false = true /\ nth (nS - 1) ki false = true).
  { intros ->. unfold check_segments in Hchk.
    destruct (negb (existsb (fun b => b) ki)); [discriminate|].
    destruct (negb (_ && _)); [discriminate|].
    pose proof (kinds (o_system o)) as K. cbv zeta in K. rewrite Hkd in K.
    destruct K as (_ & _ & _ & _ & _ & _ & _ & _ & K9). rewrite K9 in Hchk. cbn [negb andb] in Hchk.
    rewrite last_nth in Hchk. rewrite Lk in Hchk. fold nS in Hchk.
    destruct (nth 0 ki false), (nth (nS - 1) ki false); try discriminate. split; reflexivity. }
  unfold assemble in H. destruct (assemble_lhs o kR phi (List.length li) 0 li ki (fun _ _ => 0, fun _ => 0)) as [[M v]|] eqn:EL; [|discriminate].
  cbn [bind] in H. destruct (build_rhs o kR phi li mi ki (List.length li)) as [rhs'|] eqn:ER; [|discriminate].
  cbn [bind fst snd] in H. apply Ok_inj in H. injection H; intros <- <- <-. clear H.
  destruct (lhs_rows o kR phi li ki M v H6 HN Lk EL) as (bl & br & Hbl & Hbr & HR). fold nS in Hbr, HR. cbv zeta in HR.
  destruct (build_rhs_shape o kR phi li mi ki kd rhs' HN ltac:(lia) Lk Hkd Hsk ER) as (S1 & S2 & S3). fold nS in S1, S2, S3.
  destruct (HR x) as (R1 & R2 & R3).
  assert (HX' : forall r, (r < 6 * nS)%nat -> within d (sumn (6 * nS) (fun c => M r c * x c) + v r) (rhs' r)).
  { intros r Hr. unfold within. replace (_ - _) with (sumn (6 * nS) (fun c => M r c * x c) - (rhs' r - v r)) by ring. apply HX, Hr. }
  assert (Z : forall i, (i < nS)%nat -> field o phi (nth i li 0) (nth i ki false) (nth i (reshape_constants nS x) []) = zi o phi li ki x i).
  { intros i Hi. unfold zi. rewrite nth_reshape by exact Hi. reflexivity. }
  unfold bvp_within. fold nS. split; [|split].
  - rewrite Z by lia.
    pose proof (proj1 (end_rows_within d o kR kRv phi (-1) (nth 0 ki false) "l" bl (zi o phi li ki x 0 0) kd Hkd
      (or_introl (conj eq_refl eq_refl)) HC (fun A => or_intror (HV A)) Hbl)) as E. destruct (Rlt_dec (-1) 0) as [_|]; [|lra]. apply E.
    intros c Hc. rewrite <- R1, <- S1 by exact Hc. apply HX'. lia.
  - rewrite Z by lia.
    pose proof (proj1 (end_rows_within d o kR kRv phi 1 (nth (nS - 1) ki false) "r" br (zi o phi li ki x (nS - 1) (nth (nS - 1) li 0)) kd Hkd
      (or_intror (conj eq_refl eq_refl)) HC (fun A => or_intror (HV A)) Hbr)) as E. destruct (Rlt_dec 1 0) as [|_]; [lra|]. apply E.
    intros c Hc. rewrite <- R2, <- S2 by exact Hc. apply HX'. lia.
  - intros i Hi. rewrite !Z by lia. apply transition_rows_within. intros c Hc. rewrite <- R3, <- S3 by assumption. apply HX'. lia.
Qed.

(** * Bounds of the columns *)
Lemma column_bound p e l k : {B | 0 <= B /\ forall j x r, (j < 6)%nat -> (r < 6)%nat -> 0 <= x <= l ->
  Rabs (dot6 (comp r) (nth j (zh p e x l k) vzero)) <= B}.
Proof.
  assert (C : forall j r, {M | forall x, 0 <= x <= l -> norm (dot6 (comp r) (nth j (zh p e x l k) vzero)) < M}).
  { intros j r. apply (bounded_continuity (fun x => dot6 (comp r) (nth j (zh p e x l k) vzero)) 0 l). intros x _.
    apply (tends_zh (locally x) (fun s => s) (fun _ => l) x l); [intros P HP; exact HP|apply filterlim_const]. }
  set (m := fun j r => Rabs (proj1_sig (C j r))).
  exists (sumn 6 (fun j => sumn 6 (m j))). split.
  - apply sumn_nonneg. intros. apply sumn_nonneg. intros. apply Rabs_pos.
  - intros j x r Hj Hr Hx. assert (m j r <= sumn 6 (m j)) by (apply (sumn_term 6 (m j)); [intros; apply Rabs_pos|exact Hr]).
    assert (sumn 6 (m j) <= sumn 6 (fun j => sumn 6 (m j))).
    { apply (sumn_term 6 (fun j => sumn 6 (m j))); [|exact Hj]. intros. apply sumn_nonneg. intros. apply Rabs_pos. }
    assert (Rabs (dot6 (comp r) (nth j (zh p e x l k) vzero)) <= m j r).
    { unfold m. destruct (C j r) as [M HM]. cbn [proj1_sig]. specialize (HM x Hx). unfold norm in HM. simpl in HM. unfold abs in HM. simpl in HM.
      pose proof (Rle_abs M). lra. }
    lra.
Qed.
Lemma abs_sum_pos C : 0 <= abs_sum C.
Proof. induction C as [|c C IH]; simpl; [lra|]. pose proof (Rabs_pos c). lra. Qed.
Lemma abs_sum_app C D : abs_sum (C ++ D) = abs_sum C + abs_sum D.
Proof. induction C as [|c C IH]; simpl; [ring|]. rewrite IH. ring. Qed.
Lemma abs_sum_nth Cs i : abs_sum (nth i Cs []) <= abs_sum (List.concat Cs).
Proof.
  revert i. induction Cs as [|C Cs IH]; intros i; simpl; [destruct i; simpl; lra|]. rewrite abs_sum_app.
  pose proof (abs_sum_pos C). pose proof (abs_sum_pos (List.concat Cs)). destruct i as [|i]; [simpl; lra|]. specialize (IH i). simpl. lra.
Qed.
Lemma li_sum (li : list R) : (forall i, (i < List.length li)%nat -> 0 <= nth i li 0) ->
  forall i, (i < List.length li)%nat -> nth i li 0 <= fold_right Rplus 0 li.
Proof.
  induction li as [|l li IH]; intros H i Hi; simpl in *; [lia|].
  assert (H' : forall i, (i < List.length li)%nat -> 0 <= nth i li 0) by (intros j Hj; apply (H (S j)); lia).
  assert (S0 : 0 <= fold_right Rplus 0 li).
  { destruct li as [|l' li]; simpl in *; [lra|]. pose proof (IH H' 0%nat ltac:(lia)) as Q. pose proof (H' 0%nat ltac:(lia)) as P. simpl in Q, P. lra. }
  destruct i as [|i]; [lra|]. pose proof (IH H' i ltac:(lia)). pose proof (H 0%nat ltac:(lia)) as P. simpl in P. lra.
Qed.
Lemma amplify_mono K L L' : 0 <= L <= L' -> amplify K L <= amplify K L'.
Proof.
  intros H. unfold amplify. apply sqrt_le_1_alt. pose proof (matnorm_pos K).
  assert (exp ((2 * matnorm K + 1) * L) <= exp ((2 * matnorm K + 1) * L')) by (apply exp_le; nra).
  pose proof (exp_pos ((2 * matnorm K + 1) * L)). apply Rmult_le_compat; lra.
Qed.

(** * The same states from the exact columns *)
Lemma supported_error o ews ld l C rho : ready o -> 0 <= rho -> Forall (approx_eigenpair (calc_system_matrix (o_par o)) rho) ews ->
  exists Y, List.length Y = 6%nat /\
    zsol (o_par o) (o_eig o) ld 0 Y l true = zsol (o_par o) (calc_eigensystem ews) ld 0 C l true /\
    forall x, 0 <= x <= l -> close6 (amplify (calc_system_matrix (o_par o)) l * (2 * rho * abs_sum C))
      (zsol (o_par o) (calc_eigensystem ews) ld x C l true) (zsol (o_par o) (o_eig o) ld x Y l true).
Proof.
  intros Hr Hrho HA. destruct (supported_state o ld l (zsol (o_par o) (calc_eigensystem ews) ld 0 C l true) Hr) as (Y & LY & E).
  exists Y. split; [exact LY|]. split; [exact E|].
  set (p := o_par o) in *. set (K := calc_system_matrix p) in *.
  pose proof Hr as (Hl & Hf & ews0 & He & (_ & HT & _)). fold p in Hl, Hf, HT. rewrite He in *. clear Hr.
  set (zc := fun s => zsol p (calc_eigensystem ews) ld s C l true) in *. set (ze := fun s => zsol p (calc_eigensystem ews0) ld s Y l true) in *.
  assert (HE : 0 <= 2 * rho * abs_sum C) by (pose proof (abs_sum_pos C); nra).
  set (e := 2 * rho * abs_sum C) in *.
  assert (G : forall x, 0 <= x <= l -> close6 (amplify K l * e) (vadd (zc x) (vscale (-1) (ze x))) vzero).
  { apply (gronwall K e (fun s => vadd (zc s) (vscale (-1) (ze s))) l HE).
    - intros x Hx. destruct (zh_nearly K rho ews l x C Hx Hrho HA) as (v & Dv & Cv).
      exists v. split; [|exact Cv].
      eapply is_deriv6_eq.
      + apply is_deriv6_add; [|apply is_deriv6_scale; apply (zsol_deriv p ews0 ld Y l x Hl Hf HT)].
        unfold zc, zsol. apply is_deriv6_add; [exact Dv|].
        apply (is_deriv6_ext (fun _ => zp p ld x true)); [intros; reflexivity|]. apply is_deriv6_const.
      + fold (ze x). unfold dz_dx. fold K. unfold zc, zsol. pose proof (zp_bedded_state p ld x Hl Hf) as Q. fold K in Q.
        change (zh p (calc_eigensystem ews) x l true) with (zh_bedded (calc_eigensystem ews) x l).
        set (h := lincomb (zh_bedded (calc_eigensystem ews) x l) C) in *. set (y := ze x). set (zz := zp p ld x true) in *.
        set (g := get_load_vector p ld) in *. clearbody h y g zz.
        rewrite !matvec_add, matvec_scale.
        assert (Qu := f_equal z_u Q). assert (Qdu := f_equal z_du Q). assert (Qw := f_equal z_w Q). assert (Qdw := f_equal z_dw Q).
        assert (Qp := f_equal z_psi Q). assert (Qdp := f_equal z_dpsi Q). clear Q.
        set (Kh := matvec K h). set (Ky := matvec K y). set (Kz := matvec K zz) in *. clearbody Kh Ky Kz. cbn [vadd vscale vzero z_u z_du z_w z_dw z_psi z_dpsi] in *.
        apply vec6_eq; cbn [vadd vscale vzero z_u z_du z_w z_dw z_psi z_dpsi]; lra.
    - unfold zc, ze. rewrite E. apply vec6_eq; simpl; ring. }
  intros x Hx. specialize (G x Hx). fold (zc x) (ze x). apply close6_comp. rewrite close6_comp in G. intros r Hr. specialize (G r Hr).
  rewrite dot_zero, dot_add, dot_scale in G. replace (_ - _) with (dot6 (comp r) (zc x) + -1 * dot6 (comp r) (ze x) - 0) by ring. exact G.
Qed.
