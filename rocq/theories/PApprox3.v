(** Proofs: the error of the fields is bounded by the residuals, all segments together (C113). *)
From Coquelicot Require Import Coquelicot.
Require Import Verif.Py Verif.MTools Verif.MEigen Verif.MFields Verif.SAdm
  Verif.MSolution Verif.SBeam Verif.SBvp Verif.SEig Verif.SSplit Verif.SApprox Verif.PSetup Verif.PBeam Verif.PBeam2
  Verif.PBvp Verif.PBvp2 Verif.PBvp3 Verif.PBvp4 Verif.PBvp5 Verif.PLinAlg
  Verif.PWell Verif.PIndep Verif.PWell2 Verif.PWell3 Verif.PComplete Verif.PDepend Verif.PApprox Verif.PApprox2.
Open Scope R_scope.

(** Choice of one list per segment. *)
Lemma choose_lists n (P : nat -> list R -> Prop) : (forall i, (i < n)%nat -> exists C, List.length C = 6%nat /\ P i C) ->
  exists Cs, six_each n Cs /\ forall i, (i < n)%nat -> P i (nth i Cs []).
Proof.
  induction n as [|n IH]; intros H.
  - exists []. split; [split; [reflexivity|constructor]|]. intros; lia.
  - destruct IH as (Cs & (L & F) & HP); [intros; apply H; lia|]. destruct (H n ltac:(lia)) as (C & LC & PC).
    exists (Cs ++ [C]). split; [split; [rewrite app_length, L; simpl; lia|apply Forall_app; split; [exact F|constructor; [exact LC|constructor]]]|].
    intros i Hi. destruct (Nat.eq_dec i n) as [->|Hn].
    + rewrite app_nth2, L, Nat.sub_diag by lia. exact PC.
    + rewrite app_nth1 by lia. apply HP. lia.
Qed.

Section Approx.
Variables (o : obj) (kR phi : R) (li mi : list R) (ki : list bool) (kd : syskind).
Let N := List.length li.
Hypothesis Hr : ready o.
Hypothesis Hs : stable (o_par o).
Hypothesis Hkd : kind_of (o_system o) = Some kd.
Hypothesis HM : kd = KPst -> o_mode o <> None.
Hypothesis HC : kd = KPst -> o_mode o = Some ModeC -> o_phi o = phi.
Hypothesis HV : kd = KVpst -> o_mode o = None \/ o_mode o = Some ModeA.
Hypothesis HkR : 0 <= kR.
Hypothesis HN : (2 <= N)%nat.
Hypothesis Hk : List.length ki = N.
Hypothesis Hp : proper_segments li ki.
Let Ks := calc_system_matrix (o_par o).
Let L := fold_right Rplus 0 li.
Let G := amplify Ks L.

Lemma li_pos i : (i < N)%nat -> 0 <= nth i li 0 <= L.
Proof. intros Hi. destruct Hp as [P _]. split; [apply P; exact Hi|]. apply li_sum; assumption. Qed.

(** States of the computed solution, of the exact columns with the same left states, and their distance. *)
Lemma shadow ews rho Cs : 0 <= rho -> Forall (approx_eigenpair Ks rho) ews -> six_each N Cs ->
  exists Ys, six_each N Ys /\ forall i, (i < N)%nat ->
    let z' := field (with_eig o (calc_eigensystem ews)) phi (nth i li 0) (nth i ki false) (nth i Cs []) in
    let y := field o phi (nth i li 0) (nth i ki false) (nth i Ys []) in
    y 0 = z' 0 /\ forall x, 0 <= x <= nth i li 0 -> close6 (G * (2 * rho * abs_sum (List.concat Cs))) (z' x) (y x).
Proof.
  intros Hrho HA (LC & FC).
  apply (choose_lists N (fun i Y =>
    let z' := field (with_eig o (calc_eigensystem ews)) phi (nth i li 0) (nth i ki false) (nth i Cs []) in
    let y := field o phi (nth i li 0) (nth i ki false) Y in
    y 0 = z' 0 /\ forall x, 0 <= x <= nth i li 0 -> close6 (G * (2 * rho * abs_sum (List.concat Cs))) (z' x) (y x))).
  intros i Hi. set (S0 := abs_sum (List.concat Cs)). assert (0 <= S0) by apply abs_sum_pos.
  assert (GP : 0 <= G) by apply sqrt_pos.
  cbv zeta. unfold field. cbn [o_par o_eig with_eig]. change (loads_of (with_eig o (calc_eigensystem ews)) phi) with (loads_of o phi).
  destruct (nth i ki false).
  - destruct (supported_error o ews (loads_of o phi) (nth i li 0) (nth i Cs []) rho Hr Hrho HA) as (Y & LY & E & B).
    exists Y. split; [exact LY|]. split; [exact E|]. intros x Hx.
    apply (close6_le (amplify Ks (nth i li 0) * (2 * rho * abs_sum (nth i Cs [])))); [|apply B; exact Hx].
    pose proof (abs_sum_nth Cs i) as Q. pose proof (abs_sum_pos (nth i Cs [])). fold S0 in Q.
    assert (amplify Ks (nth i li 0) <= G) by (apply amplify_mono, li_pos, Hi).
    apply Rmult_le_compat; [apply sqrt_pos|nra|assumption|nra].
  - exists (nth i Cs []). split.
    { rewrite Forall_forall in FC. apply FC. apply nth_In. rewrite LC. exact Hi. }
    split; [reflexivity|]. intros x Hx. apply close6_comp. intros r _. rewrite Rminus_diag_eq, Rabs_R0 by reflexivity.
    apply Rmult_le_pos; [exact GP|nra].
Qed.

Lemma nth_rownorm (b : list vec6) c n : (c < n)%nat -> rownorm (nth c b vzero) <= sumn n (fun c => rownorm (nth c b vzero)).
Proof. intros H. apply (sumn_term n (fun c => rownorm (nth c b vzero))); [|exact H]. intros. apply rownorm_pos. Qed.

Theorem error_bound : exists K, 0 <= K /\ forall ews rho d Cs C0,
  0 <= rho -> Forall (approx_eigenpair Ks rho) ews ->
  six_each N Cs -> bvp_within d (with_eig o (calc_eigensystem ews)) kR phi li mi ki Cs ->
  six_each N C0 -> bvp o kR phi li mi ki C0 ->
  forall i x, (i < N)%nat -> 0 <= x <= nth i li 0 ->
  close6 (K * (d + rho * abs_sum (List.concat Cs)))
    (field (with_eig o (calc_eigensystem ews)) phi (nth i li 0) (nth i ki false) (nth i Cs []) x)
    (field o phi (nth i li 0) (nth i ki false) (nth i C0 []) x).
Proof.
  assert (EN : forall k, ends_defined o (Ok kR) k).
  { intros k. exists kd. split; [exact Hkd|]. intros E _. split; [apply HM; exact E|]. intros _. exists kR. reflexivity. }
  destruct (assemble_succeeds o (Ok kR) phi li mi ki (ready_six o Hr) HN Hk (EN _) (EN _)) as (zh0 & zp0 & rhs & E).
  unfold assemble in E. fold N in E. destruct (assemble_lhs o (Ok kR) phi N 0 li ki (fun _ _ => 0, fun _ => 0)) as [[M v]|] eqn:EL; [|discriminate]. clear E.
  assert (HK : trivial_kernel (6 * N) M).
  { destruct Hp as [P1 P2]. apply (assembled_kernel o (Ok kR) phi li ki M v Hr Hs HN Hk); [intros r0 Er; apply Ok_inj in Er; lra|exact P1|exact P2|exact EL]. }
  destruct (bounded_inverse _ _ HK) as (b & Hb & HBd).
  destruct (lhs_rows o (Ok kR) phi li ki M v (ready_six o Hr) HN Hk EL) as (bl & br & Hbl & Hbr & HR). fold N in Hbr, HR. cbv zeta in HR.
  pose proof (bc_rows_len _ _ _ _ _ Hbl) as Ll. pose proof (bc_rows_len _ _ _ _ _ Hbr) as Lr.
  set (W := sumn 3 (fun c => rownorm (nth c br vzero)) + sumn 6 (fun c => rownorm (nth c (inner_rows (o_par o)) vzero))).
  assert (W1 : forall c, (c < 3)%nat -> rownorm (nth c br vzero) <= W).
  { intros c Hc. pose proof (nth_rownorm br c 3 Hc). assert (0 <= sumn 6 (fun c => rownorm (nth c (inner_rows (o_par o)) vzero))) by (apply sumn_nonneg; intros; apply rownorm_pos). unfold W. lra. }
  assert (W2 : forall c, (c < 6)%nat -> rownorm (nth c (inner_rows (o_par o)) vzero) <= W).
  { intros c Hc. pose proof (nth_rownorm (inner_rows (o_par o)) c 6 Hc). assert (0 <= sumn 3 (fun c => rownorm (nth c br vzero))) by (apply sumn_nonneg; intros; apply rownorm_pos). unfold W. lra. }
  assert (W0 : 0 <= W). { apply (Rle_trans _ (rownorm (nth 0 br vzero))); [apply rownorm_pos|apply W1; lia]. }
  set (B := sumn N (fun i => proj1_sig (column_bound (o_par o) (o_eig o) (nth i li 0) (nth i ki false)))).
  assert (HB : forall i j x r, (i < N)%nat -> (j < 6)%nat -> (r < 6)%nat -> 0 <= x <= nth i li 0 ->
     Rabs (dot6 (comp r) (nth j (zh (o_par o) (o_eig o) x (nth i li 0) (nth i ki false)) vzero)) <= B).
  { intros i j x r Hi Hj Hr6 Hx.
    assert (proj1_sig (column_bound (o_par o) (o_eig o) (nth i li 0) (nth i ki false)) <= B).
    { apply (sumn_term N (fun i => proj1_sig (column_bound (o_par o) (o_eig o) (nth i li 0) (nth i ki false)))); [|exact Hi].
      intros q Hq. destruct (column_bound _ _ _ _) as (m & P & Q). exact P. }
    destruct (column_bound _ _ (nth i li 0) (nth i ki false)) as (m & P & Q). cbn [proj1_sig] in H. eapply Rle_trans; [apply Q; assumption|exact H]. }
  assert (B0 : 0 <= B). { apply sumn_nonneg. intros q Hq. destruct (column_bound _ _ _ _) as (m & P & Q). exact P. }
  assert (G0 : 0 <= G) by apply sqrt_pos.
  set (n6 := INR (6 * N)). assert (N6 : 0 <= n6) by apply pos_INR.
  exists (2 * G + 6 * B * (b * n6) * (1 + 2 * W * G)). split.
  { assert (0 <= 6 * B * (b * n6)) by (apply Rmult_le_pos; [lra|apply Rmult_le_pos; assumption]).
    assert (0 <= 1 + 2 * W * G) by (assert (0 <= W * G) by (apply Rmult_le_pos; assumption); lra).
    assert (0 <= 6 * B * (b * n6) * (1 + 2 * W * G)) by (apply Rmult_le_pos; assumption). lra. }
  intros ews rho d Cs C0 Hrho HA H6s HW H60 HB0 i x Hi Hx.
  set (o' := with_eig o (calc_eigensystem ews)) in *.
  destruct (shadow ews rho Cs Hrho HA H6s) as (Ys & H6y & HY). cbv zeta in HY. fold o' in HY.
  set (S0 := abs_sum (List.concat Cs)) in *. assert (S00 : 0 <= S0) by apply abs_sum_pos.
  set (g := G * (2 * rho * S0)) in *. assert (g0 : 0 <= g) by (apply Rmult_le_pos; [exact G0|apply Rmult_le_pos; lra]).
  assert (Zy : forall j, (j < N)%nat -> zi o phi li ki (flat Ys) j = field o phi (nth j li 0) (nth j ki false) (nth j Ys [])).
  { intros j Hj. unfold zi. rewrite (block_flat N) by assumption. reflexivity. }
  assert (Z0 : forall j, (j < N)%nat -> zi o phi li ki (flat C0) j = field o phi (nth j li 0) (nth j ki false) (nth j C0 [])).
  { intros j Hj. unfold zi. rewrite (block_flat N) by assumption. reflexivity. }
  destruct HW as (T1 & T2 & T3). destruct HB0 as (A1 & A2 & A3). fold N in T2, T3, A2, A3.
  destruct (HR (flat Ys)) as (Y1 & Y2 & Y3). destruct (HR (flat C0)) as (Q1 & Q2 & Q3).
  assert (RB : forall r, (r < 6 * N)%nat -> Rabs (sumn (6 * N) (fun c => M r c * flat Ys c) - sumn (6 * N) (fun c => M r c * flat C0 c)) <= d + W * g).
  { assert (Dif : forall r, sumn (6 * N) (fun c => M r c * flat Ys c) - sumn (6 * N) (fun c => M r c * flat C0 c)
      = (sumn (6 * N) (fun c => M r c * flat Ys c) + v r) - (sumn (6 * N) (fun c => M r c * flat C0 c) + v r)) by (intros; ring).
    assert (Wg : 0 <= W * g) by (apply Rmult_le_pos; assumption).
    apply (rows_split N _ HN). split; [|split].
    - intros c Hc. rewrite Dif, Y1, Q1, !nth_dot, Zy, Z0 by (exact Hc || lia). rewrite (proj1 (HY 0%nat ltac:(lia))).
      pose proof (end_values o kR phi kd Hkd HC HV "l" (-1) _ bl (nth 0 li 0) (nth 0 ki false) (nth 0 C0 []) (or_introl (conj eq_refl eq_refl)) Hbl) as V0.
      destruct (Rlt_dec (-1) 0) as [q|n]; [|lra]. rewrite (V0 A1 c Hc).
      pose proof (proj2 (end_rows_within d o' (Ok kR) kR phi (-1) (nth 0 ki false) "l" bl (field o' phi (nth 0 li 0) (nth 0 ki false) (nth 0 Cs []) 0) kd Hkd
        (or_introl (conj eq_refl eq_refl)) (fun A B => conj eq_refl (HC A B)) (fun A => or_intror (HV A)) Hbl)) as V.
      destruct (Rlt_dec (-1) 0) as [_|n]; [|lra]. specialize (V T1 c Hc). rewrite nth_dot in V by lia. unfold within in V.
      change (end_vec o' phi (-1) (nth 0 ki false)) with (end_vec o phi (-1) (nth 0 ki false)) in V. lra.
    - intros c Hc. rewrite Dif, Y2, Q2, !nth_dot, Zy, Z0 by (exact Hc || lia).
      pose proof (end_values o kR phi kd Hkd HC HV "r" 1 _ br (nth (N - 1) li 0) (nth (N - 1) ki false) (nth (N - 1) C0 []) (or_intror (conj eq_refl eq_refl)) Hbr) as V0.
      destruct (Rlt_dec 1 0) as [q|n]; [lra|]. rewrite (V0 A2 c Hc).
      pose proof (proj2 (end_rows_within d o' (Ok kR) kR phi 1 (nth (N - 1) ki false) "r" br (field o' phi (nth (N - 1) li 0) (nth (N - 1) ki false) (nth (N - 1) Cs []) (nth (N - 1) li 0)) kd Hkd
        (or_intror (conj eq_refl eq_refl)) (fun A B => conj eq_refl (HC A B)) (fun A => or_intror (HV A)) Hbr)) as V.
      destruct (Rlt_dec 1 0) as [q|_]; [lra|]. specialize (V T2 c Hc). rewrite nth_dot in V by lia. unfold within in V.
      change (end_vec o' phi 1 (nth (N - 1) ki false)) with (end_vec o phi 1 (nth (N - 1) ki false)) in V.
      pose proof (proj2 (HY (N - 1)%nat ltac:(lia)) (nth (N - 1) li 0) ltac:(pose proof (li_pos (N - 1) ltac:(lia)); lra)) as CL.
      apply (close6_dot (nth c br vzero)) in CL. pose proof (Rmult_le_compat_r g _ _ g0 (W1 c Hc)) as Q.
      apply Rabs_le_between in CL. apply Rabs_le_between in V. apply Rabs_le_between. lra.
    - intros j c Hj Hc. rewrite Dif, (Y3 j c Hj Hc), (Q3 j c Hj Hc), !Zy, !Z0 by lia.
      pose proof (proj2 (transition_rows o phi mi j _ _) (A3 j Hj) c Hc) as V0. rewrite V0.
      pose proof (proj2 (transition_rows_within d o' phi mi j _ _) (T3 j Hj) c Hc) as V. unfold within in V.
      change (mid_vec o' phi mi j) with (mid_vec o phi mi j) in V.
      set (r := nth c (inner_rows (o_par o)) vzero).
      assert (IV : forall z, inner_val o z c = dot6 r z). { intros z. unfold inner_val. apply nth_dot. exact Hc. }
      change (inner_val o') with (inner_val o) in V. rewrite !IV in V. rewrite !IV.
      rewrite (proj1 (HY (S j) ltac:(lia))).
      pose proof (proj2 (HY j ltac:(lia)) (nth j li 0) ltac:(pose proof (li_pos j ltac:(lia)); lra)) as CL.
      apply (close6_dot r) in CL. pose proof (Rmult_le_compat_r g _ _ g0 (W2 c Hc)) as Q. fold r in Q.
      apply Rabs_le_between in CL. apply Rabs_le_between in V. apply Rabs_le_between. lra. }
  set (q := b * (n6 * (d + W * g))).
  assert (CB : forall c, (c < 6 * N)%nat -> Rabs (flat Ys c - flat C0 c) <= q).
  { intros c Hc. eapply Rle_trans; [apply HBd; exact Hc|]. apply Rmult_le_compat_l; [exact Hb|]. unfold n6. rewrite <- sumn_const. apply sumn_le. exact RB. }
  apply (close6_le (g + 6 * B * q)).
  { unfold q, g.
    assert (D0 : 0 <= d).
    { destruct (T3 0%nat ltac:(lia)) as (Q & _). unfold within in Q. eapply Rle_trans; [apply Rabs_pos|exact Q]. }
    set (s := rho * S0). assert (0 <= s) by (apply Rmult_le_pos; assumption).
    replace (2 * rho * S0) with (2 * s) by (unfold s; ring).
    set (t := 6 * B * (b * n6)). assert (0 <= t) by (apply Rmult_le_pos; [lra|apply Rmult_le_pos; assumption]).
    replace (6 * B * (b * (n6 * (d + W * (G * (2 * s)))))) with (t * (d + W * (G * (2 * s)))) by (unfold t; ring).
    assert (0 <= G * d) by (apply Rmult_le_pos; assumption). assert (0 <= t * s) by (apply Rmult_le_pos; assumption).
    assert (0 <= W * G) by (apply Rmult_le_pos; assumption). assert (0 <= t * (W * G) * d) by (apply Rmult_le_pos; [apply Rmult_le_pos|]; assumption).
    lra. }
  apply (close6_trans _ _ _ (field o phi (nth i li 0) (nth i ki false) (nth i Ys []) x)); [apply HY; assumption|].
  rewrite <- Zy, <- Z0 by exact Hi. apply close6_comp. intros r Hr6. unfold zi, field, zsol. rewrite !dot_add, !dot_lincomb by (apply (six_zh o (ready_six o Hr))).
  set (A := fun j => dot6 (comp r) (nth j (zh (o_par o) (o_eig o) x (nth i li 0) (nth i ki false)) vzero)).
  replace (_ - _) with (sumn 6 (fun j => A j * (flat Ys (6 * i + j)%nat - flat C0 (6 * i + j)%nat))) by (cbn [sumn]; unfold A; ring).
  eapply Rle_trans; [apply sumn_Rabs|]. replace (6 * B * q) with (INR 6 * (B * q)) by (simpl; ring). rewrite <- sumn_const. apply sumn_le. intros j Hj.
  rewrite Rabs_mult. apply Rmult_le_compat; try apply Rabs_pos; [apply HB; assumption|apply CB; lia].
Qed.
End Approx.
