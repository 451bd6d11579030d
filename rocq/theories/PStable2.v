(** Proofs: backward stable numerics give small errors, all segments together (C118). *)
From Coquelicot Require Import Coquelicot.
Require Import Verif.Py Verif.MTools Verif.MEigen Verif.MFields Verif.SAdm
  Verif.MSolution Verif.SBeam Verif.SBvp Verif.SEig Verif.SSplit Verif.SApprox Verif.SStable Verif.PSetup Verif.PBeam Verif.PBeam2
  Verif.PBvp Verif.PBvp2 Verif.PBvp3 Verif.PBvp4 Verif.PBvp5 Verif.PLinAlg
  Verif.PWell Verif.PIndep Verif.PWell2 Verif.PWell3 Verif.PComplete Verif.PDepend Verif.PApprox Verif.PApprox2 Verif.PApprox3 Verif.PApprox4 Verif.PStable Verif.PropDepend Verif.PropApprox.
Open Scope R_scope.

Lemma abs_sum_in l c : Rabs (nth c l 0) <= abs_sum l.
Proof.
  revert c. induction l as [|a l IH]; intros c; [destruct c; simpl; rewrite Rabs_R0; lra|].
  pose proof (abs_sum_pos l). pose proof (Rabs_pos a). destruct c as [|c]; simpl; [lra|]. specialize (IH c). lra.
Qed.
Lemma abs_sum_concat q Cs : (forall i, (i < List.length Cs)%nat -> abs_sum (nth i Cs []) <= q) -> abs_sum (List.concat Cs) <= INR (List.length Cs) * q.
Proof.
  induction Cs as [|C Cs IH]; intros H; [simpl; lra|]. simpl List.concat. rewrite abs_sum_app. cbn [List.length]. rewrite S_INR.
  pose proof (H 0%nat ltac:(simpl; lia)) as H0. simpl in H0. assert (IH' := IH ltac:(intros i Hi; apply (H (S i)); simpl; lia)). lra.
Qed.
Lemma abs_sum_reshape n x : abs_sum (List.concat (reshape_constants n x)) = sumn (6 * n) (fun c => Rabs (x c)).
Proof.
  unfold reshape_constants. induction n as [|n IH]; [reflexivity|]. rewrite (seq_S n 0), map_app, concat_app, abs_sum_app, IH.
  replace (6 * S n)%nat with (S (S (S (S (S (S (6 * n))))))) by lia. rewrite !sumn_S.
  cbn [map List.concat app seq abs_sum fold_right]. rewrite Nat.add_0_r.
  replace (6 * n + 1)%nat with (S (6 * n)) by lia. replace (6 * n + 2)%nat with (S (S (6 * n))) by lia. replace (6 * n + 3)%nat with (S (S (S (6 * n)))) by lia.
  replace (6 * n + 4)%nat with (S (S (S (S (6 * n))))) by lia. replace (6 * n + 5)%nat with (S (S (S (S (S (6 * n)))))) by lia. cbn [Nat.add].
  replace (6 * n + 1)%nat with (S (6 * n)) by lia.
  replace (6 * n + 2)%nat with (S (S (6 * n))) by lia.
  replace (6 * n + 3)%nat with (S (S (S (6 * n)))) by lia.
  replace (6 * n + 4)%nat with (S (S (S (S (6 * n))))) by lia.
  replace (6 * n + 5)%nat with (S (S (S (S (S (6 * n)))))) by lia.
  ring.
Qed.

(** Unsupported segments: the constants follow from the state at the left end. *)
Definition free_factor (p : params) : R := 6 + 2 * Rabs (/ (6 * K0 p / (A11 p * kA55 p))).
Lemma free_conditioned p C s : lam_ok p -> List.length C = 6%nat -> close6 s (lincomb (zh_free p 0) C) vzero -> abs_sum C <= free_factor p * s.
Proof.
  intros Hl L H. destruct C as [|c0 [|c1 [|c2 [|c3 [|c4 [|c5 [|]]]]]]]; try discriminate L. clear L.
  set (k := 6 * K0 p / (A11 p * kA55 p)) in *.
  assert (k0 : k <> 0).
  { unfold k. unfold lam_ok in Hl. assert (K0 p < 0 /\ 0 < A11 p /\ 0 < kA55 p) as (h1 & h2 & h3) by tauto. apply Rmult_integral_contrapositive_currified; [lra|]. apply Rinv_neq_0_compat. nra. }
  unfold close6, zh_free, lincomb in H. cbn [vadd vscale vzero z_u z_du z_w z_dw z_psi z_dpsi] in H. rewrite !Rminus_0_r in H. destruct H as (H1 & H2 & H3 & H4 & H5 & H6).
  match type of H1 with Rabs ?e <= _ => replace e with c4 in H1 by ring end. match type of H2 with Rabs ?e <= _ => replace e with c5 in H2 by ring end.
  match type of H3 with Rabs ?e <= _ => replace e with c0 in H3 by ring end. match type of H4 with Rabs ?e <= _ => replace e with c1 in H4 by ring end.
  match type of H5 with Rabs ?e <= _ => replace e with (- c1 + k * c3) in H5 by (unfold k; ring) end.
  match type of H6 with Rabs ?e <= _ => replace e with (- 2 * c2) in H6 by ring end.
  assert (Q3 : Rabs c3 <= Rabs (/ k) * (2 * s)).
  { replace c3 with (/ k * ((- c1 + k * c3) + c1)) by (field; exact k0). rewrite Rabs_mult. apply Rmult_le_compat_l; [apply Rabs_pos|].
    pose proof (Rabs_triang (- c1 + k * c3) c1). lra. }
  rewrite Rabs_mult in H6. replace (Rabs (- 2)) with 2 in H6 by (rewrite Rabs_left; lra). pose proof (Rabs_pos c2).
  unfold free_factor. fold k. unfold abs_sum. cbn [fold_right]. lra.
Qed.

Lemma lam_nonneg p m kap : 0 <= m -> 0 <= kap -> 0 <= kap * (matnorm (calc_system_matrix p) * m + 1).
Proof. intros Hm Hk. pose proof (matnorm_pos (calc_system_matrix p)). apply Rmult_le_pos; [exact Hk|nra]. Qed.
Lemma vec_shift s t a b z : close6 s (vadd a b) z -> close6 t b vzero -> close6 (s + t + rownorm z) a vzero.
Proof.
  intros H1 H2. pose proof (close6_rownorm z) as H3. unfold close6 in *. cbn [vadd vzero z_u z_du z_w z_dw z_psi z_dpsi] in *.
  destruct H1 as (A1 & A2 & A3 & A4 & A5 & A6). destruct H2 as (B1 & B2 & B3 & B4 & B5 & B6). destruct H3 as (D1 & D2 & D3 & D4 & D5 & D6).
  repeat match goal with H : Rabs _ <= _ |- _ => apply Rabs_le_between in H end.
  repeat split; apply Rabs_le; lra.
Qed.

(** The bound for the sum of all constants: fixed point of the error estimate. *)
Lemma closing S T Z K al be e r : 0 <= S -> 0 <= T -> 0 <= Z -> 0 <= K -> 0 <= al -> 0 <= be -> 0 <= e -> 0 <= r ->
  e + r <= / (2 * (T * K * (al + 1)) + 1) -> S <= T * (Z + K * (e * (al * S + be) + r * S)) ->
  S <= 2 * (T * (Z + K * be)) /\ e * (al * S + be) + r * S <= ((al + 1) * (2 * (T * (Z + K * be))) + be) * (e + r).
Proof.
  intros S0 T0 Z0 K0 A0 B0 E0 R0 He H.
  set (q := T * K * (al + 1)) in *. assert (Q0 : 0 <= q) by (unfold q; repeat apply Rmult_le_pos; lra).
  assert (I : 0 < / (2 * q + 1)) by (apply Rinv_0_lt_compat; lra).
  assert (X : (2 * q + 1) * / (2 * q + 1) = 1) by (field; lra).
  assert (I1 : / (2 * q + 1) <= 1) by nra.
  assert (Hq : q * (e + r) <= 1 / 2) by nra.
  assert (Y : e * (al * S + be) + r * S <= (e + r) * ((al + 1) * S + be)).
  { assert (0 <= e * S) by (apply Rmult_le_pos; assumption). assert (0 <= r * (al * S)) by (repeat apply Rmult_le_pos; assumption).
    assert (0 <= r * be) by (apply Rmult_le_pos; assumption). lra. }
  assert (TK : 0 <= T * K) by (apply Rmult_le_pos; assumption).
  assert (P : S <= T * Z + q * (e + r) * S + T * K * be * (e + r)).
  { eapply Rle_trans; [exact H|]. apply (Rmult_le_compat_l (T * K)) in Y; [|exact TK]. unfold q. lra. }
  assert (P2 : q * (e + r) * S <= 1 / 2 * S) by (apply Rmult_le_compat_r; assumption).
  assert (P3 : T * K * be * (e + r) <= T * K * be * 1) by (apply Rmult_le_compat_l; [apply Rmult_le_pos; assumption|lra]).
  assert (SB : S <= 2 * (T * (Z + K * be))) by lra.
  split; [exact SB|]. eapply Rle_trans; [exact Y|]. rewrite Rmult_comm. apply Rmult_le_compat_r; [lra|].
  apply Rplus_le_compat_r. apply Rmult_le_compat_l; lra.
Qed.

Section Stable.
Variables (o : obj) (kR phi : R) (li mi : list R) (ki : list bool) (kd : syskind) (C0 : list (list R)) (m kap : R).
Let N := List.length li.
Hypothesis Hr : ready o.
Hypothesis Hs : stable (o_par o).
Hypothesis Hkd : kind_of (o_system o) = Some kd.
Hypothesis HM : kd = KPst -> o_mode o <> None.
Hypothesis HC : kd = KPst -> o_mode o = Some ModeC -> o_phi o = phi.
Hypothesis HV : kd = KVpst -> o_mode o = None \/ o_mode o = Some ModeA.
Hypothesis HkR : 0 <= kR.
Hypothesis HN : (2 <= N)%nat.
Hypothesis Hk : List.length ki = N.
Hypothesis Hp : proper_segments li ki.
Hypothesis H60 : six_each N C0.
Hypothesis HB0 : bvp o kR phi li mi ki C0.
Hypothesis Hm : 0 <= m.
Hypothesis Hkap : 0 <= kap.
Let p := o_par o.
Let Ks := calc_system_matrix p.
Let ld := loads_of o phi.
Let l i := nth i li 0.
Let k i := nth i ki false.
Let L := fold_right Rplus 0 li.

Lemma particular_bound : exists Z, 0 <= Z /\ forall i x, (i < N)%nat -> 0 <= x <= l i -> close6 Z (zp p ld x (k i)) vzero.
Proof.
  assert (Q : forall i, exists Z, 0 <= Z /\ forall x, 0 <= x <= l i -> close6 Z (zp p ld x (k i)) vzero).
  { intros i. assert (Y : forall n, exists Z, 0 <= Z /\ forall r x, (r < n)%nat -> 0 <= x <= l i -> Rabs (dot6 (comp r) (zp p ld x (k i))) <= Z).
    { induction n as [|n (Z & Z0 & HZ)]; [exists 0; split; [lra|intros; lia]|].
      destruct (field_bound (comp n) o phi (l i) (k i) [0;0;0;0;0;0] (ready_six o Hr) eq_refl) as (Z' & Z0' & HZ').
      exists (Z + Z'). split; [lra|]. intros r x Hr' Hx. destruct (Nat.eq_dec r n) as [->|E].
      - specialize (HZ' x Hx). unfold field, zsol in HZ'. change [0;0;0;0;0;0] with (repeat 0 6) in HZ'. rewrite lincomb_zero, dot_add, dot_zero, Rplus_0_l in HZ'. fold p ld in HZ'. lra.
      - specialize (HZ r x ltac:(lia) Hx). lra. }
    destruct (Y 6%nat) as (Z & Z0 & HZ). exists Z. split; [exact Z0|]. intros x Hx. apply close6_comp. intros r Hr'. rewrite dot_zero, Rminus_0_r. apply HZ; assumption. }
  assert (Y : forall n, exists Z, 0 <= Z /\ forall i x, (i < n)%nat -> 0 <= x <= l i -> close6 Z (zp p ld x (k i)) vzero).
  { induction n as [|n (Z & Z0 & HZ)]; [exists 0; split; [lra|intros; lia]|]. destruct (Q n) as (Z' & Z0' & HZ'). exists (Z + Z'). split; [lra|].
    intros i x Hi Hx. destruct (Nat.eq_dec i n) as [->|E]; [apply (close6_le Z'); [lra|apply HZ'; exact Hx]|apply (close6_le Z); [lra|apply HZ; [lia|exact Hx]]]. }
  apply Y.
Qed.

(** Size of the columns. *)
Let B := 2 * m + sumn N (fun i => proj1_sig (column_bound p (o_eig o) (l i) false)).
Lemma cols_size e : sized m e -> (List.length (eR e) + 2 * List.length (eC e) = 6)%nat ->
  forall i x j, (i < N)%nat -> 0 <= x <= l i -> (j < 6)%nat -> close6 B (nth j (zh p e x (l i) (k i)) vzero) vzero.
Proof.
  intros Hz He i x j Hi Hx Hj. unfold B.
  assert (P : forall i, 0 <= proj1_sig (column_bound p (o_eig o) (l i) false)) by (intros q; exact (proj1 (proj2_sig (column_bound p (o_eig o) (l q) false)))).
  unfold k. destruct (nth i ki false).
  - apply (close6_le (2 * m)); [assert (0 <= sumn N (fun i => proj1_sig (column_bound p (o_eig o) (l i) false))) by (apply sumn_nonneg; intros; apply P); lra|].
    pose proof (columns_sized m e x (l i) Hm Hz Hx) as F. rewrite Forall_forall in F. apply F. apply nth_In. unfold zh, zh_bedded. rewrite !app_length, !map_length. lia.
  - apply (close6_le (proj1_sig (column_bound p (o_eig o) (l i) false))).
    { pose proof (sumn_term N (fun i => proj1_sig (column_bound p (o_eig o) (l i) false)) i ltac:(intros; apply P) Hi) as Q. cbv beta in Q. lra. }
    pose proof (proj2 (proj2_sig (column_bound p (o_eig o) (l i) false))) as Hb. apply close6_comp. intros r Hr'. rewrite dot_zero, Rminus_0_r.
    exact (Hb j x r Hj Hr' Hx).
Qed.

Theorem stable_states : exists K S0 eps0, 0 <= K /\ 0 < eps0 /\ forall ews kRr rho eps zh0 zp0 rhs x,
  let o' := with_eig o (calc_eigensystem ews) in
  0 <= rho -> 0 <= eps -> eps + rho <= eps0 -> Forall (approx_eigenpair Ks rho) ews ->
  (List.length (eR (o_eig o')) + 2 * List.length (eC (o_eig o')) = 6)%nat -> sized m (o_eig o') -> conditioned kap (o_eig o') ->
  check_segments o' li mi ki = Ok tt -> (kd = KPst -> o_mode o = Some ModeC -> kRr = Ok kR) ->
  assemble o' kRr phi li mi ki = Ok (zh0, zp0, rhs) ->
  (forall alpha beta, (forall r c, (r < 6 * N)%nat -> (c < 6 * N)%nat -> Rabs (zh0 r c) <= alpha) -> (forall r, (r < 6 * N)%nat -> Rabs (rhs r - zp0 r) <= beta) ->
     forall r, (r < 6 * N)%nat -> Rabs (sumn (6 * N) (fun c => zh0 r c * x c) - (rhs r - zp0 r)) <= eps * (alpha * sumn (6 * N) (fun c => Rabs (x c)) + beta)) ->
  let Cs := reshape_constants N x in
  abs_sum (List.concat Cs) <= S0 /\
  forall i y, (i < N)%nat -> 0 <= y <= l i ->
  close6 (K * (eps + rho)) (field o' phi (l i) (k i) (nth i Cs []) y) (field o phi (l i) (k i) (nth i C0 []) y).
Proof.
  destruct (error_bound o kR phi li mi ki kd Hr Hs Hkd HM HC HV HkR HN Hk Hp) as (Kb & Kb0 & HKb).
  destruct particular_bound as (Z & Z0 & HZ).
  pose proof (lam_nonneg p m kap Hm Hkap) as Lam. fold Ks in Lam. set (lam := kap * (matnorm Ks * m + 1)) in *.
  assert (Hl : forall i, (i < N)%nat -> 0 <= l i <= L) by (intros i Hi; apply (li_pos li ki Hp i Hi)).
  set (fac := exp (lam * L) * kap + free_factor p).
  assert (F1 : 0 <= exp (lam * L) * kap) by (apply Rmult_le_pos; [left; apply exp_pos|exact Hkap]).
  assert (F2 : 0 <= free_factor p) by (unfold free_factor; pose proof (Rabs_pos (/ (6 * K0 p / (A11 p * kA55 p)))); lra).
  set (Y0 := sumn N (fun i => rownorm (field o phi (l i) (k i) (nth i C0 []) 0))).
  assert (Y00 : 0 <= Y0) by (apply sumn_nonneg; intros; apply rownorm_pos).
  set (W := rows_size p kR). assert (W0 : 0 <= W) by apply rows_size_pos.
  assert (B0 : 0 <= B).
  { unfold B. assert (0 <= sumn N (fun i => proj1_sig (column_bound p (o_eig o) (l i) false))); [|lra].
    apply sumn_nonneg. intros q _. exact (proj1 (proj2_sig (column_bound p (o_eig o) (l q) false))). }
  set (al := 2 * (W * (6 * B))). assert (A0 : 0 <= al) by (unfold al; assert (0 <= W * (6 * B)) by (apply Rmult_le_pos; lra); lra).
  set (vl := end_vec o phi (-1) (k 0%nat)). set (vr := end_vec o phi 1 (k (N - 1)%nat)).
  set (be := abs_sum vl + abs_sum vr + sumn N (fun i => abs_sum ([0; 0; 0] ++ mid_vec o phi mi i)) + 2 * (W * Z)).
  assert (V1 := abs_sum_pos vl). assert (V2 := abs_sum_pos vr).
  assert (V3 : 0 <= sumn N (fun i => abs_sum ([0; 0; 0] ++ mid_vec o phi mi i))) by (apply sumn_nonneg; intros; apply abs_sum_pos).
  assert (V4 : 0 <= 2 * (W * Z)) by (assert (0 <= W * Z) by (apply Rmult_le_pos; assumption); lra).
  assert (Be0 : 0 <= be) by (unfold be; lra).
  set (T := INR N * fac). assert (T0 : 0 <= T) by (unfold T, fac; apply Rmult_le_pos; [apply pos_INR|lra]).
  set (Zt := Z + Y0). set (Sm := 2 * (T * (Zt + Kb * be))).
  assert (Sm0 : 0 <= Sm) by (unfold Sm, Zt; assert (0 <= Kb * be) by (apply Rmult_le_pos; assumption); assert (0 <= T * (Z + Y0 + Kb * be)) by (apply Rmult_le_pos; lra); lra).
  set (q := T * Kb * (al + 1)). assert (Q0 : 0 <= q) by (unfold q; apply Rmult_le_pos; [apply Rmult_le_pos; assumption|lra]).
  exists (Kb * ((al + 1) * Sm + be)), Sm, (/ (2 * q + 1)). split; [|split].
  { apply Rmult_le_pos; [exact Kb0|]. assert (0 <= (al + 1) * Sm) by (apply Rmult_le_pos; lra). lra. }
  { apply Rinv_0_lt_compat. lra. }
  intros ews kRr rho eps zh0 zp0 rhs x o' Hrho Heps Hsmall HA H6 Hsz Hcd Hchk HK EA HX Cs.
  assert (HX' : forall r, (r < 6 * N)%nat -> Rabs (sumn (6 * N) (fun c => zh0 r c * x c) - (rhs r - zp0 r)) <= eps * (al * abs_sum (List.concat Cs) + be)).
  { unfold Cs. rewrite abs_sum_reshape. 
    assert (Hsk : kd = KSkier -> nth 0 ki false = true /\ nth (N - 1) ki false = true).
    { intros E. pose proof Hchk as Q. unfold check_segments in Q.
      destruct (negb (existsb (fun b => b) ki)); [discriminate|].
      destruct (negb (_ && _)); [discriminate|].
      pose proof (kinds (o_system o)) as Kk. cbv zeta in Kk. rewrite Hkd, E in Kk.
      destruct Kk as (_ & _ & _ & _ & _ & _ & _ & _ & K9). change (o_system o') with (o_system o) in Q. rewrite K9 in Q. cbn [negb andb] in Q.
      rewrite last_nth in Q. rewrite Hk in Q.
      destruct (nth 0 ki false), (nth (N - 1) ki false); try discriminate. split; reflexivity. }
    destruct (valid_lengths o' li mi ki Hchk) as [_ Lm].
    unfold assemble in EA. fold N in EA. destruct (assemble_lhs o' kRr phi N 0 li ki (fun _ _ => 0, fun _ => 0)) as [[M v]|] eqn:EL; [|discriminate].
    cbn [bind] in EA. destruct (build_rhs o' kRr phi li mi ki N) as [rhs'|] eqn:ER; [|discriminate].
    cbn [bind fst snd] in EA. apply Ok_inj in EA. injection EA; intros E1 E2 E3.
    destruct (build_rhs_shape o' kRr phi li mi ki kd rhs' HN ltac:(fold N; lia) Hk Hkd Hsk ER) as (S1 & S2 & S3). fold N in S1, S2, S3.
    destruct (entries o' phi li ki B Z (six_cols_count o' H6) HN Hk (fun i Hi => proj1 (Hl i Hi)) (cols_size _ Hsz H6) HZ kRr kR M v) as [X1 X2]; [|exact EL|].
    { intros Hmem Hmode. apply HK; [|exact Hmode]. change (o_system o') with (o_system o) in Hmem. pose proof (kinds (o_system o)) as Kk. cbv zeta in Kk. rewrite Hkd in Kk.
      revert Kk. generalize kd. intros [| | | |] Kk; try reflexivity; exfalso; destruct Kk as (Kk & _); rewrite Kk in Hmem; discriminate. }
    apply HX.
    - intros r c Hr' Hc'. rewrite <- E3. apply (X1 r c Hr' Hc').
    - assert (R : forall r, (r < 6 * N)%nat -> Rabs (rhs' r) <= abs_sum vl + abs_sum vr + sumn N (fun i => abs_sum ([0; 0; 0] ++ mid_vec o phi mi i))).
      { apply (rows_split N _ HN). split; [|split].
        - intros c Hc'. rewrite S1 by exact Hc'. pose proof (abs_sum_in vl c). change (Rabs (nth c vl 0) <= abs_sum vl + abs_sum vr + sumn N (fun i => abs_sum ([0; 0; 0] ++ mid_vec o phi mi i))). lra.
        - intros c Hc'. rewrite S2 by exact Hc'. pose proof (abs_sum_in vr c). change (Rabs (nth c vr 0) <= abs_sum vl + abs_sum vr + sumn N (fun i => abs_sum ([0; 0; 0] ++ mid_vec o phi mi i))). lra.
        - intros i c Hi Hc'. rewrite S3 by assumption. change (mid_vec o' phi mi i) with (mid_vec o phi mi i).
          pose proof (abs_sum_in ([0; 0; 0] ++ mid_vec o phi mi i) c) as P1.
          pose proof (sumn_term N (fun i => abs_sum ([0; 0; 0] ++ mid_vec o phi mi i)) i ltac:(intros; apply abs_sum_pos) ltac:(lia)) as P2. cbv beta in P2. lra. }
      intros r Hr'. rewrite <- E1, <- E2. specialize (R r Hr'). specialize (X2 r Hr'). change (rows_size (o_par o') kR) with W in X2.
      apply Rabs_le_between in R. apply Rabs_le_between in X2. apply Rabs_le. unfold be. lra. }
  set (Sx := abs_sum (List.concat Cs)) in *. assert (Sx0 : 0 <= Sx) by apply abs_sum_pos.
  pose proof (assemble_within (eps * (al * Sx + be)) o' kRr kR phi li mi ki zh0 zp0 rhs x kd (six_cols_count o' H6) HN Hchk Hkd
    (fun A B => conj (HK A B) (HC A B)) HV EA HX') as BW. fold N Cs in BW.
  assert (S6 : six_each N Cs).
  { unfold Cs, reshape_constants, six_each. rewrite map_length, seq_length. split; [reflexivity|]. apply Forall_forall. intros C HCi. apply in_map_iff in HCi.
    destruct HCi as (i & <- & _). rewrite map_length, seq_length. reflexivity. }
  pose proof (fun i y => HKb ews rho (eps * (al * Sx + be)) Cs C0 Hrho HA S6 BW H60 HB0 i y) as ER. fold Sx in ER. set (E := Kb * (eps * (al * Sx + be) + rho * Sx)) in *.
  assert (SEG : Sx <= T * (Zt + E)).
  { unfold Sx, T. rewrite Rmult_assoc. rewrite <- (proj1 S6). apply abs_sum_concat. rewrite (proj1 S6). intros i Hi.
    destruct (Hl i Hi) as [L0 L1]. pose proof (ER i 0 Hi ltac:(fold (l i); lra)) as Ci. fold (l i) (k i) in Ci. unfold field at 1 in Ci. unfold zsol in Ci.
    apply (vec_shift _ Z) in Ci; [|apply (HZ i 0 Hi); lra].
    assert (Yi : rownorm (field o phi (l i) (k i) (nth i C0 []) 0) <= Y0).
    { apply (sumn_term N (fun i => rownorm (field o phi (l i) (k i) (nth i C0 []) 0))); [intros; apply rownorm_pos|exact Hi]. }
    assert (LC : List.length (nth i Cs []) = 6%nat).
    { destruct S6 as [LS FS]. rewrite Forall_forall in FS. apply FS. apply nth_In. lia. }
    set (s := E + Z + rownorm (field o phi (l i) (k i) (nth i C0 []) 0)) in *.
    assert (s0 : 0 <= s) by (destruct Ci as (Ci & _); eapply Rle_trans; [apply Rabs_pos|exact Ci]).
    apply (Rle_trans _ (fac * s)); [|apply Rmult_le_compat_l; [unfold fac; lra|unfold Zt, s; lra]].
    assert (G1 : 0 <= free_factor p * s) by (apply Rmult_le_pos; assumption). assert (G2 : 0 <= exp (lam * L) * kap * s) by (apply Rmult_le_pos; assumption).
    unfold fac. rewrite Rmult_plus_distr_r. unfold zh in Ci. unfold k in Ci. destruct (nth i ki false).
    - apply (columns_conditioned kap lam) in Ci; [|exact Lam|exact L0| |exact Hcd|].
      + assert (exp (lam * l i) <= exp (lam * L)) by (apply exp_le; apply Rmult_le_compat_l; assumption).
        assert (exp (lam * l i) * (kap * s) <= exp (lam * L) * (kap * s)) by (apply Rmult_le_compat_r; [apply Rmult_le_pos; assumption|assumption]). lra.
      + apply (eigenvalues_bounded Ks rho m kap ews Hm); try assumption. split; [exact Hrho|].
        assert (/ (2 * q + 1) <= 1) by (rewrite <- Rinv_1; apply Rinv_le_contravar; lra). lra.
      + rewrite LC. unfold zh_bedded. rewrite !app_length, !map_length.
        fold o'. lia.
    - apply free_conditioned in Ci; [|exact (proj1 Hr)|exact LC]. change (o_par (with_eig o (calc_eigensystem ews))) with p in Ci. lra. }
  destruct (closing Sx T Zt Kb al be eps rho Sx0 T0 ltac:(unfold Zt; lra) Kb0 A0 Be0 Heps Hrho Hsmall SEG) as [G1 G2]. fold Sm in G1, G2.
  split; [exact G1|]. intros i y Hi Hy. apply (close6_le E); [|exact (ER i y Hi Hy)].
  unfold E. rewrite Rmult_assoc. apply Rmult_le_compat_l; assumption.
Qed.
End Stable.
