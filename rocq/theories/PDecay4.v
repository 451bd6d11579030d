(** Decay of the skiers' influence in solved systems (C111, C112). *)
From Coquelicot Require Import Coquelicot.
Require Import Verif.Py Verif.MTools Verif.MEigen Verif.MFields Verif.SAdm Verif.MRaster
  Verif.MSolution Verif.SBeam Verif.SBvp Verif.SEig Verif.SMirror Verif.SSkier Verif.SDecay Verif.PBeam Verif.PBeam2 Verif.PBvp Verif.PBvp2 Verif.PBalance
  Verif.PWell Verif.PWell2 Verif.PWell3 Verif.PBvp6 Verif.PMirror Verif.PSkier Verif.PSplit Verif.PWork Verif.PDecay Verif.PDecay2 Verif.PDecay3.

Definition rest (o : obj) (phi : R) : R -> vec6 := field o phi 1 true zeros.
Lemma rest_is o phi s : rest o phi s = at_rest o phi.
Proof. apply uniform_field. Qed.
Lemma rest_balance o phi x : ready o -> balance (o_par o) (loads_of o phi) true 0 (rest o phi) x.
Proof. intros H. exact (field_balance o phi 1 true zeros x (proj1 H) (proj1 (proj2 H)) (ready_eig o H)). Qed.
Definition dev (o : obj) (phi : R) (z : R -> vec6) : R -> vec6 := fun s => combo 1 (z s) (-1) (rest o phi s).
Lemma dev_balance o phi z x : ready o -> balance (o_par o) (loads_of o phi) true 0 z x ->
  balance (o_par o) no_loads true 0 (dev o phi z) x.
Proof.
  intros Hr H. pose proof (balance_combo _ _ _ _ _ _ _ _ 1 (-1) _ H (rest_balance o phi x Hr)) as B.
  replace (mkLd _ _ _ _) with no_loads in B by (unfold no_loads; f_equal; ring).
  replace (1 * 0 + -1 * 0) with 0 in B by ring. exact B.
Qed.
Lemma dev_jump o phi z1 z2 m s t : has_skiers o -> transition o phi m (z1 s) (z2 t) ->
  jump6 (o_par o) (- (skier_force o m * sin (phi * PI / 180))) (skier_force o m * cos (phi * PI / 180)) (dev o phi z1 s) (dev o phi z2 t).
Proof.
  intros Hsk H. destruct (transition_force _ _ _ _ _ Hsk H) as (H1 & H2 & H3 & H4 & H5 & H6).
  unfold jump6, dev. rewrite !combo_N, !combo_M, !combo_V, !rest_is. simpl. repeat split; lra.
Qed.
Lemma dev_end o phi z x : far_field o phi (z x) -> d2 (dev o phi z x) = 0.
Proof.
  intros (A & B & C). unfold d2, dev. rewrite rest_is. unfold at_rest. simpl. cbv zeta in *. rewrite A, B, C. simpl. ring.
Qed.
Lemma dev_moved o phi z x : sqrt (d2 (dev o phi z x)) = moved (z x) (at_rest o phi).
Proof.
  unfold d2, dev, moved. rewrite rest_is. simpl. f_equal. ring.
Qed.
Lemma dev_apart o phi z x : size6 (dev o phi z x) = apart (z x) (at_rest o phi).
Proof. unfold dev, apart. rewrite rest_is. reflexivity. Qed.

Lemma skier_kind o : kind_of (o_system o) = Some KSkier -> has_skiers o.
Proof. intros H. unfold has_skiers. rewrite H. split; discriminate. Qed.

Section Solved.
Variable o : obj.
Variables kR phi : R.
Hypothesis Hr : ready o.
Hypothesis Hk : kind_of (o_system o) = Some KSkier.
Let F m := line_load o m.
Lemma force_sum m : Rabs (- (skier_force o m * sin (phi * PI / 180))) + Rabs (skier_force o m * cos (phi * PI / 180)) <= 2 * Rabs (line_load o m).
Proof.
  unfold skier_force. fold (line_load o m). rewrite Rabs_Ropp, !Rabs_mult. pose proof (Rabs_pos (line_load o m)) as P.
  assert (A : Rabs (sin (phi * PI / 180)) <= 1) by (apply Rabs_le; destruct (SIN_bound (phi * PI / 180)); lra).
  assert (B : Rabs (cos (phi * PI / 180)) <= 1) by (apply Rabs_le; destruct (COS_bound (phi * PI / 180)); lra).
  assert (Rabs (line_load o m) * Rabs (sin (phi * PI / 180)) <= Rabs (line_load o m) * 1) by (apply Rmult_le_compat_l; assumption).
  assert (Rabs (line_load o m) * Rabs (cos (phi * PI / 180)) <= Rabs (line_load o m) * 1) by (apply Rmult_le_compat_l; assumption). lra.
Qed.
Variable n : nat.
Variables l m : nat -> R.
Variable k : nat -> bool.
Variable z : nat -> R -> vec6.
Hypothesis Hpos : forall i, (i <= n)%nat -> 0 <= l i.
Hypothesis HF : fbvp o kR phi n l m k z.
Hypothesis Hkt : forall i, (i <= n)%nat -> k i = true.
Lemma dev_chain : chain (o_par o) n l (fun i => - (skier_force o (m i) * sin (phi * PI / 180))) (fun i => skier_force o (m i) * cos (phi * PI / 180))
  (fun i => dev o phi (z i)).
Proof.
  destruct HF as (_ & _ & A & B). split; [exact Hpos|]. split.
  - intros i x Hi Hx. apply dev_balance; [exact Hr|]. pose proof (B i x Hi Hx) as H. rewrite (Hkt i Hi) in H. exact H.
  - intros i Hi. exact (dev_jump o phi (z i) (z (S i)) (m i) (l i) 0 (skier_kind o Hk) (A i Hi)).
Qed.
Lemma dev_left : d2 (dev o phi (z 0%nat) 0) = 0.
Proof. destruct HF as (A & _). unfold left_end in A. rewrite Hk in A. apply dev_end. exact A. Qed.
Lemma dev_right : d2 (dev o phi (z n) (l n)) = 0.
Proof. destruct HF as (_ & A & _). unfold right_end in A. rewrite Hk in A. apply dev_end. exact A. Qed.
End Solved.

Lemma size6_diff a b e : size6 (combo 1 a (-1) b) ^ 2 <= 2 * size6 (combo 1 a (-1) e) ^ 2 + 2 * size6 (combo 1 b (-1) e) ^ 2.
Proof.
  rewrite !size6_sq. simpl z_u. simpl z_du. simpl z_w. simpl z_dw. simpl z_psi. simpl z_dpsi.
  assert (G : forall x y t, (1 * x + -1 * y) ^ 2 <= 2 * (1 * x + -1 * t) ^ 2 + 2 * (1 * y + -1 * t) ^ 2).
  { intros x y t. pose proof (pow2_ge_0 ((x - t) + (y - t))). nra. }
  pose proof (G (z_u a) (z_u b) (z_u e)). pose proof (G (z_du a) (z_du b) (z_du e)). pose proof (G (z_w a) (z_w b) (z_w e)).
  pose proof (G (z_dw a) (z_dw b) (z_dw e)). pose proof (G (z_psi a) (z_psi b) (z_psi e)). pose proof (G (z_dpsi a) (z_dpsi b) (z_dpsi e)). lra.
Qed.
Lemma size6_nonneg z : 0 <= size6 z. Proof. apply sqrt_pos. Qed.
Lemma faded_nonneg o kap mi n d : 0 <= faded o kap mi n d.
Proof.
  unfold faded. induction n as [|n IH]; simpl; [lra|].
  assert (0 <= Rabs (line_load o (nth n mi 0)) * exp (- (kap * d n))) by (apply Rmult_le_pos; [apply Rabs_pos|left; apply exp_pos]). lra.
Qed.
Lemma faded_ext o kap mi n d d' : (forall j, (j < n)%nat -> d j = d' j) -> faded o kap mi n d = faded o kap mi n d'.
Proof. intros H. unfold faded. apply sumn_ext. intros j Hj. rewrite (H j Hj). reflexivity. Qed.
Lemma faded_shift o kap mi n d e : faded o kap mi n (fun j => e + d j) = exp (- (kap * e)) * faded o kap mi n d.
Proof.
  unfold faded. rewrite <- sumn_scal. apply sumn_ext. intros j _.
  replace (- (kap * (e + d j))) with (- (kap * e) + - (kap * d j)) by ring. rewrite exp_plus. ring.
Qed.

Lemma decay_solved p : lam_ok p -> fnd_ok p -> stable p -> exists C kap, 0 < C /\ 0 < kap /\
  (* fading with the distance from the skiers *)
  (forall o kR phi li mi ki Cs i x, o_par o = p -> ready o -> kind_of (o_system o) = Some KSkier ->
    (forall j, (j < List.length li)%nat -> 0 <= nth j li 0 /\ nth j ki false = true) -> bvp o kR phi li mi ki Cs ->
    (i < List.length li)%nat -> 0 <= x <= nth i li 0 ->
    let z := field o phi (nth i li 0) (nth i ki false) (nth i Cs []) x in
    let bound := C * faded o kap mi (List.length li - 1) (fun j => Rabs (start li i + x - start li (S j))) in
    moved z (at_rest o phi) <= bound /\ (1 <= nth i li 0 -> apart z (at_rest o phi) <= bound)) /\
  (* fading in an outer segment *)
  (forall o phi (z : R -> vec6) l x, o_par o = p -> ready o -> (forall s, 0 <= s <= l -> balance p (loads_of o phi) true 0 z s) ->
    1 <= l -> 0 <= x <= l ->
    (far_field o phi (z 0) -> apart (z x) (at_rest o phi) <= C * exp (- (kap * (l - x))) * apart (z l) (at_rest o phi)) /\
    (far_field o phi (z l) -> apart (z x) (at_rest o phi) <= C * exp (- (kap * x)) * apart (z 0) (at_rest o phi))) /\
  (* two solutions of the homogeneous equations *)
  (forall n l z i x, chain p n l (fun _ => 0) (fun _ => 0) z -> (i <= n)%nat -> 0 <= x <= l i -> 1 <= l i ->
    size6 (z i x) ^ 2 <= C ^ 2 * (exp (- (2 * kap * (pos l i + x))) * size6 (z 0%nat 0) ^ 2
      + exp (- (2 * kap * (pos l (S n) - (pos l i + x)))) * size6 (z n (l n)) ^ 2)).
Proof.
  intros Hl Hf Hs. destruct (decay_fields p Hl Hf Hs) as (c & C & kap & HC & Hkap & HQ & D1 & D2).
  exists (2 * C + C), kap. split; [lra|]. split; [exact Hkap|]. split; [|split].
  - intros o kR phi li mi ki Cs i x Ep Hr Hk Hli HB Hi Hx z bound.
    assert (Hn : li <> []) by (destruct li; [simpl in Hi; lia|discriminate]).
    pose proof (bvp_fbvp _ _ _ _ _ _ _ Hr Hn HB) as HF. set (n := (List.length li - 1)%nat) in *.
    assert (Hpos : forall j, (j <= n)%nat -> 0 <= nth j li 0) by (intros j Hj; apply Hli; unfold n in Hj; lia).
    assert (Hkt : forall j, (j <= n)%nat -> nth j ki false = true) by (intros j Hj; apply Hli; unfold n in Hj; lia).
    pose proof (dev_chain o kR phi Hr Hk n _ _ _ _ Hpos HF Hkt) as Ch. rewrite Ep in Ch.
    destruct (D1 n _ _ _ _ i x Ch (dev_left o kR phi Hk n _ _ _ _ HF) (dev_right o kR phi Hk n _ _ _ _ HF) ltac:(unfold n; lia) Hx) as [A B].
    cbv beta in A, B. rewrite dev_moved in A. rewrite dev_apart in B. fold z in A, B.
    match type of A with _ <= C * ?s => set (S0 := s) in * end.
    assert (S0 <= 2 * faded o kap mi n (fun j => Rabs (start li i + x - start li (S j)))).
    { unfold S0, faded. rewrite <- sumn_scal. apply sumn_le. intros j _.
      replace (2 * (Rabs (line_load o (nth j mi 0)) * exp (- (kap * Rabs (start li i + x - start li (S j))))))
        with (2 * Rabs (line_load o (nth j mi 0)) * exp (- (kap * Rabs (start li i + x - start li (S j))))) by ring.
      apply Rmult_le_compat_r; [left; apply exp_pos|apply force_sum]. }
    pose proof (faded_nonneg o kap mi n (fun j => Rabs (start li i + x - start li (S j)))) as F0.
    assert (C * S0 <= bound).
    { unfold bound. set (f := faded _ _ _ _ _) in *. assert (C * S0 <= C * (2 * f)) by (apply Rmult_le_compat_l; lra).
      assert (0 <= C * f) by (apply Rmult_le_pos; lra). lra. }
    split; [lra|]. intros H1. specialize (B H1). lra.
  - intros o phi z l x Ep Hr HB H1 Hx.
    assert (Ch : chain p 0 (fun _ => l) (fun _ => 0) (fun _ => 0) (fun _ => dev o phi z)).
    { split; [intros; lra|]. split; [|intros i Hi; lia]. intros _ s _ Hs'. rewrite <- Ep. apply dev_balance; [exact Hr|]. rewrite Ep. apply HB. exact Hs'. }
    pose proof (D2 0%nat _ _ 0%nat x Ch ltac:(lia) Hx H1) as B. cbv beta in B.
    replace (pos (fun _ => l) 0) with 0 in B by reflexivity. replace (pos (fun _ => l) 1) with l in B by (unfold pos; simpl; ring). rewrite Rplus_0_l in B.
    rewrite <- !(dev_apart o phi z).
    assert (Q0 : forall s, far_field o phi (z s) -> Qc p c (dev o phi z s) = 0).
    { intros s Hfs. apply dev_end in Hfs. unfold d2 in Hfs. set (v := dev o phi z s) in *.
      pose proof (pow2_ge_0 (z_u v)). pose proof (pow2_ge_0 (z_w v)). pose proof (pow2_ge_0 (z_psi v)).
      assert (S2 : forall y, y ^ 2 = 0 -> y = 0) by (intros y E; destruct (Req_EM_T y 0) as [|N]; [assumption|exfalso; exact (pow_nonzero y 2 N E)]).
      assert (A1 : z_u v = 0) by (apply S2; lra). assert (A2 : z_w v = 0) by (apply S2; lra). assert (A3 : z_psi v = 0) by (apply S2; lra).
      unfold Qc, work. rewrite A1, A2, A3. ring. }
    assert (Fin : forall e v, 0 <= e -> size6 (dev o phi z x) ^ 2 <= C * (exp (- (2 * kap * e)) * Rabs (Qc p c v)) ->
      size6 (dev o phi z x) <= (2 * C + C) * exp (- (kap * e)) * size6 v).
    { intros e v He H. pose proof (size6_nonneg v). pose proof (exp_pos (- (kap * e))) as E0.
      apply Rle_trans with (C * exp (- (kap * e)) * size6 v).
      - apply le_of_sq; [apply Rmult_le_pos; [apply Rmult_le_pos; lra|assumption]|]. eapply Rle_trans; [exact H|].
        replace ((C * exp (- (kap * e)) * size6 v) ^ 2) with (C * (exp (- (2 * kap * e)) * (C * size6 v ^ 2))).
        2:{ replace (- (2 * kap * e)) with (- (kap * e) + - (kap * e)) by ring. rewrite exp_plus. ring. }
        apply Rmult_le_compat_l; [lra|]. apply Rmult_le_compat_l; [left; apply exp_pos|apply HQ].
      - apply Rmult_le_compat_r; [assumption|]. apply Rmult_le_compat_r; lra. }
    split; intros Hff; apply Q0 in Hff; rewrite Hff, Rabs_R0, Rmult_0_r in B.
    + apply Fin; [lra|]. rewrite Rplus_0_l in B. exact B.
    + apply Fin; [lra|]. rewrite Rplus_0_r in B. exact B.
  - intros n l z i x Ch Hi Hx H1. eapply Rle_trans; [exact (D2 n l z i x Ch Hi Hx H1)|].
    set (e1 := exp (- (2 * kap * (pos l i + x)))). set (e2 := exp (- (2 * kap * (pos l (S n) - (pos l i + x))))).
    assert (E1 : 0 < e1) by apply exp_pos. assert (E2 : 0 < e2) by apply exp_pos.
    pose proof (HQ (z 0%nat 0)) as Q1. pose proof (HQ (z n (l n))) as Q2. pose proof (pow2_ge_0 (size6 (z 0%nat 0))) as P1. pose proof (pow2_ge_0 (size6 (z n (l n)))) as P2.
    assert (T1 : e1 * Rabs (Qc p c (z 0%nat 0)) <= e1 * (C * size6 (z 0%nat 0) ^ 2)) by (apply Rmult_le_compat_l; lra).
    assert (T2 : e2 * Rabs (Qc p c (z n (l n))) <= e2 * (C * size6 (z n (l n)) ^ 2)) by (apply Rmult_le_compat_l; lra).
    set (Y := e1 * size6 (z 0%nat 0) ^ 2 + e2 * size6 (z n (l n)) ^ 2).
    assert (Y0 : 0 <= Y) by (unfold Y; apply Rplus_le_le_0_compat; apply Rmult_le_pos; lra).
    assert (T3 : C * (e1 * Rabs (Qc p c (z 0%nat 0)) + e2 * Rabs (Qc p c (z n (l n)))) <= C * (C * Y)) by (apply Rmult_le_compat_l; [lra|unfold Y; lra]).
    assert (T4 : C * C * Y <= (2 * C + C) ^ 2 * Y) by (apply Rmult_le_compat_r; [exact Y0|nra]). lra.
Qed.
