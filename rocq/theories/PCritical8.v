(** The dampened search converges (C121). *)
From Coquelicot Require Import Coquelicot.
Require Import Verif.Py Verif.MTools Verif.MEigen Verif.MEnvelope Verif.MCriterion Verif.SCritical Verif.PSetup Verif.PEnvelope Verif.PForce Verif.PropForce Verif.PCritical2 Verif.PCritical4.
Open Scope R_scope.

(** ** One step of the iteration in units of the critical weight *)
Definition sandwich (s r : R) : Prop := 0 <= r /\ (s <= 1 -> 3 / 2 * s - 1 / 2 <= r <= (1 + s) / 2) /\ (1 <= s -> (1 + s) / 2 <= r <= 3 / 2 * s - 1 / 2).
Lemma sq_between a r b : 0 <= a -> a <= r <= b -> a ^ 2 <= r ^ 2 <= b ^ 2.
Proof. intros. nra. Qed.
Lemma one_plus r : 0 < 1 + r ^ 2. Proof. pose proof (pow2_ge_0 r). lra. Qed.
Lemma quot_le x y c : 0 < y -> x <= c * y -> x / y <= c.
Proof. intros H G. apply (Rmult_le_reg_r y); [exact H|]. unfold Rdiv. rewrite Rmult_assoc, Rinv_l by lra. lra. Qed.
Lemma le_quot x y c : 0 < y -> c * y <= x -> c <= x / y.
Proof. intros H G. apply (Rmult_le_reg_r y); [exact H|]. unfold Rdiv. rewrite Rmult_assoc, Rinv_l by lra. lra. Qed.
Section H.
Variables s r : R.
Hypothesis Hs : 0 < s.
Hypothesis SW : sandwich s r.
Let h := 2 * s / (1 + r ^ 2).
Lemma step_pos : 0 < h.
Proof. unfold h. pose proof (one_plus r). apply Rdiv_lt_0_compat; lra. Qed.
Lemma step_cap : h <= 3 / 2.
Proof.
  pose proof (one_plus r) as P. destruct SW as (R0 & A & B). apply quot_le; [exact P|]. destruct (Rle_dec s (3 / 4)) as [C|C]; [pose proof (pow2_ge_0 r); lra|].
  destruct (Rle_dec s 1) as [D|D].
  - specialize (A D). destruct (sq_between (3 / 2 * s - 1 / 2) r ((1 + s) / 2)) as [Q _]; [lra|exact A|]. nra.
  - specialize (B ltac:(lra)). destruct (sq_between ((1 + s) / 2) r (3 / 2 * s - 1 / 2)) as [Q _]; [lra|exact B|]. pose proof (pow2_ge_0 (s - 5 / 3)). nra.
Qed.
Lemma step_small : s <= 1 / 8 -> 3 / 2 * s <= h.
Proof.
  intros C. pose proof (one_plus r) as P. destruct SW as (R0 & A & _). specialize (A ltac:(lra)). apply le_quot; [exact P|].
  destruct (sq_between 0 r (9 / 16)) as [_ Q]; [lra|lra|]. nra.
Qed.
Lemma step_half : s <= 1 / 2 -> 5 / 4 * s <= h.
Proof.
  intros C. pose proof (one_plus r) as P. destruct SW as (R0 & A & _). specialize (A ltac:(lra)). apply le_quot; [exact P|].
  destruct (sq_between 0 r (3 / 4)) as [_ Q]; [lra|lra|]. nra.
Qed.
Lemma step_large d : 1 <= s <= d -> 6 / 10 / d <= h.
Proof.
  intros C. pose proof (one_plus r) as P. destruct SW as (R0 & _ & B). specialize (B ltac:(lra)). apply le_quot; [exact P|].
  destruct (sq_between ((1 + s) / 2) r (3 / 2 * s - 1 / 2)) as [_ Q]; [lra|exact B|].
  apply (Rmult_le_reg_l d); [lra|]. replace (d * (6 / 10 / d * (1 + r ^ 2))) with (6 / 10 * (1 + r ^ 2)) by (field; lra).
  apply Rle_trans with (s * (2 * s)); [|apply Rmult_le_compat_r; lra]. nra.
Qed.
Lemma step_contract : Rabs (s - 1) <= 1 / 2 -> Rabs (h - 1) <= 3 / 4 * Rabs (s - 1).
Proof.
  intros C. pose proof (one_plus r) as P. destruct SW as (R0 & A & B). apply Rabs_le_between in C. destruct (Rle_dec s 1) as [D|D].
  - specialize (A D). rewrite (Rabs_left1 (s - 1)) by lra. set (y := 1 - s). replace (- (s - 1)) with y by (unfold y; ring). assert (Hy : 0 <= y <= 1 / 2) by (unfold y; lra).
    destruct (sq_between (1 - 3 / 2 * y) r (1 - y / 2)) as [Q1 Q2]; [lra|unfold y; lra|].
    assert (E1 : h <= 1 + 3 / 4 * y). { apply quot_le; [exact P|]. replace s with (1 - y) by (unfold y; ring). nra. }
    assert (E2 : 1 - 3 / 4 * y <= h). { apply le_quot; [exact P|]. replace s with (1 - y) by (unfold y; ring).
      assert ((1 - y / 2) ^ 2 * (1 - 3 / 4 * y) <= 1 - 5 / 4 * y); [|nra].
      replace ((1 - y / 2) ^ 2 * (1 - 3 / 4 * y)) with (1 - 7 / 4 * y + y ^ 2 - 3 / 16 * y ^ 3) by field. assert (0 <= y ^ 3) by (apply pow_le; lra). nra. }
    apply Rabs_le. lra.
  - specialize (B ltac:(lra)). rewrite (Rabs_pos_eq (s - 1)) by lra. set (y := s - 1). assert (Hy : 0 <= y <= 1 / 2) by (unfold y; lra).
    destruct (sq_between (1 + y / 2) r (1 + 3 / 2 * y)) as [Q1 Q2]; [lra|unfold y; lra|].
    assert (E1 : h <= 1 + 3 / 4 * y). { apply quot_le; [exact P|]. replace s with (1 + y) by (unfold y; ring). nra. }
    assert (E2 : 1 - 3 / 4 * y <= h). { apply le_quot; [exact P|]. replace s with (1 + y) by (unfold y; ring).
      assert ((1 + 3 / 2 * y) ^ 2 * (1 - 3 / 4 * y) <= 1 + 11 / 4 * y); [|nra].
      replace ((1 + 3 / 2 * y) ^ 2 * (1 - 3 / 4 * y)) with (1 + 9 / 4 * y - 27 / 16 * y ^ 3) by field. assert (0 <= y ^ 3) by (apply pow_le; lra). nra. }
    apply Rabs_le. lra.
Qed.
Lemma step_contract' : Rabs (s - 1) <= 1 / 4 -> Rabs (h - 1) <= 5 / 8 * Rabs (s - 1).
Proof.
  intros C. pose proof (one_plus r) as P. destruct SW as (R0 & A & B). apply Rabs_le_between in C. destruct (Rle_dec s 1) as [D|D].
  - specialize (A D). rewrite (Rabs_left1 (s - 1)) by lra. set (y := 1 - s). replace (- (s - 1)) with y by (unfold y; ring). assert (Hy : 0 <= y <= 1 / 4) by (unfold y; lra).
    destruct (sq_between (1 - 3 / 2 * y) r (1 - y / 2)) as [Q1 Q2]; [lra|unfold y; lra|].
    assert (E1 : h <= 1 + 5 / 8 * y). { apply quot_le; [exact P|]. replace s with (1 - y) by (unfold y; ring). nra. }
    assert (E2 : 1 - 5 / 8 * y <= h). { apply le_quot; [exact P|]. replace s with (1 - y) by (unfold y; ring).
      assert ((1 - y / 2) ^ 2 * (1 - 5 / 8 * y) <= 1 - 11 / 8 * y); [|nra].
      replace ((1 - y / 2) ^ 2 * (1 - 5 / 8 * y)) with (1 - 13 / 8 * y + 7 / 8 * y ^ 2 - 5 / 32 * y ^ 3) by field. assert (0 <= y ^ 3) by (apply pow_le; lra). nra. }
    apply Rabs_le. lra.
  - specialize (B ltac:(lra)). rewrite (Rabs_pos_eq (s - 1)) by lra. set (y := s - 1). assert (Hy : 0 <= y <= 1 / 4) by (unfold y; lra).
    destruct (sq_between (1 + y / 2) r (1 + 3 / 2 * y)) as [Q1 Q2]; [lra|unfold y; lra|].
    assert (E1 : h <= 1 + 5 / 8 * y). { apply quot_le; [exact P|]. replace s with (1 + y) by (unfold y; ring). nra. }
    assert (E2 : 1 - 5 / 8 * y <= h). { apply le_quot; [exact P|]. replace s with (1 + y) by (unfold y; ring).
      assert ((1 + 3 / 2 * y) ^ 2 * (1 - 5 / 8 * y) <= 1 + 21 / 8 * y); [|nra].
      replace ((1 + 3 / 2 * y) ^ 2 * (1 - 5 / 8 * y)) with (1 + 19 / 8 * y + 3 / 8 * y ^ 2 - 45 / 32 * y ^ 3) by field. assert (0 <= y ^ 3) by (apply pow_le; lra). nra. }
    apply Rabs_le. lra.
Qed.
Lemma step_close : Rabs (s - 1) <= 1 / 310 -> Rabs (r ^ 2 - 1) <= 1 / 100.
Proof.
  intros C. destruct SW as (R0 & A & B). apply Rabs_le_between in C. destruct (Rle_dec s 1) as [D|D].
  - specialize (A D). destruct (sq_between (1 - 3 / 620) r 1) as [Q1 Q2]; [lra|lra|]. apply Rabs_le. lra.
  - specialize (B ltac:(lra)). destruct (sq_between 1 r (1 + 3 / 620)) as [Q1 Q2]; [lra|lra|]. apply Rabs_le. lra.
Qed.
End H.

(** ** Reaching the goal *)
Fixpoint hits (ok : R -> Prop) (next : R -> R) (n : nat) (x : R) : Prop := ok x \/ match n with O => False | S n => hits ok next n (next x) end.
Lemma hits_more ok next n m x : (n <= m)%nat -> hits ok next n x -> hits ok next m x.
Proof.
  revert m x. induction n as [|n IH]; intros m x L; cbn [hits].
  - intros [H|[]]. destruct m; simpl; auto.
  - intros [H|H]; destruct m as [|m]; try lia; [left; exact H|]. right. apply IH; [lia|exact H].
Qed.
Lemma hits_scale (ok ok' : R -> Prop) next next' c n x : (forall s, ok s -> ok' (s * c)) -> (forall s, next s * c = next' (s * c)) -> hits ok next n x -> hits ok' next' n (x * c).
Proof. intros A B. revert x. induction n as [|n IH]; intros x; cbn [hits]; intros [H|H]; try (left; now apply A). right. rewrite <- B. apply IH. exact H. Qed.

Section N.
Variable r : R -> R.
Hypothesis SW : forall s, 0 < s -> sandwich s (r s).
Notation next := (fun s => 2 * s / (1 + r s ^ 2)).
Notation ok := (fun s => Rabs (r s ^ 2 - 1) <= 1 / 100).
Lemma hits_contract n a b c k m : m = (n + k)%nat -> 0 <= c <= 1 -> a < 1 -> (forall s, 0 < s -> Rabs (s - 1) <= a -> Rabs (next s - 1) <= c * Rabs (s - 1)) ->
  (forall s, Rabs (s - 1) <= b -> hits ok next n s) -> forall d s, d <= a -> d * c ^ k <= b -> Rabs (s - 1) <= d -> hits ok next m s.
Proof.
  intros -> Hc Ha Cn Hn. induction k as [|k IH]; intros d s Hd Hb Hs; cbn [pow] in Hb.
  - rewrite Nat.add_0_r. apply Hn. lra.
  - rewrite Nat.add_succ_r. right. assert (P : 0 < s) by (apply Rabs_le_between in Hs; lra). pose proof (Cn s P ltac:(lra)) as Q.
    assert (D : 0 <= d) by (pose proof (Rabs_pos (s - 1)); lra).
    apply (IH (c * d)); [nra| |].
    + eapply Rle_trans; [|exact Hb]. right. ring.
    + eapply Rle_trans; [exact Q|]. apply Rmult_le_compat_l; [lra|exact Hs].
Qed.
Lemma hits_grow n u q k m : m = (n + k)%nat -> 0 < q -> (forall s, 0 < s -> s < u -> q * s <= next s) -> (forall s, u <= s <= 3 / 2 -> hits ok next n s) ->
  forall s, 0 < s <= 3 / 2 -> u <= s * q ^ k -> hits ok next m s.
Proof.
  intros -> Hq G Hn. induction k as [|k IH]; intros s Hs Hu; cbn [pow] in Hu.
  - rewrite Nat.add_0_r. apply Hn. lra.
  - destruct (Rle_dec u s) as [C|C]; [apply (hits_more _ _ n); [lia|]; apply Hn; lra|]. rewrite Nat.add_succ_r. right.
    apply IH; [split; [apply step_pos; lra|apply (step_cap s (r s)); try apply SW; lra]|].
    pose proof (G s ltac:(lra) ltac:(lra)) as Q. eapply Rle_trans; [exact Hu|]. replace (s * (q * q ^ k)) with (q * s * q ^ k) by ring. apply Rmult_le_compat_r; [left; apply pow_lt; exact Hq|exact Q].
Qed.
Lemma hits_now n s : ok s -> hits ok next n s. Proof. intros. destruct n; left; assumption. Qed.
Lemma hits_next n s : hits ok next n (next s) -> hits ok next (S n) s. Proof. intros. right; assumption. Qed.
Opaque hits.
Lemma hits_all s : / 65536 <= s <= 65536 -> hits ok next 46 s.
Proof.
  intros Hs.
  assert (H0 : forall s, Rabs (s - 1) <= 1 / 310 -> hits ok next 0 s).
  { intros x Hx. assert (0 < x) by (apply Rabs_le_between in Hx; lra). apply hits_now. apply (step_close x (r x)); try apply SW; assumption. }
  assert (H1 : forall s, Rabs (s - 1) <= 1 / 4 -> hits ok next 10 s).
  { intros x Hx. apply (hits_contract 0 (1 / 4) (1 / 310) (5 / 8) 10) with (d := 1 / 4); try reflexivity; try lra; [|exact H0].
    intros y Py Hy. apply (step_contract' y (r y)); try apply SW; assumption. }
  assert (H2 : forall s, Rabs (s - 1) <= 1 / 2 -> hits ok next 13 s).
  { intros x Hx. apply (hits_contract 10 (1 / 2) (1 / 4) (3 / 4) 3) with (d := 1 / 2); try reflexivity; try lra; [|exact H1].
    intros y Py Hy. apply (step_contract y (r y)); try apply SW; assumption. }
  assert (H3 : forall s, 1 / 8 <= s <= 3 / 2 -> hits ok next 20 s).
  { intros x Hx. apply (hits_grow 13 (1 / 2) (5 / 4) 7); try reflexivity; try lra.
    - intros y Py Hy. apply (step_half y (r y)); try apply SW; lra.
    - intros y Hy. apply H2. apply Rabs_le. lra. }
  assert (H4 : forall s, 6 / 10 / 65536 <= s <= 3 / 2 -> hits ok next 45 s).
  { intros x Hx. apply (hits_grow 20 (1 / 8) (3 / 2) 25); try reflexivity; try lra.
    - intros y Py Hy. apply (step_small y (r y)); try apply SW; lra.
    - exact H3. }
  destruct (Rle_dec s (3 / 2)) as [C|C]; [apply (hits_more _ _ 45); [lia|]; apply H4; lra|].
  apply hits_next. apply H4. split.
  - apply (step_large s (r s)); try apply SW; lra.
  - apply (step_cap s (r s)); try apply SW; lra.
Qed.
End N.
