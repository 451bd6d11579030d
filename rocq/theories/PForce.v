(** Proofs about the minimum force search (C61). *)
Require Import Verif.Py Verif.MTools Verif.MEnvelope Verif.MCriterion Verif.PSetup Verif.PEnvelope.

Section F.
Variable create : R -> res sk.
Variable dist : sk -> res (option R * option R).
Notation measure := (measure create dist).

Lemma measure_inv w s : measure w = Ok s ->
  create w = Ok (f_sk s) /\ dist (f_sk s) = Ok (f_max s, f_min s) /\ f_weight s = w.
Proof.
  unfold MCriterion.measure. destruct (create w) as [k|e]; [|discriminate]. cbn [bind].
  destruct (dist k) as [[a b]|e] eqn:D; [|discriminate]. cbn [bind]. intros H. apply Ok_inj in H. subst s. simpl. auto.
Qed.
Lemma force_loop_sound tol next n : forall s s' m, measure (f_weight s) = Ok s ->
  force_loop create dist tol next n s = Ok (s', m) ->
  measure (f_weight s') = Ok s' /\ (m <= n)%nat /\ (m <> 0%nat -> off tol (f_max s') = false).
Proof.
  induction n as [|n IH]; intros s s' m M; cbn [force_loop].
  - destruct (off tol (f_max s)) eqn:OF; intros H; apply Ok_inj in H; injection H as <- <-; (split; [exact M|split; [lia|intros; (congruence || assumption)]]).
  - destruct (off tol (f_max s)) eqn:OF.
    + match goal with |- bind ?x _ = _ -> _ => destruct x as [s1|e] eqn:M1; [|discriminate] end. cbn [bind]. intros H.
      assert (W : measure (f_weight s1) = Ok s1) by (destruct (measure_inv _ _ M1) as (_ & _ & ->); exact M1).
      destruct (IH s1 s' m W H) as (A & B & C). split; [exact A|]. split; [lia|exact C].
    + intros H; apply Ok_inj in H; injection H as <- <-. auto.
Qed.
Lemma off_false tol d : off tol d = false -> d = None \/ exists x, d = Some x /\ Rabs (x - 1) <= tol.
Proof.
  destruct d as [x|]; [|auto]. unfold off, Rltb. destruct (Rlt_dec tol (Rabs (x - 1))); [discriminate|]. intros _.
  right. exists x. split; [reflexivity|lra].
Qed.
(** Classification of a result, with tolerance [tol]. *)
Definition outcome_ok (tol : R) (r : mf) : Prop :=
  exists w, create w = Ok (f_sk r) /\ dist (f_sk r) = Ok (f_max r, f_min r) /\
    ((f_weight r = w /\ ((w = 1 /\ exists m, f_min r = Some m /\ 1 <= m) \/ f_max r = None \/ exists x, f_max r = Some x /\ Rabs (x - 1) <= tol))
     \/ f_weight r = 0).
Lemma oleb_one d : oleb (Some 1) d = true -> exists m, d = Some m /\ 1 <= m.
Proof. destruct d as [m|]; [|discriminate]. simpl. unfold Rleb. destruct (Rle_dec 1 m); [|discriminate]. eauto. Qed.
Lemma dampened_ok d : forall damp r, find_minimum_force_dampened create dist d damp = Ok r -> outcome_ok (1 / 100) r.
Proof.
  induction d as [|d IH]; intros damp r; cbn [find_minimum_force_dampened].
  - destruct (measure 1) as [s|e] eqn:M; [|discriminate]. cbn [bind].
    pose proof (measure_inv _ _ M) as (A & B & W).
    destruct (oleb (Some 1) (f_min s)) eqn:L.
    + intros H; apply Ok_inj in H; subst r. exists 1. split; [exact A|]. split; [exact B|]. left. split; [exact W|]. left. split; [reflexivity|apply oleb_one; exact L].
    + match goal with |- bind ?x _ = _ -> _ => destruct x as [[s' m]|e] eqn:F; [|discriminate] end. cbn [bind].
      assert (M' : measure (f_weight s) = Ok s) by (rewrite W; exact M).
      destruct (force_loop_sound _ _ _ _ _ _ M' F) as (M2 & _ & C). pose proof (measure_inv _ _ M2) as (A2 & B2 & _).
      destruct (Nat.eqb_spec m 0) as [E|E]; intros H; apply Ok_inj in H; subst r.
      * exists (f_weight s'). simpl. auto.
      * exists (f_weight s'). split; [exact A2|]. split; [exact B2|]. left. split; [reflexivity|]. right. exact (off_false _ _ (C E)).
  - destruct (measure 1) as [s|e] eqn:M; [|discriminate]. cbn [bind].
    pose proof (measure_inv _ _ M) as (A & B & W).
    destruct (oleb (Some 1) (f_min s)) eqn:L.
    + intros H; apply Ok_inj in H; subst r. exists 1. split; [exact A|]. split; [exact B|]. left. split; [exact W|]. left. split; [reflexivity|apply oleb_one; exact L].
    + match goal with |- bind ?x _ = _ -> _ => destruct x as [[s' m]|e] eqn:F; [|discriminate] end. cbn [bind].
      assert (M' : measure (f_weight s) = Ok s) by (rewrite W; exact M).
      destruct (force_loop_sound _ _ _ _ _ _ M' F) as (M2 & _ & C). pose proof (measure_inv _ _ M2) as (A2 & B2 & _).
      destruct (Nat.eqb_spec m 0) as [E|E].
      * intros H. exact (IH _ _ H).
      * intros H; apply Ok_inj in H; subst r. exists (f_weight s'). split; [exact A2|]. split; [exact B2|]. left. split; [reflexivity|]. right. exact (off_false _ _ (C E)).
Qed.
Lemma force_ok r : find_minimum_force_with create dist = Ok r -> outcome_ok (1 / 100) r.
Proof.
  unfold find_minimum_force_with. destruct (measure 1) as [s|e] eqn:M; [|discriminate]. cbn [bind].
  pose proof (measure_inv _ _ M) as (A & B & W).
  destruct (oleb (Some 1) (f_min s)) eqn:L.
  - intros H; apply Ok_inj in H; subst r. exists 1. split; [exact A|]. split; [exact B|]. left. split; [exact W|]. left. split; [reflexivity|apply oleb_one; exact L].
  - match goal with |- bind ?x _ = _ -> _ => destruct x as [[s' m]|e] eqn:F; [|discriminate] end. cbn [bind].
    assert (M' : measure (f_weight s) = Ok s) by (rewrite W; exact M).
    destruct (force_loop_sound _ _ _ _ _ _ M' F) as (M2 & _ & C). pose proof (measure_inv _ _ M2) as (A2 & B2 & _).
    destruct (Nat.eqb_spec m 0) as [E|E].
    + exact (dampened_ok _ _ _).
    + intros H; apply Ok_inj in H; subst r. exists (f_weight s'). split; [exact A2|]. split; [exact B2|]. left. split; [reflexivity|]. right.
      destruct (off_false _ _ (C E)) as [?|(x & X1 & X2)]; [auto|]. right. exists x. split; [exact X1|lra].
Qed.

(** If every evaluation succeeds the search returns (totality). *)
Lemma force_loop_total tol next n : (forall w, exists s, measure w = Ok s) -> forall s, exists r, force_loop create dist tol next n s = Ok r.
Proof.
  intros T. induction n as [|n IH]; intros s; cbn [force_loop]; destruct (off tol (f_max s)); try (eexists; reflexivity).
  destruct (T (next (f_weight s) (oval (f_max s)))) as [s1 ->]. cbn [bind]. apply IH.
Qed.
Lemma dampened_total d : (forall w, exists s, measure w = Ok s) -> forall damp, exists r, find_minimum_force_dampened create dist d damp = Ok r.
Proof.
  intros T. induction d as [|d IH]; intros damp; cbn [find_minimum_force_dampened]; destruct (T 1) as [s ->]; cbn [bind];
  (destruct (oleb (Some 1) (f_min s)); [eexists; reflexivity|]);
  match goal with |- context [force_loop create dist ?t ?x ?n ?s0] => destruct (force_loop_total t x n T s0) as [[s' m] ->] end; cbn [bind];
  destruct (Nat.eqb m 0); try (eexists; reflexivity). apply IH.
Qed.
Lemma force_total : (forall w, exists s, measure w = Ok s) -> exists r, find_minimum_force_with create dist = Ok r.
Proof.
  intros T. unfold find_minimum_force_with. destruct (T 1) as [s ->]. cbn [bind]. destruct (oleb (Some 1) (f_min s)); [eexists; reflexivity|].
  match goal with |- context [force_loop create dist ?t ?x ?n ?s0] => destruct (force_loop_total t x n T s0) as [[s' m] ->] end. cbn [bind].
  destruct (Nat.eqb m 0); [apply dampened_total; exact T|eexists; reflexivity].
Qed.

(** Affine response. *)
Section A.
Variable a b : R.
Hypothesis Ha : 0 <= a < 1.
Hypothesis Hb : 0 < b.
Hypothesis Hr : forall w, 0 < w -> exists k m, create w = Ok k /\ dist k = Ok (Some (a + b * w), Some m) /\ m < 1.
Let us := b / (1 - a).
Lemma us_pos : 0 < us. Proof. unfold us. apply Rdiv_lt_0_compat; lra. Qed.
(** Reciprocal weight after [n] steps. *)
Definition un (n : nat) : R := us + a ^ n * (1 - us).
Lemma pow_le1 n : 0 <= a ^ n <= 1.
Proof. induction n as [|n IH]; simpl; [lra|]. split; [apply Rmult_le_pos; lra|]. apply Rle_trans with (1 * a ^ n); [apply Rmult_le_compat_r; lra|lra]. Qed.
Lemma un_min n : Rmin 1 us <= un n.
Proof.
  unfold un. pose proof (pow_le1 n) as [P Q]. pose proof us_pos as U. set (p := a ^ n) in *.
  unfold Rmin. destruct (Rle_dec 1 us); nra.
Qed.
Lemma un_pos n : 0 < un n.
Proof. apply Rlt_le_trans with (Rmin 1 us); [|apply un_min]. pose proof us_pos. unfold Rmin. destruct (Rle_dec 1 us); lra. Qed.
Lemma un_step n : / un (S n) = / un n / (a + b * / un n).
Proof.
  pose proof (un_pos n). pose proof (un_pos (S n)).
  assert (E : un (S n) = a * un n + b).
  { unfold un. simpl. assert (us * (1 - a) = b) by (unfold us; field; lra). nra. }
  assert (D : a + b * / un n = un (S n) / un n) by (rewrite E; field; lra).
  rewrite D. field. lra.
Qed.
Lemma un_err K n : us <= K -> / us <= K -> Rabs (a + b * / un n - 1) <= (1 - a) * a ^ n * (K - 1).
Proof.
  intros K1 K2. pose proof (un_pos n) as U. pose proof us_pos as V. pose proof (pow_le1 n) as P. pose proof (un_min n) as M.
  assert (E : a + b * / un n - 1 = (1 - a) * a ^ n * ((us - 1) / un n)).
  { assert (B : b = us * (1 - a)) by (unfold us; field; lra). rewrite B.
    transitivity ((1 - a) * ((us - un n) / un n)); [field; lra|].
    unfold un at 1. field. lra. }
  rewrite E, Rabs_mult, (Rabs_right ((1 - a) * a ^ n)) by (apply Rle_ge, Rmult_le_pos; lra).
  apply Rmult_le_compat_l; [apply Rmult_le_pos; lra|].
  unfold Rmin in M. destruct (Rle_dec 1 us) as [L|L].
  - rewrite Rabs_right; [|apply Rle_ge; apply Rmult_le_pos; [lra|left; apply Rinv_0_lt_compat; exact U]].
    apply Rmult_le_reg_r with (un n); [exact U|]. unfold Rdiv. rewrite Rmult_assoc, Rinv_l by lra. nra.
  - assert (L' : us < 1) by lra. rewrite Rabs_left1.
    + replace (- ((us - 1) / un n)) with ((1 - us) * / un n) by (field; lra).
      apply Rle_trans with ((1 - us) * / us).
      * apply Rmult_le_compat_l; [lra|]. apply Rinv_le_contravar; lra.
      * replace ((1 - us) * / us) with (/ us - 1) by (field; lra). lra.
    + replace ((us - 1) / un n) with (- ((1 - us) * / un n)) by (field; lra).
      assert (0 <= (1 - us) * / un n); [|lra]. apply Rmult_le_pos; [lra|]. left; apply Rinv_0_lt_compat; exact U.
Qed.
Lemma measure_affine w : 0 < w -> exists s, measure w = Ok s /\ f_weight s = w /\ f_max s = Some (a + b * w) /\ exists m, f_min s = Some m /\ m < 1.
Proof.
  intros W. destruct (Hr w W) as (k & m & C & D & M). unfold MCriterion.measure. rewrite C. cbn [bind]. rewrite D. cbn [bind].
  eexists. split; [reflexivity|]. simpl. eauto.
Qed.
Lemma loop_affine tol fuel : forall j s, f_weight s = / un j -> f_max s = Some (a + b * / un j) ->
  (exists m, (j <= m < j + fuel)%nat /\ Rabs (a + b * / un m - 1) <= tol) ->
  exists s' rest m, force_loop create dist tol (fun w x => w / x) fuel s = Ok (s', rest) /\ rest <> 0%nat /\
    f_weight s' = / un m /\ f_max s' = Some (a + b * / un m).
Proof.
  induction fuel as [|fuel IH]; intros j s Ws Ms (m & Mr & Mt); [lia|]. cbn [force_loop].
  destruct (off tol (f_max s)) eqn:OF.
  - destruct (Nat.eq_dec j m) as [E|E].
    { exfalso. subst m. rewrite Ms in OF. unfold off in OF. rewrite Rltb_false in OF by lra. discriminate. }
    rewrite Ws, Ms. cbn [oval]. rewrite <- un_step. pose proof (un_pos (S j)) as U.
    destruct (measure_affine (/ un (S j)) ltac:(apply Rinv_0_lt_compat; exact U)) as (s1 & M1 & M2 & M3 & _). rewrite M1. cbn [bind].
    apply (IH (S j) s1 M2 M3). exists m. split; [lia|exact Mt].
  - exists s, (S fuel), j. split; [reflexivity|]. split; [lia|]. auto.
Qed.
Lemma force_affine K n : us <= K -> / us <= K -> (n < 50)%nat -> (1 - a) * a ^ n * (K - 1) <= 5 / 1000 ->
  exists r x, find_minimum_force_with create dist = Ok r /\ 0 < f_weight r /\ f_max r = Some x /\ x = a + b * f_weight r /\
    Rabs (x - 1) <= 5 / 1000.
Proof.
  intros K1 K2 N B. unfold find_minimum_force_with.
  destruct (measure_affine 1 ltac:(lra)) as (s & M1 & M2 & M3 & m & M4 & M5). rewrite M1. cbn [bind]. rewrite M4.
  cbn [oleb]. rewrite Rleb_false by lra.
  assert (U0 : / un 0 = 1) by (unfold un; simpl; replace (us + 1 * (1 - us)) with 1 by ring; apply Rinv_1).
  destruct (loop_affine (5 / 1000) 50 0 s) as (s' & rest & j & F & Rst & Ws & Ms).
  - rewrite U0. exact M2.
  - rewrite U0. exact M3.
  - exists n. split; [lia|]. apply Rle_trans with ((1 - a) * a ^ n * (K - 1)); [apply un_err; assumption|exact B].
  - rewrite F. cbn [bind]. apply Nat.eqb_neq in Rst as Re. rewrite Re.
    exists s', (a + b * / un j). split; [reflexivity|]. split; [rewrite Ws; apply Rinv_0_lt_compat, un_pos|]. split; [exact Ms|]. split; [rewrite Ws; reflexivity|].
    assert (M' : measure (f_weight s) = Ok s) by (rewrite M2; exact M1).
    destruct (force_loop_sound _ _ _ _ _ _ M' F) as (_ & _ & C). specialize (C Rst). apply off_false in C.
    rewrite Ms in C. destruct C as [C|(x & X & Y)]; [discriminate|]. injection X as <-. exact Y.
Qed.
End A.
End F.
