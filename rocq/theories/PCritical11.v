(** The minimum force search gives up for strong weak layers (C122). *)
From Coquelicot Require Import Coquelicot.
Require Import Verif.Py Verif.MTools Verif.MEnvelope Verif.MCriterion Verif.PSetup Verif.PEnvelope Verif.PForce Verif.PCritical8.
Open Scope R_scope.

Section F.
Variable create : R -> res sk.
Variable dist : R -> sk -> res (option R * option R).
Variable q : R -> R.
Variables al be ga : R.
Hypothesis Hal : 0 < al.
Hypothesis Hbe : 0 < be.
Hypothesis Hga : 0 < ga.
Hypothesis Q1 : forall w, 0 <= w -> ga <= q w /\ al * w ^ 2 <= q w /\ q w <= be * (1 + w) ^ 2.
Hypothesis T : forall K w, 0 < K -> exists s m, measure create (dist K) w = Ok s /\ f_max s = Some (q w / K ^ 2) /\ f_min s = Some m /\ m <= q w / K ^ 2.
Lemma measured_at K w s : 0 < K -> measure create (dist K) w = Ok s -> f_weight s = w /\ f_max s = Some (q w / K ^ 2) /\ exists m, f_min s = Some m /\ m <= q w / K ^ 2.
Proof. intros HK M. destruct (T K w HK) as (s' & m & M' & A & B & C). rewrite M in M'. apply Ok_inj in M'. subst s'. split; [apply (measure_inv _ _ _ _ M)|]. eauto. Qed.
Lemma square_large c : exists K0, 1 <= K0 /\ forall K, K0 <= K -> c < K ^ 2.
Proof. exists (1 + Rabs c). pose proof (Rabs_pos c). pose proof (Rle_abs c). split; [lra|]. intros K H1. nra. Qed.
Lemma off_low K w b : 0 < K -> 0 <= w <= b -> 2 * (be * (1 + b) ^ 2) < K ^ 2 -> q w / K ^ 2 < 1 / 2.
Proof.
  intros HK Hw L. destruct (Q1 w ltac:(lra)) as (_ & _ & U). assert (be * (1 + w) ^ 2 <= be * (1 + b) ^ 2) by (apply Rmult_le_compat_l; [lra|apply pow_incr; lra]).
  apply (Rmult_lt_reg_r (K ^ 2)); [apply pow_lt; exact HK|]. unfold Rdiv. rewrite Rmult_assoc, Rinv_l by (apply pow_nonzero; lra). lra.
Qed.
Lemma off_true tol x : tol < Rabs (x - 1) -> off tol (Some x) = true.
Proof. intros H. unfold off, Rltb. destruct (Rlt_dec _ _); [reflexivity|contradiction]. Qed.
Lemma off_half tol x : tol < 1 / 2 -> x < 1 / 2 -> off tol (Some x) = true.
Proof. intros A B. apply off_true. rewrite Rabs_left1; lra. Qed.

(** ** The dampened loops are too slow *)
Lemma damped_fails n : forall b, 0 <= b -> exists K0, 1 <= K0 /\ forall K d s, K0 <= K -> 1 <= d -> measure create (dist K) (f_weight s) = Ok s -> 0 <= f_weight s <= b ->
  exists s', force_loop create (dist K) (1 / 100) (fun w x => (d + 1) * w / (d + x)) n s = Ok (s', 0%nat).
Proof.
  induction n as [|n IH]; intros b Hb.
  - exists 1. split; [lra|]. intros K d s _ _ _ _. cbn [force_loop]. destruct (off _ (f_max s)); eauto.
  - destruct (IH (2 * b) ltac:(lra)) as (K1 & P1 & H1). destruct (square_large (2 * (be * (1 + b) ^ 2))) as (K2 & P2 & H2).
    exists (Rmax K1 K2). split; [eapply Rle_trans; [exact P1|apply Rmax_l]|]. intros K d s HK Hd M Hw.
    pose proof (Rmax_l K1 K2). pose proof (Rmax_r K1 K2). assert (KP : 0 < K) by lra.
    destruct (measured_at K _ s KP M) as (_ & F & _). pose proof (off_low K (f_weight s) b KP Hw (H2 K ltac:(lra))) as O.
    cbn [force_loop]. rewrite F, off_half by lra. cbn [oval]. set (x := q (f_weight s) / K ^ 2) in *.
    assert (X : 0 <= x). { unfold x. destruct (Q1 (f_weight s) ltac:(lra)) as (G & _). apply Rmult_le_pos; [lra|left; apply Rinv_0_lt_compat; apply pow_lt; exact KP]. }
    destruct (T K ((d + 1) * f_weight s / (d + x)) KP) as (s1 & m1 & M1 & _). rewrite M1. cbn [bind]. destruct (measured_at K _ s1 KP M1) as (W1 & _).
    apply H1; [lra|exact Hd|rewrite W1; exact M1|]. rewrite W1. split.
    + apply Rmult_le_pos; [nra|left; apply Rinv_0_lt_compat; lra].
    + apply quot_le; [lra|]. nra.
Qed.
Lemma dampened_gives_up : exists K0, 1 <= K0 /\ forall m K d, K0 <= K -> 1 <= d -> exists r, find_minimum_force_dampened create (dist K) m d = Ok r /\ f_weight r = 0.
Proof.
  destruct (damped_fails 50 1 ltac:(lra)) as (K1 & P1 & H1). destruct (square_large (2 * (be * (1 + 1) ^ 2))) as (K2 & P2 & H2).
  exists (Rmax K1 K2). split; [eapply Rle_trans; [exact P1|apply Rmax_l]|]. pose proof (Rmax_l K1 K2). pose proof (Rmax_r K1 K2).
  induction m as [|m IH]; intros K d HK Hd; assert (KP : 0 < K) by lra; cbn [find_minimum_force_dampened]; destruct (T K 1 KP) as (s & m1 & M & F & G & L); rewrite M; cbn [bind];
    destruct (measured_at K _ s KP M) as (W & _); pose proof (off_low K 1 1 KP ltac:(lra) (H2 K ltac:(lra))) as O;
    rewrite G; cbn [oleb]; unfold Rleb; (destruct (Rle_dec 1 m1); [lra|]);
    (destruct (H1 K d s ltac:(lra) Hd ltac:(rewrite W; exact M) ltac:(rewrite W; lra)) as (s' & E)); rewrite E; cbn [bind Nat.eqb].
  - eexists. split; [reflexivity|reflexivity].
  - apply IH; lra.
Qed.

(** ** The undampened loop oscillates *)
Lemma undamped_fails n : forall a b, 0 < a <= b -> exists K0, 1 <= K0 /\ forall K s, K0 <= K -> measure create (dist K) (f_weight s) = Ok s -> a <= f_weight s <= b ->
  exists s', force_loop create (dist K) (5 / 1000) (fun w x => w / x) (2 * n) s = Ok (s', 0%nat).
Proof.
  induction n as [|n IH]; intros a b Hab.
  - exists 1. split; [lra|]. intros K s _ _ _. change (2 * 0)%nat with 0%nat. cbn [force_loop]. destruct (off _ (f_max s)); eauto.
  - set (B := be * (1 + b) ^ 2). assert (PB : 0 < B) by (unfold B; apply Rmult_lt_0_compat; [exact Hbe|apply pow_lt; lra]).
    set (a' := ga / (4 * be * b)). set (b' := B / (al * a)).
    assert (Pa' : 0 < a') by (unfold a'; apply Rdiv_lt_0_compat; [exact Hga|apply Rmult_lt_0_compat; lra]).
    assert (Pb' : 0 < b') by (unfold b'; apply Rdiv_lt_0_compat; [exact PB|apply Rmult_lt_0_compat; lra]).
    destruct (IH a' (Rmax a' b') (conj Pa' (Rmax_l _ _))) as (K1 & P1 & H1).
    destruct (square_large (2 * B)) as (K2 & P2 & H2). destruct (square_large (B / a)) as (K3 & P3 & H3). destruct (square_large (2 * B ^ 2 / (al * a ^ 2))) as (K4 & P4 & H4).
    exists (Rmax (Rmax K1 K2) (Rmax K3 K4)). split; [eapply Rle_trans; [exact P1|]; eapply Rle_trans; [apply Rmax_l|apply Rmax_l]|]. intros K s HK M Hw.
    pose proof (Rmax_l (Rmax K1 K2) (Rmax K3 K4)). pose proof (Rmax_r (Rmax K1 K2) (Rmax K3 K4)). pose proof (Rmax_l K1 K2). pose proof (Rmax_r K1 K2). pose proof (Rmax_l K3 K4). pose proof (Rmax_r K3 K4). assert (KP : 0 < K) by lra.
    specialize (H2 K ltac:(lra)). specialize (H3 K ltac:(lra)). specialize (H4 K ltac:(lra)). assert (K2P : 0 < K ^ 2) by (apply pow_lt; exact KP). set (k := K ^ 2) in *.
    destruct (measured_at K _ s KP M) as (_ & F & _). set (w := f_weight s) in *. fold k in F.
    pose proof (off_low K w b KP ltac:(lra) H2) as O. fold k in O. destruct (Q1 w ltac:(lra)) as (G1 & _ & G3).
    assert (G4 : q w <= B) by (unfold B; eapply Rle_trans; [exact G3|]; apply Rmult_le_compat_l; [lra|apply pow_incr; lra]).
    replace (2 * S n)%nat with (S (S (2 * n))) by lia. cbn [force_loop]. rewrite F, off_half by lra. cbn [oval]. fold w.
    set (w1 := w / (q w / k)). assert (Ew1 : w1 = w * k / q w) by (unfold w1; field; lra).
    assert (L1 : a * k / B <= w1).
    { rewrite Ew1. apply (Rmult_le_reg_r (B * q w)); [nra|]. replace (a * k / B * (B * q w)) with (a * k * q w) by (field; lra). replace (w * k / q w * (B * q w)) with (w * k * B) by (field; lra).
      assert (a * q w <= w * B) by nra. nra. }
    assert (U1 : w1 <= b * k / ga).
    { rewrite Ew1. apply (Rmult_le_reg_r (ga * q w)); [nra|]. replace (w * k / q w * (ga * q w)) with (w * k * ga) by (field; lra). replace (b * k / ga * (ga * q w)) with (b * k * q w) by (field; lra).
      assert (w * ga <= b * q w) by nra. nra. }
    assert (One : 1 <= w1). { eapply Rle_trans; [|exact L1]. apply le_quot; [exact PB|]. rewrite Rmult_1_l. apply (Rmult_lt_compat_r a) in H3; [|lra]. unfold Rdiv in H3. rewrite Rmult_assoc, Rinv_l in H3 by lra. lra. }
    destruct (T K w1 KP) as (s1 & m1 & M1 & _). rewrite M1. cbn [bind]. destruct (measured_at K _ s1 KP M1) as (W1 & F1 & _). fold k in F1.
    destruct (Q1 w1 ltac:(lra)) as (D1 & D2 & D3).
    assert (Big : 2 < q w1 / k).
    { assert (A2 : al * (a * k / B) ^ 2 <= q w1). { eapply Rle_trans; [|exact D2]. apply Rmult_le_compat_l; [lra|]. apply pow_incr. split; [|exact L1]. apply Rmult_le_pos; [nra|left; apply Rinv_0_lt_compat; exact PB]. }
      apply (Rmult_lt_reg_r k); [exact K2P|]. unfold Rdiv at 1. rewrite Rmult_assoc, Rinv_l by lra. rewrite Rmult_1_r. eapply Rlt_le_trans; [|exact A2].
      assert (P : 0 < al * a ^ 2) by (apply Rmult_lt_0_compat; [exact Hal|apply pow_lt; lra]).
      apply (Rmult_lt_compat_r (al * a ^ 2)) in H4; [|exact P]. unfold Rdiv in H4. rewrite Rmult_assoc, Rinv_l in H4 by lra. rewrite Rmult_1_r in H4.
      apply (Rmult_lt_reg_r (B ^ 2)); [apply pow_lt; exact PB|]. replace (al * (a * k / B) ^ 2 * B ^ 2) with (k * (k * (al * a ^ 2))) by (field; lra). nra. }
    rewrite F1, off_true by (rewrite Rabs_pos_eq; lra). cbn [oval]. rewrite W1.
    set (w2 := w1 / (q w1 / k)). assert (Ew2 : w2 = w1 * k / q w1) by (unfold w2; field; lra).
    destruct (T K w2 KP) as (s2 & m2 & M2 & _). rewrite M2. cbn [bind]. destruct (measured_at K _ s2 KP M2) as (W2 & _).
    apply H1; [lra|rewrite W2; exact M2|]. rewrite W2, Ew2. split.
    + apply le_quot; [lra|]. unfold a'. apply Rle_trans with (ga / (4 * be * b) * (be * (2 * w1) ^ 2)).
      * apply Rmult_le_compat_l; [left; exact Pa'|]. eapply Rle_trans; [exact D3|]. apply Rmult_le_compat_l; [lra|]. apply pow_incr. lra.
      * replace (ga / (4 * be * b) * (be * (2 * w1) ^ 2)) with (w1 * (ga * w1 / b)) by (field; lra). apply Rmult_le_compat_l; [lra|]. apply quot_le; [lra|].
        apply (Rmult_le_compat_l ga) in U1; [|lra]. replace (ga * (b * k / ga)) with (k * b) in U1 by (field; lra). exact U1.
    + eapply Rle_trans; [|apply Rmax_r]. apply quot_le; [lra|]. apply Rle_trans with (b' * (al * w1 ^ 2)); [|apply Rmult_le_compat_l; [left; exact Pb'|exact D2]].
      unfold b'. replace (B / (al * a) * (al * w1 ^ 2)) with (w1 * (B * w1 / a)) by (field; lra). apply Rmult_le_compat_l; [lra|]. apply le_quot; [lra|].
      apply (Rmult_le_compat_l B) in L1; [|lra]. replace (B * (a * k / B)) with (k * a) in L1 by (field; lra). exact L1.
Qed.
Lemma search_gives_up : exists K0, 1 <= K0 /\ forall K, K0 <= K -> exists r, find_minimum_force_with create (dist K) = Ok r /\ f_weight r = 0.
Proof.
  destruct dampened_gives_up as (K1 & P1 & H1). destruct (undamped_fails 25 1 1 ltac:(lra)) as (K2 & P2 & H2). destruct (square_large (2 * (be * (1 + 1) ^ 2))) as (K3 & P3 & H3).
  exists (Rmax K1 (Rmax K2 K3)). split; [eapply Rle_trans; [exact P1|apply Rmax_l]|]. intros K HK. pose proof (Rmax_l K1 (Rmax K2 K3)). pose proof (Rmax_r K1 (Rmax K2 K3)). pose proof (Rmax_l K2 K3). pose proof (Rmax_r K2 K3). assert (KP : 0 < K) by lra.
  unfold find_minimum_force_with. destruct (T K 1 KP) as (s & m & M & F & G & L). rewrite M. cbn [bind]. destruct (measured_at K _ s KP M) as (W & _). pose proof (off_low K 1 1 KP ltac:(lra) (H3 K ltac:(lra))) as O.
  rewrite G. cbn [oleb]. unfold Rleb. destruct (Rle_dec 1 m); [lra|].
  destruct (H2 K s ltac:(lra) ltac:(rewrite W; exact M) ltac:(rewrite W; lra)) as (s' & E). change (2 * 25)%nat with 50%nat in E. rewrite E. cbn [bind Nat.eqb]. apply H1; lra.
Qed.
End F.
