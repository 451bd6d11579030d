(** C62: first weights of the damped coupled criterion, for all response functions. *)
Require Import Verif.Py Verif.MTools Verif.MEigen Verif.MEnvelope Verif.MCriterion Verif.PSetup Verif.PEnvelope Verif.PCoupled Verif.PropCoupled.
Open Scope R_scope.

(** The search starts half a percent above the weight that meets the stress criterion; if that releases too little energy, the
    second weight exceeds 3.5 times the critical one. *)
Theorem C62_dampened_weights create dist energy newlen minforce thick damping fuel c : 0 <= damping ->
  coupled_dampened create dist energy newlen minforce thick damping fuel = Ok (Some c) ->
  ((1 <= c_iter c)%nat -> nth 0 (c_weights c) 0 = 1005 / 1000 * c_crit c) /\ ((2 <= c_iter c)%nat -> 7 / 2 * c_crit c < nth 1 (c_weights c) 0).
Proof.
  intros Hd. unfold coupled_dampened. destruct (minforce _ _) as [m|e] eqn:Em; [|discriminate]. cbn [bind].
  destruct (ogt (f_min m) 1) eqn:E1.
  - unfold self_collapse. destruct (evaluate _ _ _ _ _) as [[[u k] g]|e]; [|discriminate]. cbn [bind]. intros H. apply Ok_inj in H. injection H as <-. cbn [c_iter]. split; lia.
  - destruct (oleb (f_min m) (Some 1) && Rleb 1 (f_weight m))%bool eqn:E2.
    2:{ intros H. apply Ok_inj in H. injection H as <-. cbn [c_iter]. split; lia. }
    apply andb_prop in E2 as [E2 E3].
    assert (W : 1 <= f_weight m) by (unfold Rleb in E3; destruct (Rle_dec 1 (f_weight m)); [assumption|discriminate]).
    destruct (raise_weight _ _ _ _ _ _) as [[hi|]|e] eqn:Eh; cbn [bind]; [|intros H; apply Ok_inj in H; discriminate|discriminate].
    destruct (raise_sound _ _ _ _ _ _ _ Eh) as (r & Er & _). assert (Hh : 6 * f_weight m <= hi).
    { rewrite Er. pose proof (pow_R1_Rle 2 r ltac:(lra)) as P. simpl. nra. }
    set (w1 := f_weight m * (1005 / 1000)) in *.
    set (P := fun s : cstate => (l_n s = 0%nat /\ l_ws s = [] /\ l_w s = w1 /\ l_max s = hi) \/
      (l_n s = 1%nat /\ l_ws s = [w1] /\ (continue 50 s = true -> 7 / 2 * f_weight m < l_w s)) \/
      ((2 <= l_n s)%nat /\ exists w2 ws, l_ws s = w1 :: w2 :: ws /\ 7 / 2 * f_weight m < w2)).
    assert (St : forall s s', P s -> continue 50 s = true -> iteration create dist energy newlen true (fun g _ => ogt g 1) (damped_weight damping) (f_weight m) s = Ok (inr s') -> P s').
    { intros s s' Ps C Hs. destruct (iteration_inv _ _ _ _ _ _ _ _ _ _ Hs) as (k & g & _ & N & _ & G & Er' & Ea & Ws & _ & _ & Mi & Ma & T). unfold P. rewrite N, Ws.
      destruct Ps as [(P1 & P2 & P3 & P4)|[(P1 & P2 & P3)|(P1 & w2 & ws & P2 & P3)]].
      - right; left. split; [lia|]. split; [rewrite P2, P3; reflexivity|]. intros C'.
        assert (Tf : too_far g = true).
        { unfold continue in C'. apply andb_prop in C' as [C' _]. apply andb_prop in C' as [C' _]. rewrite Er', ogt_abs in C'. exact C'. }
        rewrite Tf in T. destruct T as [-> _]. specialize (Ea P1). destruct g as [g|]; [|discriminate Tf].
        assert (G1 : g < 1).
        { unfold ogt, oltb, Rltb in Ea. destruct (Rlt_dec 1 g) as [|X]; [discriminate|]. destruct (Req_dec g 1) as [->|]; [|lra].
          exfalso. unfold too_far, ogt, oltb, Rltb in Tf. cbn [option_map] in Tf. replace (1 - 1) with 0 in Tf by ring. rewrite Rabs_R0 in Tf.
          destruct (Rlt_dec (2 / 1000) 0); [lra|discriminate]. }
        assert (O : oltb (Some g) (Some 1) = true) by (unfold oltb; apply Rltb_true; exact G1). rewrite O in Mi, Ma. rewrite Mi, Ma, P3, P4.
        set (new := (w1 + hi) / 2). assert (Nw : 7 / 2 * f_weight m < new) by (unfold new, w1; lra).
        assert (W1 : 0 < w1) by (unfold w1; lra).
        unfold damped_weight.
        assert (Q : 1 <= new / w1) by (apply (Rmult_le_reg_r w1); [exact W1|]; unfold Rdiv; rewrite Rmult_assoc, Rinv_l by lra; unfold new, w1 in *; lra).
        assert (F : 1 <= (damping + 1 + new / w1) / (damping + 1 + 1)).
        { apply (Rmult_le_reg_r (damping + 1 + 1)); [lra|]. unfold Rdiv at 1. rewrite Rmult_assoc, Rinv_l by lra. lra. }
        apply (Rlt_le_trans _ new); [exact Nw|]. rewrite <- (Rmult_1_l new) at 1. apply Rmult_le_compat_r; [lra|].
        match goal with |- context [if ?b then _ else _] => destruct b end; [exact F|lra].
      - right; right. split; [lia|]. exists (l_w s), []. rewrite P2. split; [reflexivity|exact (P3 C)].
      - right; right. split; [lia|]. exists w2, (ws ++ [l_w s]). rewrite P2. split; [reflexivity|exact P3]. }
    assert (P0 : P (start (100 * thick) w1 (f_weight m) hi m)) by (left; repeat split).
    match goal with |- context [iterate 50 ?st 51 ?s0] => destruct (iterate 50 st 51 s0) as [[k|s]|e] eqn:ER; cbn [bind] end; [| |discriminate].
    + intros H. apply Ok_inj in H. injection H as <-.
      destruct (iterate_inv P 50 _ St 51 _ _ P0 ER) as (s0 & Ps & _ & Hs).
      destruct (iteration_inv _ _ _ _ _ _ _ _ _ _ Hs) as (k' & g & _ & N & _ & _ & _ & _ & _ & _ & _ & I). split; [|lia]. intros _.
      destruct Ps as [(P1 & P2 & P3 & _)|[(P1 & _)|(P1 & _)]]; [|lia|lia].
      unfold iteration in Hs. destruct (create _ _ _ false) as [u|]; [|discriminate]. cbn [bind] in Hs. destruct (dist u) as [dd|]; [|discriminate]. cbn [bind] in Hs.
      destruct (create _ _ _ true) as [v|]; [|discriminate]. cbn [bind] in Hs. destruct (energy _ _ _) as [gg|]; [|discriminate]. cbn [bind] in Hs.
      destruct (_ && _)%bool.
      * apply Ok_inj in Hs. injection Hs as <-. cbn [c_weights c_crit]. rewrite P2, P3. unfold w1. cbn. lra.
      * destruct (ogt _ _) in Hs; [|discriminate Hs]. destruct (newlen _ _ _) as [[[? ?] ?]|] in Hs; discriminate Hs.
    + destruct (iterate_inv P 50 _ St 51 _ _ P0 ER) as [Ps _].
      unfold finish. destruct (l_c s) as [c0|] eqn:Lc; [|discriminate]. cbn [bind]. intros H. apply Ok_inj in H. injection H as <-. cbn [c_iter c_weights c_crit].
      destruct Ps as [(P1 & _)|[(P1 & P2 & _)|(P1 & w2 & ws & P2 & P3)]].
      * split; lia.
      * split; [|lia]. intros _. rewrite P2. unfold w1. cbn. lra.
      * rewrite P2. cbn [nth]. split; intros _; [unfold w1; lra|exact P3].
Qed.
Print Assumptions C62_dampened_weights.

(** Energy proportional to the weight, critical at 140.1 kg: found by the second iteration. *)
Example C62_dampened_example : exists c, coupled_dampened exc_create exc_dist (exc_force (fun w => w / (1401 / 10))) exc_keep exc_min (1 / 2) 1 1 = Ok (Some c) /\
  c_ok c = true /\ c_self c = false /\ c_crit c = 40 /\ c_iter c = 2%nat.
Proof.
  unfold coupled_dampened, exc_min. cbn [bind f_min f_weight]. cmp. cbn [andb].
  assert (Ra : forall li ki, raise_weight exc_create (exc_force (fun w => w / (1401 / 10))) 1 (3 * 40) li ki = Ok (Some (3 * 40 * 2))).
  { intros li ki. cbn [raise_weight]. unfold evaluate, exc_create, exc_force. cbn [bind k_mi hd snd]. cmp. reflexivity. }
  rewrite Ra. cbn [bind]. rewrite exc_iterate.
  2:{ unfold continue, start. cbn. rewrite Rabs_right by lra. cmp. reflexivity. }
  set (s0 := start _ _ _ _ _).
  match goal with |- context [iteration _ _ _ _ ?d ?e ?u ?c s0] =>
    destruct (exc_low (fun w => w / (1401 / 10)) exc_keep d e u c s0 (402 / 1401) (1, l_li s0, l_ki s0)) as (k & ws & lens & gs & d1 & d2 & E) end.
  - unfold s0. simpl. field.
  - lra.
  - cmp. reflexivity.
  - reflexivity.
  - rewrite E. cbn [bind fst snd]. clear E. rewrite exc_iterate.
    2:{ unfold continue. cbn. rewrite Rabs_right by lra. cmp. reflexivity. }
    set (s1 := mkCs _ _ _ _ _ _ _ _ _ _ _ _ _ _ _ _ _).
    assert (W : l_w s1 = 1401 / 10).
    { unfold s1, s0. cbn. unfold damped_weight. cbn. rewrite Rabs_right by lra. cmp. field. }
    match goal with |- context [iteration _ _ _ _ ?d ?e ?u ?c s1] =>
      destruct (exc_hit (fun w => w / (1401 / 10)) exc_keep d e u c s1) as (k2 & ws2 & lens2 & gs2 & d3 & d4 & lo & hi & E) end.
    + rewrite W. field.
    + discriminate.
    + rewrite E. cbn [bind]. clear E. rewrite exc_stop.
      2:{ unfold continue. cbn. rewrite Rabs_R0. cmp. reflexivity. }
      cbn [bind l_n l_ki]. change (any (l_ki s1)) with true. cbn. eexists. split; [reflexivity|]. cbn. auto 10.
Qed.
