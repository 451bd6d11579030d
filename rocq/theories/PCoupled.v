(** Proofs about the coupled criterion (C62, C63, C73). *)
Require Import Verif.Py Verif.MTools Verif.MEnvelope Verif.MCriterion Verif.PSetup Verif.PEnvelope.

Section C.
Variable create : R -> list R -> list bool -> bool -> res sk.
Variable dist : sk -> res (option R * option R).
Variable energy : sk -> sk -> list bool -> res (option R).
Variable newlen : R -> list R -> list bool -> res (R * list R * list bool).
Variable minforce : list R -> list bool -> res mf.
Notation iteration := (iteration create dist energy newlen).
Notation coupled := (coupled create dist energy newlen minforce).

(** The evaluation behind a value [g] of the criterion: weight, segments, supports, object. *)
Definition evaluated (damped : bool) (w : R) (li : list R) (ki : list bool) (c : sk) (g : option R) : Prop :=
  exists u, create w li (if damped then ki else map (fun _ => true) ki) false = Ok u /\ create w li ki true = Ok c /\
    energy u c (map (fun _ => true) ki) = Ok g.
Definition too_far (g : option R) : bool := ogt (option_map (fun g => Rabs (g - 1)) g) (2 / 1000).
Lemma ogt_abs x y : ogt (option_map Rabs (option_map (fun g => Rabs (g - 1)) x)) y = ogt (option_map (fun g => Rabs (g - 1)) x) y.
Proof. destruct x as [x|]; [|reflexivity]. cbn [option_map]. rewrite Rabs_Rabsolu. reflexivity. Qed.

(** What one iteration does. *)
Lemma iteration_inv damped early update crit s r : iteration damped early update crit s = Ok r ->
  exists c g, evaluated damped (l_w s) (l_li s) (l_ki s) c g /\
  match r with
  | inl k => l_n s = 0%nat /\ early g (option_map (fun g => Rabs (g - 1)) g) = true /\ c_ok k = true /\ c_pure k = true /\ c_self k = false /\
             c_weight k = l_w s /\ c_sk k = c /\ c_g k = g /\ c_iter k = 1%nat
  | inr s' => l_n s' = S (l_n s) /\ l_c s' = Some c /\ l_g s' = g /\ l_err s' = option_map (fun g => Rabs (g - 1)) g /\
      (l_n s = 0%nat -> early g (l_err s') = false) /\
      l_ws s' = l_ws s ++ [l_w s] /\ l_gs s' = l_gs s ++ [g] /\ l_lens s' = l_lens s ++ [l_len s] /\
      l_min s' = (if oltb g (Some 1) then l_w s else l_min s) /\ l_max s' = (if oltb g (Some 1) then l_max s else l_w s) /\
      if too_far g
      then l_w s' = update (l_w s) ((l_min s' + l_max s') / 2) (l_err s') /\ newlen (l_w s') (l_li s) (l_ki s) = Ok (l_len s', l_li s', l_ki s')
      else l_w s' = l_w s /\ l_li s' = l_li s /\ l_ki s' = l_ki s /\ l_len s' = l_len s
  end.
Proof.
  unfold MCriterion.iteration. destruct (create _ _ _ false) as [u|e] eqn:E1; [|discriminate]. cbn [bind].
  destruct (dist u) as [d|e] eqn:E2; [|discriminate]. cbn [bind].
  destruct (create _ _ _ true) as [c|e] eqn:E3; [|discriminate]. cbn [bind].
  destruct (energy u c _) as [g|e] eqn:E4; [|discriminate]. cbn [bind].
  intros H. exists c, g. split; [exists u; auto|]. revert H. unfold too_far.
  destruct (Nat.eqb (S (l_n s)) 1 && early g (option_map (fun g => Rabs (g - 1)) g))%bool eqn:EE.
  - apply andb_prop in EE as [EN EA]. apply Nat.eqb_eq in EN. intros H. apply Ok_inj in H. subst r. simpl.
    repeat split; try assumption; lia.
  - assert (EA : l_n s = 0%nat -> early g (option_map (fun g => Rabs (g - 1)) g) = false).
    { intros N. rewrite N in EE. exact EE. }
    rewrite ogt_abs. destruct (ogt _ (2 / 1000)) eqn:EG.
    + destruct (newlen _ _ _) as [[[len li] ki]|e] eqn:E5; [|discriminate]. cbn [bind]. intros H. apply Ok_inj in H. subst r. simpl. repeat (split; [first [reflexivity|assumption]|]); try split; first [reflexivity|assumption|idtac].
    + intros H. apply Ok_inj in H. subst r. simpl. repeat (split; [first [reflexivity|assumption]|]); try split; first [reflexivity|assumption|idtac].
Qed.

(** Fuel. *)
Lemma iterate_n maxit step : (forall s s', step s = Ok (inr s') -> l_n s' = S (l_n s)) ->
  forall fuel s, (maxit < l_n s + fuel)%nat -> forall k, iterate maxit step (fuel + k) s = iterate maxit step fuel s.
Proof.
  intros Hs fuel. induction fuel as [|fuel IH]; intros s H k.
  - assert (C : continue maxit s = false).
    { unfold continue. replace (Nat.ltb (l_n s) maxit) with false by (symmetry; apply Nat.ltb_ge; lia). rewrite Bool.andb_false_r. reflexivity. }
    simpl. destruct k; simpl; rewrite C; reflexivity.
  - simpl. destruct (continue maxit s); [|reflexivity]. destruct (step s) as [[c|s']|e] eqn:E; cbn [bind]; try reflexivity.
    apply IH. rewrite (Hs _ _ E). lia.
Qed.
Lemma iterate_inv (P : cstate -> Prop) maxit step :
  (forall s s', P s -> continue maxit s = true -> step s = Ok (inr s') -> P s') ->
  forall fuel s r, P s -> iterate maxit step fuel s = Ok r ->
  match r with
  | inl c => exists s0, P s0 /\ continue maxit s0 = true /\ step s0 = Ok (inl c)
  | inr s' => P s' /\ continue maxit s' = false
  end.
Proof.
  intros Hs fuel. induction fuel as [|fuel IH]; intros s r Ps; simpl; destruct (continue maxit s) eqn:C.
  - discriminate.
  - intros H. apply Ok_inj in H. subst r. auto.
  - destruct (step s) as [[c|s']|e] eqn:E; cbn [bind]; [| |discriminate].
    + intros H. apply Ok_inj in H. subst r. eauto.
    + intros H. exact (IH _ _ (Hs _ _ Ps C E) H).
  - intros H. apply Ok_inj in H. subst r. auto.
Qed.

(** * The undamped variant *)
Section U.
Variable crit : R.
Hypothesis Hc : 1 <= crit.
Let w0 := crit * (1005 / 1000).
Definition early0 (g err : option R) : bool := (ogt g 1 || oltb err (Some (2 / 100)))%bool.
Notation step := (iteration false early0 (fun _ new _ => new) crit).
(** Invariant of the loop. *)
Definition inv (s : cstate) : Prop :=
  (l_n s <= 25)%nat /\ List.length (l_ws s) = l_n s /\ List.length (l_gs s) = l_n s /\
  crit <= l_min s /\ l_min s <= l_w s /\ l_w s <= l_max s /\ l_max s <= 5 * w0 /\
  (l_n s = 0%nat -> l_w s = w0 /\ l_min s = crit /\ l_max s = 5 * w0 /\ l_err s = Some 1000 /\ any (l_ki s) = true) /\
  (l_n s <> 0%nat -> exists c, l_c s = Some c /\ l_err s = option_map (fun g => Rabs (g - 1)) (l_g s) /\
     (if too_far (l_g s)
      then l_w s = (l_min s + l_max s) / 2 /\ l_max s - l_min s = 4 * w0 / 2 ^ (l_n s - 1) /\
           exists w li ki, evaluated false w li ki c (l_g s) /\ last (l_ws s) 0 = w
      else evaluated false (l_w s) (l_li s) (l_ki s) c (l_g s))).
Lemma inv_start total m : inv (start total w0 crit (5 * w0) m).
Proof. unfold inv, start, w0. simpl. repeat split; try lia; try lra. Qed.
Lemma oltb_one g : oltb g (Some 1) = true -> exists x, g = Some x /\ x < 1.
Proof. destruct g as [x|]; [|discriminate]. simpl. unfold Rltb. destruct (Rlt_dec x 1); [|discriminate]. eauto. Qed.
Lemma inv_step s s' : inv s -> continue 25 s = true -> step s = Ok (inr s') -> inv s'.
Proof.
  intros (I1 & I2 & I3 & I4 & I5 & I6 & I7 & I8 & I9) C E.
  unfold continue in C. apply andb_prop in C as [C C3]. apply andb_prop in C as [C1 C2]. apply Nat.ltb_lt in C2.
  destruct (iteration_inv _ _ _ _ _ _ E) as (c & g & Ev & N & Lc & Lg & Le & Ea & Lws & Lgs & _ & Lmin & Lmax & Up).
  assert (W0 : 1 <= w0) by (unfold w0; lra).
  unfold inv. rewrite N, Lws, Lgs, !app_length, I2, I3. simpl List.length.
  assert (Hd : l_n s = 0%nat -> too_far g = true -> oltb g (Some 1) = true).
  { intros Z T. specialize (Ea Z). unfold early0 in Ea. apply orb_false_iff in Ea as [Ea _].
    destruct g as [x|]; [|discriminate]. simpl in *. unfold ogt, oltb, Rltb in *. destruct (Rlt_dec 1 x); [discriminate|].
    destruct (Rlt_dec x 1); [reflexivity|]. exfalso. assert (x = 1) by lra. subst x. revert T. unfold too_far, ogt, oltb, option_map, Rltb.
    replace (1 - 1) with 0 by ring. rewrite Rabs_R0. destruct (Rlt_dec (2 / 1000) 0); [lra|discriminate]. }
  assert (Wd : l_n s <> 0%nat -> l_w s = (l_min s + l_max s) / 2 /\ l_max s - l_min s = 4 * w0 / 2 ^ (l_n s - 1)).
  { intros Z. destruct (I9 Z) as (c0 & _ & L & H). rewrite L in C1. unfold too_far in H. rewrite ogt_abs in C1. rewrite C1 in H. tauto. }
  assert (Bd : crit <= l_min s' /\ l_min s' <= l_max s' /\ l_max s' <= 5 * w0 /\ l_min s' <= l_w s <= l_max s').
  { rewrite Lmin, Lmax. destruct (oltb g (Some 1)); lra. }
  split; [lia|]. split; [lia|]. split; [lia|]. destruct Bd as (B1 & B2 & B3 & B4). split; [exact B1|].
  assert (Wb : l_min s' <= l_w s' <= l_max s').
  { destruct (too_far g); [destruct Up as [-> _]; lra|destruct Up as [-> _]; exact B4]. }
  split; [apply Wb|]. split; [apply Wb|]. split; [exact B3|]. split; [lia|].
  intros _. exists c. split; [exact Lc|]. split; [rewrite Lg; exact Le|]. rewrite Lg. destruct (too_far g) eqn:TF.
  - destruct Up as [U1 U2]. split; [exact U1|]. split.
    + replace (S (l_n s) - 1)%nat with (l_n s) by lia. rewrite Lmin, Lmax. destruct (Nat.eq_dec (l_n s) 0) as [Z|Z].
      * rewrite (Hd Z eq_refl). destruct (I8 Z) as (Q1 & Q2 & Q3 & _). rewrite Q1, Q3, Z. simpl. field.
      * destruct (Wd Z) as [Q1 Q2]. destruct (l_n s) as [|n] eqn:En; [congruence|]. replace (S n - 1)%nat with n in Q2 by lia.
        replace (4 * w0 / 2 ^ S n) with ((4 * w0 / 2 ^ n) / 2) by (simpl; field; apply pow_nonzero; lra). rewrite <- Q2.
        destruct (oltb g (Some 1)); rewrite Q1; field.
    + exists (l_w s), (l_li s), (l_ki s). split; [exact Ev|]. apply last_last.
  - destruct Up as (-> & -> & -> & _). exact Ev.
Qed.
Lemma exit_n s : inv s -> continue 25 s = false -> l_n s <> 0%nat.
Proof.
  intros (_ & _ & _ & _ & _ & _ & _ & I8 & _) C N. destruct (I8 N) as (_ & _ & _ & E & K). revert C. unfold continue.
  rewrite E, N, K. simpl. rewrite Rabs_right by lra. unfold ogt, oltb. rewrite Rltb_true by lra. discriminate.
Qed.
Lemma exit_cases s : inv s -> continue 25 s = false -> too_far (l_g s) = false \/ l_n s = 25%nat \/ any (l_ki s) = false.
Proof.
  intros I C. pose proof (exit_n s I C) as N. destruct I as (I1 & _ & _ & _ & _ & _ & _ & _ & I9). destruct (I9 N) as (c & _ & E & _).
  revert C. unfold continue. rewrite E, ogt_abs. fold (too_far (l_g s)). destruct (too_far (l_g s)); [|auto].
  destruct (any (l_ki s)); [|auto]. rewrite Bool.andb_true_r. cbn [andb]. intros H. apply Nat.ltb_ge in H. right. left. lia.
Qed.
End U.

Definition run (m : mf) (total : R) : res (cc + cstate) :=
  iterate 25 (iteration false early0 (fun _ new _ => new) (f_weight m)) 26
    (start total (f_weight m * (1005 / 1000)) (f_weight m) (5 * (f_weight m * (1005 / 1000))) m).
Lemma run_inv m total r : 1 <= f_weight m -> run m total = Ok r ->
  match r with
  | inl c => c_ok c = true /\ c_pure c = true /\ c_self c = false /\ c_weight c = f_weight m * (1005 / 1000) /\ c_iter c = 1%nat /\
      exists li ki, evaluated false (c_weight c) li ki (c_sk c) (c_g c) /\ early0 (c_g c) (option_map (fun g => Rabs (g - 1)) (c_g c)) = true
  | inr s => inv (f_weight m) s /\ continue 25 s = false
  end.
Proof.
  intros W E. pose proof (iterate_inv (inv (f_weight m)) 25 _ (inv_step (f_weight m) W) 26 _ r (inv_start (f_weight m) W total m) E) as H.
  destruct r as [c|s]; [|exact H]. destruct H as (s0 & I & _ & St). destruct (iteration_inv _ _ _ _ _ _ St) as (c0 & g & Ev & N & Ea & O & P & F & Wt & Sk & G & It).
  destruct I as (_ & _ & _ & _ & _ & _ & _ & I8 & _). destruct (I8 N) as (Q & _).
  repeat (split; [first [assumption|congruence]|]). exists (l_li s0), (l_ki s0). rewrite Wt, Sk, G. auto.
Qed.
Lemma coupled_sound thick c : coupled thick = Ok (Done c) -> c_ok c = true -> c_self c = false -> c_pure c = false ->
  exists m li ki, minforce [1000 * thick / 2; 0; 0; 1000 * thick / 2] [true; true; true; true] = Ok m /\
    c_crit c = f_weight m /\ 1 <= c_crit c /\ (exists d, f_min m = Some d /\ d <= 1) /\
    c_crit c <= c_weight c <= 5 * (1005 / 1000 * c_crit c) /\
    List.length (c_weights c) = c_iter c /\ List.length (c_gs c) = c_iter c /\
    ((c_iter c < 25)%nat /\ 0 < c_len c /\ any ki = true /\ evaluated false (c_weight c) li ki (c_sk c) (c_g c) /\ too_far (c_g c) = false
     \/ (c_iter c <= 25)%nat /\ any ki = false /\
        exists w l k, evaluated false w l k (c_sk c) (c_g c) /\
          (too_far (c_g c) = true -> w = last (c_weights c) 0)).
Proof.
  unfold MCriterion.coupled. destruct (minforce _ _) as [m|e] eqn:Em; [|discriminate]. cbn [bind].
  destruct (ogt (f_min m) 1) eqn:E1.
  - unfold self_collapse. destruct (evaluate _ _ _ _ _) as [[[u k] g]|e]; [|discriminate]. cbn [bind]. intros H. apply Ok_inj in H. injection H as <-. discriminate.
  - destruct (oleb (f_min m) (Some 1) && Rleb 1 (f_weight m))%bool eqn:E2.
    2:{ intros H. apply Ok_inj in H. injection H as <-. discriminate. }
    apply andb_prop in E2 as [E2 E3].
    assert (W : 1 <= f_weight m) by (unfold Rleb in E3; destruct (Rle_dec 1 (f_weight m)); [assumption|discriminate]).
    assert (D : exists d, f_min m = Some d /\ d <= 1).
    { destruct (f_min m) as [d|]; [|discriminate]. exists d. split; [reflexivity|]. simpl in E2. unfold Rleb in E2. destruct (Rle_dec d 1); [assumption|discriminate]. }
    change (iterate 25 _ 26 _) with (run m (1000 * thick)).
    destruct (run m (1000 * thick)) as [[k|s]|e] eqn:ER; cbn [bind]; [| |discriminate].
    + intros H. apply Ok_inj in H. injection H as <-. destruct (run_inv _ _ _ W ER) as (_ & P & _). congruence.
    + destruct (run_inv _ _ _ W ER) as [I X]. pose proof (exit_n _ _ I X) as N. pose proof (exit_cases _ _ I X) as Cs.
      destruct I as (I1 & I2 & I3 & I4 & I5 & I6 & I7 & I8 & I9). destruct (I9 N) as (k & Ik & Ie & Ig).
      destruct (Nat.ltb (l_n s) 25 && any (l_ki s))%bool eqn:EB.
      * apply andb_prop in EB as [B1 B2]. apply Nat.ltb_lt in B1. destruct (Rltb 0 (l_len s)) eqn:EL.
        -- unfold finish. rewrite Ik. cbn [bind]. intros H _ _ _. apply Ok_inj in H. injection H as <-. cbn [c_crit c_weight c_iter c_weights c_gs c_len c_sk c_g].
           exists m, (l_li s), (l_ki s). split; [reflexivity|]. split; [reflexivity|]. split; [exact W|]. split; [exact D|]. split; [lra|]. split; [exact I2|]. split; [exact I3|].
           left. destruct Cs as [Cs|[Cs|Cs]]; [|lia|congruence]. rewrite Cs in Ig. split; [exact B1|].
           split; [unfold Rltb in EL; destruct (Rlt_dec 0 (l_len s)); [assumption|discriminate]|]. split; [exact B2|]. split; [exact Ig|exact Cs].
        -- intros H. apply Ok_inj in H. discriminate.
      * destruct (any (l_ki s)) eqn:EA; cbn [negb].
        -- intros H. apply Ok_inj in H. discriminate.
        -- unfold finish. rewrite Ik. cbn [bind]. intros H _ _ _. apply Ok_inj in H. injection H as <-. cbn [c_crit c_weight c_iter c_weights c_gs c_len c_sk c_g].
           exists m, (l_li s), (l_ki s). split; [reflexivity|]. split; [reflexivity|]. split; [exact W|]. split; [exact D|]. split; [lra|]. split; [exact I2|]. split; [exact I3|].
           right. split; [exact I1|]. split; [exact EA|]. destruct (too_far (l_g s)) eqn:TF.
           ++ destruct Ig as (_ & _ & w & l & q & Ev & Lw). exists w, l, q. split; [exact Ev|]. intros _. symmetry. exact Lw.
           ++ exists (l_w s), (l_li s), (l_ki s). split; [exact Ig|discriminate].
Qed.
Lemma fallback_sound thick w : coupled thick = Ok (Fallback1 w) \/ coupled thick = Ok (Fallback2 w) ->
  exists m, minforce [1000 * thick / 2; 0; 0; 1000 * thick / 2] [true; true; true; true] = Ok m /\ 1 <= f_weight m /\
    f_weight m <= w <= 5 * (1005 / 1000 * f_weight m).
Proof.
  unfold MCriterion.coupled. destruct (minforce _ _) as [m|e] eqn:Em; [|intros [H|H]; discriminate]. cbn [bind].
  destruct (ogt (f_min m) 1) eqn:E1.
  - unfold self_collapse. destruct (evaluate _ _ _ _ _) as [[[u k] g]|e]; [|intros [H|H]; discriminate]. cbn [bind]. intros [H|H]; apply Ok_inj in H; discriminate.
  - destruct (oleb (f_min m) (Some 1) && Rleb 1 (f_weight m))%bool eqn:E2.
    2:{ intros [H|H]; apply Ok_inj in H; discriminate. }
    apply andb_prop in E2 as [E2 E3].
    assert (W : 1 <= f_weight m) by (unfold Rleb in E3; destruct (Rle_dec 1 (f_weight m)); [assumption|discriminate]).
    change (iterate 25 _ 26 _) with (run m (1000 * thick)).
    destruct (run m (1000 * thick)) as [[k|s]|e] eqn:ER; cbn [bind]; [intros [H|H]; apply Ok_inj in H; discriminate| |intros [H|H]; discriminate].
    destruct (run_inv _ _ _ W ER) as [(I1 & I2 & I3 & I4 & I5 & I6 & I7 & I8 & I9) X].
    assert (Z : forall v, l_w s = v -> exists m0, Ok m = Ok m0 /\ 1 <= f_weight m0 /\ f_weight m0 <= v <= 5 * (1005 / 1000 * f_weight m0)).
    { intros v <-. exists m. split; [reflexivity|]. split; [exact W|lra]. }
    destruct (Nat.ltb (l_n s) 25 && any (l_ki s))%bool eqn:EB.
    + destruct (Rltb 0 (l_len s)).
      * unfold finish. destruct (l_c s); cbn [bind]; intros [H|H]; try discriminate; apply Ok_inj in H; discriminate.
      * intros [H|H]; apply Ok_inj in H; [|discriminate]. injection H as H. apply Z, H.
    + destruct (any (l_ki s)) eqn:EA; cbn [negb].
      * intros [H|H]; apply Ok_inj in H; [discriminate|]. injection H as H. apply Z, H.
      * unfold finish. destruct (l_c s); cbn [bind]; intros [H|H]; try discriminate; apply Ok_inj in H; discriminate.
Qed.

(** * The damped variant *)
Section D.
Variable damp crit : R.
Notation step := (iteration true (fun g _ => ogt g 1) (damped_weight damp) crit).
Definition dinv (s : cstate) : Prop :=
  (l_n s <= 50)%nat /\ List.length (l_ws s) = l_n s /\ List.length (l_gs s) = l_n s /\
  (l_n s = 0%nat -> l_err s = Some 1000 /\ any (l_ki s) = true) /\
  (l_n s <> 0%nat -> exists c, l_c s = Some c /\ l_err s = option_map (fun g => Rabs (g - 1)) (l_g s) /\
     (too_far (l_g s) = false -> evaluated true (l_w s) (l_li s) (l_ki s) c (l_g s))).
Lemma dinv_step s s' : dinv s -> continue 50 s = true -> step s = Ok (inr s') -> dinv s'.
Proof.
  intros (I1 & I2 & I3 & I8 & I9) C E.
  unfold continue in C. apply andb_prop in C as [C C3]. apply andb_prop in C as [C1 C2]. apply Nat.ltb_lt in C2.
  destruct (iteration_inv _ _ _ _ _ _ E) as (c & g & Ev & N & Lc & Lg & Le & Ea & Lws & Lgs & _ & Lmin & Lmax & Up).
  unfold dinv. rewrite N, Lws, Lgs, !app_length, I2, I3. simpl List.length. split; [lia|]. split; [lia|]. split; [lia|]. split; [lia|].
  intros _. exists c. split; [exact Lc|]. split; [rewrite Lg; exact Le|]. rewrite Lg. intros T. rewrite T in Up. destruct Up as (-> & -> & -> & _). exact Ev.
Qed.
End D.
Lemma damped_sound thick damp fuel c : coupled_dampened create dist energy newlen minforce thick damp fuel = Ok (Some c) ->
  c_ok c = true -> c_self c = false -> c_pure c = false ->
  exists m li ki, minforce [100 * thick / 2; 0; 0; 100 * thick / 2] [true; true; true; true] = Ok m /\
    c_crit c = f_weight m /\ 1 <= c_crit c /\ (c_iter c < 50)%nat /\ List.length (c_weights c) = c_iter c /\
    any ki = true /\ evaluated true (c_weight c) li ki (c_sk c) (c_g c) /\ too_far (c_g c) = false.
Proof.
  unfold coupled_dampened. destruct (minforce _ _) as [m|e] eqn:Em; [|discriminate]. cbn [bind].
  destruct (ogt (f_min m) 1) eqn:E1.
  - unfold self_collapse. destruct (evaluate _ _ _ _ _) as [[[u k] g]|e]; [|discriminate]. cbn [bind]. intros H. apply Ok_inj in H. injection H as <-. discriminate.
  - destruct (oleb (f_min m) (Some 1) && Rleb 1 (f_weight m))%bool eqn:E2.
    2:{ intros H. apply Ok_inj in H. injection H as <-. discriminate. }
    apply andb_prop in E2 as [E2 E3].
    assert (W : 1 <= f_weight m) by (unfold Rleb in E3; destruct (Rle_dec 1 (f_weight m)); [assumption|discriminate]).
    destruct (raise_weight _ _ _ _ _ _) as [[hi|]|e] eqn:Eh; cbn [bind]; [|intros H; apply Ok_inj in H; discriminate|discriminate].
    match goal with |- context [iterate 50 ?st 51 ?s0] => destruct (iterate 50 st 51 s0) as [[k|s]|e] eqn:ER; cbn [bind] end; [| |discriminate].
    + intros H. apply Ok_inj in H. injection H as <-. intros _ _ P. exfalso.
      pose proof (iterate_inv (fun _ => True) 50 _ ltac:(auto) 51 _ _ I ER) as (s0 & _ & _ & St).
      destruct (iteration_inv _ _ _ _ _ _ St) as (c0 & g & _ & _ & _ & _ & Q & _). congruence.
    + assert (S0 : dinv (start (100 * thick) (f_weight m * (1005 / 1000)) (f_weight m) hi m)).
      { unfold dinv, start. simpl. repeat split; try lia; congruence. }
      destruct (iterate_inv dinv 50 _ (dinv_step damp (f_weight m)) 51 _ _ S0 ER) as [(I1 & I2 & I3 & I8 & I9) X].
      unfold finish. destruct (l_c s) as [c0|] eqn:Lc; [|discriminate]. cbn [bind]. intros H. apply Ok_inj in H. injection H as <-. cbn [c_ok c_crit c_iter c_weights c_weight c_sk c_g].
      intros B _ _. apply andb_prop in B as [B1 B2]. apply Nat.ltb_lt in B1.
      assert (N : l_n s <> 0%nat).
      { intros N. destruct (I8 N) as [E0 K0]. revert X. unfold continue. rewrite E0, N, K0. simpl. rewrite Rabs_right by lra. unfold ogt, oltb. rewrite Rltb_true by lra. discriminate. }
      destruct (I9 N) as (c1 & Q1 & Q2 & Q3). injection Q1 as <-.
      assert (T : too_far (l_g s) = false).
      { revert X. unfold continue. rewrite Q2, ogt_abs, B2. fold (too_far (l_g s)). apply Nat.ltb_lt in B1. rewrite B1. rewrite !Bool.andb_true_r. auto. }
      exists m, (l_li s), (l_ki s). split; [reflexivity|]. split; [reflexivity|]. split; [exact W|]. split; [exact B1|]. split; [exact I2|]. split; [exact B2|]. split; [exact (Q3 T)|exact T].
Qed.

(** * Upper weight of the damped variant *)
Lemma raise_sound fuel : forall w li ki hi, raise_weight create energy fuel w li ki = Ok (Some hi) ->
  exists n, hi = w * 2 ^ S n /\ exists e, evaluate create energy hi li ki = Ok e /\ oltb (snd e) (Some 1) = false.
Proof.
  induction fuel as [|fuel IH]; intros w li ki hi; cbn [raise_weight]; [intros H; apply Ok_inj in H; discriminate|].
  destruct (evaluate create energy (w * 2) li ki) as [e|e] eqn:E; [|discriminate]. cbn [bind].
  destruct (oltb (snd e) (Some 1)) eqn:O.
  - intros H. destruct (IH _ _ _ _ H) as (n & -> & Q). exists (S n). split; [simpl; ring|exact Q].
  - intros H. apply Ok_inj in H. injection H as <-. exists 0%nat. split; [simpl; ring|]. exists e. split; [exact E|exact O].
Qed.
Lemma raise_total li ki W : (forall w, exists e, evaluate create energy w li ki = Ok e) ->
  (forall w e, W <= w -> evaluate create energy w li ki = Ok e -> oltb (snd e) (Some 1) = false) ->
  forall w, 0 < w -> exists fuel hi, raise_weight create energy fuel w li ki = Ok (Some hi).
Proof.
  intros T L w Pw.
  assert (Q : forall n w, 0 < w -> W <= w * 2 ^ S n -> exists hi, raise_weight create energy (S n) w li ki = Ok (Some hi)).
  { induction n as [|n IH]; intros v Pv B.
    - cbn [raise_weight]. destruct (T (v * 2)) as [e E]. rewrite E. cbn [bind]. simpl in B. rewrite (L (v * 2) e); [eauto|lra|exact E].
    - cbn [raise_weight]. destruct (T (v * 2)) as [e E]. rewrite E. cbn [bind]. destruct (oltb (snd e) (Some 1)); [|eauto].
      apply IH; [lra|]. simpl in B |- *. lra. }
  destruct (Pow_x_infinity 2 ltac:(rewrite Rabs_right; lra) (W / w)) as [N H].
  destruct (Q N w Pw) as [hi E].
  - pose proof (H (S N) ltac:(lia)) as B. rewrite Rabs_right in B by (apply Rle_ge, pow_le; lra).
    apply Rge_le in B. apply (Rmult_le_compat_r w) in B; [|lra]. unfold Rdiv in B. rewrite Rmult_assoc, Rinv_l in B by lra. lra.
  - exists (S N), hi. exact E.
Qed.
Lemma raise_never li ki : (forall w, exists e, evaluate create energy w li ki = Ok e /\ oltb (snd e) (Some 1) = true) ->
  forall fuel w, raise_weight create energy fuel w li ki = Ok None.
Proof.
  intros T fuel. induction fuel as [|fuel IH]; intros w; [reflexivity|]. cbn [raise_weight]. destruct (T (w * 2)) as (e & E & O).
  rewrite E. cbn [bind]. rewrite O. apply IH.
Qed.
End C.
