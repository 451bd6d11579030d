(** Layout of the crack reported by the coupled criterion. *)
Require Import Verif.Py Verif.MTools Verif.MEigen Verif.MFields Verif.MRaster Verif.MSolution Verif.MAnalysis Verif.MEnvelope Verif.MCriterion
  Verif.SCoupled Verif.PSetup Verif.PCoupled.
Open Scope R_scope.

Section Layout.
Variable create : R -> list R -> list bool -> bool -> res sk.
Variable dist : sk -> res (option R * option R).
Variable energy : sk -> sk -> list bool -> res (option R).
Variable newlen : R -> list R -> list bool -> res (R * list R * list bool).
Variable minforce : list R -> list bool -> res mf.
Notation guess T := [T / 2 - 1 / 2; 1 / 2; 1 / 2; T / 2 - 1 / 2].

(** Length and layout of a state are the first guess or come from [newlen] for its weight; unless the error is too
    large, the cracked model is that of weight and layout. *)
Definition laid (T w0 w len : R) (li : list R) (ki : list bool) : Prop :=
  w = w0 /\ len = 1 /\ li = guess T /\ ki = [true; false; false; true] \/
  exists li' ki', newlen w li' ki' = Ok (len, li, ki).
Definition linv (T w0 : R) (s : cstate) : Prop :=
  laid T w0 (l_w s) (l_len s) (l_li s) (l_ki s) /\
  (ogt (option_map Rabs (l_err s)) (2 / 1000) = true \/
   exists c, l_c s = Some c /\ create (l_w s) (l_li s) (l_ki s) true = Ok c).
Lemma linv_start T w0 lo hi m : linv T w0 (start T w0 lo hi m).
Proof.
  split.
  - left. auto.
  - left. unfold start. cbn [l_err option_map]. unfold ogt, oltb, Rltb. rewrite Rabs_right by lra.
    destruct (Rlt_dec (2 / 1000) 1000); [reflexivity|lra].
Qed.
Lemma linv_step T w0 damped early update crit s s' : linv T w0 s ->
  iteration create dist energy newlen damped early update crit s = Ok (inr s') -> linv T w0 s'.
Proof.
  intros [L _] H. destruct (iteration_inv _ _ _ _ _ _ _ _ _ _ H) as (c & g & (u & _ & Hc & _) & _ & Lc & Lg & Le & _ & _ & _ & _ & _ & _ & B).
  destruct (too_far g) eqn:F.
  - destruct B as [_ B]. split; [right; eauto|]. left. rewrite Le, ogt_abs. exact F.
  - destruct B as (B1 & B2 & B3 & B4). unfold linv. rewrite B1, B2, B3, B4. split; [exact L|]. right. exists c. auto.
Qed.
Lemma linv_end T w0 maxit damped early update crit fuel lo hi m s :
  iterate maxit (iteration create dist energy newlen damped early update crit) fuel (start T w0 lo hi m) = Ok (inr s) ->
  linv T w0 s /\ continue maxit s = false.
Proof.
  intros H. refine (iterate_inv (linv T w0) maxit _ _ fuel _ (inr s) (linv_start T w0 lo hi m) H).
  intros s0 s1 I _ St. exact (linv_step _ _ _ _ _ _ _ _ I St).
Qed.
Lemma linv_final T w0 maxit s c : linv T w0 s -> continue maxit s = false -> (l_n s < maxit)%nat -> l_c s = Some c ->
  any (l_ki s) = true -> create (l_w s) (l_li s) (l_ki s) true = Ok c.
Proof.
  intros [_ [F|(c' & Lc & Hc)]] X N E A; [|congruence].
  exfalso. unfold continue in X. rewrite F, A in X. apply Nat.ltb_lt in N. rewrite N in X. discriminate.
Qed.

Lemma coupled_layout thick c : coupled create dist energy newlen minforce thick = Ok (Done c) ->
  c_ok c = true -> c_self c = false -> c_pure c = false ->
  exists li ki, laid (1000 * thick) (c_crit c * (1005 / 1000)) (c_weight c) (c_len c) li ki /\
    (any ki = true -> create (c_weight c) li ki true = Ok (c_sk c)).
Proof.
  unfold coupled. destruct (minforce _ _) as [m|e]; [|discriminate]. cbn [bind].
  destruct (ogt (f_min m) 1).
  - unfold self_collapse. destruct (evaluate _ _ _ _ _) as [[[u k] g]|e]; [|discriminate]. cbn [bind]. intros H. apply Ok_inj in H. injection H as <-. discriminate.
  - destruct (oleb (f_min m) (Some 1) && Rleb 1 (f_weight m))%bool.
    2:{ intros H. apply Ok_inj in H. injection H as <-. discriminate. }
    cbv zeta. destruct (iterate 25 _ 26 _) as [[k|s]|e] eqn:ER; cbn [bind]; [| |discriminate].
    + intros H. apply Ok_inj in H. injection H as <-. intros _ _ P. exfalso.
      destruct (iterate_inv (fun _ => True) 25 _ ltac:(auto) 26 _ _ I ER) as (s0 & _ & _ & St).
      destruct (iteration_inv _ _ _ _ _ _ _ _ _ _ St) as (c0 & g & _ & _ & _ & _ & Q & _). congruence.
    + destruct (linv_end _ _ _ _ _ _ _ _ _ _ _ _ ER) as [I X].
      destruct (Nat.ltb (l_n s) 25 && any (l_ki s))%bool eqn:B.
      * destruct (Rltb 0 (l_len s)); [|discriminate]. unfold finish. destruct (l_c s) as [c0|] eqn:Lc; [|discriminate]. cbn [bind].
        intros H. apply Ok_inj in H. injection H as <-. intros _ _ _. cbn [c_crit c_weight c_len c_sk].
        exists (l_li s), (l_ki s). split; [exact (proj1 I)|]. intros A. apply andb_prop in B as [B _]. apply Nat.ltb_lt in B.
        exact (linv_final _ _ _ _ _ I X B Lc A).
      * destruct (negb (any (l_ki s))) eqn:A; [|discriminate]. unfold finish. destruct (l_c s) as [c0|] eqn:Lc; [|discriminate]. cbn [bind].
        intros H. apply Ok_inj in H. injection H as <-. intros _ _ _. cbn [c_crit c_weight c_len c_sk].
        exists (l_li s), (l_ki s). split; [exact (proj1 I)|]. intros A'. rewrite A' in A. discriminate.
Qed.
Lemma damped_layout thick damp fuel c : coupled_dampened create dist energy newlen minforce thick damp fuel = Ok (Some c) ->
  c_ok c = true -> c_self c = false -> c_pure c = false ->
  exists li ki, laid (100 * thick) (c_crit c * (1005 / 1000)) (c_weight c) (c_len c) li ki /\
    (any ki = true -> create (c_weight c) li ki true = Ok (c_sk c)).
Proof.
  unfold coupled_dampened. destruct (minforce _ _) as [m|e]; [|discriminate]. cbn [bind].
  destruct (ogt (f_min m) 1).
  - unfold self_collapse. destruct (evaluate _ _ _ _ _) as [[[u k] g]|e]; [|discriminate]. cbn [bind]. intros H. apply Ok_inj in H. injection H as <-. discriminate.
  - destruct (oleb (f_min m) (Some 1) && Rleb 1 (f_weight m))%bool.
    2:{ intros H. apply Ok_inj in H. injection H as <-. discriminate. }
    cbv zeta. destruct (raise_weight _ _ _ _ _ _) as [[hi|]|e]; cbn [bind]; [|discriminate|discriminate].
    destruct (iterate 50 _ 51 _) as [[k|s]|e] eqn:ER; cbn [bind]; [| |discriminate].
    + intros H. apply Ok_inj in H. injection H as <-. intros _ _ P. exfalso.
      destruct (iterate_inv (fun _ => True) 50 _ ltac:(auto) 51 _ _ I ER) as (s0 & _ & _ & St).
      destruct (iteration_inv _ _ _ _ _ _ _ _ _ _ St) as (c0 & g & _ & _ & _ & _ & Q & _). congruence.
    + destruct (linv_end _ _ _ _ _ _ _ _ _ _ _ _ ER) as [I X].
      unfold finish. destruct (l_c s) as [c0|] eqn:Lc; [|discriminate]. cbn [bind].
      intros H. apply Ok_inj in H. injection H as <-. cbn [c_ok c_crit c_weight c_len c_sk]. intros B _ _.
      apply andb_prop in B as [B A]. apply Nat.ltb_lt in B.
      exists (l_li s), (l_ki s). split; [exact (proj1 I)|]. intros _. exact (linv_final _ _ _ _ _ I X B Lc A).
Qed.
End Layout.

Lemma unsupported_cons l li k ki : unsupported_length (l :: li) (k :: ki) = (if k then 0 else l) + unsupported_length li ki.
Proof.
  unfold unsupported_length, unsupported_sum, rsum. cbn [List.length seq map nth fold_right]. f_equal.
  rewrite <- seq_shift, map_map. reflexivity.
Qed.
Lemma cracked_is_unsupported li ki : List.length ki = List.length li -> cracked_length li ki = unsupported_length li ki.
Proof.
  revert li. induction ki as [|k ki IH]; intros [|l li] H; try discriminate.
  - reflexivity.
  - rewrite unsupported_cons, <- IH by (simpl in H; lia). unfold cracked_length, rsum. cbn [combine filter snd].
    destruct k; cbn [negb map fst fold_right]; ring.
Qed.

Lemma set_nth_length {A} (l : list A) i a : List.length (set_nth l i a) = List.length l.
Proof. revert i. induction l as [|b l IH]; intros [|i]; simpl; try reflexivity. rewrite IH. reflexivity. Qed.
Lemma marks_length prev isr cr : List.length (mark_segments prev isr cr) = List.length isr.
Proof. revert prev cr. induction isr as [|r isr IH]; intros prev cr; [reflexivity|]. simpl. destruct (r && prev)%bool; simpl; rewrite IH; reflexivity. Qed.
Lemma diffs_length a l : List.length (diffs (a :: l)) = List.length l.
Proof. revert a. induction l as [|b l IH]; intros a; [reflexivity|]. change (S (List.length (diffs (b :: l))) = S (List.length l)). rewrite IH. reflexivity. Qed.
Lemma roots_length total roots : let '(ls, ks) := segments_of_roots total roots in List.length ks = List.length ls.
Proof.
  unfold segments_of_roots. rewrite diffs_length.
  set (b := 0 :: roots ++ [total]).
  assert (L : forall rs m, List.length (fold_left (fun m r => set_nth m (index_of b r 0) true) rs m) = List.length m).
  { induction rs as [|r rs IH]; intros m; [reflexivity|]. cbn [fold_left]. rewrite IH, set_nth_length. reflexivity. }
  specialize (L roots (map (fun _ => false) b)). rewrite map_length in L. assert (Lb : List.length b = S (List.length (roots ++ [total]))) by reflexivity. rewrite Lb in L.
  destruct (fold_left _ _ _) as [|r isr]; [discriminate|]. rewrite marks_length. cbn [List.length] in L. lia.
Qed.
Lemma first_ge_bound ls i m j : first_ge ls i m = Some j -> (i <= j < i + List.length ls)%nat.
Proof.
  revert i. induction ls as [|c ls IH]; intros i; [discriminate|]. cbn [first_ge List.length]. destruct (Rleb m c).
  - intros H. injection H as <-. lia.
  - intros H. apply IH in H. lia.
Qed.
Lemma split_length ls ks ls' ks' : List.length ks = List.length ls -> split_segments_at_midpoint ls ks = Ok (ls', ks') ->
  List.length ks' = List.length ls'.
Proof.
  intros L. unfold split_segments_at_midpoint. destruct (cumsum ls) as [|c0 cs] eqn:EC; [discriminate|]. rewrite <- EC. clear c0 cs EC.
  destruct (first_ge _ _ _) as [i|]; [|intros H; injection H as <- <-; exact L].
  destruct (nth_error ks i) as [k|]; [|discriminate]. destruct i as [|j]; intros H; apply Ok_inj in H.
  - injection H as <- <-. simpl. lia.
  - pose proof (f_equal fst H) as A. pose proof (f_equal snd H) as B. cbn [fst snd] in A, B. rewrite <- A, <- B. rewrite !app_length, !firstn_length, !skipn_length. cbn [List.length]. lia.
Qed.
Lemma anticrack_lengths eig solve brent maxeval profile phi E t e w li ki len li' ki' :
  find_new_anticrack_length eig solve brent maxeval profile phi E t e w li ki = Ok (len, li', ki') ->
  List.length ki' = List.length li' /\ len = unsupported_length li' ki' /\
  exists k roots, create_skier_object eig solve brent maxeval profile w phi [rsum li / 2; rsum li / 2] [true; true] false E t = Ok k /\
    find_roots_around_x brent maxeval e k [rsum li / 2; rsum li / 2] phi = Ok roots.
Proof.
  intros F. unfold find_new_anticrack_length in F.
  destruct (create_skier_object _ _ _ _ _ _ _ _ _ _ _ _) as [k|er] eqn:K; [|discriminate]. cbn [bind] in F.
  destruct (distances e k) as [d|er]; [|discriminate]. cbn [bind] in F.
  destruct (find_roots_around_x _ _ _ _ _ _) as [roots|er] eqn:Rt; [|discriminate]. cbn [bind] in F.
  assert (Q : List.length ki' = List.length li' /\ len = cracked_length li' ki').
  { destruct roots as [|r roots].
    - cbn [bind] in F. apply Ok_inj in F. injection F as <- <- <-. split; [destruct (ogt (snd d) 1); reflexivity|reflexivity].
    - pose proof (roots_length (rsum li) (r :: roots)) as L. destruct (segments_of_roots (rsum li) (r :: roots)) as [ls ks].
      destruct (split_segments_at_midpoint ls ks) as [[l' k']|er] eqn:Es; [|discriminate]. cbn [bind] in F.
      apply Ok_inj in F. injection F as <- <- <-. split; [exact (split_length _ _ _ _ L Es)|reflexivity]. }
  destruct Q as [Q1 Q2]. split; [exact Q1|]. split; [rewrite Q2; apply cracked_is_unsupported; exact Q1|].
  exists k, roots. split; [first [exact K|reflexivity]|exact Rt].
Qed.
