(** Property theorems C62, C63 and C73: the coupled criterion, for all response functions. *)
Require Import Verif.Py Verif.MTools Verif.MEigen Verif.MEnvelope Verif.MCriterion Verif.PSetup Verif.PEnvelope Verif.PCoupled.

(** [g] is not further from 1 than the tolerance (or NaN). *)
Lemma not_far g : too_far g = false <-> g = None \/ exists x, g = Some x /\ Rabs (x - 1) <= 2 / 1000.
Proof.
  unfold too_far. destruct g as [x|]; simpl.
  - unfold ogt, oltb, Rltb. destruct (Rlt_dec (2 / 1000) (Rabs (x - 1))); split; try discriminate.
    + intros [H|(y & E & H)]; [discriminate|]. injection E as <-. lra.
    + intros _. right. exists x. split; [reflexivity|lra].
    + reflexivity.
  - tauto.
Qed.

(** C62: a reported success, neither self-collapse nor pure stress: the reported weight lies between
    the critical weight of the stress criterion and five times the start weight; after fewer than 25
    iterations the value reported is that of the reported weight and model and is 1 within 0.002
    (or NaN). What is missing: the branch of a completely cracked model. *)
Theorem C62_result_partial create dist energy newlen minforce thick c :
  coupled create dist energy newlen minforce thick = Ok (Done c) ->
  c_ok c = true -> c_self c = false -> c_pure c = false ->
  exists m li ki, minforce [1000 * thick / 2; 0; 0; 1000 * thick / 2] [true; true; true; true] = Ok m /\
    c_crit c = f_weight m /\ 1 <= c_crit c /\ (exists d, f_min m = Some d /\ d <= 1) /\
    c_crit c <= c_weight c <= 5 * (1005 / 1000 * c_crit c) /\
    List.length (c_weights c) = c_iter c /\ List.length (c_gs c) = c_iter c /\
    ((c_iter c < 25)%nat /\ 0 < c_len c /\ (exists b, In b ki /\ b = true) /\
     (exists u, create (c_weight c) li (map (fun _ => true) ki) false = Ok u /\
                create (c_weight c) li ki true = Ok (c_sk c) /\ energy u (c_sk c) (map (fun _ => true) ki) = Ok (c_g c)) /\
     (c_g c = None \/ exists g, c_g c = Some g /\ Rabs (g - 1) <= 2 / 1000)
     \/ (c_iter c <= 25)%nat /\ (forall b, In b ki -> b = false)).
Proof.
  intros H A B C. destruct (coupled_sound _ _ _ _ _ _ _ H A B C) as (m & li & ki & H1 & H2 & H3 & H4 & H5 & H6 & H7 & H8).
  exists m, li, ki. repeat (split; [assumption|]). destruct H8 as [(I & L & K & E & T)|(I & K & _)].
  - left. split; [exact I|]. split; [exact L|]. split; [apply existsb_exists in K; exact K|]. split; [exact E|]. apply not_far. exact T.
  - right. split; [exact I|]. intros b Hb. destruct b; [|reflexivity]. exfalso. assert (X : any ki = true) by (apply existsb_exists; exists true; auto). congruence.
Qed.
Print Assumptions C62_result_partial.
(** The same for the damped variant, without exception, in fewer than 50 iterations. *)
Theorem C62_result_dampened create dist energy newlen minforce thick damping fuel c :
  coupled_dampened create dist energy newlen minforce thick damping fuel = Ok (Some c) ->
  c_ok c = true -> c_self c = false -> c_pure c = false ->
  exists m li ki, minforce [100 * thick / 2; 0; 0; 100 * thick / 2] [true; true; true; true] = Ok m /\
    c_crit c = f_weight m /\ 1 <= c_crit c /\ (c_iter c < 50)%nat /\ List.length (c_weights c) = c_iter c /\
    (exists b, In b ki /\ b = true) /\
    (exists u, create (c_weight c) li ki false = Ok u /\
               create (c_weight c) li ki true = Ok (c_sk c) /\ energy u (c_sk c) (map (fun _ => true) ki) = Ok (c_g c)) /\
    (c_g c = None \/ exists g, c_g c = Some g /\ Rabs (g - 1) <= 2 / 1000).
Proof.
  intros H A B C. destruct (damped_sound _ _ _ _ _ _ _ _ _ H A B C) as (m & li & ki & H1 & H2 & H3 & H4 & H5 & H6 & H7 & H8).
  exists m, li, ki. repeat (split; [assumption|]). split; [apply existsb_exists in H6; exact H6|]. split; [exact H7|]. apply not_far. exact H8.
Qed.
Print Assumptions C62_result_dampened.
(** The loops end after at most 25 (50) iterations: additional fuel changes nothing. *)
Theorem C62_bounded create dist energy newlen damped early update crit maxit s k :
  l_n s = 0%nat ->
  let step := iteration create dist energy newlen damped early update crit in
  iterate maxit step (S maxit + k) s = iterate maxit step (S maxit) s.
Proof.
  intros N step. apply (iterate_n maxit step); [|rewrite N; lia].
  intros s0 s1 H. destruct (iteration_inv _ _ _ _ _ _ _ _ _ _ H) as (c & g & _ & Q & _). exact Q.
Qed.
Print Assumptions C62_bounded.
(** The bracket is halved: after n iterations that did not converge its width is 4.02 critical
    weights over 2^(n-1), and the next weight is its midpoint. *)
Theorem C62_bracket create dist energy newlen total m n s :
  1 <= f_weight m ->
  let step := iteration create dist energy newlen false (fun g err => ogt g 1 || oltb err (Some (2 / 100)))%bool
                (fun _ new _ => new) (f_weight m) in
  iterate n step (S n) (start total (f_weight m * (1005 / 1000)) (f_weight m) (5 * (f_weight m * (1005 / 1000))) m) = Ok (inr s) ->
  (n <= 25)%nat -> l_n s = n -> (1 <= n)%nat -> (exists g, l_g s = Some g /\ 2 / 1000 < Rabs (g - 1)) ->
  l_max s - l_min s = 402 / 100 * f_weight m / 2 ^ (n - 1) /\ l_w s = (l_min s + l_max s) / 2 /\
  f_weight m <= l_min s /\ l_max s <= 5 * (1005 / 1000 * f_weight m).
Proof.
  intros W step E N25 N N1 (g & Eg & Fg).
  assert (P : forall s s', inv create energy (f_weight m) s -> continue n s = true -> step s = Ok (inr s') -> inv create energy (f_weight m) s').
  { intros s0 s1 I C St. apply (inv_step create dist energy newlen (f_weight m) W s0 s1 I); [|exact St].
    unfold continue in *. apply andb_prop in C as [C C3]. apply andb_prop in C as [C1 C2]. rewrite C1, C3.
    apply Nat.ltb_lt in C2. replace (Nat.ltb (l_n s0) 25) with true by (symmetry; apply Nat.ltb_lt; lia). reflexivity. }
  destruct (iterate_inv (inv create energy (f_weight m)) n step P (S n) _ _ (inv_start create energy (f_weight m) W total m) E) as [I _].
  destruct I as (_ & _ & _ & I4 & _ & _ & I7 & _ & I9). destruct (I9 ltac:(lia)) as (c & _ & _ & H).
  assert (T : too_far (l_g s) = true).
  { destruct (too_far (l_g s)) eqn:T; [reflexivity|]. apply not_far in T. rewrite Eg in T. destruct T as [T|(x & X & T)]; [discriminate|]. injection X as <-. lra. }
  rewrite T in H. destruct H as (H1 & H2 & _). rewrite N in H2. rewrite H2. split; [field; apply pow_nonzero; lra|]. split; [exact H1|]. split; [exact I4|lra].
Qed.
Print Assumptions C62_bracket.

(** Responses for examples. *)
Definition exc_sk : sk := mkSk (init_obj "skiers" false) [] [] [] [] [] [] [].
Definition exc_create : R -> list R -> list bool -> bool -> res sk :=
  fun w li ki _ => Ok (mkSk (init_obj "skiers" false) [] li [w] ki [] [] []).
Definition exc_dist : sk -> res (option R * option R) := fun _ => Ok (Some 1, Some (1 / 2)).
Definition exc_min : list R -> list bool -> res mf := fun _ _ => Ok (mkMf 40 exc_sk (Some 1) (Some (1 / 2))).
Definition exc_keep : R -> list R -> list bool -> res (R * list R * list bool) := fun _ li ki => Ok (1, li, ki).

Ltac cmp := unfold ogt, oltb, oleb, option_map; repeat first [rewrite Rltb_true by lra|rewrite Rltb_false by lra|rewrite Rleb_true by lra|rewrite Rleb_false by lra].
Definition exc_force (f : R -> R) : sk -> sk -> list bool -> res (option R) := fun _ c _ => Ok (Some (f (hd 0 (k_mi c)))).
(** An iteration with too little energy. *)
Lemma exc_low f newlen damped early update crit s x r : f (l_w s) = x -> x < 1 - 2 / 1000 -> early (Some x) (Some (1 - x)) = false ->
  newlen (update (l_w s) ((l_w s + l_max s) / 2) (Some (1 - x))) (l_li s) (l_ki s) = Ok r ->
  exists c ws lens gs dmaxs dmins,
  iteration exc_create exc_dist (exc_force f) newlen damped early update crit s =
    Ok (inr (mkCs (Some (1 - x)) (S (l_n s)) (update (l_w s) ((l_w s + l_max s) / 2) (Some (1 - x))) (l_w s) (l_max s)
      (fst (fst r)) (snd (fst r)) (snd r) (Some 1) (Some (1 / 2)) (Some c) (Some x) ws lens gs dmaxs dmins)).
Proof.
  intros E L Ea N. unfold iteration, exc_create, exc_dist, exc_force. cbn [bind k_mi hd fst snd]. rewrite E. cbn [option_map].
  replace (Rabs (x - 1)) with (1 - x) by (rewrite Rabs_left by lra; ring). rewrite Ea, Bool.andb_false_r.
  unfold oltb, ogt. cbn [option_map]. rewrite (Rabs_right (1 - x)) by lra. unfold oltb. rewrite !Rltb_true by lra. rewrite N. cbn [bind].
  destruct r as [[len li] ki]. repeat eexists.
Qed.
(** An iteration that meets the criterion. *)
Lemma exc_hit f newlen damped early update crit s : f (l_w s) = 1 -> l_n s <> 0%nat ->
  exists c ws lens gs dmaxs dmins lo hi,
  iteration exc_create exc_dist (exc_force f) newlen damped early update crit s =
    Ok (inr (mkCs (Some 0) (S (l_n s)) (l_w s) lo hi (l_len s) (l_li s) (l_ki s) (Some 1) (Some (1 / 2)) (Some c) (Some 1) ws lens gs dmaxs dmins)).
Proof.
  intros E N. unfold iteration, exc_create, exc_dist, exc_force. cbn [bind k_mi hd fst snd]. rewrite E. cbn [option_map].
  replace (1 - 1) with 0 by ring. rewrite !Rabs_R0. destruct (l_n s) as [|n]; [congruence|]. cbn [Nat.eqb andb].
  unfold ogt. cbn [oltb]. rewrite (Rltb_false (2 / 1000) 0) by lra. repeat eexists.
Qed.
Lemma exc_iterate maxit step fuel s : continue maxit s = true ->
  iterate maxit step (S fuel) s = (r <- step s ;; match r with inl c => Ok (inl c) | inr s => iterate maxit step fuel s end).
Proof. intros H. simpl. rewrite H. reflexivity. Qed.
Lemma exc_stop maxit step fuel s : continue maxit s = false -> iterate maxit step fuel s = Ok (inr s).
Proof. intros H. destruct fuel; simpl; rewrite H; reflexivity. Qed.
(** Energy proportional to the weight, critical at 120.6 kg: found by the second iteration. *)
Example C62_example : exists c, coupled exc_create exc_dist (exc_force (fun w => w / (1206 / 10))) exc_keep exc_min (1 / 2) = Ok (Done c) /\
  c_ok c = true /\ c_self c = false /\ c_pure c = false /\ c_iter c = 2%nat /\ c_weight c = 1206 / 10.
Proof.
  unfold coupled, exc_min. cbn [bind f_min f_weight]. cmp. cbn [andb].
  rewrite exc_iterate.
  2:{ unfold continue, start. cbn. rewrite Rabs_right by lra. cmp. reflexivity. }
  set (s0 := start _ _ _ _ _).
  match goal with |- context [iteration _ _ _ _ ?d ?e ?u ?c s0] =>
    destruct (exc_low (fun w => w / (1206 / 10)) exc_keep d e u c s0 (1 / 3) (1, l_li s0, l_ki s0)) as (k & ws & lens & gs & d1 & d2 & E) end.
  - unfold s0. simpl. field.
  - lra.
  - cmp. reflexivity.
  - reflexivity.
  - rewrite E. cbn [bind fst snd]. clear E. rewrite exc_iterate.
    2:{ unfold continue. cbn. rewrite Rabs_right by lra. cmp. reflexivity. }
    set (s1 := mkCs _ _ _ _ _ _ _ _ _ _ _ _ _ _ _ _ _).
    assert (W : l_w s1 = 1206 / 10) by (unfold s1, s0; simpl; field).
    match goal with |- context [iteration _ _ _ _ ?d ?e ?u ?c s1] =>
      destruct (exc_hit (fun w => w / (1206 / 10)) exc_keep d e u c s1) as (k2 & ws2 & lens2 & gs2 & d3 & d4 & lo & hi & E) end.
    + rewrite W. field.
    + discriminate.
    + rewrite E. cbn [bind]. clear E. rewrite exc_stop.
      2:{ unfold continue. cbn. rewrite Rabs_R0. cmp. reflexivity. }
      cbn [bind l_n l_ki]. change (any (l_ki s1)) with true. cbn. cmp. eexists. split; [reflexivity|]. cbn. rewrite <- W. auto 10.
Qed.
(** Refuted for a model that cracks completely: the first iteration is evaluated at 40.2 kg and is
    far from the criterion, yet success is reported for 120.6 kg. *)
Theorem C62_refuted : exists c w, coupled exc_create exc_dist (exc_force (fun _ => 1 / 2)) (fun _ li ki => Ok (1, li, map (fun _ => false) ki)) exc_min (1 / 2) = Ok (Done c) /\
  c_ok c = true /\ c_self c = false /\ c_pure c = false /\ c_g c = Some (1 / 2) /\ c_weight c = 1206 / 10 /\
  c_weights c = [w] /\ w = 402 / 10 /\ k_mi (c_sk c) = [w].
Proof.
  unfold coupled, exc_min. cbn [bind f_min f_weight]. cmp. cbn [andb].
  rewrite exc_iterate.
  2:{ unfold continue, start. cbn. rewrite Rabs_right by lra. cmp. reflexivity. }
  set (s0 := start _ _ _ _ _).
  unfold iteration, exc_create, exc_dist, exc_force. cbn [bind k_mi hd fst snd option_map].
  replace (Rabs (1 / 2 - 1)) with (1 / 2) by (rewrite Rabs_left by lra; field).
  change (l_n s0) with 0%nat. cbn [Nat.eqb andb]. cmp. cbn [orb]. rewrite (Rabs_right (1 / 2)) by lra. cmp. cbn [bind].
  rewrite exc_stop.
  2:{ unfold continue. cbn. rewrite Bool.andb_false_r. reflexivity. }
  cbn [bind l_n l_ki]. cbn. exists (mkCc true 1 ((40 * (1005 / 1000) + 5 * (40 * (1005 / 1000))) / 2)
    (mkSk (init_obj "skiers" false) [] (l_li s0) [l_w s0] (l_ki s0) [] [] []) 1 [40 * (1005 / 1000)] [1] false false 40 (Some (1 / 2)) (Some (1 / 2)) [Some (1 / 2)] [Some (1 / 2)]).
  exists (40 * (1005 / 1000)). split; [reflexivity|]. cbn. repeat split; try field.
Qed.
Print Assumptions C62_refuted.
(** The damped update leaves the bracket. *)
Theorem C62_damped_bracket_refuted : exists s s', l_min s <= l_w s <= l_max s /\
  iteration exc_create exc_dist (exc_force (fun w => w / 60)) exc_keep true (fun g _ => ogt g 1) (damped_weight 1) 40 s = Ok (inr s') /\ l_max s' < l_w s'.
Proof.
  set (s0 := start 500 (40 * (1005 / 1000)) 40 240 (mkMf 40 exc_sk (Some 1) (Some (1 / 2)))).
  destruct (exc_low (fun w => w / 60) exc_keep true (fun g _ => ogt g 1) (damped_weight 1) 40 s0 (67 / 100) (1, l_li s0, l_ki s0)) as (k & ws & lens & gs & d1 & d2 & E).
  - unfold s0. simpl. field.
  - lra.
  - unfold ogt. simpl. apply Rltb_false. lra.
  - reflexivity.
  - exists s0. eexists. split; [unfold s0; simpl; lra|]. split; [exact E|]. cbn [l_max l_w]. unfold s0, start, damped_weight. cbn [l_max l_w option_map].
    rewrite Rabs_right by lra. unfold oltb. rewrite Rltb_true by lra. lra.
Qed.
Print Assumptions C62_damped_bracket_refuted.

(** C63: the fallbacks of the coupled criterion replace parameters: the first the density of the
    weak layer, the second its thickness. *)
Theorem C63_refuted eig solve brent maxeval quad profile phi e E t fuel th w :
  thickness profile = Ok th ->
  let r := coupled (fun w li ki crack => create_skier_object eig solve brent maxeval profile w phi li ki crack E t)
             (distances e) (incremental quad phi) (find_new_anticrack_length eig solve brent maxeval profile phi E t e)
             (find_minimum_force eig solve brent maxeval profile phi E t e) th in
  (r = Ok (Fallback1 w) ->
   criterion eig solve brent maxeval quad profile phi e E t fuel =
   criterion_dampened eig solve brent maxeval quad profile phi 1 (mkEnv (e_name e) (e_sf e) (e_om e) 250) E t fuel) /\
  (r = Ok (Fallback2 w) ->
   criterion eig solve brent maxeval quad profile phi e E t fuel =
   criterion_dampened eig solve brent maxeval quad profile phi 1 e E 30 fuel) /\
  (0 < E -> 0 < t -> t <> 30 -> calc_foundation_stiffness E (1 / 4) t <> calc_foundation_stiffness E (1 / 4) 30) /\
  exists w, coupled exc_create exc_dist (exc_force (fun _ => 1 / 2)) exc_keep exc_min (1 / 2) = Ok (Fallback2 w).
Proof.
  intros T r. split; [|split; [|split]].
  - intros H. unfold criterion. rewrite T. cbn [bind]. fold r. rewrite H. reflexivity.
  - intros H. unfold criterion. rewrite T. cbn [bind]. fold r. rewrite H. reflexivity.
  - intros PE Pt N H. unfold calc_foundation_stiffness in H. injection H as H _. apply N.
    assert (P : E / (1 - 1 / 4 * (1 / 4)) > 0) by (apply Rdiv_lt_0_compat; lra).
    replace (1 - (1 / 4) ^ 2) with (1 - 1 / 4 * (1 / 4)) in H by (simpl; ring).
    replace (1 - 1 / 4 * (1 / 4 * 1)) with (1 - 1 / 4 * (1 / 4)) in H by ring.
    set (q := E / (1 - 1 / 4 * (1 / 4))) in *. apply (f_equal (fun x => x * t * 30)) in H.
    replace (q / t * t * 30) with (q * 30) in H by (field; lra). replace (q / 30 * t * 30) with (q * t) in H by field. nra.
  - unfold coupled, exc_min. cbn [bind f_min f_weight]. cmp. cbn [andb].
    set (st := iteration _ _ _ _ _ _ _ _).
    assert (Q : forall k s, (l_n s + k = 25)%nat -> (l_n s = 0%nat -> l_err s = Some 1000) -> (l_n s <> 0%nat -> l_err s = Some (1 / 2)) -> l_ki s = [true; false; false; true] ->
      exists s', iterate 25 st (S k) s = Ok (inr s') /\ l_n s' = 25%nat /\ l_ki s' = [true; false; false; true]).
    { induction k as [|k IH]; intros s N E0 E1 K.
      - exists s. split; [|split; [lia|exact K]]. apply exc_stop. unfold continue. replace (Nat.ltb (l_n s) 25) with false by (symmetry; apply Nat.ltb_ge; lia).
        rewrite Bool.andb_false_r. reflexivity.
      - rewrite exc_iterate.
        2:{ unfold continue. rewrite K. replace (Nat.ltb (l_n s) 25) with true by (symmetry; apply Nat.ltb_lt; lia). cbn [any existsb orb].
            rewrite !Bool.andb_true_r. destruct (Nat.eq_dec (l_n s) 0) as [Z|Z]; [rewrite (E0 Z)|rewrite (E1 Z)]; unfold ogt, oltb, option_map; rewrite Rabs_right by lra; apply Rltb_true; lra. }
        match goal with |- context [bind (st s) _] => idtac end. unfold st at 1.
        match goal with |- context [iteration _ _ _ _ ?d ?e ?u ?c s] =>
          destruct (exc_low (fun _ => 1 / 2) exc_keep d e u c s (1 / 2) (1, l_li s, l_ki s)) as (k0 & ws & lens & gs & d1 & d2 & El) end.
        + reflexivity.
        + lra.
        + unfold ogt, oltb. rewrite !Rltb_false by lra. reflexivity.
        + reflexivity.
        + rewrite El. cbn [bind]. apply IH; cbn; try lia.
          * intros _. f_equal. field.
          * exact K. }
    match goal with |- context [iterate 25 st 26 ?s] => destruct (Q 25%nat s) as (s' & Es & N & K) end; try reflexivity.
    { intros H. exfalso. apply H. reflexivity. }
    rewrite Es. cbn [bind]. rewrite N, K. cbn. eexists. reflexivity.
Qed.
Print Assumptions C63_refuted.
Example C63_example : thickness (LList [(240, 200); (180, 100)]) = Ok 300.
Proof. unfold thickness, rsum. simpl. f_equal. lra. Qed.

(** C73: the search of the upper weight of the damped variant ends when the energy criterion is met
    by all large weights; the weight found meets it. It does not end when no weight meets it. *)
Theorem C73_found create energy fuel w li ki hi :
  raise_weight create energy fuel w li ki = Ok (Some hi) ->
  exists n, hi = w * 2 ^ S n /\ exists s c g, evaluate create energy hi li ki = Ok (s, c, g) /\
    match g with Some x => 1 <= x | None => True end.
Proof.
  intros H. destruct (raise_sound _ _ _ _ _ _ _ H) as (n & E & [[s c] g] & Ev & O). exists n. split; [exact E|]. exists s, c, g. split; [exact Ev|].
  destruct g as [x|]; [|exact I]. simpl in O. unfold Rltb in O. destruct (Rlt_dec x 1); [discriminate|lra].
Qed.
Print Assumptions C73_found.
Theorem C73_terminates create energy li ki W :
  (forall w, exists s c g, evaluate create energy w li ki = Ok (s, c, Some g) /\ (W <= w -> 1 <= g)) ->
  forall w, 0 < w -> exists fuel hi, raise_weight create energy fuel w li ki = Ok (Some hi).
Proof.
  intros H. apply (raise_total create energy li ki W).
  - intros w. destruct (H w) as (s & c & g & E & _). eauto.
  - intros w e L E. destruct (H w) as (s & c & g & E' & G). rewrite E' in E. apply Ok_inj in E. subst e. simpl. apply Rltb_false. specialize (G L). lra.
Qed.
Print Assumptions C73_terminates.
Theorem C73_refuted : exists create energy li ki, forall w, 0 < w ->
  (exists s c g, evaluate create energy w li ki = Ok (s, c, Some g) /\ g < 1) /\
  forall fuel, raise_weight create energy fuel w li ki = Ok None.
Proof.
  exists exc_create, (exc_force (fun _ => 1 / 2)), [1], [true]. intros w _.
  assert (E : forall w, exists s c, evaluate exc_create (exc_force (fun _ => 1 / 2)) w [1] [true] = Ok (s, c, Some (1 / 2))) by (intros v; eexists; eexists; reflexivity).
  split.
  - destruct (E w) as (s & c & H). exists s, c, (1 / 2). split; [exact H|lra].
  - intros fuel. apply raise_never. intros v. destruct (E v) as (s & c & H). eexists. split; [exact H|]. simpl. apply Rltb_true. lra.
Qed.
Print Assumptions C73_refuted.
Example C73_example : exists fuel hi, raise_weight exc_create (exc_force (fun w => w / 1000)) fuel 120 [249; 1; 1; 249] [true; false; false; true] = Ok (Some hi).
Proof.
  apply (C73_terminates _ _ _ _ 1000); [|lra]. intros w. eexists. eexists. exists (w / 1000). split; [reflexivity|]. lra.
Qed.
