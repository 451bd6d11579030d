(** Proofs about the segments between the roots of the stress criterion. *)
From Coq Require Import Lia Lra Ranalysis5.
Require Import Verif.Py Verif.MRaster Verif.MCriterion Verif.SSegment Verif.PSegment.

Fixpoint alt (b : bool) (k : nat) : list bool := match k with O => [] | S k => b :: alt (negb b) k end.
Lemma alt_length b k : List.length (alt b k) = k.
Proof. revert b. induction k; intros b; simpl; auto. Qed.
Lemma alt_nth b k i : (i < k)%nat -> nth_error (alt b k) i = Some (if Nat.even i then b else negb b).
Proof.
  revert b i. induction k as [|k IH]; intros b i H; [lia|]. destruct i as [|i]; [reflexivity|]. cbn [alt nth_error]. rewrite IH by lia.
  rewrite Nat.even_succ, <- Nat.negb_even. destruct (Nat.even i); cbn [negb]; rewrite ?Bool.negb_involutive; reflexivity.
Qed.
Lemma mark_alt k cracked : mark_segments true (repeat true k ++ [false]) cracked = alt (negb cracked) k ++ [true].
Proof.
  revert cracked. induction k as [|k IH]; intros c; [reflexivity|]. cbn [repeat app mark_segments alt andb]. rewrite IH. reflexivity.
Qed.
Lemma index_at l : forall x i k, nth_error l k = Some x -> (forall j, (j < k)%nat -> nth_error l j <> Some x) -> index_of l x i = (i + k)%nat.
Proof.
  induction l as [|a l IH]; intros x i k E H; [destruct k; discriminate|]. cbn [index_of]. unfold Reqb. destruct (Req_EM_T a x) as [->|N].
  - destruct k as [|k]; [lia|]. exfalso. apply (H 0%nat ltac:(lia)). reflexivity.
  - destruct k as [|k]; [injection E as ->; congruence|]. rewrite (IH x (S i) k); [lia|exact E|]. intros j J. apply (H (S j)). lia.
Qed.
Lemma increasing_lt total roots : inside_increasing total roots -> forall i j a b, (i < j)%nat -> nth_error roots i = Some a -> nth_error roots j = Some b -> a < b.
Proof.
  intros [_ S1] i j a b H. revert b. induction H as [|j H IH]; intros b A B; [exact (S1 i a b A B)|].
  destruct (nth_error roots j) as [c|] eqn:E; [|apply nth_error_None in E; assert (S j < List.length roots)%nat by (apply nth_error_Some; congruence); lia].
  pose proof (IH c A eq_refl). pose proof (S1 j c b E B). lra.
Qed.
Lemma some_inj {A} (x y : A) : Some x = Some y -> x = y.
Proof. congruence. Qed.
Section Marks.
Variables (total : R) (roots : list R).
Hypothesis I : inside_increasing total roots.
Let n := List.length roots.
Let b := 0 :: roots ++ [total].
Lemma b_root i a : nth_error roots i = Some a -> index_of b a 0 = S i.
Proof.
  intros E. assert (i < n)%nat by (apply nth_error_Some; congruence). apply (index_at b a 0 (S i)).
  - cbn [b nth_error]. rewrite nth_error_app1 by assumption. exact E.
  - intros [|j] J F; cbn [b nth_error] in F.
    + injection F as <-. pose proof (proj1 I _ _ E). lra.
    + rewrite nth_error_app1 in F by (fold n; lia). pose proof (increasing_lt _ _ I j i a a ltac:(lia) F E). lra.
Qed.
Lemma set_nth_nth {A} (m : list A) i v : (i < List.length m)%nat -> set_nth m i v = firstn i m ++ v :: skipn (S i) m.
Proof.
  revert i. induction m as [|x m IH]; intros i H; [simpl in H; lia|]. destruct i as [|i]; [reflexivity|]. cbn [set_nth firstn skipn app]. rewrite IH by (simpl in H; lia). reflexivity.
Qed.
Lemma marks_step k : (k <= n)%nat -> fold_left (fun m r => set_nth m (index_of b r 0) true) (firstn k roots) (map (fun _ => false) b) =
  false :: repeat true k ++ repeat false (n - k) ++ [false].
Proof.
  induction k as [|k IH]; intros K.
  - cbn [firstn fold_left repeat app]. unfold b. cbn [map]. rewrite map_app. cbn [map]. rewrite Nat.sub_0_r. f_equal. f_equal.
    unfold n. clear. induction roots as [|a l IH]; [reflexivity|]. cbn [map List.length repeat]. f_equal. exact IH.
  - destruct (nth_error roots k) as [a|] eqn:E; [|apply nth_error_None in E; unfold n in K; lia].
    assert (F : firstn (S k) roots = firstn k roots ++ [a]).
    { clear - E. revert k E. induction roots as [|x l IH]; intros [|k] E; cbn [nth_error firstn] in *; try discriminate; [injection E as <-; reflexivity|]. rewrite (IH k E). reflexivity. }
    rewrite F, fold_left_app, IH by lia. cbn [fold_left]. rewrite (b_root k a E). cbn [set_nth]. f_equal.
    replace (n - k)%nat with (S (n - S k)) by lia. rewrite set_nth_nth by (rewrite app_length, repeat_length; simpl; lia).
    rewrite firstn_app, repeat_length, Nat.sub_diag, firstn_all2 by (rewrite repeat_length; lia). cbn [firstn]. rewrite app_nil_r.
    replace (S k) with (k + 1)%nat at 3 by lia. rewrite repeat_app. cbn [repeat]. rewrite <- app_assoc. f_equal. cbn [app]. f_equal.
    rewrite skipn_app, repeat_length. replace (S k - k)%nat with 1%nat by lia. rewrite skipn_all2 by (rewrite repeat_length; lia). reflexivity.
Qed.
Lemma segments_eq : (1 <= n)%nat -> segments_of_roots total roots = (diffs b, true :: alt false (n - 1) ++ [true]).
Proof.
  intros N. unfold segments_of_roots. fold b. f_equal. pose proof (marks_step n (Nat.le_refl n)) as M. unfold n in M at 1. rewrite firstn_all in M. rewrite M.
  rewrite Nat.sub_diag. cbn [repeat app]. replace n with (S (n - 1)) by lia. cbn [repeat app mark_segments andb].
  rewrite mark_alt. replace (S (n - 1) - 1)%nat with (n - 1)%nat by lia. reflexivity.
Qed.
Lemma diffs_start l : forall a i, (i <= List.length l)%nat -> a + seg_start (diffs (a :: l)) i = nth i (a :: l) 0.
Proof.
  induction l as [|c l IH]; intros a i H.
  - destruct i; [|simpl in H; lia]. rewrite seg_start_0. cbn [nth]. lra.
  - destruct i as [|i]; [rewrite seg_start_0; cbn [nth]; lra|]. change (diffs (a :: c :: l)) with ((c - a) :: diffs (c :: l)). rewrite seg_start_cons.
    change (nth (S i) (a :: c :: l) 0) with (nth i (c :: l) 0). rewrite <- IH by (simpl in H; lia). lra.
Qed.
Lemma diffs_length l a : List.length (diffs (a :: l)) = List.length l.
Proof. revert a. induction l as [|c l IH]; intros a; [reflexivity|]. change (diffs (a :: c :: l)) with ((c - a) :: diffs (c :: l)). cbn [List.length]. rewrite IH. reflexivity. Qed.
Lemma start_b i : (i <= S n)%nat -> seg_start (diffs b) i = nth i b 0.
Proof.
  intros H. pose proof (diffs_start (roots ++ [total]) 0 i) as E. fold b in E. rewrite <- E; [lra|]. rewrite app_length. simpl. unfold n in H. lia.
Qed.
Lemma b_nth i : (1 <= i <= n)%nat -> nth_error roots (i - 1) = Some (nth i b 0).
Proof.
  intros H. destruct i as [|i]; [lia|]. cbn [b nth]. replace (S i - 1)%nat with i by lia. rewrite app_nth1 by (fold n; lia).
  apply nth_error_nth'. fold n. lia.
Qed.
Lemma roots_carry x : (1 <= n)%nat -> let '(ls, ks) := segments_of_roots total roots in carries ls ks x false <-> between_pair roots x.
Proof.
  intros N. rewrite segments_eq by exact N. unfold carries, between_pair. 
  assert (L : List.length (diffs b) = S n) by (unfold b; rewrite diffs_length, app_length; simpl; unfold n; lia). rewrite L. split.
  - intros (i & Hi & X & K). rewrite !start_b in X by lia. destruct i as [|i]; [discriminate|]. cbn [nth_error] in K.
    destruct (Nat.lt_ge_cases i (n - 1)) as [H|H].
    + rewrite nth_error_app1 in K by (rewrite alt_length; exact H). rewrite alt_nth in K by exact H. destruct (Nat.even i) eqn:Ev; [|discriminate].
      apply Nat.even_spec in Ev. destruct Ev as [j ->]. exists j, (nth (S (2 * j)) b 0), (nth (S (S (2 * j))) b 0). split; [|split; [|exact X]].
      * rewrite <- b_nth by lia. f_equal. lia.
      * rewrite <- b_nth by lia. f_equal. lia.
    + rewrite nth_error_app2 in K by (rewrite alt_length; exact H). rewrite alt_length in K. destruct (i - (n - 1))%nat as [|q] eqn:Q; [discriminate|]. cbn [nth_error] in K. destruct q; discriminate.
  - intros (j & a & c & Ea & Ec & X). assert (J : (2 * j + 1 < n)%nat) by (apply nth_error_Some; congruence).
    exists (S (2 * j)). split; [lia|]. rewrite !start_b by lia.
    pose proof (b_nth (S (2 * j)) ltac:(lia)) as Ba. pose proof (b_nth (S (S (2 * j))) ltac:(lia)) as Bc.
    replace (S (2 * j) - 1)%nat with (2 * j)%nat in Ba by lia. replace (S (S (2 * j)) - 1)%nat with (2 * j + 1)%nat in Bc by lia.
    rewrite Ea in Ba. rewrite Ec in Bc. apply some_inj in Ba, Bc. split; [rewrite <- Ba, <- Bc; exact X|].
    cbn [nth_error]. rewrite nth_error_app1 by (rewrite alt_length; lia). rewrite alt_nth by lia.
    replace (Nat.even (2 * j)) with true; [reflexivity|]. symmetry. apply Nat.even_spec. exists j. lia.
Qed.
Lemma b_step i : (i <= n)%nat -> 0 < total -> nth i b 0 < nth (S i) b 0.
Proof.
  intros H T. destruct (Nat.eq_dec n 0) as [N0|N0].
  - assert (i = 0%nat) by lia. subst i. unfold b. assert (roots = []) by (destruct roots; [reflexivity|discriminate]). rewrite H0. exact T.
  - destruct i as [|i].
    + pose proof (b_nth 1 ltac:(lia)) as E. apply (proj1 I) in E. change (nth 0 b 0) with 0. apply E.
    + destruct (Nat.eq_dec (S i) n) as [E|E].
      * pose proof (b_nth (S i) ltac:(lia)) as F. apply (proj1 I) in F. assert (G : nth (S (S i)) b 0 = total) by (cbn [b nth]; rewrite app_nth2 by (fold n; lia); replace (S i - List.length roots)%nat with 0%nat by (fold n; lia); reflexivity). rewrite G. apply F.
      * pose proof (b_nth (S i) ltac:(lia)) as A. pose proof (b_nth (S (S i)) ltac:(lia)) as B. replace (S (S i) - 1)%nat with (S (S i - 1)) in B by lia. exact (proj2 I _ _ _ A B).
Qed.
Lemma b_last : nth (S n) b 0 = total.
Proof. cbn [b nth]. rewrite app_nth2 by (fold n; lia). replace (n - List.length roots)%nat with 0%nat by (fold n; lia). reflexivity. Qed.
Lemma segments_good : (1 <= n)%nat -> let '(ls, ks) := segments_of_roots total roots in
  List.length ks = List.length ls /\ (forall l, In l ls -> 0 <= l) /\ rsum ls = total /\ nth_error roots 0 = Some (nth 0 ls 0).
Proof.
  intros N. rewrite segments_eq by exact N.
  assert (L : List.length (diffs b) = S n) by (unfold b; rewrite diffs_length, app_length; simpl; unfold n; lia).
  assert (T : 0 < total). { pose proof (b_nth 1 ltac:(lia)) as E. apply (proj1 I) in E. lra. }
  split; [|split; [|split]].
  - cbn [List.length]. rewrite app_length, alt_length, L. simpl. lia.
  - intros l Hl. apply In_nth with (d := 0) in Hl. destruct Hl as (i & Hi & <-). rewrite L in Hi.
    pose proof (seg_start_S (diffs b) i ltac:(lia)) as E. rewrite !start_b in E by lia. pose proof (b_step i ltac:(lia) T). lra.
  - rewrite <- seg_start_all, L, start_b by lia. apply b_last.
  - pose proof (seg_start_S (diffs b) 0 ltac:(lia)) as E. rewrite seg_start_0, start_b in E by lia. pose proof (b_nth 1 ltac:(lia)) as B. change (1 - 1)%nat with 0%nat in B. rewrite B. f_equal. lra.
Qed.
End Marks.

(** Sign of a continuous function between its zeros. *)
Lemma same_sign f a b : (forall x, a < x < b -> continuity_pt f x) -> (forall x, a < x < b -> f x <> 0) ->
  forall x y, a < x < b -> a < y < b -> 0 < f x -> 0 < f y.
Proof.
  intros C Z x y X Y P. destruct (Rtotal_order (f y) 0) as [L|[L|L]]; [|exfalso; exact (Z y Y L)|exact L]. exfalso.
  destruct (Rtotal_order x y) as [O|[O|O]]; [|subst; lra|].
  - destruct (IVT_interv (fun t => - f t) x y) as (t & T & E); try lra.
    + intros t T. apply (continuity_pt_opp f). apply C. lra.
    + apply (Z t); lra.
  - destruct (IVT_interv f y x) as (t & T & E); try lra.
    + intros t T. apply C. lra.
    + apply (Z t); lra.
Qed.
Lemma sign_alternates f total roots : sign_changes f total roots -> 0 < total -> f 0 < 0 ->
  forall i x, (i <= List.length roots)%nat -> nth i (0 :: roots ++ [total]) 0 < x < nth (S i) (0 :: roots ++ [total]) 0 ->
  if Nat.even i then f x < 0 else 0 < f x.
Proof.
  intros SC T F0. set (b := 0 :: roots ++ [total]). set (n := List.length roots).
  assert (Bd : forall i, (i <= S n)%nat -> 0 <= nth i b 0 <= total).
  { intros i H. destruct (Nat.eq_dec i 0) as [->|N0]; [cbn; lra|]. destruct (Nat.eq_dec i (S n)) as [->|N1]; [rewrite (b_last total roots : nth (S n) b 0 = total); lra|].
    pose proof (b_nth total roots i ltac:(fold n; lia)) as E. apply (proj1 (sc_order _ _ _ SC)) in E. fold b in E. lra. }
  assert (NZ : forall i, (i <= n)%nat -> forall x, nth i b 0 < x < nth (S i) b 0 -> f x <> 0).
  { intros i H x X E. pose proof (Bd i ltac:(lia)). pose proof (Bd (S i) ltac:(lia)). apply (sc_zeros _ _ _ SC) in E; [|lra]. apply In_nth_error in E. destruct E as [k E].
    assert (K : (k < n)%nat) by (apply nth_error_Some; congruence). pose proof (b_nth total roots (S k) ltac:(fold n; lia)) as B. replace (S k - 1)%nat with k in B by lia. rewrite E in B. apply some_inj in B.
    fold b in B. assert (Mo : forall p q, (p <= q <= S n)%nat -> nth p b 0 <= nth q b 0).
    { intros p q (Hpq & Hq). induction Hpq as [|q Hpq IH]; [lra|]. specialize (IH ltac:(lia)). pose proof (b_step total roots (sc_order _ _ _ SC) q ltac:(fold n; lia) T) as St. fold b in St. lra. }
    destruct (Nat.le_gt_cases (S k) i) as [Q|Q]; [pose proof (Mo (S k) i ltac:(lia))|pose proof (Mo (S i) (S k) ltac:(lia))]; lra. }
  assert (Ct : forall i, (i <= n)%nat -> forall x, nth i b 0 < x < nth (S i) b 0 -> continuity_pt f x).
  { intros i H x X. pose proof (Bd i ltac:(lia)). pose proof (Bd (S i) ltac:(lia)). apply (sc_continuous _ _ _ SC). lra. }
  induction i as [|i IH]; intros x H X.
  - cbn [Nat.even]. destruct (Rtotal_order (f x) 0) as [L|[L|L]]; [exact L|exfalso; exact (NZ 0%nat H x X L)|]. exfalso.
    change (nth 0 b 0) with 0 in X. pose proof (Bd 1%nat ltac:(lia)). destruct (IVT_interv f 0 x) as (t & Tt & E); try lra.
    + intros t Tt. apply (sc_continuous _ _ _ SC). lra.
    + destruct (Req_dec t 0) as [->|]; [lra|]. destruct (Req_dec t x) as [->|]; [lra|]. apply (NZ 0%nat H t); [|exact E]. change (nth 0 b 0) with 0. lra.
  - pose proof (b_nth total roots (S i) ltac:(fold n; lia)) as Er. fold b in Er. set (r := nth (S i) b 0) in *.
    destruct (sc_change _ _ _ SC r (nth_error_In _ _ Er)) as (e & E0 & Ec).
    pose proof (b_step total roots (sc_order _ _ _ SC) i ltac:(fold n; lia) T) as S1. pose proof (b_step total roots (sc_order _ _ _ SC) (S i) ltac:(fold n; lia) T) as S2. fold b in S1, S2. fold r in S1, S2.
    set (d := Rmin e (Rmin (r - nth i b 0) (nth (S (S i)) b 0 - r)) / 2).
    assert (D : 0 < d /\ d < e /\ d < r - nth i b 0 /\ d < nth (S (S i)) b 0 - r).
    { assert (0 < Rmin e (Rmin (r - nth i b 0) (nth (S (S i)) b 0 - r))) by (apply Rmin_glb_lt; [lra|apply Rmin_glb_lt; lra]).
      pose proof (Rmin_l e (Rmin (r - nth i b 0) (nth (S (S i)) b 0 - r))). pose proof (Rmin_r e (Rmin (r - nth i b 0) (nth (S (S i)) b 0 - r))).
      pose proof (Rmin_l (r - nth i b 0) (nth (S (S i)) b 0 - r)). pose proof (Rmin_r (r - nth i b 0) (nth (S (S i)) b 0 - r)). unfold d. lra. }
    specialize (Ec d ltac:(lra)). specialize (IH (r - d) ltac:(lia) ltac:(fold r; lra)).
    assert (SS : forall u v, nth (S i) b 0 < u < nth (S (S i)) b 0 -> nth (S i) b 0 < v < nth (S (S i)) b 0 -> 0 < f u -> 0 < f v).
    { apply same_sign; [apply (Ct (S i)); lia|apply (NZ (S i)); lia]. }
    assert (Y : nth (S i) b 0 < r + d < nth (S (S i)) b 0) by (fold r; lra).
    rewrite Nat.even_succ, <- Nat.negb_even. destruct (Nat.even i); cbn [negb].
    + apply (SS (r + d) x Y X). nra.
    + destruct (Rtotal_order (f x) 0) as [L|[L|L]]; [exact L|exfalso; exact (NZ (S i) H x X L)|]. pose proof (SS x (r + d) X Y L). nra.
Qed.
Lemma between_positive f total roots : sign_changes f total roots -> 0 < total -> f 0 < 0 -> f total < 0 ->
  forall x, 0 < x < total -> ~ In x roots -> (0 < f x <-> between_pair roots x).
Proof.
  intros SC T F0 FT x X NI. set (n := List.length roots). set (b := 0 :: roots ++ [total]). pose proof (sign_alternates f total roots SC T F0) as SA. fold b n in SA.
  pose proof (b_step total roots (sc_order _ _ _ SC)) as Bs. fold n b in Bs.
  assert (Ev : Nat.even n = true).
  { destruct (Nat.even n) eqn:E; [reflexivity|]. exfalso. pose proof (Bs n (Nat.le_refl n) T) as St. rewrite (b_last total roots : nth (S n) b 0 = total) in St.
    assert (P : 0 < f ((nth n b 0 + total) / 2)). { pose proof (SA n ((nth n b 0 + total) / 2) (Nat.le_refl n)) as Q. rewrite E in Q. apply Q. rewrite (b_last total roots : nth (S n) b 0 = total). lra. }
    assert (Bn : 0 <= nth n b 0).
    { destruct (Nat.eq_dec n 0) as [Z|Z]; [rewrite Z; cbn; lra|]. pose proof (b_nth total roots n ltac:(fold n; lia)) as B. apply (proj1 (sc_order _ _ _ SC)) in B. fold b in B. lra. }
    destruct (IVT_interv (fun t => - f t) ((nth n b 0 + total) / 2) total) as (t & Tt & Et); try lra.
    - intros t Tt. apply (continuity_pt_opp f), (sc_continuous _ _ _ SC). lra.
    - destruct (Req_dec t total) as [->|Nt]; [lra|]. assert (Q : 0 < f t). { pose proof (SA n t (Nat.le_refl n)) as Q. rewrite E in Q. apply Q. rewrite (b_last total roots : nth (S n) b 0 = total). lra. } lra. }
  (* interval of x *)
  assert (W : forall k, (k <= n)%nat -> x < nth (S k) b 0 -> exists i, (i <= k)%nat /\ nth i b 0 < x < nth (S i) b 0).
  { induction k as [|k IH]; intros K L.
    - exists 0%nat. split; [lia|]. change (nth 0 b 0) with 0. lra.
    - destruct (Rtotal_order x (nth (S k) b 0)) as [O|[O|O]].
      + destruct (IH ltac:(lia) O) as (i & Hi & Q). exists i. split; [lia|exact Q].
      + exfalso. apply NI. rewrite O. pose proof (b_nth total roots (S k) ltac:(fold n; lia)) as B. apply nth_error_In in B. exact B.
      + exists (S k). split; [lia|lra]. }
  destruct (W n (Nat.le_refl n)) as (i & Hi & Xi); [rewrite (b_last total roots : nth (S n) b 0 = total); lra|]. pose proof (SA i x Hi Xi) as Sx. split.
  - intros P. destruct (Nat.even i) eqn:Ei; [lra|]. assert (O : Nat.odd i = true) by (rewrite <- Nat.negb_even, Ei; reflexivity). apply Nat.odd_spec in O. destruct O as [j ->].
    assert (2 * j + 1 <> n)%nat by (intros Q; rewrite Q, Ev in Ei; discriminate).
    exists j, (nth (2 * j + 1) b 0), (nth (S (2 * j + 1)) b 0). split; [|split; [|exact Xi]].
    + pose proof (b_nth total roots (2 * j + 1) ltac:(fold n; lia)) as B. fold b in B. rewrite <- B. f_equal. lia.
    + pose proof (b_nth total roots (S (2 * j + 1)) ltac:(fold n; lia)) as B. fold b in B. rewrite <- B. f_equal. lia.
  - intros (j & a & c & Ea & Ec & Q). assert (J : (2 * j + 1 < n)%nat) by (apply nth_error_Some; congruence).
    pose proof (b_nth total roots (S (2 * j)) ltac:(fold n; lia)) as Ba. pose proof (b_nth total roots (S (S (2 * j))) ltac:(fold n; lia)) as Bc.
    replace (S (2 * j) - 1)%nat with (2 * j)%nat in Ba by lia. replace (S (S (2 * j)) - 1)%nat with (2 * j + 1)%nat in Bc by lia.
    rewrite Ea in Ba. rewrite Ec in Bc. apply some_inj in Ba, Bc. fold b in Ba, Bc.
    pose proof (SA (S (2 * j)) x ltac:(lia) ltac:(rewrite <- Ba, <- Bc; exact Q)) as P. rewrite Nat.even_succ, <- Nat.negb_even in P.
    replace (Nat.even (2 * j)) with true in P; [exact P|]. symmetry. apply Nat.even_spec. exists j. lia.
Qed.

(** Cracked length. *)
Definition cl (ls : list R) (ks : list bool) : R := rsum (map2 (fun l (k : bool) => if k then 0 else l) ls ks).
Lemma cracked_cl ls : forall ks, cracked_length ls ks = cl ls ks.
Proof.
  induction ls as [|l ls IH]; intros ks; [reflexivity|]. destruct ks as [|k ks]; [reflexivity|].
  unfold cracked_length, cl in *. cbn [combine filter map2 snd]. destruct k; cbn [negb map fst]; unfold rsum in *; cbn [fold_right]; rewrite IH; ring.
Qed.
Lemma cl_app a ka b kb : List.length ka = List.length a -> cl (a ++ b) (ka ++ kb) = cl a ka + cl b kb.
Proof.
  revert ka. induction a as [|x a IH]; intros [|k ka] H; try discriminate; [unfold cl, rsum; simpl; ring|].
  unfold cl in *. cbn [app map2]. unfold rsum in *. cbn [fold_right]. rewrite IH by (simpl in H; lia). ring.
Qed.
Lemma cl_cons x a k ka : cl (x :: a) (k :: ka) = (if k then 0 else x) + cl a ka.
Proof. reflexivity. Qed.
Lemma cracked_split ls ks ls' ks' : List.length ks = List.length ls -> nth 0 ls 0 < rsum ls / 2 -> ls <> [] ->
  split_segments_at_midpoint ls ks = Ok (ls', ks') -> cracked_length ls' ks' = cracked_length ls ks.
Proof.
  intros HL HM NE. rewrite !cracked_cl. unfold split_segments_at_midpoint.
  destruct (cumsum ls) as [|c0 cs] eqn:EC; [discriminate|]. rewrite <- EC. clear c0 cs EC. rewrite cumsum_last by exact NE.
  assert (LC : List.length (cumsum ls) = List.length ls) by apply cumsum_from_length.
  assert (CN : forall i, (i < List.length ls)%nat -> nth i (cumsum ls) 0 = seg_start ls (S i)).
  { intros i I. unfold cumsum. rewrite cumsum_from_nth by exact I. ring. }
  destruct (first_ge (cumsum ls) 0 (rsum ls / 2)) as [i|] eqn:EG; [|intros E; injection E as <- <-; reflexivity].
  destruct (nth_error ks i) as [k|] eqn:EK; [|discriminate].
  destruct (first_ge_some _ _ _ _ EG) as (j & Ej & J & A & B). simpl in Ej. subst j. rewrite LC in J. rewrite CN in A by exact J.
  destruct i as [|j].
  { exfalso. rewrite seg_start_S, seg_start_0 in A by exact J. lra. }
  intros E. injection E as <- <-. rewrite !CN by lia.
  assert (Lk : List.length (firstn (S j) ks) = List.length (firstn (S j) ls)) by (rewrite !firstn_length; lia).
  transitivity (cl (firstn (S j) ls ++ nth (S j) ls 0 :: skipn (S (S j)) ls) (firstn (S j) ks ++ k :: skipn (S (S j)) ks)).
  - rewrite !cl_app by exact Lk. f_equal. cbn [app]. rewrite !cl_cons. rewrite (seg_start_S ls (S j)) by exact J. set (u := cl (skipn (S (S j)) ls) (skipn (S (S j)) ks)). change (cl _ _) with u. destruct k; ring.
  - rewrite <- (split_decompose R ls (S j) 0 J). f_equal. rewrite (split_decompose bool ks (S j) false ltac:(lia)) at 3. f_equal. f_equal. symmetry. apply nth_error_nth. exact EK.
Qed.
Lemma cl_pairs T l : (forall r, cl (diffs (r :: l ++ [T])) (alt false (List.length l) ++ [true]) = pair_length (r :: l)) /\
  (forall r, cl (diffs (r :: l ++ [T])) (alt true (List.length l) ++ [true]) = pair_length l).
Proof.
  induction l as [|c l [IH1 IH2]]; [split; intros r; unfold cl, rsum; cbn; ring|].
  split; intros r; cbn [app List.length alt negb]; change (diffs (r :: c :: l ++ [T])) with ((c - r) :: diffs (c :: l ++ [T])); rewrite cl_cons.
  - rewrite IH2. reflexivity.
  - rewrite IH1. ring.
Qed.
Lemma cracked_roots total roots : inside_increasing total roots -> roots <> [] ->
  cracked_length (fst (segments_of_roots total roots)) (snd (segments_of_roots total roots)) = pair_length roots.
Proof.
  intros I N. rewrite (segments_eq total roots I) by (destruct roots; [congruence|simpl; lia]). cbn [fst snd]. rewrite cracked_cl.
  destruct roots as [|r l]; [congruence|]. cbn [app List.length]. change (diffs (0 :: r :: l ++ [total])) with ((r - 0) :: diffs (r :: l ++ [total])). rewrite cl_cons.
  replace (S (List.length l) - 1)%nat with (List.length l) by lia. rewrite (proj1 (cl_pairs total l)). ring.
Qed.
