(** Proofs about segment lists (C57, C58, C64). *)
Require Import Verif.Py Verif.MRaster Verif.MCriterion Verif.SSegment Verif.PSetup Verif.PEnvelope.

Lemma seg_start_0 ls : seg_start ls 0 = 0.
Proof. reflexivity. Qed.
Lemma seg_start_cons l ls i : seg_start (l :: ls) (S i) = l + seg_start ls i.
Proof. reflexivity. Qed.
Lemma seg_start_all ls : seg_start ls (List.length ls) = rsum ls.
Proof. unfold seg_start. rewrite firstn_all. reflexivity. Qed.
Lemma seg_start_S ls i : (i < List.length ls)%nat -> seg_start ls (S i) = seg_start ls i + nth i ls 0.
Proof.
  revert i. induction ls as [|l ls IH]; intros i H; simpl in H; [lia|]. destruct i as [|i].
  - rewrite seg_start_cons, !seg_start_0. simpl. ring.
  - rewrite !seg_start_cons, IH by lia. simpl. ring.
Qed.
Lemma rsum_app a b : rsum (a ++ b) = rsum a + rsum b.
Proof. induction a as [|x a IH]; simpl; [unfold rsum; simpl; ring|]. unfold rsum in *. simpl. rewrite IH. ring. Qed.

(** * Lookup *)
Lemma find_loop_some ls index cum x i xi : find_segment_loop ls index cum x = Some (i, xi) ->
  exists j, i = (index + j)%nat /\ (j < List.length ls)%nat /\ x <= cum + seg_start ls (S j) /\
    (forall m, (m < j)%nat -> cum + seg_start ls (S m) < x) /\ xi = x - (cum + seg_start ls j).
Proof.
  revert index cum. induction ls as [|l ls IH]; intros index cum H; [discriminate|]. simpl in H.
  unfold Rleb in H. destruct (Rle_dec x (cum + l)) as [L|L].
  - injection H as <- <-. exists 0%nat. split; [lia|]. split; [simpl; lia|]. rewrite seg_start_cons, !seg_start_0.
    split; [lra|]. split; [intros m M; lia|ring].
  - destruct (IH _ _ H) as (j & -> & J & A & B & ->). exists (S j). split; [lia|]. split; [simpl; lia|].
    rewrite !seg_start_cons. split; [lra|]. split; [|ring].
    intros m M. rewrite seg_start_cons. destruct m as [|m]; [rewrite seg_start_0; lra|]. pose proof (B m ltac:(lia)). lra.
Qed.
Lemma find_loop_none ls index cum x : find_segment_loop ls index cum x = None ->
  forall m, (m < List.length ls)%nat -> cum + seg_start ls (S m) < x.
Proof.
  revert index cum. induction ls as [|l ls IH]; intros index cum H m M; simpl in M; [lia|]. simpl in H.
  unfold Rleb in H. destruct (Rle_dec x (cum + l)) as [L|L]; [discriminate|].
  rewrite seg_start_cons. destruct m as [|m]; [rewrite seg_start_0; lra|]. pose proof (IH _ _ H m ltac:(lia)). lra.
Qed.
Definition is_first (ls : list R) (x : R) (i : nat) (xi : R) : Prop :=
  (i < List.length ls)%nat /\ x <= seg_start ls (S i) /\ (forall m, (m < i)%nat -> seg_start ls (S m) < x) /\ xi = x - seg_start ls i.
Lemma is_first_unique ls x i xi j xj : is_first ls x i xi -> is_first ls x j xj -> i = j /\ xi = xj.
Proof.
  intros (A & B & C & D) (A' & B' & C' & D'). assert (i = j).
  { destruct (Nat.lt_total i j) as [L|[E|L]]; [|exact E|].
    - pose proof (C' i L). lra.
    - pose proof (C j L). lra. }
  subst j. split; [reflexivity|]. congruence.
Qed.
Lemma find_lookup ls x i xi : List.length ls <> 1%nat -> (find_segment_index ls x = Some (i, xi) <-> is_first ls x i xi).
Proof.
  intros N. assert (E : find_segment_index ls x = find_segment_loop ls 0 0 x).
  { unfold find_segment_index. destruct ls as [|a [|b ls]]; try reflexivity. exfalso. apply N. reflexivity. }
  rewrite E. split.
  - intros H. destruct (find_loop_some _ _ _ _ _ _ H) as (j & -> & J & A & B & ->). simpl.
    split; [exact J|]. split; [lra|]. split; [intros m M; pose proof (B m M); lra|lra].
  - intros F. destruct (find_segment_loop ls 0 0 x) as [[j xj]|] eqn:G.
    + assert (F' : is_first ls x j xj).
      { destruct (find_loop_some _ _ _ _ _ _ G) as (q & -> & J & A & B & ->). simpl.
        split; [exact J|]. split; [lra|]. split; [intros m M; pose proof (B m M); lra|lra]. }
      destruct (is_first_unique _ _ _ _ _ _ F F') as [-> ->]. reflexivity.
    + destruct F as (J & A & _). pose proof (find_loop_none _ _ _ _ G i J). lra.
Qed.
Lemma find_none ls x : List.length ls <> 1%nat ->
  (find_segment_index ls x = None <-> forall m, (m < List.length ls)%nat -> seg_start ls (S m) < x).
Proof.
  intros N. split.
  - intros H m M. assert (E : find_segment_index ls x = find_segment_loop ls 0 0 x).
    { unfold find_segment_index. destruct ls as [|a [|b ls]]; try reflexivity. exfalso. apply N. reflexivity. }
    rewrite E in H. pose proof (find_loop_none _ _ _ _ H m M). lra.
  - intros H. destruct (find_segment_index ls x) as [[i xi]|] eqn:E; [|reflexivity].
    apply find_lookup in E; [|exact N]. destruct E as (J & A & _). pose proof (H i J). lra.
Qed.

(** * Splitting *)
Lemma cumsum_from_nth ls acc i : (i < List.length ls)%nat -> nth i (cumsum_from acc ls) 0 = acc + seg_start ls (S i).
Proof.
  revert acc i. induction ls as [|l ls IH]; intros acc i H; simpl in H; [lia|]. rewrite seg_start_cons. destruct i as [|i]; simpl.
  - rewrite seg_start_0. ring.
  - rewrite IH by lia. ring.
Qed.
Lemma cumsum_from_length ls acc : List.length (cumsum_from acc ls) = List.length ls.
Proof. revert acc. induction ls as [|l ls IH]; intros acc; simpl; [reflexivity|]. rewrite IH. reflexivity. Qed.
Lemma cumsum_last ls : ls <> [] -> last (cumsum ls) 0 = rsum ls.
Proof.
  intros N. unfold cumsum. assert (G : forall l acc, l <> [] -> last (cumsum_from acc l) 0 = acc + rsum l).
  { clear. induction l as [|a l IH]; intros acc N; [congruence|]. simpl. destruct l as [|b l].
    - simpl. unfold rsum. simpl. ring.
    - assert (E := IH (acc + a) ltac:(discriminate)). simpl in E |- *. rewrite E. unfold rsum. simpl. ring. }
  rewrite G by exact N. ring.
Qed.
Lemma first_ge_some c i0 m i : first_ge c i0 m = Some i -> exists j, i = (i0 + j)%nat /\ (j < List.length c)%nat /\ m <= nth j c 0 /\
  forall q, (q < j)%nat -> nth q c 0 < m.
Proof.
  revert i0. induction c as [|a c IH]; intros i0 H; [discriminate|]. simpl in H. unfold Rleb in H. destruct (Rle_dec m a) as [L|L].
  - injection H as <-. exists 0%nat. split; [lia|]. split; [simpl; lia|]. split; [exact L|]. intros q Q. lia.
  - destruct (IH _ H) as (j & -> & J & A & B). exists (S j). split; [lia|]. split; [simpl; lia|]. split; [exact A|].
    intros [|q] Q; simpl; [lra|]. apply B. lia.
Qed.
Lemma first_ge_none c i0 m : first_ge c i0 m = None -> forall q, (q < List.length c)%nat -> nth q c 0 < m.
Proof.
  revert i0. induction c as [|a c IH]; intros i0 H q Q; simpl in Q; [lia|]. simpl in H. unfold Rleb in H. destruct (Rle_dec m a) as [L|L]; [discriminate|].
  destruct q as [|q]; simpl; [lra|]. apply (IH _ H). lia.
Qed.

Section Split.
Variables (a b : list R) (ka kb : list bool) (l s : R) (k : bool).
Hypothesis Ha : List.length ka = List.length a.
Let old := a ++ l :: b.
Let new := a ++ [s; l - s] ++ b.
Let oldk := ka ++ k :: kb.
Let newk := ka ++ [k; k] ++ kb.
Let n := List.length a.
Lemma ss_low i : (i <= n)%nat -> seg_start new i = seg_start old i.
Proof.
  intros H. unfold seg_start, new, old. rewrite !firstn_app. replace (i - List.length a)%nat with 0%nat by (unfold n in H; lia). reflexivity.
Qed.
Lemma ss_mid : seg_start new (S n) = rsum a + s.
Proof.
  unfold seg_start, new. rewrite firstn_app. replace (S n - List.length a)%nat with 1%nat by (unfold n; lia).
  rewrite firstn_all2 by (unfold n; lia). rewrite rsum_app. unfold rsum. simpl. ring.
Qed.
Lemma ss_n : seg_start old n = rsum a.
Proof.
  unfold seg_start, old. rewrite firstn_app. replace (n - List.length a)%nat with 0%nat by (unfold n; lia).
  rewrite firstn_all2 by (unfold n; lia). rewrite firstn_O, app_nil_r. reflexivity.
Qed.
Lemma ss_high i : (n < i)%nat -> seg_start new (S i) = seg_start old i.
Proof.
  intros H. unfold seg_start, new, old. rewrite !firstn_app. rewrite (@firstn_all2 R (S i) a), (@firstn_all2 R i a) by (unfold n in H; lia).
  rewrite !rsum_app. f_equal. assert (E : exists m, i = (List.length a + S m)%nat) by (exists (i - List.length a - 1)%nat; unfold n in H; lia).
  destruct E as [m ->]. replace (List.length a + S m - List.length a)%nat with (S m) by lia.
  replace (S (List.length a + S m) - List.length a)%nat with (S (S m)) by lia. simpl. unfold rsum. simpl. rewrite firstn_nil, Nat.sub_0_r. simpl. ring.
Qed.
Lemma split_total : rsum new = rsum old.
Proof. unfold new, old. rewrite !rsum_app. unfold rsum. simpl. ring. Qed.
Lemma nk_low i : (i < n)%nat -> nth_error newk i = nth_error oldk i.
Proof. intros H. unfold newk, oldk. rewrite !nth_error_app1 by (rewrite Ha; exact H). reflexivity. Qed.
Lemma nk_at (l0 : list bool) m : nth_error (ka ++ l0) (n + m) = nth_error l0 m.
Proof. rewrite nth_error_app2 by (rewrite Ha; unfold n; lia). f_equal. rewrite Ha. unfold n. lia. Qed.
Lemma nk_n : nth_error newk n = Some k /\ nth_error newk (S n) = Some k /\ nth_error oldk n = Some k.
Proof.
  unfold newk, oldk. replace (S n) with (n + 1)%nat by lia. rewrite nk_at.
  replace n with (n + 0)%nat by lia. rewrite !nk_at. auto.
Qed.
Lemma nk_high i : (n < i)%nat -> nth_error newk (S i) = nth_error oldk i.
Proof.
  intros H. unfold newk, oldk. replace (S i) with (n + S (S (i - n - 1)))%nat by lia. rewrite nk_at.
  replace i with (n + S (i - n - 1))%nat at 2 by lia. rewrite nk_at. reflexivity.
Qed.
Lemma split_carries x q : 0 <= s <= l -> x <> rsum a + s -> (carries new newk x q <-> carries old oldk x q).
Proof.
  intros [S0 S1] NX. destruct nk_n as (K1 & K2 & K3).
  assert (Lo : List.length old = (n + S (List.length b))%nat) by (unfold old, n; rewrite app_length; reflexivity).
  assert (Ln : List.length new = (n + S (S (List.length b)))%nat) by (unfold new, n; rewrite app_length; reflexivity).
  assert (E1 : seg_start old (S n) = rsum a + l).
  { rewrite <- ss_high by lia. unfold seg_start, new. rewrite firstn_app. replace (S (S n) - List.length a)%nat with 2%nat by (unfold n; lia).
    rewrite firstn_all2 by (unfold n; lia). rewrite rsum_app. unfold rsum. simpl. ring. }
  pose proof ss_n as E0. split; intros (i & I & X & N).
  - destruct (Nat.lt_total i n) as [L|[E|L]].
    + exists i. split; [lia|]. rewrite <- !ss_low by lia. rewrite <- nk_low by exact L. auto.
    + subst i. exists n. split; [lia|]. rewrite (ss_low n) in X by lia. rewrite ss_mid in X. rewrite E1, E0 in *. split; [lra|]. congruence.
    + destruct i as [|i]; [lia|]. destruct (Nat.eq_dec i n) as [->|D].
      * exists n. split; [lia|]. rewrite ss_mid, (ss_high (S n)) in X by lia. rewrite E1, E0 in *. split; [lra|]. congruence.
      * exists i. split; [lia|]. rewrite (ss_high i), (ss_high (S i)) in X by lia. rewrite nk_high in N by lia. auto.
  - destruct (Nat.lt_total i n) as [L|[E|L]].
    + exists i. split; [lia|]. rewrite !ss_low by lia. rewrite nk_low by exact L. auto.
    + subst i. rewrite E0, E1 in X. destruct (Rlt_dec x (rsum a + s)) as [Y|Y].
      * exists n. split; [lia|]. rewrite (ss_low n), ss_mid, E0 by lia. split; [lra|]. congruence.
      * exists (S n). split; [lia|]. rewrite ss_mid, (ss_high (S n)), E1 by lia. split; [lra|]. congruence.
    + exists (S i). split; [lia|]. rewrite (ss_high i), (ss_high (S i)) by lia. rewrite nk_high by lia. auto.
Qed.
End Split.

Lemma split_decompose (A : Type) (l : list A) i d : (i < List.length l)%nat ->
  l = firstn i l ++ nth i l d :: skipn (S i) l.
Proof.
  revert i. induction l as [|a l IH]; intros i H; simpl in H; [lia|]. destruct i as [|i]; [reflexivity|]. simpl. f_equal. apply IH. lia.
Qed.
Lemma split_sound ls ks : List.length ks = List.length ls -> nth 0 ls 0 < rsum ls / 2 -> (forall l, In l ls -> 0 <= l) ->
  exists ls' ks', split_segments_at_midpoint ls ks = Ok (ls', ks') /\ List.length ks' = List.length ls' /\
    (forall l, In l ls' -> 0 <= l) /\ rsum ls' = rsum ls /\
    (exists j, (j <= List.length ls')%nat /\ seg_start ls' j = rsum ls / 2) /\
    (forall x q, x <> rsum ls / 2 -> (carries ls' ks' x q <-> carries ls ks x q)).
Proof.
  intros HL HM HP. assert (NE : ls <> []) by (intros ->; simpl in HM; unfold rsum in HM; simpl in HM; lra).
  unfold split_segments_at_midpoint. destruct (cumsum ls) as [|c0 cs] eqn:EC.
  { exfalso. apply NE. apply length_zero_iff_nil. rewrite <- (cumsum_from_length ls 0). fold (cumsum ls). rewrite EC. reflexivity. }
  rewrite <- EC. clear c0 cs EC. rewrite cumsum_last by exact NE.
  assert (LC : List.length (cumsum ls) = List.length ls) by apply cumsum_from_length.
  assert (CN : forall i, (i < List.length ls)%nat -> nth i (cumsum ls) 0 = seg_start ls (S i)).
  { intros i I. unfold cumsum. rewrite cumsum_from_nth by exact I. ring. }
  assert (TP : 0 <= rsum ls). { clear -HP. induction ls as [|a ls IH]; unfold rsum in *; simpl; [lra|]. pose proof (HP a (or_introl eq_refl)). pose proof (IH ltac:(intros l I; apply HP; right; exact I)). lra. }
  destruct (first_ge (cumsum ls) 0 (rsum ls / 2)) as [i|] eqn:EG.
  2:{ pose proof (first_ge_none _ _ _ EG (List.length ls - 1)) as Q. assert (0 < List.length ls)%nat by (destruct ls; [congruence|simpl; lia]).
      rewrite LC in Q. specialize (Q ltac:(lia)). rewrite CN in Q by lia. replace (S (List.length ls - 1)) with (List.length ls) in Q by lia.
      rewrite seg_start_all in Q. lra. }
  destruct (first_ge_some _ _ _ _ EG) as (j & Ej & J & A & B). simpl in Ej. subst j. rewrite LC in J. rewrite CN in A by exact J.
  destruct i as [|j].
  { exfalso. rewrite seg_start_S, seg_start_0 in A by exact J. lra. }
  assert (KE : exists kk, nth_error ks (S j) = Some kk).
  { destruct (nth_error ks (S j)) eqn:E; [eauto|]. apply nth_error_None in E. lia. }
  destruct KE as [kk KE]. rewrite KE.
  pose proof (B j ltac:(lia)) as B'. rewrite CN in B' by lia.
  rewrite !CN by lia. do 2 eexists. split; [reflexivity|].
  set (a := firstn (S j) ls). set (b := skipn (S (S j)) ls). set (ka := firstn (S j) ks). set (kb := skipn (S (S j)) ks).
  set (l := nth (S j) ls 0). set (s := rsum ls / 2 - seg_start ls (S j)).
  assert (El : seg_start ls (S (S j)) - rsum ls / 2 = l - s) by (unfold l, s; rewrite (seg_start_S ls (S j)) by exact J; ring).
  rewrite El. assert (Els : ls = a ++ l :: b) by (apply split_decompose; exact J).
  assert (Eks : ks = ka ++ kk :: kb).
  { rewrite (split_decompose bool ks (S j) false ltac:(lia)) at 1. unfold ka, kb. f_equal. f_equal. apply nth_error_nth. exact KE. }
  assert (Ea : rsum a = seg_start ls (S j)) by reflexivity.
  assert (Hs : 0 <= s <= l). { unfold s. rewrite (seg_start_S ls (S j)) in A by exact J. fold l in A. lra. }
  assert (Lka : List.length ka = List.length a) by (unfold ka, a; rewrite !firstn_length; lia).
  assert (Lkb : List.length kb = List.length b) by (unfold kb, b; rewrite !skipn_length; lia).
  split; [rewrite !app_length; simpl; lia|]. split; [|split; [|split]].
  - intros q Q. apply in_app_or in Q. destruct Q as [Q|[<-|[<-|Q]]]; try lra.
    + apply HP. rewrite Els. apply in_or_app. left. exact Q.
    + apply HP. rewrite Els. apply in_or_app. right. right. exact Q.
  - transitivity (rsum (a ++ l :: b)); [apply split_total|rewrite <- Els; reflexivity].
  - exists (S (List.length a)). split; [rewrite app_length; simpl; lia|].
    etransitivity; [apply (ss_mid a b ka l s Lka)|]. unfold s. rewrite Ea. ring.
  - intros x q NX. transitivity (carries (a ++ l :: b) (ka ++ kk :: kb) x q); [|rewrite <- Els, <- Eks; reflexivity]. apply split_carries; [exact Lka|exact Hs|]. rewrite Ea. unfold s. lra.
Qed.

(** * Skier placement *)
Lemma seg_start_mono ls i j : (forall l, In l ls -> 0 <= l) -> (i <= j)%nat -> seg_start ls i <= seg_start ls j.
Proof.
  revert i j. induction ls as [|l ls IH]; intros i j P H.
  - unfold seg_start. rewrite !firstn_nil. lra.
  - destruct i as [|i]; destruct j as [|j]; try lia.
    + lra.
    + rewrite seg_start_0, seg_start_cons. pose proof (P l (or_introl eq_refl)).
      pose proof (IH 0%nat j ltac:(intros q Q; apply P; right; exact Q) ltac:(lia)) as Q. rewrite seg_start_0 in Q. lra.
    + rewrite !seg_start_cons. pose proof (IH i j ltac:(intros q Q; apply P; right; exact Q) ltac:(lia)). lra.
Qed.
Lemma median_some ls i0 cum half m : median_loop ls i0 cum half = Ok (Some m) ->
  exists j, (S j < List.length ls)%nat /\ half <= cum + seg_start ls (S j) /\ (forall q, (q < j)%nat -> cum + seg_start ls (S q) < half) /\
    ((m = (i0 + j)%nat /\ nth (S j) ls 0 <> 0) \/ (m = (i0 + S j)%nat /\ nth (S j) ls 0 = 0)).
Proof.
  revert i0 cum. induction ls as [|l ls IH]; intros i0 cum H; [discriminate|]. simpl in H. unfold Rleb in H.
  destruct (Rle_dec half (cum + l)) as [L|L].
  - destruct ls as [|l1 ls]; [discriminate|]. apply Ok_inj in H. injection H as <-. exists 0%nat.
    split; [simpl; lia|]. rewrite seg_start_cons, seg_start_0. split; [lra|]. split; [intros q Q; lia|].
    unfold Reqb. simpl. destruct (Req_EM_T l1 0); [right|left]; (split; [lia|assumption]).
  - destruct (IH _ _ H) as (j & J & A & B & C). exists (S j). split; [simpl; lia|]. rewrite seg_start_cons. split; [lra|]. split.
    + intros q Q. rewrite seg_start_cons. destruct q as [|q]; [rewrite seg_start_0; lra|]. pose proof (B q ltac:(lia)). lra.
    + simpl nth. destruct C as [[-> C]|[-> C]]; [left|right]; (split; [lia|exact C]).
Qed.
Lemma median_none ls i0 cum half : median_loop ls i0 cum half = Ok None -> forall q, (q < List.length ls)%nat -> cum + seg_start ls (S q) < half.
Proof.
  revert i0 cum. induction ls as [|l ls IH]; intros i0 cum H q Q; simpl in Q; [lia|]. simpl in H. unfold Rleb in H.
  destruct (Rle_dec half (cum + l)) as [L|L]; [destruct ls; discriminate|].
  rewrite seg_start_cons. destruct q as [|q]; [rewrite seg_start_0; lra|]. pose proof (IH _ _ H q ltac:(lia)). lra.
Qed.
Lemma median_err ls i0 cum half e : median_loop ls i0 cum half = Err e -> (ls <> []) /\ half <= cum + rsum ls /\
  forall q, (S q < List.length ls)%nat -> cum + seg_start ls (S q) < half.
Proof.
  revert i0 cum. induction ls as [|l ls IH]; intros i0 cum H; [discriminate|]. simpl in H. unfold Rleb in H.
  split; [discriminate|]. destruct (Rle_dec half (cum + l)) as [L|L].
  - destruct ls as [|l1 ls]; [|discriminate]. split; [unfold rsum; simpl; lra|]. intros q Q. simpl in Q. lia.
  - destruct (IH _ _ H) as (N & A & B). split; [unfold rsum in *; simpl; lra|]. intros q Q. simpl in Q.
    rewrite seg_start_cons. destruct q as [|q]; [rewrite seg_start_0; lra|]. pose proof (B q ltac:(lia)). lra.
Qed.
Lemma set_nth_repeat n i (w : R) : (i < n)%nat -> List.length (set_nth (repeat 0 n) i w) = n /\
  nth i (set_nth (repeat 0 n) i w) 0 = w /\ forall j, j <> i -> nth j (set_nth (repeat 0 n) i w) 0 = 0.
Proof.
  revert i. induction n as [|n IH]; intros i H; [lia|]. destruct i as [|i]; simpl.
  - rewrite repeat_length. split; [reflexivity|]. split; [reflexivity|]. intros [|j] N; [lia|].
    clear. revert j. induction n as [|n IH]; intros [|j]; simpl; try reflexivity. apply IH.
  - destruct (IH i ltac:(lia)) as (A & B & C). rewrite A. split; [reflexivity|]. split; [exact B|]. intros [|j] N; [reflexivity|]. apply C. lia.
Qed.
(** Boundary reached first at or beyond the middle. *)
Lemma placement li w mi : (forall l, In l li -> 0 <= l) -> 0 < rsum li -> skier_weights li (List.length li) w = Ok mi ->
  exists i, (S i < List.length li)%nat /\ List.length mi = (List.length li - 1)%nat /\ nth i mi 0 = w /\ (forall j, j <> i -> nth j mi 0 = 0) /\
    rsum li / 2 <= seg_start li (S i) /\
    (forall j, (j <= List.length li)%nat -> rsum li / 2 <= seg_start li j -> seg_start li (S i) <= seg_start li j).
Proof.
  intros P T. unfold skier_weights. destruct (Nat.eqb (List.length li) 0) eqn:E0; [discriminate|]. apply Nat.eqb_neq in E0.
  destruct (median_loop li 0 0 (rsum li / 2)) as [[m|]|e] eqn:EM; [| |discriminate].
  2:{ exfalso. pose proof (median_none _ _ _ _ EM (List.length li - 1) ltac:(lia)) as Q. replace (S (List.length li - 1)) with (List.length li) in Q by lia.
      rewrite seg_start_all in Q. lra. }
  cbn [bind]. destruct (Nat.ltb_spec m (List.length li - 1)) as [M|M]; [|discriminate]. intros H. apply Ok_inj in H. subst mi.
  destruct (set_nth_repeat _ _ w M) as (A1 & A2 & A3). exists m. split; [lia|]. split; [exact A1|]. split; [exact A2|]. split; [exact A3|].
  destruct (median_some _ _ _ _ _ EM) as (j & J & B & C & D).
  assert (E : seg_start li (S m) = seg_start li (S j)).
  { destruct D as [[-> _]|[-> D]]; [reflexivity|]. rewrite Nat.add_0_l. rewrite (seg_start_S li (S j)) by lia. rewrite D. ring. }
  rewrite E. split; [lra|]. intros q Q H. apply seg_start_mono; [exact P|].
  destruct (Nat.lt_ge_cases q (S j)) as [L|L]; [|exact L]. exfalso. destruct q as [|q]; [rewrite seg_start_0 in H; lra|].
  pose proof (C q ltac:(lia)). lra.
Qed.
Lemma placement_total li w j : (forall l, In l li -> 0 <= l) -> 0 < rsum li -> (j <= List.length li)%nat ->
  seg_start li j = rsum li / 2 -> exists mi, skier_weights li (List.length li) w = Ok mi.
Proof.
  intros P T J H. unfold skier_weights.
  assert (JL : (j < List.length li)%nat).
  { destruct (Nat.eq_dec j (List.length li)) as [->|N]; [rewrite seg_start_all in H; lra|lia]. }
  destruct (Nat.eqb_spec (List.length li) 0) as [E0|E0]; [lia|].
  assert (J0 : j <> 0%nat) by (intros ->; rewrite seg_start_0 in H; lra). destruct j as [|j]; [congruence|].
  destruct (median_loop li 0 0 (rsum li / 2)) as [[m|]|e] eqn:EM.
  - cbn [bind]. destruct (median_some _ _ _ _ _ EM) as (q & Q & B & C & D).
    assert (seg_start li (S q) = rsum li / 2).
    { assert (q <= j)%nat. { destruct (Nat.le_gt_cases q j) as [L|L]; [exact L|]. pose proof (C j L). lra. }
      pose proof (seg_start_mono li (S q) (S j) P ltac:(lia)). lra. }
    destruct (Nat.ltb_spec m (List.length li - 1)) as [M|M]; [eauto|]. exfalso.
    destruct D as [[-> _]|[-> D]]; [lia|]. assert (S (S q) = List.length li) by lia.
    pose proof (seg_start_S li (S q) ltac:(lia)) as F. rewrite D in F. rewrite H1, seg_start_all in F. lra.
  - exfalso. pose proof (median_none _ _ _ _ EM j ltac:(lia)). lra.
  - exfalso. destruct (median_err _ _ _ _ _ EM) as (_ & _ & B). pose proof (B j ltac:(lia)). lra.
Qed.
