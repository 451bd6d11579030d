(** Cutting a segment in two by an unloaded transition does not change the solution. *)
From Coquelicot Require Import Coquelicot.
Require Import Verif.Py Verif.MTools Verif.MEigen Verif.MFields Verif.SAdm Verif.MRaster Verif.MSolution Verif.SBeam Verif.SBvp Verif.SEig Verif.PBeam Verif.PBalance
  Verif.PBeam2 Verif.PWell Verif.PWell3 Verif.PMirror Verif.SSplit.
Local Open Scope R_scope.

Lemma is_derive_shift (f : R -> R) a x d : is_derive f (a + x) d -> is_derive (fun s => f (a + s)) x d.
Proof.
  intros H. eapply is_derive_eq.
  - apply (is_derive_comp f (fun s => a + s) x d 1); [exact H|].
    eapply is_derive_eq; [apply (is_derive_plus (V := R_NormedModule) (fun _ => a) (fun s => s)); [apply is_derive_const|apply is_derive_id]|].
    unfold plus, zero, one; simpl. ring.
  - unfold scal; simpl; unfold mult; simpl. ring.
Qed.
Lemma balance_shift p ld bed em z a x : balance p ld bed em z (a + x) -> balance p ld bed em (fun s => z (a + s)) x.
Proof.
  intros (H1 & H2 & H3 & H4 & H5 & H6). unfold balance.
  split; [exact (is_derive_shift _ _ _ _ H1)|]. split; [exact (is_derive_shift _ _ _ _ H2)|].
  split; [exact (is_derive_shift _ _ _ _ H3)|]. split; [exact (is_derive_shift _ _ _ _ H4)|].
  split; [exact (is_derive_shift _ _ _ _ H5)|exact (is_derive_shift _ _ _ _ H6)].
Qed.
Lemma transition_none o phi z : transition o phi 0 z z.
Proof.
  unfold transition. replace (0 * o_g o / 1000 / o_lski o) with 0 by (unfold Rdiv; ring).
  destruct (match kind_of (o_system o) with Some KRot | Some KTrans => true | _ => false end); repeat split; ring.
Qed.

(** At function level. *)
Definition cut (p : nat) (a : R) (z : nat -> R -> vec6) (i : nat) : R -> vec6 :=
  if (i <=? p)%nat then z i else if (i =? S p)%nat then (fun s => z p (a + s)) else z (i - 1)%nat.
Lemma cut_low p a z i : (i <= p)%nat -> cut p a z i = z i.
Proof. intros H. unfold cut. destruct (i <=? p)%nat eqn:E; [reflexivity|apply Nat.leb_gt in E; lia]. Qed.
Lemma cut_mid p a z : cut p a z (S p) = fun s => z p (a + s).
Proof. unfold cut. destruct (S p <=? p)%nat eqn:E; [apply Nat.leb_le in E; lia|]. rewrite Nat.eqb_refl. reflexivity. Qed.
Lemma cut_high p a z i : (p < i)%nat -> cut p a z (S i) = z i.
Proof.
  intros H. unfold cut. destruct (S i <=? p)%nat eqn:E; [apply Nat.leb_le in E; lia|].
  destruct (S i =? S p)%nat eqn:E2; [apply Nat.eqb_eq in E2; lia|]. f_equal. lia.
Qed.

Lemma cut_fbvp o kR phi n p a b l m k l' m' k' z : (p <= n)%nat -> 0 <= a -> 0 <= b ->
  (forall i, (i < p)%nat -> l' i = l i /\ m' i = m i) -> (forall i, (i <= p)%nat -> k' i = k i) ->
  l p = a + b -> l' p = a -> l' (S p) = b -> m' p = 0 ->
  (forall i, (p < i)%nat -> l' (S i) = l i) -> (forall i, (p <= i)%nat -> m' (S i) = m i /\ k' (S i) = k i) ->
  fbvp o kR phi n l m k z -> fbvp o kR phi (S n) l' m' k' (cut p a z).
Proof.
  intros Hp Ha Hb Hlo Hk Lp La Lb Hm Hhi Hmk (A1 & A2 & A3 & A4). split; [|split; [|split]].
  - rewrite cut_low, Hk by lia. exact A1.
  - destruct (Hmk n Hp) as [_ ->]. destruct (Nat.eq_dec p n) as [->|].
    + rewrite cut_mid, Lb, <- Lp. exact A2.
    + rewrite cut_high, Hhi by lia. exact A2.
  - intros i Hi. destruct (lt_eq_lt_dec i p) as [[Hlt| ->]|Hgt].
    + destruct (Hlo i Hlt) as [-> ->]. rewrite !cut_low by lia. apply A3. lia.
    + rewrite cut_low, cut_mid, La, Hm by lia. replace (a + 0) with a by ring. apply transition_none.
    + destruct i as [|i]; [lia|]. destruct (Hmk i ltac:(lia)) as [-> _]. rewrite (cut_high p a z (S i)) by lia.
      destruct (Nat.eq_dec i p) as [->|].
      * rewrite cut_mid, Lb, <- Lp. apply A3. lia.
      * rewrite cut_high, Hhi by lia. apply A3. lia.
  - intros i x Hi Hx. destruct (lt_eq_lt_dec i p) as [[Hlt| ->]|Hgt].
    + rewrite cut_low, Hk by lia. apply A4; [lia|]. destruct (Hlo i Hlt) as [<- _]. exact Hx.
    + rewrite cut_low, Hk by lia. apply A4; [lia|]. rewrite La in Hx. rewrite Lp. lra.
    + destruct i as [|i]; [lia|]. destruct (Hmk i ltac:(lia)) as [_ ->]. destruct (Nat.eq_dec i p) as [->|].
      * rewrite cut_mid. apply balance_shift. apply A4; [lia|]. rewrite Lb in Hx. rewrite Lp. lra.
      * rewrite cut_high by lia. apply A4; [lia|]. rewrite Hhi in Hx by lia. exact Hx.
Qed.

(** Lists. *)
Section Lists.
Context {A : Type} (d : A).
Lemma nth_low (l : list A) r r' i : (i < List.length l)%nat -> nth i (l ++ r) d = nth i (l ++ r') d.
Proof. intros H. rewrite !app_nth1 by exact H. reflexivity. Qed.
Lemma nth_at (l : list A) x r : nth (List.length l) (l ++ x :: r) d = x.
Proof. rewrite app_nth2 by lia. rewrite Nat.sub_diag. reflexivity. Qed.
Lemma nth_next (l : list A) x y r : nth (S (List.length l)) (l ++ x :: y :: r) d = y.
Proof. rewrite app_nth2 by lia. replace (S (List.length l) - List.length l)%nat with 1%nat by lia. reflexivity. Qed.
Lemma nth_skip (l : list A) x y c r i : (List.length l < i)%nat -> nth (S i) (l ++ x :: y :: r) d = nth i (l ++ c :: r) d.
Proof.
  intros H. rewrite !app_nth2 by lia. remember (i - List.length l - 1)%nat as j.
  replace (S i - List.length l)%nat with (S (S j)) by lia. replace (i - List.length l)%nat with (S j) by lia. reflexivity.
Qed.
Lemma nth_skip1 (l : list A) x r i : (List.length l <= i)%nat -> nth (S i) (l ++ x :: r) d = nth i (l ++ r) d.
Proof.
  intros H. rewrite !app_nth2 by lia. replace (S i - List.length l)%nat with (S (i - List.length l)) by lia. reflexivity.
Qed.
End Lists.

Lemma fold_app l r : fold_right Rplus 0 (l ++ r) = fold_right Rplus 0 l + fold_right Rplus 0 r.
Proof. induction l as [|x l IH]; simpl; [ring|]. rewrite IH. ring. Qed.
Lemma offset_low l r r' i : (i <= List.length l)%nat -> offset (l ++ r) i = offset (l ++ r') i.
Proof. intros H. unfold offset. rewrite !firstn_app. replace (i - List.length l)%nat with 0%nat by lia. reflexivity. Qed.
Lemma offset_next l x r : offset (l ++ x :: r) (S (List.length l)) = offset (l ++ x :: r) (List.length l) + x.
Proof.
  unfold offset. rewrite !firstn_app, !fold_app. replace (S (List.length l) - List.length l)%nat with 1%nat by lia.
  rewrite Nat.sub_diag, (firstn_all2 (n := S (List.length l)) l), firstn_all by lia. simpl. ring.
Qed.
Lemma offset_skip l a b r i : (List.length l < i)%nat -> offset (l ++ a :: b :: r) (S i) = offset (l ++ (a + b) :: r) i.
Proof.
  intros H. unfold offset. rewrite !firstn_app, !fold_app. remember (i - List.length l - 1)%nat as j.
  replace (S i - List.length l)%nat with (S (S j)) by lia. replace (i - List.length l)%nat with (S j) by lia. rewrite !(firstn_all2 l) by lia. simpl. ring.
Qed.

Section Split.
Variables (o : obj) (kR phi : R) (l1 l2 m1 m2 : list R) (k1 k2 : list bool) (a b : R) (k : bool).
Hypothesis Hr : ready o.
Hypothesis Hs : stable (o_par o).
Hypothesis HR : 0 <= kR.
Hypothesis Ha : 0 <= a.
Hypothesis Hb : 0 <= b.
Hypothesis Lm : List.length m1 = List.length l1.
Hypothesis Lk : List.length k1 = List.length l1.
Let li := l1 ++ (a + b) :: l2.
Let li' := l1 ++ a :: b :: l2.
Let mi := m1 ++ m2.
Let mi' := m1 ++ 0 :: m2.
Let ki := k1 ++ k :: k2.
Let ki' := k1 ++ k :: k :: k2.
Hypothesis Hp : proper_segments li ki.
Variables C C' : list (list R).
Hypothesis B : bvp o kR phi li mi ki C.
Hypothesis B' : bvp o kR phi li' mi' ki' C'.
Let p := List.length l1.
Let n := (List.length li - 1)%nat.
Let z i := field o phi (nth i li 0) (nth i ki false) (nth i C []).
Let z' i := field o phi (nth i li' 0) (nth i ki' false) (nth i C' []).

Lemma split_lengths : List.length li = S n /\ List.length li' = S (S n) /\ (p <= n)%nat.
Proof. unfold n, li, li', p. rewrite !app_length. simpl. lia. Qed.

Lemma split_k i : (i <= p)%nat -> nth i ki' false = nth i ki false.
Proof.
  intros Hi. unfold ki', ki. destruct (Nat.eq_dec i p) as [->|].
  - unfold p. rewrite <- Lk, !nth_at. reflexivity.
  - apply nth_low. unfold p in *. lia.
Qed.
Lemma split_k2 i : (p <= i)%nat -> nth (S i) ki' false = nth i ki false.
Proof.
  intros Hi. unfold ki', ki. destruct (Nat.eq_dec i p) as [->|].
  - unfold p. rewrite <- Lk, nth_next, nth_at. reflexivity.
  - apply nth_skip. unfold p in *. lia.
Qed.

Lemma split_proper : proper_segments li' ki'.
Proof.
  destruct split_lengths as (N1 & N2 & Hpn). destruct Hp as (Hpos & i0 & Hi0 & Hk0 & Hl0).
  assert (Hpos' : forall j, (j <= S n)%nat -> 0 <= nth j li' 0).
  { intros j Hj. unfold li'. destruct (lt_eq_lt_dec j p) as [[Hlt| ->]|Hgt].
    - rewrite (nth_low 0 l1 _ ((a + b) :: l2)) by exact Hlt. apply Hpos. lia.
    - unfold p. rewrite nth_at. exact Ha.
    - destruct j as [|j]; [lia|]. destruct (Nat.eq_dec j p) as [->|]; [unfold p; rewrite nth_next; exact Hb|].
      rewrite (nth_skip 0 l1 a b (a + b)) by (unfold p in *; lia). apply Hpos. lia. }
  assert (Hex : exists j, (j <= S n)%nat /\ nth j ki' false = true /\ 0 < nth j li' 0).
  { destruct (lt_eq_lt_dec i0 p) as [[Hlt| E]|Hgt].
    - exists i0. split; [lia|]. rewrite split_k by lia. split; [exact Hk0|]. unfold li'. rewrite (nth_low 0 l1 _ ((a + b) :: l2)) by exact Hlt. exact Hl0.
    - rewrite E in *. clear E. unfold li, p in Hl0. rewrite nth_at in Hl0. destruct (Rlt_dec 0 a).
      + exists p. split; [lia|]. rewrite split_k by lia. split; [exact Hk0|]. unfold li', p. rewrite nth_at. assumption.
      + exists (S p). split; [lia|]. rewrite split_k2 by lia. split; [exact Hk0|]. unfold li', p. rewrite nth_next. lra.
    - exists (S i0). split; [lia|]. rewrite split_k2 by lia. split; [exact Hk0|]. unfold li'. rewrite (nth_skip 0 l1 a b (a + b)) by exact Hgt. exact Hl0. }
  split.
  - intros j Hj. apply Hpos'. lia.
  - destruct Hex as (j & J1 & J2 & J3). exists j. split; [lia|auto].
Qed.

Lemma split_states i s : (i <= S n)%nat -> 0 <= s <= nth i li' 0 -> z' i s = cut p a z i s.
Proof.
  destruct split_lengths as (N1 & N2 & Hpn).
  assert (F : fbvp o kR phi n (fun i => nth i li 0) (fun i => nth i mi 0) (fun i => nth i ki false) z).
  { apply bvp_fbvp; [exact Hr| |exact B]. intros E. rewrite E in N1. discriminate. }
  assert (F' : fbvp o kR phi (S n) (fun i => nth i li' 0) (fun i => nth i mi' 0) (fun i => nth i ki' false) z').
  { replace (S n) with (List.length li' - 1)%nat by lia. apply bvp_fbvp; [exact Hr| |exact B']. intros E. rewrite E in N2. discriminate. }
  apply (cut_fbvp _ _ _ _ p a b _ _ _ (fun i => nth i li' 0) (fun i => nth i mi' 0) (fun i => nth i ki' false)) in F; try assumption.
  2:{ intros j Hj. split; [apply nth_low; exact Hj|apply nth_low; unfold p in Hj; lia]. }
  2:{ apply split_k. }
  2:{ apply nth_at. }
  2:{ apply nth_at. }
  2:{ apply nth_next. }
  2:{ unfold mi', p. rewrite <- Lm. apply nth_at. }
  2:{ intros j Hj. apply nth_skip. exact Hj. }
  2:{ intros j Hj. split; [apply nth_skip1; unfold p in Hj; lia|apply split_k2; exact Hj]. }
  destruct split_proper as (Hpos' & j0 & J1 & J2 & J3).
  destruct Hr as (Hl & Hf & _).
  intros Hi Hx. apply (fbvp_unique o kR phi (S n) _ _ _ _ _ j0 Hl Hf Hs HR) with (5 := F') (6 := F); try assumption; [|lia].
  intros j Hj. apply Hpos'. lia.
Qed.

Lemma split_state_at x v : state_at o phi li ki C x v <-> state_at o phi li' ki' C' x v.
Proof.
  destruct split_lengths as (N1 & N2 & Hpn). split.
  - intros (i & s & Hi & Hx & Ex & Ev). change (v = z i s) in Ev. destruct (lt_eq_lt_dec i p) as [[Hlt| ->]|Hgt].
    + exists i, s. unfold li, li' in *. rewrite (nth_low 0 l1 (a :: b :: l2) ((a + b) :: l2)) by exact Hlt.
      split; [lia|]. split; [exact Hx|]. split; [rewrite Ex, (offset_low l1 _ (a :: b :: l2)) by (unfold p in Hlt; lia); reflexivity|].
      rewrite Ev. symmetry. rewrite <- (cut_low p a z i) by lia.
      pose proof (split_states i s ltac:(lia)) as Q. unfold z', li' in Q. rewrite (nth_low 0 l1 (a :: b :: l2) ((a + b) :: l2)) in Q by exact Hlt.
      apply Q. exact Hx.
    + unfold li, p in Hx. rewrite nth_at in Hx. destruct (Rle_dec s a) as [Hsa|Hsa].
      * exists p, s. assert (Hx' : 0 <= s <= nth p li' 0) by (unfold li', p; rewrite nth_at; lra).
        split; [lia|]. split; [exact Hx'|]. split; [rewrite Ex; unfold li, li', p; rewrite (offset_low l1 _ (a :: b :: l2)) by lia; reflexivity|].
        rewrite Ev, <- (cut_low p a z p) by lia. symmetry. apply (split_states p s); [lia|exact Hx'].
      * exists (S p), (s - a). assert (Hx' : 0 <= s - a <= nth (S p) li' 0) by (unfold li', p; rewrite nth_next; lra).
        split; [lia|]. split; [exact Hx'|].
        split. { rewrite Ex. unfold li, li', p. rewrite offset_next, (offset_low l1 _ (a :: b :: l2)) by lia. ring. }
        rewrite Ev. replace s with (a + (s - a)) at 1 by ring. symmetry.
        transitivity (cut p a z (S p) (s - a)); [apply (split_states (S p) (s - a)); [lia|exact Hx']|]. rewrite cut_mid. reflexivity.
    + exists (S i), s. assert (En : nth (S i) li' 0 = nth i li 0) by (apply nth_skip; exact Hgt).
      split; [lia|]. split; [rewrite En; exact Hx|]. split; [rewrite Ex; symmetry; unfold li, li'; rewrite offset_skip by exact Hgt; reflexivity|].
      rewrite Ev, <- (cut_high p a z i) by lia. symmetry. apply (split_states (S i) s); [lia|rewrite En; exact Hx].
  - intros (i & s & Hi & Hx & Ex & Ev). change (v = z' i s) in Ev. rewrite split_states in Ev by (lia || exact Hx).
    destruct (lt_eq_lt_dec i p) as [[Hlt| ->]|Hgt].
    + rewrite cut_low in Ev by lia. exists i, s. assert (En : nth i li' 0 = nth i li 0) by (apply nth_low; exact Hlt).
      split; [lia|]. split; [rewrite <- En; exact Hx|]. split; [rewrite Ex; unfold li, li'; rewrite (offset_low l1 (a :: b :: l2) ((a + b) :: l2)) by (unfold p in Hlt; lia); reflexivity|exact Ev].
    + rewrite cut_low in Ev by lia. exists p, s. unfold li', p in Hx. rewrite nth_at in Hx.
      split; [lia|]. split; [unfold li, p; rewrite nth_at; lra|].
      split; [rewrite Ex; unfold li, li', p; rewrite (offset_low l1 (a :: b :: l2) ((a + b) :: l2)) by lia; reflexivity|exact Ev].
    + destruct i as [|i]; [lia|]. destruct (Nat.eq_dec i p) as [->|].
      * rewrite cut_mid in Ev. unfold li', p in Hx. rewrite nth_next in Hx. exists p, (a + s).
        split; [lia|]. split; [unfold li, p; rewrite nth_at; lra|].
        split; [|exact Ev]. rewrite Ex. unfold li, li', p. rewrite offset_next, (offset_low l1 _ ((a + b) :: l2)) by lia. ring.
      * rewrite cut_high in Ev by lia. exists i, s. assert (En : nth (S i) li' 0 = nth i li 0) by (apply nth_skip; unfold p in *; lia).
        split; [lia|]. split; [rewrite <- En; exact Hx|]. split; [rewrite Ex; unfold li, li'; rewrite offset_skip by (unfold p in *; lia); reflexivity|exact Ev].
Qed.
End Split.
