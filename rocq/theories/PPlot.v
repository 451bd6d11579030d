(** Proofs about the plot helpers. *)
From Coq Require Import ZArith Lia.
Require Import Verif.Py Verif.MPlot Verif.SPlot.

Lemma map_seq_add {A} (f : nat -> A) a k : map f (seq a k) = map (fun i => f (a + i)%nat) (seq 0 k).
Proof.
  revert f. induction a as [|a IH]; intros f; [reflexivity|]. rewrite <- seq_shift, map_map. apply (IH (fun i => f (S i))).
Qed.
Lemma area2_app l p l' : area2 (l ++ p :: l') = (area2 (l ++ [p]) + area2 (p :: l'))%Z.
Proof.
  induction l as [|a l IH]; [reflexivity|]. destruct l as [|b l].
  - cbn [app]. change (area2 (a :: p :: l')) with (Z.of_nat (snd a) * Z.of_nat (fst p) - Z.of_nat (snd p) * Z.of_nat (fst a) + area2 (p :: l'))%Z.
    cbn [area2]. lia.
  - cbn [app] in *. change (area2 (a :: b :: l ++ p :: l')) with (Z.of_nat (snd a) * Z.of_nat (fst b) - Z.of_nat (snd b) * Z.of_nat (fst a) + area2 (b :: l ++ p :: l'))%Z.
    rewrite IH. cbn [area2]. lia.
Qed.
(** Area of a run with constant contribution. *)
Lemma area2_run (f : nat -> nat * nat) (c : Z) s k :
  (forall i, (s <= i < s + k)%nat -> (Z.of_nat (snd (f i)) * Z.of_nat (fst (f (S i))) - Z.of_nat (snd (f (S i))) * Z.of_nat (fst (f i)) = c)%Z) ->
  area2 (map f (seq s (S k))) = (c * Z.of_nat k)%Z.
Proof.
  revert s. induction k as [|k IH]; intros s H; [cbn; lia|].
  cbn [seq map] in *. specialize (IH (S s)).
  change (area2 (f s :: f (S s) :: map f (seq (S (S s)) k))) with
    (Z.of_nat (snd (f s)) * Z.of_nat (fst (f (S s))) - Z.of_nat (snd (f (S s))) * Z.of_nat (fst (f s)) + area2 (f (S s) :: map f (seq (S (S s)) k)))%Z.
  rewrite IH by (intros i Hi; apply H; lia). rewrite H by lia. lia.
Qed.

Section Path.
Variables m n : nat.
Hypothesis M : (1 <= m)%nat.
Hypothesis N : (1 <= n)%nat.
Definition pos (k : nat) : nat * nat :=
  if Nat.ltb k (n - 1) then (0, k)%nat
  else if Nat.ltb k (n - 1 + (m - 1)) then (k - (n - 1), n - 1)%nat
  else if Nat.ltb k (n - 1 + (m - 1) + (n - 1)) then (m - 1, n - 1 - (k - (n - 1) - (m - 1)))%nat
  else (m - 1 - (k - (n - 1) - (m - 1) - (n - 1)), 0)%nat.
Definition steps : nat := (n - 1 + (m - 1) + (n - 1) + (m - 1))%nat.
Definition path : list (nat * nat) := map pos (seq 0 (S steps)).
Ltac cases := repeat match goal with |- context [Nat.ltb ?a ?b] => destruct (Nat.ltb_spec a b) | H : context [Nat.ltb ?a ?b] |- _ => destruct (Nat.ltb_spec a b) end.
Lemma path_parts : path =
  map (fun j => (0, j)%nat) (seq 0 (n - 1)) ++ map (fun i => (i, n - 1)%nat) (seq 0 (m - 1)) ++
  map (fun j => (m - 1, n - 1 - j)%nat) (seq 0 (n - 1)) ++ map (fun i => (m - 1 - i, 0)%nat) (seq 0 m).
Proof.
  unfold path, steps. replace (S (n - 1 + (m - 1) + (n - 1) + (m - 1))) with (n - 1 + (m - 1) + (n - 1) + m)%nat by lia.
  rewrite !seq_app, !map_app, <- !app_assoc. cbn [Nat.add].
  rewrite (map_seq_add pos (n - 1) (m - 1)), (map_seq_add pos (n - 1 + (m - 1)) (n - 1)), (map_seq_add pos (n - 1 + (m - 1) + (n - 1)) m).
  f_equal; [|f_equal; [|f_equal]]; apply map_ext_in; intros k K; apply in_seq in K; unfold pos; cases; try lia; f_equal; lia.
Qed.
Lemma path_nth k : (k <= steps)%nat -> nth_error path k = Some (pos k).
Proof.
  intros K. unfold path. rewrite nth_error_map, (nth_error_nth' _ 0%nat) by (rewrite seq_length; lia). rewrite seq_nth by lia. reflexivity.
Qed.
Lemma path_length : List.length path = S steps.
Proof. unfold path. rewrite map_length, seq_length. reflexivity. Qed.
Lemma path_area : area2 path = (2 * (Z.of_nat m - 1) * (Z.of_nat n - 1))%Z.
Proof.
  unfold path. 
  assert (E : seq 0 (S steps) = seq 0 (n - 1) ++ (n - 1)%nat :: seq n (m - 1 + (n - 1) + (m - 1))).
  { unfold steps. replace (S (n - 1 + (m - 1) + (n - 1) + (m - 1))) with (n - 1 + S (m - 1 + (n - 1) + (m - 1)))%nat by lia.
    rewrite seq_app. cbn [Nat.add seq]. do 3 f_equal. lia. }
  rewrite E, map_app. cbn [map]. rewrite area2_app. clear E.
  change [pos (n - 1)] with (map pos [(n - 1)%nat]). rewrite <- map_app.
  change (pos (n - 1) :: map pos (seq n (m - 1 + (n - 1) + (m - 1)))) with (map pos ((n - 1)%nat :: seq n (m - 1 + (n - 1) + (m - 1)))).
  assert (E : seq 0 (n - 1) ++ [(n - 1)%nat] = seq 0 (S (n - 1))) by (rewrite seq_S; reflexivity). rewrite E. clear E.
  rewrite (area2_run pos 0 0 (n - 1)).
  2:{ intros i Hi. unfold pos. cases; cbn [fst snd]; try lia. }
  assert (E : (n - 1)%nat :: seq n (m - 1 + (n - 1) + (m - 1)) = seq (n - 1) (m - 1) ++ (n - 1 + (m - 1))%nat :: seq (n + (m - 1)) (n - 1 + (m - 1))).
  { replace ((n - 1)%nat :: seq n (m - 1 + (n - 1) + (m - 1))) with (seq (n - 1) (S (m - 1 + (n - 1) + (m - 1)))).
    - replace (S (m - 1 + (n - 1) + (m - 1))) with (m - 1 + S (n - 1 + (m - 1)))%nat by lia. rewrite seq_app. cbn [seq]. do 3 f_equal. lia.
    - cbn [seq]. do 2 f_equal. lia. }
  rewrite E, map_app. clear E. cbn [map]. rewrite area2_app.
  change [pos (n - 1 + (m - 1))] with (map pos [(n - 1 + (m - 1))%nat]). rewrite <- map_app.
  assert (E : seq (n - 1) (m - 1) ++ [(n - 1 + (m - 1))%nat] = seq (n - 1) (S (m - 1))) by (rewrite seq_S; reflexivity). rewrite E. clear E.
  rewrite (area2_run pos (Z.of_nat n - 1) (n - 1) (m - 1)).
  2:{ intros i Hi. unfold pos. cases; cbn [fst snd]; nia. }
  change (pos (n - 1 + (m - 1)) :: map pos (seq (n + (m - 1)) (n - 1 + (m - 1)))) with (map pos ((n - 1 + (m - 1))%nat :: seq (n + (m - 1)) (n - 1 + (m - 1)))).
  assert (E : (n - 1 + (m - 1))%nat :: seq (n + (m - 1)) (n - 1 + (m - 1)) = seq (n - 1 + (m - 1)) (n - 1) ++ (n - 1 + (m - 1) + (n - 1))%nat :: seq (S (n - 1 + (m - 1) + (n - 1))) (m - 1)).
  { replace ((n - 1 + (m - 1))%nat :: seq (n + (m - 1)) (n - 1 + (m - 1))) with (seq (n - 1 + (m - 1)) (S (n - 1 + (m - 1)))).
    - replace (S (n - 1 + (m - 1)))%nat with (n - 1 + S (m - 1))%nat by lia. rewrite seq_app. reflexivity.
    - cbn [seq]. do 2 f_equal. lia. }
  rewrite E, map_app. clear E. cbn [map]. rewrite area2_app.
  change [pos (n - 1 + (m - 1) + (n - 1))] with (map pos [(n - 1 + (m - 1) + (n - 1))%nat]). rewrite <- map_app.
  assert (E : seq (n - 1 + (m - 1)) (n - 1) ++ [(n - 1 + (m - 1) + (n - 1))%nat] = seq (n - 1 + (m - 1)) (S (n - 1))) by (rewrite seq_S; reflexivity). rewrite E. clear E.
  rewrite (area2_run pos (Z.of_nat m - 1) (n - 1 + (m - 1)) (n - 1)).
  2:{ intros i Hi. unfold pos. cases; cbn [fst snd]; nia. }
  change (pos (n - 1 + (m - 1) + (n - 1)) :: map pos (seq (S (n - 1 + (m - 1) + (n - 1))) (m - 1))) with (map pos (seq (n - 1 + (m - 1) + (n - 1)) (S (m - 1)))).
  rewrite (area2_run pos 0 (n - 1 + (m - 1) + (n - 1)) (m - 1)).
  2:{ intros i Hi. unfold pos. cases; cbn [fst snd]; nia. }
  nia.
Qed.
Lemma path_perimeter : perimeter m n path.
Proof.
  split.
  - rewrite path_nth by (unfold steps; lia). unfold pos. f_equal. cases; f_equal; lia.
  - unfold path. rewrite seq_S, map_app. cbn [map]. rewrite last_last. unfold pos, steps. cases; f_equal; lia.
  - intros k p q P Q. assert (K : (S k < S steps)%nat) by (rewrite <- path_length; apply nth_error_Some; congruence).
    rewrite path_nth in P, Q by lia. injection P as <-. injection Q as <-. unfold steps in K.
    unfold neighbours, pos. cases; cbn [fst snd]; lia.
  - intros [i j]. unfold on_boundary. cbn [fst snd]. rewrite path_parts. rewrite !in_app_iff, !in_map_iff. split.
    + intros [(k & E & K)|[(k & E & K)|[(k & E & K)|(k & E & K)]]]; apply in_seq in K; injection E as <- <-; lia.
    + intros (I & J & B).
      destruct (Nat.eq_dec i 0) as [I0|I0]; [destruct (Nat.eq_dec (S j) n) as [J0|J0]|].
      * destruct (Nat.eq_dec m 1) as [M1|M1].
        -- destruct (Nat.eq_dec n 1) as [N1|N1].
           ++ right. right. right. exists 0%nat. rewrite in_seq. split; [f_equal; lia|lia].
           ++ right. right. left. exists 0%nat. rewrite in_seq. split; [f_equal; lia|lia].
        -- right. left. exists 0%nat. rewrite in_seq. split; [f_equal; lia|lia].
      * left. exists j. rewrite in_seq. split; [f_equal; lia|lia].
      * destruct (Nat.eq_dec j 0) as [J0|J0]; [|destruct (Nat.eq_dec (S i) m) as [I1|I1]].
        -- right. right. right. exists (m - 1 - i)%nat. rewrite in_seq. split; [f_equal; lia|lia].
        -- right. right. left. exists (n - 1 - j)%nat. rewrite in_seq. split; [f_equal; lia|lia].
        -- right. left. exists i. rewrite in_seq. split; [f_equal; lia|lia].
  - intros M2 N2. unfold path. cbn [seq map tl].
    assert (Q : forall l, (forall a, In a l -> (1 <= a <= steps)%nat) -> NoDup l -> NoDup (map pos l)).
    { induction l as [|a l IH]; intros B D; [constructor|]. inversion D as [|? ? Na Dl]; subst. cbn [map]. constructor.
      - intros H. apply in_map_iff in H. destruct H as (b & E & Hb). pose proof (B a (or_introl eq_refl)). pose proof (B b (or_intror Hb)).
        assert (a = b); [|subst; contradiction]. unfold pos, steps in *. cases; injection E; intros; lia.
      - apply IH; [intros c Hc; apply B; right; exact Hc|exact Dl]. }
    apply Q; [intros a Ha; apply in_seq in Ha; lia|apply seq_NoDup].
  - exact path_area.
Qed.

Lemma nth_error_removelast {A} (l : list A) k : (S k < List.length l)%nat -> nth_error (removelast l) k = nth_error l k.
Proof.
  revert k. induction l as [|a l IH]; intros k H; [simpl in H; lia|]. destruct l as [|b l]; [simpl in H; lia|].
  cbn [removelast]. destruct k as [|k]; [reflexivity|]. cbn [nth_error]. apply IH. simpl in *. lia.
Qed.
Lemma list_cells {A B} (l : list A) (f : nat -> B) (g : A -> B) :
  (forall i a, nth_error l i = Some a -> f i = g a) -> map g l = map f (seq 0 (List.length l)).
Proof.
  revert f. induction l as [|a l IH]; intros f H; [reflexivity|]. cbn [map List.length seq]. f_equal; [symmetry; apply (H 0%nat a); reflexivity|].
  rewrite (map_seq_add f 1). apply (IH (fun i => f (1 + i)%nat)). intros i b E. apply (H (S i) b). exact E.
Qed.
Lemma removelast_length {A} (l : list A) : List.length (removelast l) = (List.length l - 1)%nat.
Proof. induction l as [|a l IH]; [reflexivity|]. destruct l as [|b l]; [reflexivity|]. cbn [removelast List.length] in *. lia. Qed.
Lemma removelast_in {A} (l : list A) i a : nth_error (removelast l) i = Some a -> nth_error l i = Some a.
Proof.
  intros H. rewrite <- H. symmetry. apply nth_error_removelast.
  assert (i < List.length (removelast l))%nat by (apply nth_error_Some; congruence). rewrite removelast_length in *. lia.
Qed.
Lemma last_nth {A} (l : list A) d : l <> [] -> nth_error l (List.length l - 1) = Some (last l d).
Proof.
  induction l as [|a l IH]; [congruence|]. intros _. destruct l as [|b l]; [reflexivity|].
  specialize (IH ltac:(discriminate)). replace (last (a :: b :: l) d) with (last (b :: l) d) by reflexivity. rewrite <- IH.
  cbn [List.length]. replace (S (S (List.length l)) - 1)%nat with (S (List.length l)) by lia. cbn [nth_error]. f_equal. lia.
Qed.
Lemma outline_path {A} (g : list (list A)) : rectangular m n g ->
  exists v, outline g = Ok v /\ map Some v = map (cell g) path.
Proof.
  intros [L W]. destruct g as [|row g]; [simpl in L; lia|]. pose proof (W row (or_introl eq_refl)) as Wr.
  destruct row as [|d row]; [simpl in Wr; lia|]. unfold outline. eexists. split; [reflexivity|].
  set (grid := (d :: row) :: g) in *. rewrite path_parts, !map_app, !map_map. f_equal; [|f_equal; [|f_equal]].
  - rewrite (list_cells _ (fun j => cell grid (0%nat, j))).
    + rewrite removelast_length, Wr. reflexivity.
    + intros i a E. apply removelast_in in E. exact E.
  - rewrite (list_cells _ (fun i => cell grid (i, n - 1)%nat)).
    + rewrite removelast_length, L. reflexivity.
    + intros i a E. apply removelast_in in E. unfold cell. cbn [fst snd]. rewrite E.
      assert (In a grid) by (eapply nth_error_In; exact E). rewrite <- (W a) by assumption. apply last_nth. pose proof (W a ltac:(assumption)). destruct a; [simpl in *; lia|discriminate].
  - assert (G : nth_error grid (m - 1) = Some (last grid [])) by (rewrite <- L; apply last_nth; discriminate).
    set (lr := last grid []) in *. assert (Wl : List.length lr = n) by (apply W; eapply nth_error_In; exact G).
    destruct lr as [|e lr]; [simpl in Wl; lia|]. cbn [tl]. rewrite (list_cells _ (fun j => cell grid (m - 1, n - 1 - j)%nat)).
    + rewrite rev_length. f_equal. f_equal. simpl in Wl. lia.
    + intros i a E. unfold cell. cbn [fst snd]. rewrite G. simpl in Wl. assert (I : (i < List.length lr)%nat) by (rewrite <- rev_length; apply nth_error_Some; congruence).
      replace (n - 1 - i)%nat with (S (List.length lr - S i)) by lia. cbn [nth_error].
      rewrite (nth_error_nth' lr a) by lia. rewrite <- rev_nth by lia. f_equal. apply nth_error_nth. exact E.
  - rewrite <- map_rev, map_map. rewrite (list_cells _ (fun i => cell grid (m - 1 - i, 0)%nat)).
    + rewrite rev_length, L. reflexivity.
    + intros i a E. unfold cell. cbn [fst snd]. assert (I : (i < List.length grid)%nat) by (rewrite <- rev_length; apply nth_error_Some; congruence).
      assert (E2 : nth_error grid (m - 1 - i) = Some a).
      { rewrite (nth_error_nth' grid a) by lia. replace (m - 1 - i)%nat with (List.length grid - S i)%nat by lia. rewrite <- rev_nth by lia.
        f_equal. apply nth_error_nth. exact E. }
      rewrite E2. assert (Wa : List.length a = n) by (apply W; eapply nth_error_In; exact E2). destruct a; [simpl in Wa; lia|reflexivity].
Qed.
End Path.
