(** Proofs about the profile database. *)
From Coq Require Import Lia Lra Ascii String.
Require Import Verif.Py Verif.MTools Verif.MEigen Verif.SSlab Verif.SPlot.

Lemma nat_of_ascii_inj c d : nat_of_ascii c = nat_of_ascii d -> c = d.
Proof. intros E. rewrite <- (ascii_nat_embedding c), <- (ascii_nat_embedding d), E. reflexivity. Qed.
Definition lowercase (c : ascii) : Prop := (97 <= nat_of_ascii c <= 122)%nat.
Lemma lower_same c d : lowercase d -> (lower_ascii c = d <-> same_letter c d).
Proof.
  intros L. unfold lowercase in L. unfold lower_ascii, same_letter.
  destruct (Nat.leb_spec 65 (nat_of_ascii c)), (Nat.leb_spec (nat_of_ascii c) 90); cbn [andb]; split.
  - intros <-. right. left. rewrite nat_ascii_embedding by lia. lia.
  - intros [->|[(A & B)|(A & B)]]; [lia| |lia]. rewrite <- B. apply ascii_nat_embedding.
  - intros ->. left. reflexivity.
  - intros [->|[(A & B)|(A & B)]]; [reflexivity|lia|lia].
  - intros ->. left. reflexivity.
  - intros [->|[(A & B)|(A & B)]]; [reflexivity|lia|lia].
  - intros ->. left. reflexivity.
  - intros [->|[(A & B)|(A & B)]]; [reflexivity|lia|lia].
Qed.
Lemma lower_text s : forall k, Forall lowercase (list_ascii_of_string k) -> (lower s = k <-> same_text s k).
Proof.
  induction s as [|c s IH]; intros [|d k] F; cbn [lower list_ascii_of_string] in *.
  - split; [constructor|reflexivity].
  - split; [discriminate|inversion 1].
  - split; [discriminate|inversion 1].
  - inversion F as [|? ? Fd Fk]; subst. split.
    + intros E. injection E as E1 E2. constructor; [apply lower_same; assumption|apply IH; assumption].
    + inversion 1; subst. f_equal; [apply lower_same; assumption|apply IH; assumption].
Qed.
Lemma names_lower k : In k profile_names -> Forall lowercase (list_ascii_of_string k).
Proof.
  assert (F : Forall (fun k => Forall lowercase (list_ascii_of_string k)) profile_names).
  { unfold profile_names, lowercase. repeat constructor; cbv; lia. }
  rewrite Forall_forall in F. apply F.
Qed.
(** A database entry is a slab. *)
Definition entry_good (v : list (R * R * R)) : Prop := v <> [] /\ Forall (fun r => 0 < fst (fst r) /\ 0 < snd (fst r) /\ 0 < snd r) v.
Lemma database_good k v : In (k, v) database -> In k profile_names /\ entry_good v.
Proof.
  unfold database, soft, medium, hard, profile_names, entry_good. cbn [In].
  intros H. repeat (destruct H as [H|H]; [injection H as <- <-; split; [tauto|split; [discriminate|repeat constructor; cbn [fst snd]; lra]]|]). destruct H.
Qed.
Lemma names_found k : In k profile_names -> exists v, In (k, v) database.
Proof.
  unfold profile_names, database. cbn [In]. intros H.
  repeat (destruct H as [<-|H]; [eexists; repeat (first [left; reflexivity | right])|]). destruct H.
Qed.
Lemma find_some_ex {A} (f : A -> bool) l x : In x l -> f x = true -> exists y, find f l = Some y /\ In y l /\ f y = true.
Proof.
  intros H F. destruct (find f l) as [y|] eqn:E.
  - exists y. split; [reflexivity|]. apply find_some in E. exact E.
  - pose proof (find_none _ _ E _ H). congruence.
Qed.
Lemma profile_known s k : In k profile_names -> same_text s k ->
  exists v, load_dummy_profile s = Ok (map fst v, map snd v) /\ In (k, v) database.
Proof.
  intros K T. apply lower_text in T; [|apply names_lower; exact K]. destruct (names_found k K) as (v & V).
  unfold load_dummy_profile. destruct (find_some_ex (fun kv => String.eqb (fst kv) (lower s)) database (k, v) V) as (y & -> & Y & E).
  - cbn [fst]. rewrite T. apply String.eqb_refl.
  - apply String.eqb_eq in E. destruct y as [k' v']. cbn [fst snd] in *. exists v'. split; [reflexivity|]. rewrite <- T, <- E. exact Y.
Qed.
Lemma profile_unknown s : (forall k, In k profile_names -> ~ same_text s k) -> load_dummy_profile s = Err ValueError.
Proof.
  intros H. unfold load_dummy_profile. destruct (find _ database) as [[k v]|] eqn:E; [|reflexivity]. exfalso.
  apply find_some in E. destruct E as [E1 E2]. cbn [fst] in E2. apply String.eqb_eq in E2. destruct (database_good _ _ E1) as [K _].
  apply (H k K). apply lower_text; [apply names_lower; exact K|congruence].
Qed.

(** The last word of a text. *)
Lemma is_blank_spec c : is_blank c = true <-> blank c.
Proof.
  unfold is_blank, blank. rewrite Bool.orb_true_iff, Bool.andb_true_iff, Nat.eqb_eq, !Nat.leb_le. simpl. lia.
Qed.
(** State of the scan: text read so far, current word, last finished word. *)
Definition finished (r : list ascii) (lw : option (list ascii)) : Prop :=
  match lw with
  | None => Forall blank r
  | Some w => exists before after, r = before ++ w ++ after /\ w <> [] /\ Forall (fun c => ~ blank c) w /\ Forall blank after /\ (before = [] \/ exists b c, before = b ++ [c] /\ blank c)
  end.
Definition scan_inv (pre cur : list ascii) (lw : option (list ascii)) : Prop :=
  Forall (fun c => ~ blank c) cur /\ finished pre lw /\ (pre = [] \/ exists b c, pre = b ++ [c] /\ blank c).
Lemma scan_finish pre cur lw : scan_inv pre cur lw -> finished (pre ++ cur) (match cur with [] => lw | _ => Some cur end).
Proof.
  intros (F & D & P). destruct cur as [|c cur]; [rewrite app_nil_r; exact D|]. exists pre, []. rewrite app_nil_r. split; [reflexivity|]. split; [discriminate|]. repeat split; [exact F|constructor|exact P].
Qed.
Lemma finished_blank r lw c : finished r lw -> blank c -> finished (r ++ [c]) lw.
Proof.
  intros D B. destruct lw as [w|]; cbn [finished] in *.
  - destruct D as (b & a & -> & H1 & H2 & H3 & H4). exists b, (a ++ [c]). rewrite <- !app_assoc. repeat split; try assumption. apply Forall_app. split; [assumption|constructor; [assumption|constructor]].
  - apply Forall_app. split; [assumption|constructor; [assumption|constructor]].
Qed.
Lemma scan s : forall pre cur lw, scan_inv pre cur lw -> finished (pre ++ cur ++ list_ascii_of_string s) (last_word_aux s cur lw).
Proof.
  induction s as [|c s IH]; intros pre cur lw I; cbn [last_word_aux list_ascii_of_string].
  - rewrite app_nil_r. apply scan_finish. exact I.
  - destruct (is_blank c) eqn:B.
    + apply is_blank_spec in B. pose proof (scan_finish _ _ _ I) as D. 
      replace (pre ++ cur ++ c :: list_ascii_of_string s) with ((pre ++ cur ++ [c]) ++ [] ++ list_ascii_of_string s) by (rewrite <- !app_assoc; reflexivity).
      apply IH. split; [constructor|]. split; [rewrite app_assoc; apply finished_blank; assumption|]. right. exists (pre ++ cur), c. rewrite app_assoc. split; [reflexivity|exact B].
    + replace (pre ++ cur ++ c :: list_ascii_of_string s) with (pre ++ (cur ++ [c]) ++ list_ascii_of_string s) by (rewrite <- !app_assoc; reflexivity).
      apply IH. destruct I as (F & D & P). split; [|split; assumption]. apply Forall_app. split; [exact F|]. constructor; [|constructor]. intros X. apply is_blank_spec in X. congruence.
Qed.
Lemma last_word_some s w : last_word s = Some w -> is_last_word s w.
Proof.
  unfold last_word. intros E. pose proof (scan s [] [] None) as D. destruct (last_word_aux s [] None) as [l|]; [|discriminate]. injection E as <-.
  destruct D as (b & a & E & H1 & H2 & H3 & H4); [repeat split; [constructor|constructor|left; reflexivity]|]. cbn [app] in E.
  exists b, a. rewrite list_ascii_of_string_of_list_ascii. repeat split; try assumption. destruct l; [congruence|discriminate].
Qed.
Lemma last_word_none s : last_word s = None <-> Forall blank (list_ascii_of_string s).
Proof.
  pose proof (scan s [] [] None ltac:(repeat split; [constructor|constructor|left; reflexivity])) as D. cbn [app] in D.
  unfold last_word. destruct (last_word_aux s [] None) as [l|]; cbn [option_map finished] in *.
  - split; [discriminate|]. intros F. destruct D as (b & a & E & H1 & H2 & H3 & H4). rewrite E in F. apply Forall_app in F. destruct F as [_ F]. apply Forall_app in F. destruct F as [F _].
    destruct l as [|x l]; [congruence|]. inversion F; inversion H2; contradiction.
  - split; auto.
Qed.
(** Last words are unique. *)
Lemma split_blank (l1 : list ascii) : forall a1 l2 a2, Forall (fun c => ~ blank c) l1 -> Forall (fun c => ~ blank c) l2 ->
  (a1 = [] \/ exists b c, a1 = c :: b /\ blank c) -> (a2 = [] \/ exists b c, a2 = c :: b /\ blank c) -> l1 ++ a1 = l2 ++ a2 -> l1 = l2.
Proof.
  induction l1 as [|x l1 IH]; intros a1 [|y l2] a2 F1 F2 A1 A2 E; cbn [app] in E; [reflexivity| | |].
  - subst a1. inversion F2; subst. destruct A1 as [?|(b & c & E & B)]; [discriminate|]. injection E as <- _. contradiction.
  - subst a2. inversion F1; subst. destruct A2 as [?|(b & c & E & B)]; [discriminate|]. injection E as <- _. contradiction.
  - injection E as <- E. inversion F1; inversion F2; subst. f_equal. apply (IH a1 l2 a2); assumption.
Qed.
Lemma strip_blank (a1 : list ascii) : forall a2 l1 l2, Forall blank a1 -> Forall blank a2 ->
  (exists x b, l1 = x :: b /\ ~ blank x) -> (exists x b, l2 = x :: b /\ ~ blank x) -> a1 ++ l1 = a2 ++ l2 -> l1 = l2.
Proof.
  induction a1 as [|x a1 IH]; intros [|y a2] l1 l2 F1 F2 (u & b & -> & U) (v & d & -> & V) E; cbn [app] in E; [exact E| | |].
  - injection E as <- _. inversion F2; contradiction.
  - injection E as -> _. inversion F1; contradiction.
  - injection E as <- E. inversion F1; inversion F2; subst. eapply IH; eauto.
Qed.
Lemma last_word_unique s w w' : is_last_word s w -> is_last_word s w' -> w = w'.
Proof.
  intros (b & a & E & N1 & N & A & B) (b' & a' & E' & N1' & N' & A' & B'). rewrite E in E'. apply (f_equal (@rev ascii)) in E'.
  rewrite !rev_app_distr, <- !app_assoc in E'.
  assert (R : forall w, w <> ""%string -> Forall (fun c => ~ blank c) (list_ascii_of_string w) -> forall z, exists x y, rev (list_ascii_of_string w) ++ z = x :: y /\ ~ blank x).
  { intros u Nu Fu z. apply Forall_rev in Fu. destruct (rev (list_ascii_of_string u)) as [|x y] eqn:Eu.
    - apply (f_equal (@rev ascii)) in Eu. rewrite rev_involutive in Eu. destruct u; [congruence|discriminate].
    - inversion Fu; subst. exists x, (y ++ z). split; [reflexivity|assumption]. }
  apply strip_blank in E'; [|apply Forall_rev; assumption|apply Forall_rev; assumption|apply R; assumption|apply R; assumption].
  apply split_blank in E'; [|apply Forall_rev; assumption|apply Forall_rev; assumption| |].
  - apply (f_equal (@rev ascii)) in E'. rewrite !rev_involutive in E'. rewrite <- (string_of_list_ascii_of_string w), <- (string_of_list_ascii_of_string w'). congruence.
  - destruct B as [->|(d & c & -> & Bc)]; [left; reflexivity|right]. rewrite rev_app_distr. exists (rev d), c. split; [reflexivity|exact Bc].
  - destruct B' as [->|(d & c & -> & Bc)]; [left; reflexivity|right]. rewrite rev_app_distr. exists (rev d), c. split; [reflexivity|exact Bc].
Qed.
Lemma last_word_spec s w : is_last_word s w -> last_word s = Some w.
Proof.
  intros H. destruct (last_word s) as [w'|] eqn:E.
  - f_equal. apply last_word_unique with s; [apply last_word_some; exact E|exact H].
  - exfalso. apply last_word_none in E. destruct H as (b & a & Es & N1 & N & _). rewrite Es in E. apply Forall_app in E. destruct E as [_ E]. apply Forall_app in E. destruct E as [E _].
    destruct w as [|x w]; [congruence|]. cbn [list_ascii_of_string] in *. inversion E; inversion N; contradiction.
Qed.
