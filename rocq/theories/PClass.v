(** Proofs about the class composition. *)
Require Import Verif.Py Verif.MTools Verif.MEigen Verif.MFields Verif.MRaster Verif.MSolution Verif.MClass.
Open Scope string_scope.

(** Every class named as a base exists and has no bases itself. *)
Lemma bases_flat c b : In c classes -> In b (c_bases c) ->
  exists d, find_class b = Some d /\ c_bases d = [].
Proof.
  intros Hc Hb. unfold classes in Hc; simpl in Hc.
  repeat (destruct Hc as [<-|Hc]; [simpl in Hb;
    repeat (destruct Hb as [<-|Hb]; [eexists; split; [reflexivity|reflexivity]|]); contradiction|]).
  contradiction.
Qed.

(** Decidable closure check. *)
Definition closed_class (n : string) : bool :=
  forallb (fun c => forallb (fun d => forallb (has_method n) (snd d)) (c_methods c)) (mro n).
Lemma lookup_in_spec l m d refs : lookup_in l m = Some (d, refs) ->
  exists c, In c l /\ c_name c = d /\ In (m, refs) (c_methods c).
Proof.
  induction l as [|c l IH]; simpl; [discriminate|].
  destruct (find (fun d0 => String.eqb (fst d0) m) (c_methods c)) as [[k r]|] eqn:E.
  - intros H. injection H; intros <- <-. apply find_some in E. destruct E as [E1 E2].
    simpl in E2. apply String.eqb_eq in E2. subst k. exists c. auto.
  - intros H. destruct (IH H) as (c' & A & B). exists c'. auto.
Qed.
Lemma closed_resolves n m d refs r : closed_class n = true -> lookup n m = Some (d, refs) -> In r refs ->
  exists d' refs', lookup n r = Some (d', refs').
Proof.
  intros H L I. destruct (lookup_in_spec _ _ _ _ L) as (c & Hc & _ & Hm).
  unfold closed_class in H. rewrite forallb_forall in H. specialize (H c Hc).
  rewrite forallb_forall in H. specialize (H _ Hm). simpl in H. rewrite forallb_forall in H. specialize (H r I).
  unfold has_method in H. destruct (lookup n r) as [[d' r']|]; [eauto|discriminate].
Qed.
Lemma layered_closed : closed_class "Layered" = true.
Proof. reflexivity. Qed.
(** Instance methods that a method refers to but that do not exist. *)
Definition unresolved (n : string) : list (string * string) :=
  flat_map (fun c => flat_map (fun d => map (fun r => (fst d, r)) (filter (fun r => negb (has_method n r)) (snd d)))
    (c_methods c)) (mro n).
Lemma inverse_unresolved : unresolved "Inverse" =
  [("bc", "substitute_stiffness"); ("calc_segments", "calc_touchdown_system"); ("assemble_and_solve", "calc_qt");
   ("external_potential", "calc_qn"); ("external_potential", "calc_qt")].
Proof. reflexivity. Qed.
Lemma unresolved_spec n m d refs r : lookup n m = Some (d, refs) -> In r refs -> lookup n r = None ->
  In (m, r) (unresolved n).
Proof.
  intros L I N. destruct (lookup_in_spec _ _ _ _ L) as (c & Hc & _ & Hm).
  unfold unresolved. apply in_flat_map. exists c. split; [exact Hc|].
  apply in_flat_map. exists (m, refs). split; [exact Hm|]. apply in_map_iff. exists r. split; [reflexivity|].
  apply filter_In. split; [exact I|]. unfold has_method. rewrite N. reflexivity.
Qed.
