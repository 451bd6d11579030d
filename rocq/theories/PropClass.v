(** Property theorem C70, continued: what an instance finds is what its class or a base defines. *)
Require Import Verif.Py Verif.MTools Verif.MEigen Verif.MFields Verif.MRaster Verif.MSolution Verif.MClass Verif.PClass.
Open Scope string_scope.

(** Decidable form. *)
Definition own_found (c : cls) : bool :=
  forallb (fun d => match lookup (c_name c) (fst d) with
    | Some (w, refs) => String.eqb w (c_name c) && (if list_eq_dec string_dec refs (snd d) then true else false)
    | None => false end)%bool (c_methods c).
Definition base_found (c : cls) : bool :=
  forallb (fun b => forallb (fun e => if String.eqb (c_name e) b then
      forallb (fun d => if String.eqb (fst d) "__init__" then true else
        match lookup (c_name c) (fst d) with
        | Some (w, refs) => String.eqb w b && (if list_eq_dec string_dec refs (snd d) then true else false)
        | None => false end)%bool (c_methods e) else true) classes) (c_bases c).
Lemma all_own : forallb own_found classes = true.
Proof. vm_compute. reflexivity. Qed.
Lemma all_bases : forallb base_found classes = true.
Proof. vm_compute. reflexivity. Qed.
Lemma lookup_test n w r (refs : list string) : match lookup n r with
    | Some (w', refs') => String.eqb w' w && (if list_eq_dec string_dec refs' refs then true else false)
    | None => false end%bool = true -> lookup n r = Some (w, refs).
Proof.
  destruct (lookup n r) as [[w' refs']|]; [|discriminate]. intros H. apply andb_true_iff in H. destruct H as [A B].
  apply String.eqb_eq in A. destruct (list_eq_dec string_dec refs' refs); [|discriminate]. congruence.
Qed.

(** C70: on every class of the library a method of its own is found as defined, a method of a base as the base defines it
    (the initialiser excepted), and nothing else is found. *)
Theorem C70_methods c : In c classes ->
  (forall m refs, In (m, refs) (c_methods c) -> lookup (c_name c) m = Some (c_name c, refs)) /\
  (forall e m refs, In e classes -> In (c_name e) (c_bases c) -> In (m, refs) (c_methods e) -> m <> "__init__" ->
     lookup (c_name c) m = Some (c_name e, refs)) /\
  (forall m d refs, lookup (c_name c) m = Some (d, refs) ->
     exists e, In e classes /\ c_name e = d /\ (e = c \/ In d (c_bases c)) /\ In (m, refs) (c_methods e)).
Proof.
  intros I. split; [|split].
  - intros m refs J. pose proof all_own as H. rewrite forallb_forall in H. specialize (H c I). unfold own_found in H. rewrite forallb_forall in H.
    specialize (H _ J). cbn [fst snd] in H. exact (lookup_test _ _ _ _ H).
  - intros e m refs Ie Ib J N. pose proof all_bases as H. rewrite forallb_forall in H. specialize (H c I). unfold base_found in H. rewrite forallb_forall in H.
    specialize (H _ Ib). rewrite forallb_forall in H. specialize (H e Ie). rewrite String.eqb_refl, forallb_forall in H. specialize (H _ J). cbn [fst snd] in H.
    destruct (String.eqb_spec m "__init__"); [contradiction|]. exact (lookup_test _ _ _ _ H).
  - intros m d refs L. destruct (lookup_in_spec _ _ _ _ L) as (e & Je & En & Jm).
    assert (Fc : find_class (c_name c) = Some c).
    { unfold classes in I. cbn [In] in I. repeat (destruct I as [<-|I]; [reflexivity|]). contradiction. }
    unfold mro in Je. rewrite Fc in Je. destruct Je as [<-|Je]; [exists c; auto|].
    apply in_flat_map in Je. destruct Je as (b & Ib & Je). destruct (find_class b) as [e'|] eqn:Fb; [|contradiction]. destruct Je as [<-|[]].
    unfold find_class in Fb. apply find_some in Fb. destruct Fb as [F1 F2]. apply String.eqb_eq in F2. exists e'. split; [exact F1|]. split; [exact En|]. split; [right; congruence|exact Jm].
Qed.
Print Assumptions C70_methods.
Example C70_methods_example : In cls_Layered classes /\ In cls_AnalysisMixin classes /\ In (c_name cls_AnalysisMixin) (c_bases cls_Layered) /\
  exists refs, In ("gdif", refs) (c_methods cls_AnalysisMixin).
Proof. cbn. repeat (split; [tauto|]). eexists. tauto. Qed.
