(** Proofs about sessions (C55). *)
Require Import Verif.Py Verif.MTools Verif.MEigen Verif.MSession Verif.SState Verif.PSetup.

Section S.
Variable eig : mat6 -> list eigpair.

Definition beam_part (o : obj) := (o_slab o, o_k o, hh (o_par o), zs (o_par o)).
Definition fnd_part (o : obj) := (o_weakE o, o_weaknu o, wt (o_par o)).

Definition beam_of (la : layers_arg) (C0 C1 nu : R) : res (list ply * R * R * R) :=
  lE <- match la with
        | LStr s => match last_word s with None => Err IndexError | Some w => load_dummy_profile w end
        | LList [] => Err IndexError
        | LList l => Ok (l, map (fun r => bergfeld (fst r) 917 C0 C1) l)
        end ;;
  let '(layers, E) := lE in
  let '(H, z) := calc_center_of_gravity layers in
  Ok (build_slab layers E nu, 5 / 6, H, z).

Lemma recalc_parts o : beam_part (o_calc_fundamental_system eig o) = beam_part o /\
  fnd_part (o_calc_fundamental_system eig o) = fnd_part o /\ o_p (o_calc_fundamental_system eig o) = o_p o.
Proof.
  unfold o_calc_fundamental_system, o_calc_foundation_stiffness, o_calc_laminate, o_calc_eigensystem, beam_part, fnd_part.
  destruct (calc_foundation_stiffness _ _ _) as [n t]. unfold with_kn_kt, with_par, with_eig. simpl.
  destruct (calc_laminate_stiffness_matrix _ _ _) as [[[[A B] D] Sk] K]. simpl. auto.
Qed.
Lemma recalc_fun o o' : beam_part o = beam_part o' -> fnd_part o = fnd_part o' ->
  o_par (o_calc_fundamental_system eig o) = o_par (o_calc_fundamental_system eig o') /\
  o_eig (o_calc_fundamental_system eig o) = o_eig (o_calc_fundamental_system eig o').
Proof.
  intros B F. unfold beam_part in B. unfold fnd_part in F. injection B as B1 B2 B3 B4. injection F as F1 F2 F3.
  unfold o_calc_fundamental_system, o_calc_foundation_stiffness, o_calc_laminate, o_calc_eigensystem.
  rewrite F1, F2, F3. destruct (calc_foundation_stiffness _ _ _) as [n t]. unfold with_kn_kt, with_par, with_eig. simpl.
  rewrite B1, B2, B3. destruct (calc_laminate_stiffness_matrix _ _ _) as [[[[A B] D] Sk] K]. simpl.
  rewrite B4, F3. auto.
Qed.

Lemma set_beam_parts o la C0 C1 nu u o' : set_beam_properties eig o la C0 C1 nu u = Ok o' ->
  beam_of la C0 C1 nu = Ok (beam_part o') /\ fnd_part o' = fnd_part o /\ o_p o' = o_p o.
Proof.
  unfold set_beam_properties, beam_of.
  match goal with |- context [bind ?m _] => destruct m as [[ly E]|e]; [|discriminate] end. cbn [bind].
  destruct (calc_center_of_gravity ly) as [H z]. intros X. apply Ok_inj in X. subst o'.
  destruct u; [destruct (recalc_parts (with_slab o (5 / 6) H z (build_slab ly E nu))) as (-> & -> & ->)|]; auto.
Qed.
Lemma set_fnd_parts o t E nu u : let o' := set_foundation_properties eig o t E nu u in
  beam_part o' = beam_part o /\ fnd_part o' = (E, nu, t) /\ o_p o' = o_p o.
Proof.
  unfold set_foundation_properties.
  destruct u; [destruct (recalc_parts (with_weak o E nu t)) as (-> & -> & ->)|]; auto.
Qed.

Lemma session_app o a b : session eig o (a ++ b) = (o1 <- session eig o a ;; session eig o1 b).
Proof.
  revert o. induction a as [|c a IH]; intros o; [reflexivity|]. simpl. destruct (step eig o c); [|reflexivity]. simpl. apply IH.
Qed.

(** The properties after a session are those of the last calls. *)
Lemma session_parts cs o o' : session eig o cs = Ok o' ->
  match last_beam cs with
  | Some (la, C0, C1, nu) => beam_of la C0 C1 nu = Ok (beam_part o')
  | None => beam_part o' = beam_part o end /\
  match last_fnd cs with
  | Some (t, E, nu) => fnd_part o' = (E, nu, t)
  | None => fnd_part o' = fnd_part o end /\
  match last_surf cs with Some p => o_p o' = p | None => o_p o' = o_p o end.
Proof.
  revert o. induction cs as [|c cs IH]; intros o H.
  - apply Ok_inj in H. subst. simpl. auto.
  - simpl in H. destruct (step eig o c) as [o1|] eqn:E; [|discriminate]. simpl in H. destruct (IH o1 H) as (I1 & I2 & I3).
    simpl. assert (C : match c with
      | OBeam la C0 C1 nu _ => beam_of la C0 C1 nu = Ok (beam_part o1)
      | _ => beam_part o1 = beam_part o end /\
      match c with OFnd t E nu _ => fnd_part o1 = (E, nu, t) | _ => fnd_part o1 = fnd_part o end /\
      match c with OSurf p => o_p o1 = p | _ => o_p o1 = o_p o end).
    { destruct c as [t E0 nu u|la C0 C1 nu u|p|]; simpl in E.
      - apply Ok_inj in E. subst o1. destruct (set_fnd_parts o t E0 nu u) as (-> & -> & ->). auto.
      - destruct (set_beam_parts _ _ _ _ _ _ _ E) as (A & B & D). auto.
      - apply Ok_inj in E. subst o1. auto.
      - apply Ok_inj in E. subst o1. destruct (recalc_parts o) as (-> & -> & ->). auto. }
    destruct C as (C1 & C2 & C3). split; [|split].
    + destruct (last_beam cs) as [[[[la c0] c1] nu]|]; [exact I1|]. destruct c; rewrite I1; assumption.
    + destruct (last_fnd cs) as [[[t E0] nu]|]; [exact I2|]. destruct c; rewrite I2; assumption.
    + destruct (last_surf cs); [exact I3|]. destruct c; rewrite I3; assumption.
Qed.

(** After a recomputation the state is the recomputed one. *)
Lemma recalc_idem o : let f := o_calc_fundamental_system eig in
  o_par (f (f o)) = o_par (f o) /\ o_eig (f (f o)) = o_eig (f o).
Proof. intros f. destruct (recalc_parts o) as (A & B & _). exact (recalc_fun (f o) o A B). Qed.
Lemma step_recomputes o c o1 : recomputes c -> step eig o c = Ok o1 -> exists o0, o1 = o_calc_fundamental_system eig o0.
Proof.
  destruct c as [t E nu u|la C0 C1 nu u|p|]; simpl; intros R0 H; try contradiction.
  - subst u. apply Ok_inj in H. eexists. symmetry. exact H.
  - subst u. unfold set_beam_properties in H.
    match type of H with context [bind ?m _] => destruct m as [[ly E]|e]; [|discriminate] end. cbn [bind] in H.
    destruct (calc_center_of_gravity ly) as [h z]. apply Ok_inj in H. eexists. symmetry. exact H.
  - apply Ok_inj in H. eexists. symmetry. exact H.
Qed.
Lemma surf_steps b : Forall (fun d => exists p, d = OSurf p) b -> forall o o', session eig o b = Ok o' ->
  o_par o' = o_par o /\ o_eig o' = o_eig o /\ beam_part o' = beam_part o /\ fnd_part o' = fnd_part o.
Proof.
  induction 1 as [|c b [p ->] F IH]; intros o o' H; [apply Ok_inj in H; subst; auto|].
  simpl in H. destruct (IH _ _ H) as (-> & -> & -> & ->). auto.
Qed.
Lemma up_to_date_state cs o o' : up_to_date cs -> session eig o cs = Ok o' ->
  o_par o' = o_par (o_calc_fundamental_system eig o') /\ o_eig o' = o_eig (o_calc_fundamental_system eig o').
Proof.
  intros (a & c & b & -> & Hc & Hb) H. rewrite session_app in H. destruct (session eig o a) as [oa|]; [|discriminate].
  cbn [bind session] in H. destruct (step eig oa c) as [oc|] eqn:E; [|discriminate]. cbn [bind] in H.
  destruct (step_recomputes oa c oc Hc E) as [o0 ->].
  destruct (surf_steps b Hb _ _ H) as (P1 & P2 & P3 & P4).
  destruct (recalc_fun o' (o_calc_fundamental_system eig o0) P3 P4) as [-> ->].
  rewrite P1, P2. destruct (recalc_idem o0) as [-> ->]. auto.
Qed.

Lemma session_fresh cs o o' la C0 C1 nub t E nu of o2 : up_to_date cs ->
  last_beam cs = Some (la, C0, C1, nub) -> last_fnd cs = Some (t, E, nu) ->
  session eig o cs = Ok o' ->
  session eig of [OBeam la C0 C1 nub false; OFnd t E nu false; ORecalc] = Ok o2 ->
  o_par o' = o_par o2 /\ o_eig o' = o_eig o2 /\ o_slab o' = o_slab o2 /\
  o_weakE o' = o_weakE o2 /\ o_weaknu o' = o_weaknu o2.
Proof.
  intros U LB LF H H2.
  destruct (session_parts _ _ _ H) as (A1 & A2 & _). destruct (session_parts _ _ _ H2) as (B1 & B2 & _).
  rewrite LB in A1. rewrite LF in A2. cbn [last_beam last_fnd] in B1, B2.
  assert (EB : beam_part o' = beam_part o2) by (rewrite A1 in B1; apply Ok_inj in B1; exact B1).
  assert (EF : fnd_part o' = fnd_part o2) by congruence.
  assert (U2 : up_to_date [OBeam la C0 C1 nub false; OFnd t E nu false; ORecalc]).
  { exists [OBeam la C0 C1 nub false; OFnd t E nu false], ORecalc, []. repeat split. constructor. }
  destruct (up_to_date_state _ _ _ U H) as [P1 P2]. destruct (up_to_date_state _ _ _ U2 H2) as [Q1 Q2].
  destruct (recalc_fun o' o2 EB EF) as [R1 R2].
  unfold beam_part in EB. unfold fnd_part in EF. injection EB as E1 _ _ _. injection EF as E2 E3 _.
  repeat split; congruence.
Qed.
(** The fresh model exists. *)
Lemma fresh_exists cs o o' la C0 C1 nub t E nu of :
  last_beam cs = Some (la, C0, C1, nub) -> session eig o cs = Ok o' ->
  exists o2, session eig of [OBeam la C0 C1 nub false; OFnd t E nu false; ORecalc] = Ok o2.
Proof.
  intros LB H. destruct (session_parts _ _ _ H) as (A1 & _). rewrite LB in A1.
  unfold beam_of in A1. cbn [session step]. unfold set_beam_properties.
  match goal with |- context [bind (bind ?m _) _] => destruct m as [[ly El]|e]; [|discriminate] end. cbn [bind] in *.
  destruct (calc_center_of_gravity ly) as [h z]. cbn [bind]. eexists. reflexivity.
Qed.

Lemma session_stale cs o o' : Forall (fun c => ~ recomputes c) cs -> session eig o cs = Ok o' ->
  stiffnesses (o_par o') = stiffnesses (o_par o) /\ o_eig o' = o_eig o.
Proof.
  intros F. revert o. induction F as [|c cs N F IH]; intros o H; [apply Ok_inj in H; subst; auto|].
  simpl in H. destruct (step eig o c) as [o1|] eqn:E; [|discriminate]. simpl in H. destruct (IH o1 H) as [-> ->].
  destruct c as [t E0 nu [|]|la C0 C1 nu [|]|p|]; simpl in N, E; try (exfalso; apply N; reflexivity); try (exfalso; apply N; exact I).
  - apply Ok_inj in E. subst o1. auto.
  - unfold set_beam_properties in E.
    match type of E with context [bind ?m _] => destruct m as [[ly El]|e]; [|discriminate] end. cbn [bind] in E.
    destruct (calc_center_of_gravity ly) as [h z]. apply Ok_inj in E. subst o1. auto.
  - apply Ok_inj in E. subst o1. auto.
Qed.
End S.
