(** Proofs about [touchdown_distance] and [Inverse]. *)
From Coq Require Import Lra.
Require Import Verif.Py Verif.MTools Verif.MEigen Verif.MFields Verif.SAdm Verif.SSlab Verif.MRaster Verif.MSolution
  Verif.SBeam Verif.SBvp Verif.SEig Verif.SContact Verif.MTouchdown Verif.PSlab Verif.PCog Verif.PLam Verif.PSetup
  Verif.PContact.
Open Scope R_scope.

Section S.
Variable eig : mat6 -> list eigpair.
Variable solve : nat -> matrix -> vector -> res vector.
Variable brent : R -> R -> list (R * R) -> bstep.
Variable maxeval : nat.

Lemma fresh_fundamental o : fresh eig (o_calc_fundamental_system eig o).
Proof. destruct (fundamental_par eig o) as (_ & A & _). exact A. Qed.

(** The calls, from an object whose inclination is still 0. *)
Lemma touchdown_calls_ok o phi a1 a2 l : fresh eig o -> fst (touchdown_calls eig solve brent maxeval phi o) = Ok (a1, a2, l) ->
  exists o1 o2,
    calc_a1 eig solve brent maxeval o1 = (Ok a1, o1) /\ calc_a2 eig solve brent maxeval o1 = (Ok a2, o1) /\
    calc_lC eig solve brent maxeval o2 = (Ok l, o2) /\
    (exists md td, o1 = with_contact o phi 0 (Some 100000) (1 / 2 * wt (o_par o) - calc_qn o / kn (o_par o)) 1000 md td) /\
    (exists md td, o2 = with_contact o phi (5 * a1) (Some 100000) (1 / 2 * wt (o_par o) - calc_qn o1 / kn (o_par o)) 1000 md td).
Proof.
  intros F. unfold touchdown_calls, sbind.
  destruct (calc_segments eig solve brent maxeval [] [] [] [] 100000 0 0 phi (1 / 2) 1000 o) as [[s|] o1] eqn:E1; [|discriminate].
  destruct (segments_state _ _ _ _ _ _ _ _ _ _ _ _ _ _ _ _ _ F E1) as (md & td & O1 & _).
  assert (F1 : fresh eig o1) by (subst o1; exact F).
  destruct (calc_a1 eig solve brent maxeval o1) as [[r1|] o1'] eqn:E2; [|discriminate].
  destruct (calc_a1_ok _ _ _ _ _ _ _ F1 E2) as (_ & _ & -> & _).
  destruct (calc_a2 eig solve brent maxeval o1) as [[r2|] o1'] eqn:E3; [|discriminate].
  destruct (calc_a2_ok _ _ _ _ _ _ _ F1 E3) as (_ & _ & -> & _).
  destruct (calc_segments eig solve brent maxeval [] [] [] [] 100000 (5 * r1) 0 phi (1 / 2) 1000 o1) as [[s2|] o2] eqn:E4; [|discriminate].
  destruct (segments_state _ _ _ _ _ _ _ _ _ _ _ _ _ _ _ _ _ F1 E4) as (md2 & td2 & O2 & _).
  assert (F2 : fresh eig o2) by (rewrite O2; exact F1).
  destruct (calc_lC eig solve brent maxeval o2) as [[r3|] o2'] eqn:E5; [|discriminate].
  destruct (calc_lC_ok _ _ _ _ _ _ _ F2 E5) as (_ & _ & -> & _).
  unfold sret. simpl. intros H. apply Ok_inj in H. injection H as <- <- <-.
  exists o1, o2. split; [exact E2|]. split; [exact E3|]. split; [exact E5|]. split; [eauto|].
  exists (Some md2), td2. rewrite O2. clear - O1. subst o1. reflexivity.
Qed.

Lemma fundamental_rest o : let o' := o_calc_fundamental_system eig o in
  o_g o' = o_g o /\ o_p o' = o_p o /\ o_phi o' = o_phi o /\ o_slab o' = o_slab o /\ o_system o' = o_system o /\
  o_touchdown o' = o_touchdown o /\ o_weakE o' = o_weakE o /\ o_weaknu o' = o_weaknu o /\ o_k o' = o_k o /\ wt (o_par o') = wt (o_par o) /\
  hh (o_par o') = hh (o_par o) /\ zs (o_par o') = zs (o_par o).
Proof.
  unfold o_calc_fundamental_system, o_calc_eigensystem, o_calc_laminate, o_calc_foundation_stiffness.
  destruct (calc_foundation_stiffness _ _ _) as [n t].
  destruct (calc_laminate_stiffness_matrix _ _ _) as [[[[A B] D] Sk] K]. repeat split; reflexivity.
Qed.

Lemma slab_rest o k h z s : let o' := with_slab o k h z s in
  o_g o' = o_g o /\ o_p o' = o_p o /\ o_phi o' = o_phi o /\ o_system o' = o_system o /\
  o_touchdown o' = o_touchdown o /\ o_weakE o' = o_weakE o /\ o_weaknu o' = o_weaknu o /\ wt (o_par o') = wt (o_par o) /\ o_slab o' = s.
Proof. repeat split; reflexivity. Qed.
Lemma weak_rest o E nu t : let o' := with_weak o E nu t in
  o_g o' = o_g o /\ o_p o' = o_p o /\ o_phi o' = o_phi o /\ o_system o' = o_system o /\
  o_touchdown o' = o_touchdown o /\ o_weakE o' = E /\ o_weaknu o' = nu /\ wt (o_par o') = t.
Proof. repeat split; reflexivity. Qed.
(** The model object. *)
Lemma touchdown_model_ok layers C0 C1 E t : pos_layers layers -> layers <> [] -> 0 < C0 -> 0 < E -> 0 < t ->
  exists o, touchdown_model eig (LList layers) C0 C1 E t = Ok o /\ fresh eig o /\ adm (o_par o) /\
    o_system o = "pst-"%string /\ o_touchdown o = true /\ o_phi o = 0 /\ o_p o = 0 /\ o_g o = 9810 /\ wt (o_par o) = t /\
    kn (o_par o) = E / (1 - (1 / 4) ^ 2) / t /\ o_slab o = user_slab layers C0 C1 (1 / 4).
Proof.
  intros P N HC HE Ht. unfold touchdown_model.
  replace (match LList layers with LStr "" => LList [(240, 200)] | LStr (String _ _) => LList layers
           | LList [] => LList [(240, 200)] | LList (_ :: _) => LList layers end) with (LList layers)
    by (destruct layers; [congruence|reflexivity]).
  unfold Layered. rewrite set_beam_list by discriminate. cbn [bind].
  match goal with |- context [o_calc_fundamental_system eig ?x] => set (y := x) end.
  destruct (fundamental_rest y) as (G0 & Pp0 & Ph0 & _ & Sy0 & Td0 & _). cbv zeta in *.
  set (o0 := o_calc_fundamental_system eig y) in *.
  set (o1 := set_foundation_properties eig o0 t E (1 / 4) true).
  assert (Eb : set_beam_properties eig o1 (LList layers) C0 C1 (1 / 4) true
    = Ok (o_calc_fundamental_system eig (with_slab o1 (5 / 6) (fst (calc_center_of_gravity layers))
            (snd (calc_center_of_gravity layers)) (user_slab layers C0 C1 (1 / 4))))) by exact (set_beam_list eig o1 layers C0 C1 (1 / 4) true N).
  eexists. split; [exact Eb|].
  destruct (set_beam_adm eig o1 layers C0 C1 (1 / 4) _ P N HC ltac:(lra) Eb) as (La & Hh & _).
  destruct (slab_rest o1 (5 / 6) (fst (calc_center_of_gravity layers)) (snd (calc_center_of_gravity layers)) (user_slab layers C0 C1 (1 / 4)))
    as (Gs & Ps & Fs & Ss & Ts & Es & Ns & Hs & Ls). cbv zeta in *.
  set (ob := with_slab o1 _ _ _ _) in *. clearbody ob.
  destruct (fundamental_rest ob) as (G & Pp & Ph & Sl & Sy & Td & We & Wn & _ & Wt & _).
  destruct (fundamental_par eig ob) as (Pa & _ & _). cbv zeta in Pa.
  destruct (fundamental_rest (with_weak o0 E (1 / 4) t)) as (G1 & Pp1 & Ph1 & _ & Sy1 & Td1 & We1 & Wn1 & _ & Wt1 & _).
  cbv zeta in *. change (o_calc_fundamental_system eig (with_weak o0 E (1 / 4) t)) with o1 in *.
  destruct (weak_rest o0 E (1 / 4) t) as (Gw & Pw & Fw & Sw & Tw & Ew & Nw & Hw). cbv zeta in *.
  clearbody o1.
  assert (W1 : o_weakE ob = E) by congruence. assert (W2 : o_weaknu ob = 1 / 4) by congruence.
  assert (W3 : wt (o_par ob) = t) by congruence.
  split; [apply fresh_fundamental|].
  split.
  { split; [exact La|]. split; [|exact Hh]. rewrite Pa. unfold fnd_ok. simpl.
    rewrite W1, W2, W3. pose proof (foundation_pos E (1 / 4) t HE ltac:(lra) Ht) as F. simpl in F. intuition. }
  split; [transitivity (o_system y); [congruence|reflexivity]|].
  split; [transitivity (o_touchdown y); [congruence|reflexivity]|].
  split; [transitivity (o_phi y); [congruence|reflexivity]|].
  split; [transitivity (o_p y); [congruence|reflexivity]|].
  split; [transitivity (o_g y); [congruence|reflexivity]|].
  split; [congruence|].
  split; [rewrite Pa; simpl; rewrite W1, W2, W3; simpl; reflexivity|congruence].
Qed.

(** The recalculation forgets the previous foundation, laminate and eigensystem. *)
Lemma fundamental_ext o o' :
  o_g o = o_g o' -> o_lski o = o_lski o' -> o_tol o = o_tol o' -> o_system o = o_system o' -> o_weakE o = o_weakE o' ->
  o_weaknu o = o_weaknu o' -> o_p o = o_p o' -> o_slab o = o_slab o' -> o_k o = o_k o' -> o_phi o = o_phi o' ->
  wt (o_par o) = wt (o_par o') -> hh (o_par o) = hh (o_par o') -> zs (o_par o) = zs (o_par o') ->
  o_touchdown o = o_touchdown o' -> o_a o = o_a o' -> o_L o = o_L o' -> o_tc o = o_tc o' -> o_ratio o = o_ratio o' ->
  o_mode o = o_mode o' -> o_td o = o_td o' ->
  o_calc_fundamental_system eig o = o_calc_fundamental_system eig o'.
Proof.
  clear. destruct o as [? ? ? ? ? ? ? ? ? ? q], o' as [? ? ? ? ? ? ? ? ? ? q']. destruct q, q'. simpl. intros. subst.
  unfold o_calc_fundamental_system, o_calc_eigensystem, o_calc_laminate, o_calc_foundation_stiffness. simpl o_weakE. simpl o_weaknu. simpl wt.
  destruct (calc_foundation_stiffness _ _ _) as [n t].
  unfold with_kn_kt, with_par, with_eig. cbn [o_slab o_par hh o_k].
  destruct (calc_laminate_stiffness_matrix _ _ _) as [[[[A B] D] Sk] K]. reflexivity.
Qed.
Lemma fundamental_contact o : let o' := o_calc_fundamental_system eig o in
  o_lski o' = o_lski o /\ o_tol o' = o_tol o /\ o_a o' = o_a o /\ o_L o' = o_L o /\ o_tc o' = o_tc o /\ o_ratio o' = o_ratio o /\ o_mode o' = o_mode o /\ o_td o' = o_td o.
Proof.
  clear. unfold o_calc_fundamental_system, o_calc_eigensystem, o_calc_laminate, o_calc_foundation_stiffness.
  destruct (calc_foundation_stiffness _ _ _) as [n t].
  destruct (calc_laminate_stiffness_matrix _ _ _) as [[[[A B] D] Sk] K]. repeat split; reflexivity.
Qed.
(** Recalculating, setting the slab and recalculating, setting the weak layer and recalculating is
    setting both and recalculating once. *)
Lemma fundamental_slab_weak o k h z s E nu t :
  o_calc_fundamental_system eig (with_weak (o_calc_fundamental_system eig (with_slab (o_calc_fundamental_system eig o) k h z s)) E nu t)
  = o_calc_fundamental_system eig (with_weak (with_slab o k h z s) E nu t).
Proof.
  destruct (fundamental_rest o) as (a1 & a2 & a3 & a4 & a5 & a6 & a7 & a8 & a9 & a10 & a11 & a12).
  destruct (fundamental_contact o) as (b1 & b2 & b3 & b4 & b5 & b6 & b7 & b8). cbv zeta in *.
  set (o1 := o_calc_fundamental_system eig o) in *. clearbody o1.
  destruct (fundamental_rest (with_slab o1 k h z s)) as (c1 & c2 & c3 & c4 & c5 & c6 & c7 & c8 & c9 & c10 & c11 & c12).
  destruct (fundamental_contact (with_slab o1 k h z s)) as (d1 & d2 & d3 & d4 & d5 & d6 & d7 & d8). cbv zeta in *.
  set (o2 := o_calc_fundamental_system eig (with_slab o1 k h z s)) in *. clearbody o2.
  apply fundamental_ext; simpl in *; congruence.
Qed.
Lemma fundamental_weak_slab_reset o k h z s k' h' z' s' E nu t E' nu' t' :
  o_calc_fundamental_system eig (with_weak (with_slab (with_weak (with_slab o k h z s) E nu t) k' h' z' s') E' nu' t')
  = o_calc_fundamental_system eig (with_weak (with_slab o k' h' z' s') E' nu' t').
Proof. clear. apply fundamental_ext; reflexivity. Qed.
End S.
