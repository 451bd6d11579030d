(** Property theorem C55: the model state depends only on the last properties set. *)
Require Import Verif.Py Verif.MTools Verif.MEigen Verif.MSession Verif.SState Verif.PSetup Verif.PState.

(** C55: after a session that ends in a recomputation, all stiffnesses and the eigensystem are those
    of a new model with the same final properties, ... *)
Theorem C55_recomputed eig cs o o' la C0 C1 nub t E nu system touchdown :
  up_to_date cs -> last_beam cs = Some (la, C0, C1, nub) -> last_fnd cs = Some (t, E, nu) ->
  session eig o cs = Ok o' ->
  exists o2,
    session eig (init_obj system touchdown) [OBeam la C0 C1 nub false; OFnd t E nu false; ORecalc] = Ok o2 /\
    o_par o' = o_par o2 /\ o_eig o' = o_eig o2 /\ o_slab o' = o_slab o2 /\
    o_weakE o' = o_weakE o2 /\ o_weaknu o' = o_weaknu o2.
Proof.
  intros U LB LF H. destruct (fresh_exists eig cs o o' la C0 C1 nub t E nu (init_obj system touchdown) LB H) as [o2 H2].
  exists o2. split; [exact H2|]. exact (session_fresh eig cs o o' la C0 C1 nub t E nu _ o2 U LB LF H H2).
Qed.
Print Assumptions C55_recomputed.
(** ... also when the session sets only one group of properties: only the final state counts; ... *)
Theorem C55_history eig cs1 cs2 oa ob o1 o2 :
  up_to_date cs1 -> up_to_date cs2 -> session eig oa cs1 = Ok o1 -> session eig ob cs2 = Ok o2 ->
  o_slab o1 = o_slab o2 -> o_k o1 = o_k o2 -> hh (o_par o1) = hh (o_par o2) -> zs (o_par o1) = zs (o_par o2) ->
  o_weakE o1 = o_weakE o2 -> o_weaknu o1 = o_weaknu o2 -> wt (o_par o1) = wt (o_par o2) ->
  o_par o1 = o_par o2 /\ o_eig o1 = o_eig o2.
Proof.
  intros U1 U2 H1 H2 A B C D E F G.
  destruct (up_to_date_state eig _ _ _ U1 H1) as [P1 P2]. destruct (up_to_date_state eig _ _ _ U2 H2) as [Q1 Q2].
  destruct (recalc_fun eig o1 o2) as [R1 R2]; [unfold beam_part; congruence|unfold fnd_part; congruence|].
  split; congruence.
Qed.
Print Assumptions C55_history.
(** ... without recomputation stiffnesses and eigensystem keep their values; ... *)
Theorem C55_stale eig cs o o' :
  Forall (fun c => ~ recomputes c) cs -> session eig o cs = Ok o' ->
  stiffnesses (o_par o') = stiffnesses (o_par o) /\ o_eig o' = o_eig o.
Proof. exact (session_stale eig cs o o'). Qed.
Print Assumptions C55_stale.
(** ... the surface load is the last one set; ... *)
Theorem C55_surface eig cs o o' :
  session eig o cs = Ok o' -> o_p o' = match last_surf cs with Some p => p | None => o_p o end.
Proof.
  intros H. destruct (session_parts eig cs o o' H) as (_ & _ & S3). destruct (last_surf cs); exact S3.
Qed.
Print Assumptions C55_surface.
(** ... and the constructor is such a session. *)
Theorem C55_constructor eig system l ls touchdown :
  Layered eig system (LList (l :: ls)) touchdown =
  session eig (init_obj system touchdown)
    [OBeam (LList (l :: ls)) (65 / 10) (44 / 10) (1 / 4) false; OFnd 30 (1 / 4) (1 / 4) false; ORecalc].
Proof.
  unfold Layered. cbn [session step]. destruct (set_beam_properties _ _ _ _ _ _ _); reflexivity.
Qed.
Print Assumptions C55_constructor.

(** A history with a stale intermediate state, a surface load and an abandoned weak layer. *)
Definition ex_ops : list op :=
  [OFnd 10 1 0 true; OBeam (LList [(100, 50)]) 1 2 0 false; OFnd 20 (1 / 2) (1 / 5) false; OSurf 3;
   OBeam (LList [(200, 100); (300, 50)]) (65 / 10) (44 / 10) (1 / 4) true; OSurf 4].
Example C55_example eig : exists o' o2,
  session eig (init_obj "skier" false) ex_ops = Ok o' /\
  session eig (init_obj "pst-" true) [OBeam (LList [(200, 100); (300, 50)]) (65 / 10) (44 / 10) (1 / 4) false;
    OFnd 20 (1 / 2) (1 / 5) false; ORecalc] = Ok o2 /\
  o_par o' = o_par o2 /\ o_eig o' = o_eig o2 /\ o_p o' = 4 /\ kt (o_par o') = 1 / 96.
Proof.
  assert (H : exists o', session eig (init_obj "skier" false) ex_ops = Ok o') by (eexists; reflexivity).
  destruct H as [o' H]. exists o'.
  assert (U : up_to_date ex_ops).
  { exists [OFnd 10 1 0 true; OBeam (LList [(100, 50)]) 1 2 0 false; OFnd 20 (1 / 2) (1 / 5) false; OSurf 3],
      (OBeam (LList [(200, 100); (300, 50)]) (65 / 10) (44 / 10) (1 / 4) true), [OSurf 4].
    repeat split. constructor; [exists 4; reflexivity|constructor]. }
  destruct (C55_recomputed eig ex_ops _ o' _ _ _ _ _ _ _ "pst-" true U eq_refl eq_refl H) as (o2 & H2 & P & E & _).
  exists o2. repeat split; try assumption.
  - apply (C55_surface eig ex_ops _ o' H).
  - rewrite P. assert (K : kt (o_par o2) = 1 / 2 / (2 * (1 + 1 / 5)) / 20).
    { cbn [session step] in H2. unfold set_beam_properties in H2. cbn [bind] in H2.
      destruct (calc_center_of_gravity _) as [h z]. cbn [bind] in H2. apply Ok_inj in H2. subst o2.
      unfold o_calc_fundamental_system, o_calc_eigensystem, o_calc_laminate.
      destruct (calc_laminate_stiffness_matrix _ _ _) as [[[[A B] D] Sk] K]. reflexivity. }
    rewrite K. lra.
Qed.
(** The stale state differs from the fresh one. *)
Example C55_stale_example eig : exists o',
  session eig (init_obj "skier" false) [OFnd 10 1 0 true; OFnd 20 1 0 false] = Ok o' /\
  wt (o_par o') = 20 /\ kn (o_par o') = 1 / 10.
Proof.
  eexists. split; [reflexivity|]. split; [reflexivity|]. simpl.
  replace (1 - 0 * (0 * 1)) with 1 by ring. lra.
Qed.
