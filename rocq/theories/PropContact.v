(** Property theorems C25-C37, C68-C70: substitute springs and touchdown. *)
From Coquelicot Require Import Coquelicot.
Require Import Verif.Py Verif.MTools Verif.MEigen Verif.MFields Verif.SAdm Verif.MRaster
  Verif.MSolution Verif.MClass Verif.SBeam Verif.SBvp Verif.SEig Verif.SContact Verif.PWell3 Verif.PBvp6 Verif.PSub
  Verif.PTouch Verif.PContact Verif.PContact2 Verif.PContact3 Verif.PClass Verif.PBeam2 Verif.PLinAlg Verif.SLoad.

(** C25: a returning call restores every attribute of the object. *)
Theorem C25_restores eig solve o L support dof k o' : fresh eig o ->
  substitute_stiffness eig solve o L support dof = (Ok k, o') -> o' = o.
Proof. exact (sub_restores eig solve o L support dof k o'). Qed.
Print Assumptions C25_restores.
Example C25_example : fresh ex_eig (ex_c "pst-" None 30) /\ exists k,
  fst (substitute_stiffness ex_eig elim_solve (ex_c "pst-" None 30) 8 "rested" "rot") = Ok k /\ 0 < k.
Proof.
  split; [reflexivity|].
  exact (rot_positive ex_eig elim_solve _ 8 "rested" elim_sound elim_complete (ex_c_ready _ _ _ _) ltac:(lra)).
Qed.

(** C26: not exception safe. A zero length makes the system unsolvable; the object
    is left with the unit-load system and the collapsed stiffness ... *)
Theorem C26_zero_length eig solve o support : sound_solver solve -> substitute_ready eig o support ->
  exists e o', substitute_stiffness eig solve o 0 support "rot" = (Err e, o') /\
    o_system o' = "rot"%string /\ kn (o_par o') = kn (foundation_of o support).
Proof. exact (sub_zero_length eig solve o support). Qed.
Print Assumptions C26_zero_length.
(** ... and an unknown degree of freedom always raises and leaves the collapsed
    stiffness behind. *)
Theorem C26_unknown_dof eig solve o L dof : dof <> "rot"%string -> dof <> "trans"%string ->
  exists e o', substitute_stiffness eig solve o L "rested" dof = (Err e, o') /\
    kn (o_par o') = o_ratio o * kn (o_par o).
Proof. exact (sub_unknown_dof eig solve o L dof). Qed.
Print Assumptions C26_unknown_dof.
Theorem C26_refuted : exists o e1 o1 e2 o2,
  substitute_stiffness ex_eig elim_solve o 0 "supported" "rot" = (Err e1, o1) /\ o_system o1 <> o_system o /\
  substitute_stiffness ex_eig elim_solve o 8 "rested" "shear" = (Err e2, o2) /\ kn (o_par o2) <> kn (o_par o).
Proof.
  exists (ex_obj "pst-" None 0).
  destruct (sub_zero_length ex_eig elim_solve (ex_obj "pst-" None 0) "supported" elim_sound
    (conj (ex_ready _ _ _) (conj eq_refl (conj ex_fnd_ok (conj ex_stable ex_good))))) as (e1 & o1 & E1 & S1 & _).
  destruct (sub_unknown_dof ex_eig elim_solve (ex_obj "pst-" None 0) 8 "shear" ltac:(discriminate) ltac:(discriminate))
    as (e2 & o2 & E2 & S2).
  exists e1, o1, e2, o2. split; [exact E1|]. split; [rewrite S1; discriminate|]. split; [exact E2|].
  rewrite S2. simpl. lra.
Qed.
Print Assumptions C26_refuted.

(** C27: the rotational spring is the inverse end rotation per unit end moment of
    the load-free beam ... *)
Theorem C27_rotational eig solve o L support z : sound_solver solve -> complete_solver solve ->
  substitute_ready eig o support -> 0 < L ->
  end_loaded_beam (foundation_of o support) L 1 0 z ->
  z_psi (z 0) < 0 /\
  fst (substitute_stiffness eig solve o L support "rot") = Ok (1 / - z_psi (z 0)).
Proof. exact (sub_rot eig solve o L support z). Qed.
Print Assumptions C27_rotational.
(** ... independent of the load ... *)
Theorem C27_rotational_load_free eig solve o L support p : sound_solver solve -> complete_solver solve ->
  substitute_ready eig o support -> 0 < L ->
  fst (substitute_stiffness eig solve (set_surface_load o p) L support "rot")
  = fst (substitute_stiffness eig solve o L support "rot").
Proof. exact (rot_load_free eig solve o L support p). Qed.
Print Assumptions C27_rotational_load_free.
(** ... but the translational one contains the settlement under the slab load ... *)
Theorem C27_translational eig solve o L support z : sound_solver solve -> complete_solver solve ->
  substitute_ready eig o support -> 0 < L ->
  end_loaded_beam (foundation_of o support) L 0 1 z ->
  z_w (z 0) < 0 /\
  fst (substitute_stiffness eig solve o L support "trans")
    = Ok (Rabs (1 / (z_w (z 0) + (qn (loads_of o 0) + pn (loads_of o 0)) / kn (foundation_of o support)))).
Proof. exact (sub_trans eig solve o L support z). Qed.
Print Assumptions C27_translational.
(** ... so for every object and length there are loads that change it. *)
Theorem C27_translational_refuted eig solve o L support : sound_solver solve -> complete_solver solve ->
  substitute_ready eig o support -> 0 < L ->
  exists p1 p2 k1 k2, 0 < p1 < p2 /\
  fst (substitute_stiffness eig solve (set_surface_load o p1) L support "trans") = Ok k1 /\
  fst (substitute_stiffness eig solve (set_surface_load o p2) L support "trans") = Ok k2 /\ k2 < k1.
Proof. exact (trans_depends eig solve o L support). Qed.
Print Assumptions C27_translational_refuted.
Example C27_example : sound_solver elim_solve /\ complete_solver elim_solve /\
  substitute_ready ex_eig (ex_c "pst-" None 0) "rested" /\
  (exists z, end_loaded_beam (foundation_of (ex_c "pst-" None 0) "rested") 8 1 0 z) /\
  (exists z, end_loaded_beam (foundation_of (ex_c "pst-" None 0) "rested") 8 0 1 z).
Proof.
  exact (conj elim_sound (conj elim_complete (conj (ex_c_ready _ _ _ _)
    (beam_exists ex_eig _ 8 "rested" (ex_c_ready "pst-" None 0 "rested") ltac:(lra))))).
Qed.

(** C28: meaning of the first-contact polynomial ... *)
Theorem C28_polynomial p q kR kN l z tc : lam_ok p -> 0 < kR -> 0 < kN -> 0 <= l -> q <> 0 ->
  hanging_beam p q kR kN l z -> free_tip p l z ->
  q * poly_a1 (bs_of p) (kA55 p) q tc kR kN l = z_w (z l) - tc.
Proof.
  exact (fun Hl HR HN H0 Hq HB HT => poly_a1_meaning p Hl q kR kN l HR HN H0 z HB tc Hq HT).
Qed.
Print Assumptions C28_polynomial.
(** ... about a beam problem that has a solution ... *)
Theorem C28_beam_exists p q kR kN l : lam_ok p -> 0 < kR -> 0 < kN -> 0 <= l ->
  exists z, hanging_beam p q kR kN l z /\ free_tip p l z.
Proof. exact (free_tip_exists p q kR kN l). Qed.
Print Assumptions C28_beam_exists.
Lemma calc_qn_is o : calc_qn o = normal_pressure o.
Proof.
  assert (A : o_phi o * PI / 180 = o_phi o * (PI / 180)) by (unfold Rdiv; ring). unfold normal_pressure. rewrite A. clear A.
  replace (map (fun p => p_rho p / 10 ^ 12 * o_g o * p_h p) (o_slab o)) with (map (fun p => p_rho p * (1 / 1000000000000) * o_g o * p_h p) (o_slab o)).
  { unfold calc_qn, loads_of, get_weight_load, get_surface_load, deg2rad. cbn [qn pn]. ring. }
  apply map_ext. intros p. field.
Qed.
(** ... and end to end: the returned length is within the root finder's accuracy of
    a length where the tip has not yet and one where it has reached tc. *)
Theorem C28_first_contact eig solve brent maxeval o r o' delta L : lam_ok (o_par o) -> fresh eig o ->
  returns_sign_change brent delta -> 0 < normal_pressure o -> o_L o = Some L -> 0 < L ->
  calc_a1 eig solve brent maxeval o = (Ok r, o') ->
  exists x1 x2, Rabs (x1 - r) <= delta /\ Rabs (x2 - r) <= delta /\
    0 < x1 < L /\ 0 < x2 < L /\
    (exists kR kN, springs eig solve o (L - x1) kR kN /\
      forall z, 0 < kR -> 0 < kN -> hanging_beam (o_par o) (normal_pressure o) kR kN x1 z -> free_tip (o_par o) x1 z ->
        z_w (z x1) <= o_tc o) /\
    (exists kR kN, springs eig solve o (L - x2) kR kN /\
      forall z, 0 < kR -> 0 < kN -> hanging_beam (o_par o) (normal_pressure o) kR kN x2 z -> free_tip (o_par o) x2 z ->
        o_tc o <= z_w (z x2)).
Proof. rewrite <- calc_qn_is. exact (first_contact eig solve brent maxeval o r o' delta L). Qed.
Print Assumptions C28_first_contact.
Example C28_example : returns_sign_change ex_brent 0 /\ fresh ex_eig (ex_c "pst-" None 0) /\ exists tc,
  calc_a1 ex_eig elim_solve ex_brent 100 (with_contact (ex_c "pst-" None 0) 0 2 (Some 10) tc 1 None 1)
  = (Ok (10 / 1000), with_contact (ex_c "pst-" None 0) 0 2 (Some 10) tc 1 None 1).
Proof. exact (conj ex_brent_sign (conj eq_refl ex_first_contact)). Qed.

(** C29: meaning of the contact polynomials ... *)
Theorem C29_polynomial p q kR kN l kT tc z : lam_ok p -> 0 < kR -> 0 < kN -> 0 <= kT -> 0 <= l ->
  hanging_beam p q kR kN l z -> contact_tip p kT tc l z ->
  (poly_lC (bs_of p) (kA55 p) q tc kR kN kT l = 0 <-> z_dw (z l) = 0) /\
  (poly_lC (bs_of p) (kA55 p) q tc kR kN kT l < 0 <-> 0 < z_dw (z l)) /\
  (0 < poly_lC (bs_of p) (kA55 p) q tc kR kN kT l <-> z_dw (z l) < 0).
Proof. exact (lC_sign p q kR kN l kT tc z). Qed.
Print Assumptions C29_polynomial.
Theorem C29_a2_is_lC p q kR kN tc x :
  poly_a2 (bs_of p) (kA55 p) q tc kR kN x = poly_lC (bs_of p) (kA55 p) q tc kR kN 0 x.
Proof. exact (poly_a2_is_lC p q kR kN tc x). Qed.
Print Assumptions C29_a2_is_lC.
Theorem C29_beam_exists p q kR kN kT tc l : lam_ok p -> 0 < kR -> 0 < kN -> 0 <= kT -> 0 <= l ->
  exists z, hanging_beam p q kR kN l z /\ contact_tip p kT tc l z.
Proof. exact (contact_tip_exists p q kR kN kT tc l). Qed.
Print Assumptions C29_beam_exists.
(** ... and end to end for both lengths. *)
Theorem C29_full_contact eig solve brent maxeval o r o' delta L : lam_ok (o_par o) -> fresh eig o ->
  returns_sign_change brent delta -> o_L o = Some L -> 0 < L ->
  calc_a2 eig solve brent maxeval o = (Ok r, o') ->
  exists x1 x2, Rabs (x1 - r) <= delta /\ Rabs (x2 - r) <= delta /\
    0 < x1 < L /\ 0 < x2 < L /\
    (exists kR kN, springs eig solve o (L - x1) kR kN /\
      forall z, 0 < kR -> 0 < kN -> hanging_beam (o_par o) (normal_pressure o) kR kN x1 z ->
        contact_tip (o_par o) 0 (o_tc o) x1 z -> 0 <= z_dw (z x1)) /\
    (exists kR kN, springs eig solve o (L - x2) kR kN /\
      forall z, 0 < kR -> 0 < kN -> hanging_beam (o_par o) (normal_pressure o) kR kN x2 z ->
        contact_tip (o_par o) 0 (o_tc o) x2 z -> z_dw (z x2) <= 0).
Proof. rewrite <- calc_qn_is. exact (full_contact eig solve brent maxeval o r o' delta L). Qed.
Print Assumptions C29_full_contact.
Theorem C29_contact_length eig solve brent maxeval o r o' delta L : lam_ok (o_par o) -> fresh eig o ->
  returns_sign_change brent delta -> o_L o = Some L -> 0 < o_a o < L ->
  calc_lC eig solve brent maxeval o = (Ok r, o') ->
  exists x1 x2, Rabs (x1 - r) <= delta /\ Rabs (x2 - r) <= delta /\
    0 < x1 < o_a o /\ 0 < x2 < o_a o /\ exists kR kN, springs eig solve o (L - o_a o) kR kN /\
    (exists kT, fst (substitute_stiffness eig solve o (o_a o - x1) "rested" "rot") = Ok kT /\
      forall z, 0 < kR -> 0 < kN -> 0 <= kT -> hanging_beam (o_par o) (normal_pressure o) kR kN x1 z ->
        contact_tip (o_par o) kT (o_tc o) x1 z -> 0 <= z_dw (z x1)) /\
    (exists kT, fst (substitute_stiffness eig solve o (o_a o - x2) "rested" "rot") = Ok kT /\
      forall z, 0 < kR -> 0 < kN -> 0 <= kT -> hanging_beam (o_par o) (normal_pressure o) kR kN x2 z ->
        contact_tip (o_par o) kT (o_tc o) x2 z -> z_dw (z x2) <= 0).
Proof. rewrite <- calc_qn_is. exact (contact_length eig solve brent maxeval o r o' delta L). Qed.
Print Assumptions C29_contact_length.
Example C29_example : returns_sign_change ex_brent 0 /\
  (exists p tc, calc_a2 ex_eig elim_solve ex_brent 100 (ex_t p tc) = (Ok (10 / 1000), ex_t p tc)) /\
  (exists p tc, calc_lC ex_eig elim_solve ex_brent 100 (ex_t p tc) = (Ok (2 / 1000), ex_t p tc)).
Proof. exact (conj ex_brent_sign (conj ex_full_contact ex_contact_length)). Qed.

(** C30: where the full-contact condition holds, the freely hanging tip would lie
    below the crack height ... *)
Theorem C30_order bs ss q tc kR kN l : 0 < bs -> 0 < ss -> 0 < q -> 0 < kR -> 0 < kN -> 0 < l ->
  poly_a2 bs ss q tc kR kN l = 0 -> 0 < poly_a1 bs ss q tc kR kN l.
Proof. exact (a2_after_a1 bs ss q tc kR kN l). Qed.
Print Assumptions C30_order.
(** ... and the stage assignment is total, exclusive and monotone. *)
Theorem C30_stages a a1 a2 :
  (stage a a1 a2 = ModeA <-> a <= a1) /\
  (stage a a1 a2 = ModeB <-> a1 < a <= a2) /\
  (stage a a1 a2 = ModeC <-> a1 < a /\ a2 < a).
Proof. exact (stage_spec a a1 a2). Qed.
Print Assumptions C30_stages.
Theorem C30_monotone a b a1 a2 : a <= b -> (mode_rank (stage a a1 a2) <= mode_rank (stage b a1 a2))%nat.
Proof. exact (stage_monotone a b a1 a2). Qed.
Print Assumptions C30_monotone.
Example C30_example : exists tc, poly_a2 1 1 1 tc 1 1 1 = 0 /\ 0 < poly_a1 1 1 1 tc 1 1 1.
Proof.
  exists (445 / 360). assert (E : poly_a2 1 1 1 (445 / 360) 1 1 1 = 0) by (unfold poly_a2; field).
  split; [exact E|]. apply a2_after_a1; lra || exact E.
Qed.

(** C31: bounds of the touchdown length. *)
Theorem C31_bounds eig solve brent maxeval o li mi ki k0 L a m phi cf ratio s o' : fresh eig o ->
  stays_in_bracket brent -> 0 <= a ->
  calc_segments eig solve brent maxeval li mi ki k0 L a m phi cf ratio o = (Ok s, o') ->
  (o_mode o' = Some ModeA \/ o_mode o' = Some ModeB \/ o_mode o' = Some ModeC) /\
  (o_mode o' <> Some ModeC -> o_td o' = a) /\
  (o_mode o' = Some ModeC -> a / 1000 <= o_td o' <= 999 / 1000 * a) /\
  (o_touchdown o = false -> o_mode o' = Some ModeA).
Proof. exact (td_bounds eig solve brent maxeval o li mi ki k0 L a m phi cf ratio s o'). Qed.
Print Assumptions C31_bounds.
Example C31_example : stays_in_bracket ex_brent_lo /\ fresh ex_eig (ex_c "pst-" None 0) /\ exists s o',
  calc_segments ex_eig elim_solve ex_brent_lo 100 [] [] [] [] 10 2 0 0 (1 / 2) 1 (ex_c "pst-" None 0) = (Ok s, o') /\
  o_mode o' = Some ModeC /\ o_td o' = 2 / 1000.
Proof. exact (conj ex_brent_lo_stays (conj eq_refl ex_stageC)). Qed.

(** C32: the segment lists partition the model. *)
Theorem C32_partition eig solve brent maxeval o li mi ki k0 L a m phi cf ratio s o' : fresh eig o ->
  calc_segments eig solve brent maxeval li mi ki k0 L a m phi cf ratio o = (Ok s, o') ->
  o_system o <> "skiers"%string ->
  List.length (s_ki s) = List.length (s_li s) /\ List.length (s_k0 s) = List.length (s_li s) /\
  List.length (s_li s) = S (List.length (s_mi s)) /\
  (forall k, In k (s_k0 s) -> k = true) /\
  ((o_system o = "pst-"%string \/ o_system o = "-pst"%string) /\
     rsum (s_li s) = L - a + o_td o' /\ free_length (s_li s) (s_ki s) = o_td o' \/
   (o_system o = "vpst-"%string \/ o_system o = "-vpst"%string \/ o_system o = "skier"%string) /\
     rsum (s_li s) = L /\ free_length (s_li s) (s_ki s) = a) /\
  (o_mode o' <> Some ModeC -> rsum (s_li s) = L /\ free_length (s_li s) (s_ki s) = a) /\
  (stays_in_bracket brent -> 0 <= a <= L -> forall l, In l (s_li s) -> 0 <= l) /\
  (o_system o = "skier"%string -> s_mi s = [0; m; 0] /\ rsum (firstn 2 (s_li s)) = L / 2).
Proof. exact (partition eig solve brent maxeval o li mi ki k0 L a m phi cf ratio s o'). Qed.
Print Assumptions C32_partition.
Theorem C32_unknown_system eig solve brent maxeval o li mi ki k0 L a m phi cf ratio :
  ~ In (o_system o) ["skiers"; "pst-"; "-pst"; "vpst-"; "-vpst"; "skier"]%string ->
  o_touchdown o = false ->
  fst (calc_segments eig solve brent maxeval li mi ki k0 L a m phi cf ratio o) = Err ValueError.
Proof. exact (unknown_system eig solve brent maxeval o li mi ki k0 L a m phi cf ratio). Qed.
Print Assumptions C32_unknown_system.
Example C32_example : exists s o',
  calc_segments ex_eig elim_solve ex_brent_lo 100 [] [] [] [] 10 2 0 0 (1 / 2) 1 (ex_c "pst-" None 0) = (Ok s, o') /\
  o_mode o' = Some ModeC /\ o_td o' = 2 / 1000.
Proof. exact ex_stageC. Qed.

(** C33: repeatable once the inclination is stored ... *)
Theorem C33_repeatable_partial eig solve brent maxeval o li mi ki k0 L a m phi cf ratio s o1 : fresh eig o ->
  o_phi o = phi ->
  calc_segments eig solve brent maxeval li mi ki k0 L a m phi cf ratio o = (Ok s, o1) ->
  calc_segments eig solve brent maxeval li mi ki k0 L a m phi cf ratio o1 = (Ok s, o1).
Proof. exact (repeatable eig solve brent maxeval o li mi ki k0 L a m phi cf ratio s o1). Qed.
Print Assumptions C33_repeatable_partial.
(** ... but not on the first call with a new inclination: the crack height is
    computed with the old one. *)
Theorem C33_refuted : exists o s o1 o2, fresh ex_eig o /\
  calc_segments ex_eig elim_solve ex_brent 100 [] [] [] [] 10 2 80 60 (1 / 2) 1 o = (Ok s, o1) /\
  calc_segments ex_eig elim_solve ex_brent 100 [] [] [] [] 10 2 80 60 (1 / 2) 1 o1 = (Ok s, o2) /\
  o_tc o1 <> o_tc o2.
Proof. exact (ex_intro _ _ ex_not_repeatable). Qed.
Print Assumptions C33_refuted.
Example C33_example : o_phi (ex_c "pst-" None 0) = 0 /\ exists s o',
  calc_segments ex_eig elim_solve ex_brent_lo 100 [] [] [] [] 10 2 0 0 (1 / 2) 1 (ex_c "pst-" None 0) = (Ok s, o') /\
  o_mode o' = Some ModeC /\ o_td o' = 2 / 1000.
Proof. exact (conj eq_refl ex_stageC). Qed.

(** C34: the elastic model is untouched. *)
Theorem C34_untouched eig solve brent maxeval o li mi ki k0 L a m phi cf ratio s o' : fresh eig o ->
  calc_segments eig solve brent maxeval li mi ki k0 L a m phi cf ratio o = (Ok s, o') ->
  o_system o' = o_system o /\ o_par o' = o_par o /\ o_eig o' = o_eig o /\ o_slab o' = o_slab o /\
  o_p o' = o_p o /\ o_g o' = o_g o /\ o_touchdown o' = o_touchdown o /\
  o_weakE o' = o_weakE o /\ o_weaknu o' = o_weaknu o /\ o_k o' = o_k o /\ o_lski o' = o_lski o.
Proof.
  intros Hf H.
  destruct (segments_state eig solve brent maxeval o li mi ki k0 L a m phi cf ratio s o' Hf H) as (md & td & -> & _).
  repeat split; reflexivity.
Qed.
Print Assumptions C34_untouched.
Example C34_example : fresh ex_eig (ex_c "pst-" None 0) /\ exists s o',
  calc_segments ex_eig elim_solve ex_brent_lo 100 [] [] [] [] 10 2 0 0 (1 / 2) 1 (ex_c "pst-" None 0) = (Ok s, o') /\
  o_mode o' = Some ModeC /\ o_td o' = 2 / 1000.
Proof. exact (conj eq_refl ex_stageC). Qed.

(** C35: a model whose settlement exceeds the crack height is rejected. *)
Theorem C35_rejected eig solve brent maxeval o li mi ki k0 L a m phi cf ratio :
  sound_solver solve -> complete_solver solve -> substitute_ready eig o "supported" ->
  rejects_equal_signs brent -> (2 <= maxeval)%nat -> 0 < L -> o_touchdown o = true ->
  let oa := set_touchdown_attributes L a cf phi ratio o in
  0 < normal_pressure oa -> o_tc oa <= 0 ->
  fst (calc_segments eig solve brent maxeval li mi ki k0 L a m phi cf ratio o) = Err ValueError.
Proof. intros A B C D E F G oa. rewrite <- calc_qn_is. revert A B C D E F G. exact (touchdown_rejected eig solve brent maxeval o li mi ki k0 L a m phi cf ratio). Qed.
Print Assumptions C35_rejected.
Theorem C35_refuted : exists o, rejects_equal_signs ex_brent /\ substitute_ready ex_eig o "supported" /\
  fst (calc_segments ex_eig elim_solve ex_brent 100 [] [] [] [] 10 2 0 0 (1 / 2) 1 o) = Err ValueError.
Proof.
  exists (set_surface_load (ex_c "pst-" None 0) 100). split; [exact ex_brent_rejects|].
  split; [exact (ex_c_ready "pst-" None 0 "supported")|exact ex_rejected].
Qed.
Print Assumptions C35_refuted.

(** C36: in contact stages the unsupported face of a vertical-face PST gets the
    crack height as shear force. *)
Theorem C36_face eig solve o aslist phi li mi ki Cs : sound_solver solve -> ready o ->
  (2 <= List.length li)%nat -> kind_of (o_system o) = Some KVpst ->
  (o_mode o = Some ModeB \/ o_mode o = Some ModeC) ->
  assemble_and_solve eig solve o aslist phi li mi ki = Ok Cs ->
  let n := (List.length li - 1)%nat in
  nth n ki false = false ->
  sM (o_par o) (field o phi (nth n li 0) false (nth n Cs []) (nth n li 0)) = 0 /\
  sV (o_par o) (field o phi (nth n li 0) false (nth n Cs []) (nth n li 0)) = o_tc o.
Proof.
  exact (vpst_corrupt solve (fst (substitute_stiffness eig solve o (o_a o - o_td o) "rested" "rot")) o aslist phi li mi ki Cs).
Qed.
Print Assumptions C36_face.
Theorem C36_refuted : exists o Cs, kind_of (o_system o) = Some KVpst /\ ready o /\
  assemble_and_solve ex_eig elim_solve o true 0 [8; 2] [0] [true; false] = Ok Cs /\
  forall kRv, ~ bvp o kRv 0 [8; 2] [0] [true; false] Cs.
Proof.
  destruct ex_vpst_not_bvp as [Cs H].
  exists (ex_c "vpst-" (Some ModeB) 0), Cs. split; [reflexivity|]. split; [exact (ex_ready "vpst-" (Some ModeB) 0)|exact H].
Qed.
Print Assumptions C36_refuted.

(** C37: [Layered] supports segment generation, [Inverse] does not. *)
Theorem C37_layered eig solve brent maxeval li mi ki k0 L a m phi cf ratio o :
  calc_segments_on "Layered" eig solve brent maxeval li mi ki k0 L a m phi cf ratio o
  = calc_segments eig solve brent maxeval li mi ki k0 L a m phi cf ratio o.
Proof. reflexivity. Qed.
Print Assumptions C37_layered.
Theorem C37_refuted eig solve brent maxeval li mi ki k0 L a m phi cf ratio o :
  has_method "Inverse" "calc_segments" = true /\
  fst (calc_segments_on "Inverse" eig solve brent maxeval li mi ki k0 L a m phi cf ratio o) = Err AttributeError.
Proof. exact (conj eq_refl eq_refl). Qed.
Print Assumptions C37_refuted.
Example C37_example : let run c := calc_segments_on c ex_eig elim_solve ex_brent_lo 100 [] [] [] [] 10 2 0 0 (1 / 2) 1 (ex_c "pst-" None 0) in
  (exists s, fst (run "Layered"%string) = Ok s) /\ fst (run "Inverse"%string) = Err AttributeError.
Proof.
  split; [|reflexivity]. destruct ex_stageC as (s & o' & E & _). exists s.
  transitivity (fst (Ok s, o')); [|reflexivity]. apply f_equal. exact E.
Qed.

(** C70: every instance method used by a method of [Layered] exists ... *)
Theorem C70_layered m d refs r : lookup "Layered" m = Some (d, refs) -> In r refs ->
  exists d' refs', lookup "Layered" r = Some (d', refs').
Proof. exact (closed_resolves "Layered" m d refs r layered_closed). Qed.
Print Assumptions C70_layered.
(** ... and exactly five uses in [Inverse] do not. *)
Theorem C70_inverse_refuted m d refs r : lookup "Inverse" m = Some (d, refs) -> In r refs ->
  lookup "Inverse" r = None ->
  In (m, r) [("bc", "substitute_stiffness"); ("calc_segments", "calc_touchdown_system"); ("assemble_and_solve", "calc_qt");
   ("external_potential", "calc_qn"); ("external_potential", "calc_qt")]%string.
Proof. intros H1 H2 H3. rewrite <- inverse_unresolved. exact (unresolved_spec "Inverse" m d refs r H1 H2 H3). Qed.
Print Assumptions C70_inverse_refuted.
Example C70_example : lookup "Layered" "calc_segments" = Some ("SolutionMixin", ["calc_touchdown_system"])%string /\
  lookup "Layered" "calc_touchdown_system" <> None /\
  lookup "Inverse" "external_potential" <> None /\ lookup "Inverse" "calc_qn" = None.
Proof. repeat split; discriminate. Qed.

(** C68: the rotational substitute spring is positive. *)
Theorem C68_positive eig solve o L support : sound_solver solve -> complete_solver solve ->
  substitute_ready eig o support -> 0 < L ->
  exists k, fst (substitute_stiffness eig solve o L support "rot") = Ok k /\ 0 < k.
Proof. exact (rot_positive eig solve o L support). Qed.
Print Assumptions C68_positive.
Example C68_example : sound_solver elim_solve /\ complete_solver elim_solve /\
  substitute_ready ex_eig (ex_c "pst-" None 0) "rested".
Proof. exact (conj elim_sound (conj elim_complete (ex_c_ready _ _ _ _))). Qed.

(** C69: the axial force at a tip in stage C is that of the stored inclination ... *)
Theorem C69_axial_force eig solve o aslist phi li mi ki Cs : sound_solver solve -> ready o ->
  (2 <= List.length li)%nat -> kind_of (o_system o) = Some KPst -> o_mode o = Some ModeC ->
  assemble_and_solve eig solve o aslist phi li mi ki = Ok Cs ->
  let n := (List.length li - 1)%nat in
  nth n ki false = false ->
  sN (o_par o) (field o phi (nth n li 0) false (nth n Cs []) (nth n li 0))
  = (qt (loads_of o (o_phi o)) + pt (loads_of o (o_phi o))) * (o_a o - o_td o).
Proof.
  exact (stageC_force solve (fst (substitute_stiffness eig solve o (o_a o - o_td o) "rested" "rot")) o aslist phi li mi ki Cs).
Qed.
Print Assumptions C69_axial_force.
(** ... which need not be the inclination the system is solved for. *)
Theorem C69_refuted : exists o Cs, kind_of (o_system o) = Some KPst /\ ready o /\
  assemble_and_solve ex_eig elim_solve o true 30 [8; 1] [0] [true; false] = Ok Cs /\
  forall kRv, ~ bvp o kRv 30 [8; 1] [0] [true; false] Cs.
Proof.
  destruct ex_stageC_not_bvp as [Cs H].
  exists (ex_c "pst-" (Some ModeC) 0), Cs. split; [reflexivity|]. split; [exact (ex_ready "pst-" (Some ModeC) 0)|exact H].
Qed.
Print Assumptions C69_refuted.
