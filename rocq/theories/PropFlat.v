(** C128: on level ground a vertical face is a face normal to the slab: "vpst" and "pst" models coincide. *)
Require Import Verif.Py Verif.MTools Verif.MEigen Verif.MFields Verif.SAdm Verif.MRaster Verif.MSolution Verif.SBeam Verif.SBvp Verif.SEig Verif.SMirror
  Verif.PBeam Verif.PBeam2 Verif.PBvp Verif.PBvp2 Verif.PLinAlg Verif.PWell Verif.PWell2 Verif.PWell3 Verif.PBvp6 Verif.PropDepend.
Open Scope R_scope.

Lemma flat_face o z : face_end o 0 z <-> forces (o_par o) z 0 0 0.
Proof.
  unfold face_end, calc_vertical_bc_center_of_gravity. destruct (Req_EM_T (deg2rad 0) 0) as [_|E]; [|exfalso; apply E; unfold deg2rad; ring].
  unfold forces. rewrite !Rmult_0_r, !Rmult_0_l, Ropp_0. tauto.
Qed.
Theorem C128_level eig solve o o' aslist li mi ki C C' :
  sound_solver solve -> ready o -> stable (o_par o) -> same_structure o o' -> same_loading o o' ->
  kind_of (o_system o) = Some KPst -> o_mode o = Some ModeA -> kind_of (o_system o') = Some KVpst ->
  (2 <= List.length li)%nat -> proper_segments li ki ->
  assemble_and_solve eig solve o aslist 0 li mi ki = Ok C -> assemble_and_solve eig solve o' aslist 0 li mi ki = Ok C' -> C' = C.
Proof.
  intros So Rd St SS SL Hk Hm Hk' L2 Hp H H'.
  pose proof SS as (P1 & P2 & P3 & P4 & P5 & P6 & P7). pose proof SL as (G1 & G2 & G3).
  assert (Rd' : ready o') by (unfold ready in *; rewrite P1, P2; exact Rd).
  assert (B : bvp o 0 0 li mi ki C).
  { apply (solved_bvp eig solve o aslist 0 li mi ki C KPst 0 So Rd L2 Hk); [|discriminate|exact H]. intros _ E. rewrite Hm in E. discriminate. }
  assert (B' : bvp o' 0 0 li mi ki C').
  { apply (solved_bvp eig solve o' aslist 0 li mi ki C' KVpst 0 So Rd' L2 Hk'); [discriminate| |exact H']. intros _. right. rewrite P5. exact Hm. }
  assert (Ld : loads_of o' 0 = loads_of o 0) by (unfold loads_of, get_weight_load, get_surface_load; rewrite G1, G2, P3; reflexivity).
  assert (Fd : forall l k c, field o' 0 l k c = field o 0 l k c) by (intros l k c; unfold field; rewrite P1, P2, Ld; reflexivity).
  assert (B2 : bvp o 0 0 li mi ki C').
  { destruct B' as (A1 & A2 & A3). rewrite !Fd in A1, A2. unfold left_end in A1. unfold right_end in A2. rewrite Hk' in A1, A2. apply flat_face in A1. apply flat_face in A2. rewrite P1 in A1, A2.
    split; [|split].
    - unfold left_end. rewrite Hk. unfold pst_end. rewrite Hm. match goal with |- if ?b then _ else _ => destruct b end; exact A1.
    - unfold right_end. rewrite Hk. unfold pst_end. rewrite Hm. match goal with |- if ?b then _ else _ => destruct b end; exact A2.
    - intros i Hi. specialize (A3 i Hi). rewrite !Fd in A3. unfold transition in A3 |- *. rewrite Hk, Hk', P1, P4, G1 in *. exact A3. }
  assert (Ck : check_segments o li mi ki = Ok tt).
  { unfold assemble_and_solve, assemble_and_solve_with in H. destruct (check_segments o li mi ki) as [[]|]; [reflexivity|discriminate]. }
  destruct (bvp_exists_unique o (Ok 0) 0 0 li mi ki KPst Rd St L2 Ck Hp Hk) as (D & _ & _ & U).
  - intros _ E. rewrite Hm in E. discriminate.
  - discriminate.
  - intros _. rewrite Hm. discriminate.
  - intros r E. injection E as <-. lra.
  - rewrite (U C (solved_six _ _ _ _ _ _ _ _ _ L2 H) B). exact (U C' (solved_six _ _ _ _ _ _ _ _ _ L2 H') B2).
Qed.
Print Assumptions C128_level.

Example C128_example : let o := ex_obj "pst-" (Some ModeA) 0 in let o' := ex_obj "vpst-" (Some ModeA) 0 in exists C,
  same_structure o o' /\ same_loading o o' /\ kind_of (o_system o') = Some KVpst /\ proper_segments [8; 2] [true; false] /\
  assemble_and_solve (fun _ => ex_ews) elim_solve o true 0 [8; 2] [0] [true; false] = Ok C /\
  assemble_and_solve (fun _ => ex_ews) elim_solve o' true 0 [8; 2] [0] [true; false] = Ok C.
Proof.
  intros o o'. assert (SS : same_structure o o') by (repeat split). assert (SL : same_loading o o') by (repeat split).
  assert (V : ~ invalid_segments "vpst-" [8; 2] [0] [true; false]).
  { unfold invalid_segments, finite_ends. simpl. intros [A|[A|[A|[A1 [A|A]]]]]; try discriminate; try (apply A; reflexivity); [|tauto]. specialize (A true ltac:(auto)). discriminate. }
  destruct (well_posed (fun _ => ex_ews) elim_solve o true 0 [8; 2] [0] [true; false] KPst 0 elim_sound elim_complete
    (ex_ready _ _ _) ex_stable ltac:(simpl; lia) ex_valid_pst ex_proper_pst eq_refl ltac:(discriminate) ltac:(discriminate) ltac:(discriminate)) as (C & H & _).
  destruct (well_posed (fun _ => ex_ews) elim_solve o' true 0 [8; 2] [0] [true; false] KVpst 0 elim_sound elim_complete
    (ex_ready _ _ _) ex_stable ltac:(simpl; lia) V ex_proper_pst eq_refl ltac:(discriminate) ltac:(discriminate) ltac:(intros _; right; reflexivity)) as (C' & H' & _).
  exists C. split; [exact SS|]. split; [exact SL|]. split; [reflexivity|]. split; [exact ex_proper_pst|]. split; [exact H|].
  assert (L2 : (2 <= List.length [8; 2])%nat) by (simpl; lia).
  rewrite <- (C128_level (fun _ => ex_ews) elim_solve o o' true [8; 2] [0] [true; false] C C' elim_sound (ex_ready _ _ _) ex_stable SS SL eq_refl eq_refl eq_refl L2 ex_proper_pst H H'). exact H'.
Qed.
