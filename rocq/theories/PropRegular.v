(** C104: on soft weak layers the eigenvalue decomposition that the solution formulas need exists. *)
From Coq Require Import Lra Lia.
Require Import Verif.Py Verif.MTools Verif.MEigen Verif.SAdm Verif.SSlab Verif.SBeam Verif.SBvp Verif.SEig
  Verif.SExact Verif.SPlot Verif.SRegular Verif.PSlab Verif.PCog Verif.PLam Verif.PSetup Verif.PExact Verif.PExact2 Verif.PProfile
  Verif.PRegular Verif.PRegular2 Verif.PropExact.
Open Scope R_scope.

(** C104: every object made by the constructor and the setters from admissible arguments can be solved, with any
    eigensolver that finds six different eigenvalues where there are six, if the weak layer is soft. *)
Theorem C104_ready eig o : dependable eig -> built eig o -> regular (o_par o) -> ready o /\ stable (o_par o).
Proof. exact (built_ready eig o). Qed.
Print Assumptions C104_ready.

(** For every slab, thickness and Poisson's ratio of the weak layer there is a positive modulus below which, and only
    below which, the weak layer is soft. *)
Theorem C104_threshold eig o t nu : built eig o -> 0 < t -> -1 < nu < 1 ->
  let p := o_par o in
  let limit := soft_limit (A11 p) (B11 p) (D11 p) (kA55 p) (hh p) t nu in
  0 < limit /\
  forall E, 0 < E -> (regular (o_par (set_foundation_properties eig o t E nu true)) <-> E < limit).
Proof.
  intros B Ht Hnu p limit. destruct (built_object eig o B) as (L & _). split.
  - exact (proj1 (threshold p t 1 nu L Ht Rlt_0_1 Hnu)).
  - intros E HE. rewrite (weak_par eig o t E nu B). exact (proj2 (threshold p t E nu L Ht HE Hnu)).
Qed.
Print Assumptions C104_threshold.

(** So every slab has soft weak layers, and these can be solved. *)
Theorem C104_soft eig o t nu : dependable eig -> built eig o -> 0 < t -> -1 < nu < 1 ->
  exists limit, 0 < limit /\
  forall E, 0 < E < limit -> let o' := set_foundation_properties eig o t E nu true in ready o' /\ stable (o_par o').
Proof.
  intros De B Ht Hnu. destruct (C104_threshold eig o t nu B Ht Hnu) as (L & T).
  eexists. split; [exact L|]. intros E [HE H] o'. apply C104_ready with eig; [exact De| |now apply T].
  apply built_weak; assumption.
Qed.
Print Assumptions C104_soft.

Lemma weak_again eig x : o_par (o_calc_fundamental_system eig x)
  = o_par (set_foundation_properties eig (o_calc_fundamental_system eig x) (wt (o_par x)) (o_weakE x) (o_weaknu x) true).
Proof.
  unfold set_foundation_properties. set (y := with_weak _ _ _ _).
  destruct (fundamental_par eig x) as (P1 & _ & S1). destruct (fundamental_par eig y) as (P2 & _ & _). cbv zeta in P1, P2.
  rewrite P2. unfold y. cbn [o_slab o_par o_k with_weak wt hh zs o_weakE o_weaknu with_par]. rewrite S1, fundamental_k, P1. reflexivity.
Qed.

(** The default weak layer is soft under every uniform slab of at least 230 kg/m^3 and of 10 mm to 1 m ... *)
Theorem C104_uniform eig system touchdown rho h : dependable eig -> 230 <= rho -> 10 <= h <= 1000 ->
  exists o, Layered eig system (LList [(rho, h)]) touchdown = Ok o /\ regular (o_par o) /\ ready o /\ stable (o_par o).
Proof.
  intros De Hr Hh. destruct (plain_object eig system touchdown rho h 30 (1 / 4) ltac:(lra) ltac:(lra)) as (o & H & P).
  assert (B : built eig o).
  { apply (built_new eig system (LList [(rho, h)]) touchdown); [|exact H]. repeat constructor; simpl; lra. }
  assert (Rg : regular (o_par o)).
  { assert (Q : o_par o = o_par (set_foundation_properties eig o 30 (1 / 4) (1 / 4) true)).
    { unfold Layered in H. rewrite set_beam_list in H by discriminate. cbn [bind] in H. apply Ok_inj in H. rewrite <- H. apply (weak_again eig). }
    rewrite Q, P. exact (dense_regular rho h Hr Hh). }
  exists o. split; [exact H|]. split; [exact Rg|]. exact (C104_ready eig o De B Rg).
Qed.
Print Assumptions C104_uniform.

(** ... and under every profile of the database. *)
Theorem C104_profiles eig system touchdown s w k : dependable eig ->
  is_last_word s w -> In k profile_names -> same_text w k ->
  exists o, Layered eig system (LStr s) touchdown = Ok o /\ regular (o_par o) /\ ready o /\ stable (o_par o).
Proof.
  intros De W K T. apply last_word_spec in W. destruct (profile_known w k K T) as (v & E & D).
  destruct (profile_object eig system touchdown s w v W E) as (o & H & P). exists o. split; [exact H|].
  assert (Rg : regular (o_par o)) by (rewrite P; exact (profile_regular k v D)).
  split; [exact Rg|]. apply C104_ready with eig; [exact De|apply (built_new eig system (LStr s) touchdown); [exact I|exact H]|exact Rg].
Qed.
Print Assumptions C104_profiles.

(** The hypotheses are met: the exact eigensolver is dependable. *)
Lemma exact_dependable : dependable exact_eig.
Proof.
  intros p ews A G. pose proof (chi0_neg p A) as N. apply good_exact; [apply system_shape| |lra].
  apply (good_simple _ ews (system_shape p)); [lra|exact G].
Qed.
(** The default model (240 kg/m^3, 200 mm); two layers on a weak layer of 50 mm; profile A. *)
Example C104_example_default : exists o, Layered exact_eig "pst-" (LList []) false = Ok o /\ regular (o_par o) /\ ready o.
Proof.
  destruct (C104_uniform exact_eig "pst-" false 240 200 exact_dependable ltac:(lra) ltac:(lra)) as (o & H & Rg & Rd & _).
  exists o. split; [exact H|]. split; [exact Rg|exact Rd].
Qed.
Example C104_example : exists o limit, Layered exact_eig "skier" (LList [(300, 200); (180, 350)]) false = Ok o /\
  built exact_eig o /\ 0 < limit /\ forall E, 0 < E < limit -> ready (set_foundation_properties exact_eig o 50 E (1 / 5) true).
Proof.
  assert (H : exists o, Layered exact_eig "skier" (LList [(300, 200); (180, 350)]) false = Ok o) by (eexists; reflexivity).
  destruct H as (o & H). assert (B : built exact_eig o).
  { apply (built_new _ "skier" (LList [(300, 200); (180, 350)]) false); [|exact H]. repeat constructor; simpl; lra. }
  destruct (C104_soft exact_eig o 50 (1 / 5) exact_dependable B ltac:(lra) ltac:(lra)) as (l & L & T).
  exists o, l. split; [exact H|]. split; [exact B|]. split; [exact L|]. intros E HE. exact (proj1 (T E HE)).
Qed.
Example C104_example_profile : exists o, Layered exact_eig "-pst" (LStr "Profile A") false = Ok o /\ ready o.
Proof.
  destruct (C104_profiles exact_eig "-pst" false "Profile A" "A" "a" exact_dependable) as (o & H & _ & Rd & _).
  - exists (list_ascii_of_string "Profile "), []. split; [reflexivity|]. split; [discriminate|]. split; [|split; [constructor|right]].
    + constructor; [cbv; lia|constructor].
    + exists (list_ascii_of_string "Profile"), (Ascii.ascii_of_nat 32). split; [reflexivity|]. cbv. tauto.
  - cbv; tauto.
  - apply lower_text; [apply names_lower; cbv; tauto|reflexivity].
  - exists o. split; [exact H|exact Rd].
Qed.
