(** C105: complete analyses never fail. *)
From Coq Require Import Lra Lia.
From Coquelicot Require Import Coquelicot.
Require Import Verif.Py Verif.MTools Verif.MEigen Verif.MRaster Verif.MSolution Verif.MAnalysis Verif.SAdm Verif.SSlab Verif.SBeam Verif.SBvp Verif.SEig
  Verif.SExact Verif.SPlot Verif.SEnergy Verif.SContact Verif.SRegular Verif.SRun Verif.PSetup Verif.PLinAlg Verif.PBvp6 Verif.PContact3 Verif.PProfile
  Verif.PRegular Verif.PRegular2 Verif.PropRegular Verif.PRun.
Open Scope R_scope.

(** C105: for every model on a soft weak layer, once [calc_segments] has returned, with or without touchdown, the
    solver, the raster and both energy release rates succeed with and without crack. (In contact stage C of a PST the
    weak layer with the stiffness of the collapsed one must have six different eigenvalues as well; a vertical PST must
    be in stage A.) *)
Theorem C105_calculated eig solve brent maxeval quad o li mi ki k0 L a m phi cf ratio s o' :
  dependable eig -> sound_solver solve -> complete_solver solve -> stays_in_bracket brent ->
  built eig o -> regular (o_par o) -> fine_crack (o_system o) li mi ki k0 L a -> 0 <= a ->
  calc_segments eig solve brent maxeval li mi ki k0 L a m phi cf ratio o = (Ok s, o') ->
  (In (o_system o) ["vpst-"; "-vpst"]%string -> o_mode o' = Some ModeA) ->
  (In (o_system o) ["pst-"; "-pst"]%string -> o_mode o' = Some ModeC -> substitute_ready eig o' "rested") ->
  exists kR, analysed eig solve quad o' phi kR s.
Proof.
  intros De Hs Hc Hb B Rg. destruct (built_ready eig o De B Rg) as [Hr Hst]. destruct (built_object eig o B) as (_ & _ & _ & _ & F).
  exact (run_after eig solve brent maxeval quad o li mi ki k0 L a m phi cf ratio s o' Hs Hc Hb Hr Hst F).
Qed.
Print Assumptions C105_calculated.

(** Without touchdown [calc_segments] returns, and the whole analysis succeeds on every slope. *)
Theorem C105_analysis eig solve brent maxeval quad o li mi ki k0 L a m phi cf ratio :
  dependable eig -> sound_solver solve -> complete_solver solve ->
  built eig o -> regular (o_par o) -> o_touchdown o = false -> fine_crack (o_system o) li mi ki k0 L a ->
  exists s o', calc_segments eig solve brent maxeval li mi ki k0 L a m phi cf ratio o = (Ok s, o') /\
    (o_system o <> "skiers"%string -> rsum (s_li s) = L) /\
    exists kR, analysed eig solve quad o' phi kR s.
Proof.
  intros De Hs Hc B Rg Ht Fc. destruct (built_ready eig o De B Rg) as [Hr Hst]. destruct (built_object eig o B) as (_ & _ & _ & _ & F).
  pose proof (segments_off eig solve brent maxeval li mi ki k0 L a m phi cf ratio o Ht) as Eo. cbv zeta in Eo.
  set (o' := with_contact _ _ _ _ _ _ _ _) in Eo.
  assert (Es : exists s, segment_lists o' li mi ki k0 L a m = Ok s /\ (o_system o <> "skiers"%string -> rsum (s_li s) = L)).
  { unfold segment_lists. change (o_system o') with (o_system o). change (o_a o') with a. change (o_td o') with a.
    destruct Fc as [[I Ha]|[-> _]].
    - simpl in I. repeat (destruct I as [I|I]); try contradiction; rewrite <- I; simpl; eexists; (split; [reflexivity|]); intros _; simpl; field.
    - simpl. eexists. split; [reflexivity|]. intros N. contradiction. }
  destruct Es as (s & Es & El). exists s, o'. rewrite Eo, Es. split; [reflexivity|]. split; [exact El|].
  destruct (fine_kind _ _ _ _ _ _ _ Fc) as (kd & K & KP & KV & Ka).
  assert (Td : 0 < a -> 0 < o_td o') by (intros P; exact P).
  assert (Fc' : fine_crack (o_system o') li mi ki k0 L a) by exact Fc.
  destruct (builtin_fine o' li mi ki k0 L a m s Fc' eq_refl Td Es) as (F1 & F0 & Cr).
  exists 0. apply (run_lists eig solve quad o' phi s kd 0); try assumption.
  - intros _. discriminate.
  - intros _ Q. discriminate.
  - intros _. right. reflexivity.
Qed.
Print Assumptions C105_analysis.

(** The default weak layer below a uniform slab or below a profile of the database: every system, slope and crack. *)
Theorem C105_default eig solve brent maxeval quad system la li mi ki k0 L a m phi cf ratio :
  dependable eig -> sound_solver solve -> complete_solver solve ->
  (exists rho h, la = LList [(rho, h)] /\ 230 <= rho /\ 10 <= h <= 1000) \/ la = LList [] \/
  (exists s w k, la = LStr s /\ is_last_word s w /\ In k profile_names /\ same_text w k) ->
  fine_crack system li mi ki k0 L a ->
  exists o s o', Layered eig system la false = Ok o /\
    calc_segments eig solve brent maxeval li mi ki k0 L a m phi cf ratio o = (Ok s, o') /\
    exists kR, analysed eig solve quad o' phi kR s.
Proof.
  intros De Hs Hc La Fc.
  assert (E : exists o, Layered eig system la false = Ok o /\ regular (o_par o) /\ good_layers la).
  { destruct La as [(rho & h & -> & Hr & Hh)|[->|(x & w & k & -> & W & K & T)]].
    - destruct (C104_uniform eig system false rho h De Hr Hh) as (o & A & Q & _). exists o. split; [exact A|]. split; [exact Q|].
      repeat constructor; simpl; lra.
    - destruct (C104_uniform eig system false 240 200 De ltac:(lra) ltac:(lra)) as (o & A & Q & _). exists o. split; [exact A|]. split; [exact Q|constructor].
    - destruct (C104_profiles eig system false x w k De W K T) as (o & A & Q & _). exists o. split; [exact A|]. split; [exact Q|exact I]. }
  destruct E as (o & El & Rg & G). assert (B : built eig o) by (apply (built_new eig system la false); assumption).
  assert (Z : o_system o = system /\ o_touchdown o = false).
  { revert El. unfold Layered. match goal with |- bind ?x _ = _ -> _ => destruct x as [o1|] eqn:E1; [|discriminate] end. cbn [bind].
    intros El. apply Ok_inj in El. subst o.
    assert (Y : o_system o1 = system /\ o_touchdown o1 = false).
    { revert E1. unfold set_beam_properties. match goal with |- bind ?x _ = _ -> _ => destruct x as [[l E]|]; [|discriminate] end. cbn [bind].
      destruct (calc_center_of_gravity l). intros E1. apply Ok_inj in E1. subst o1. split; reflexivity. }
    unfold o_calc_fundamental_system, o_calc_foundation_stiffness, o_calc_laminate, o_calc_eigensystem.
    destruct (calc_foundation_stiffness _ _ _) as [n t]. unfold with_kn_kt, with_par, with_eig. simpl.
    destruct (calc_laminate_stiffness_matrix _ _ _) as [[[[A B'] D] Sk] K']. exact Y. }
  destruct Z as [Es Et]. rewrite <- Es in Fc.
  destruct (C105_analysis eig solve brent maxeval quad o li mi ki k0 L a m phi cf ratio De Hs Hc B Rg Et Fc) as (s & o' & H1 & _ & H2).
  exists o, s, o'. auto.
Qed.
Print Assumptions C105_default.

(** The tests of the repository: a slab of 1 m with a crack of 300 mm, on level ground and on a slope; four skiers. *)
Example C105_example brent maxeval : forall phi, exists o s o',
  Layered exact_eig "pst-" (LList []) false = Ok o /\
  calc_segments exact_eig elim_solve brent maxeval [] [] [] [] 1000 300 0 phi (1 / 2) 1000 o = (Ok s, o') /\
  exists kR, analysed exact_eig elim_solve RInt o' phi kR s.
Proof.
  intros phi. apply C105_default; [exact exact_dependable|exact elim_sound|exact elim_complete|right; left; reflexivity|].
  left. split; [simpl; tauto|lra].
Qed.
Example C105_example_skiers : fine_crack "skiers" [500; 200; 300] [80; 60] [true; false; true] [true; true; true] 0 0.
Proof.
  right. split; [reflexivity|]. split; [|split].
  - split; [simpl; lia|]. split; [|split].
    + intros [H|[H|[H|[_ [H|H]]]]]; try discriminate; try (simpl in H; lia). specialize (H true (or_introl eq_refl)). discriminate.
    + intros l [<-|[<-|[<-|[]]]]; lra.
    + exists 0%nat. simpl. split; [lia|]. split; [reflexivity|lra].
  - split; [simpl; lia|]. split; [|split].
    + intros [H|[H|[H|[_ [H|H]]]]]; try discriminate; try (simpl in H; lia). specialize (H true (or_introl eq_refl)). discriminate.
    + intros l [<-|[<-|[<-|[]]]]; lra.
    + exists 0%nat. simpl. split; [lia|]. split; [reflexivity|lra].
  - exists 1%nat. simpl. split; [lia|]. split; [reflexivity|]. split; [reflexivity|lra].
Qed.
