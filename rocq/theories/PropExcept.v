(** C106: weak layers without six different eigenvalues are rare exceptions, but every slab has one. *)
From Coq Require Import Lra Lia.
From Coquelicot Require Import Coquelicot.
Require Import Verif.Py Verif.MTools Verif.MEigen Verif.MSolution Verif.SAdm Verif.SSlab Verif.SBeam Verif.SBvp Verif.SEig
  Verif.SExact Verif.SContact Verif.SRegular Verif.PLam Verif.PSetup Verif.PLinAlg Verif.PExact Verif.PExact2 Verif.PExact3 Verif.PropExact Verif.PRegular Verif.PRegular2
  Verif.PropRegular Verif.SRun Verif.PContact Verif.PCreate Verif.PropRun Verif.PExcept.
Open Scope R_scope.

(** C106: for every slab, thickness and Poisson's ratio there is at least one and there are at most three moduli of the
    weak layer for which the solution formulas have no six independent solutions; none of them is soft. *)
Theorem C106_exceptional eig o t nu : built eig o -> 0 < t -> -1 < nu < 1 ->
  exists l : list R, (1 <= List.length l <= 3)%nat /\ NoDup l /\
  (forall E, In E l -> soft_limit (A11 (o_par o)) (B11 (o_par o)) (D11 (o_par o)) (kA55 (o_par o)) (hh (o_par o)) t nu <= E) /\
  forall E, 0 < E ->
    ((exists ews, good_eigenpairs (calc_system_matrix (o_par (set_foundation_properties eig o t E nu true))) ews) <-> ~ In E l).
Proof.
  intros B Ht Hnu. destruct (exceptional eig o t nu B Ht Hnu) as (l & N & D & F & H). exists l. split; [exact N|]. split; [exact D|].
  assert (Q : forall E, 0 < E ->
    ((exists ews, good_eigenpairs (calc_system_matrix (o_par (set_foundation_properties eig o t E nu true))) ews) <-> ~ In E l)).
  { intros E HE. rewrite <- (H E HE). apply C74_exists.
    destruct (built_object eig _ (built_weak eig o t E nu B Ht HE Hnu)) as (L & Fn & Hh & _). exact (conj L (conj Fn Hh)). }
  split; [|exact Q]. intros E I. pose proof (proj1 (Forall_forall _ _) F E I) as HE. apply Rnot_lt_le. intros C.
  destruct (C104_threshold eig o t nu B Ht Hnu) as (_ & T). apply T in C; [|exact HE].
  assert (B' := built_weak eig o t E nu B Ht HE Hnu). destruct (built_object eig _ B') as (L & Fn & Hh & HB & _).
  apply (proj1 (Q E HE)); [|exact I]. eexists. apply good_exact; [apply system_shape| |].
  - apply regular_simple; trivial. pose proof (Rle_abs (2 * B11 (o_par (set_foundation_properties eig o t E nu true)))). lra.
  - pose proof (chi0_neg _ (conj L (conj Fn Hh))). lra.
Qed.
Print Assumptions C106_exceptional.

(** All other weak layers can be solved if they are stable. *)
Theorem C106_generic eig o t nu : dependable eig -> built eig o -> 0 < t -> -1 < nu < 1 ->
  exists l : list R, (List.length l <= 3)%nat /\ forall E, 0 < E -> ~ In E l ->
    ready (set_foundation_properties eig o t E nu true).
Proof.
  intros De B Ht Hnu. destruct (C106_exceptional eig o t nu B Ht Hnu) as (l & N & _ & _ & H). exists l. split; [lia|].
  intros E HE I. destruct (proj2 (H E HE) I) as (ews & G).
  destruct (built_object eig _ (built_weak eig o t E nu B Ht HE Hnu)) as (L & Fn & Hh & _ & Eg).
  split; [exact L|]. split; [exact Fn|]. eexists. split; [exact Eg|]. apply De with ews; [exact (conj L (conj Fn Hh))|exact G].
Qed.
Print Assumptions C106_generic.

(** In contact stage C the collapsed weak layer is stiffer by a factor: at most three factors are exceptions. *)
Theorem C106_collapsed eig o : dependable eig -> built eig o -> ready o ->
  exists l : list R, (List.length l <= 3)%nat /\ forall ratio o', 0 < ratio -> ~ In ratio l ->
    ratio * kt (o_par o) * wt (o_par o) ^ 2 < 16 * kA55 (o_par o) ->
    o_par o' = o_par o -> o_eig o' = o_eig o -> o_ratio o' = ratio -> substitute_ready eig o' "rested".
Proof.
  intros De B Hr. destruct (built_last eig o B) as (o1 & _ & (Ht & HE & Hnu) & P & _).
  destruct (fundamental_par eig o1) as (P1 & _ & _). cbv zeta in P1. rewrite <- P in P1.
  set (E0 := o_weakE o1) in *. set (nu := o_weaknu o1) in *. set (t := wt (o_par o1)) in *.
  assert (Ew : wt (o_par o) = t) by (rewrite P1; reflexivity).
  assert (En : kn (o_par o) = E0 / (1 - nu ^ 2) / t) by (rewrite P1; reflexivity).
  assert (Et : kt (o_par o) = E0 / (2 * (1 + nu)) / t) by (rewrite P1; reflexivity).
  destruct (C106_exceptional eig o t nu B Ht Hnu) as (l & N & _ & _ & H).
  exists (map (fun E => E / E0) l). split; [rewrite map_length; lia|].
  intros ratio o' Hp I St Ep Ee Er. assert (HE' : 0 < ratio * E0) by (apply Rmult_lt_0_compat; assumption).
  assert (I' : ~ In (ratio * E0) l).
  { intros C. apply I. apply in_map_iff. exists (ratio * E0). split; [field; lra|exact C]. }
  destruct (proj2 (H _ HE') I') as (ews & G).
  destruct (built_object eig _ (built_weak eig o t (ratio * E0) nu B Ht HE' Hnu)) as (L & Fn & Hh & _).
  assert (Q : foundation_of o' "rested" = o_par (set_foundation_properties eig o t (ratio * E0) nu true)).
  { rewrite (weak_par eig o t (ratio * E0) nu B). unfold foundation_of. simpl. rewrite Er, Ep, En, Et, Ew.
    assert (0 < 1 - nu ^ 2) by nra. f_equal; field; repeat split; lra. }
  destruct (built_object eig o B) as (_ & _ & _ & _ & Fr).
  split; [destruct Hr as (R1 & R2 & R3); unfold ready; rewrite Ep, Ee; auto|]. split; [unfold fresh; rewrite Ee, Ep; exact Fr|].
  rewrite Q. split; [exact Fn|]. split.
  - rewrite <- Q. unfold foundation_of, stable. simpl. rewrite Er, Ep. simpl in St. exact St.
  - apply De with ews; [exact (conj L (conj Fn Hh))|exact G].
Qed.
Print Assumptions C106_collapsed.

(** So a propagation saw test with touchdown is analysed completely for all but three stiffness ratios of the collapsed
    weak layer, once its segments are calculated. *)
Theorem C106_analysis eig o : dependable eig -> built eig o -> regular (o_par o) -> In (o_system o) ["pst-"; "-pst"]%string ->
  exists l : list R, (List.length l <= 3)%nat /\
  forall solve brent maxeval quad li mi ki k0 L a m phi cf ratio s o',
  sound_solver solve -> complete_solver solve -> stays_in_bracket brent -> 0 < a < L ->
  0 < ratio -> ~ In ratio l -> ratio * kt (o_par o) * wt (o_par o) ^ 2 < 16 * kA55 (o_par o) ->
  calc_segments eig solve brent maxeval li mi ki k0 L a m phi cf ratio o = (Ok s, o') ->
  exists kR, analysed eig solve quad o' phi kR s.
Proof.
  intros De B Rg Sy. destruct (built_ready eig o De B Rg) as [Hr _]. destruct (built_object eig o B) as (_ & _ & _ & _ & F).
  destruct (C106_collapsed eig o De B Hr) as (l & N & H). exists l. split; [exact N|].
  intros solve brent maxeval quad li mi ki k0 L a m phi cf ratio s o' Hs Hc Hb Ha Hp I St E.
  destruct (segments_state _ _ _ _ _ _ _ _ _ _ _ _ _ _ _ _ _ F E) as (md & td & Eo & _).
  apply (C105_calculated eig solve brent maxeval quad o li mi ki k0 L a m phi cf ratio s o'); trivial; try lra.
  - left. split; [|exact Ha]. destruct Sy as [<-|[<-|[]]]; simpl; tauto.
  - intros V. exfalso. destruct Sy as [Sy|[Sy|[]]]; rewrite <- Sy in V; destruct V as [V|[V|[]]]; discriminate.
  - intros _ _. apply (H ratio); trivial; rewrite Eo; reflexivity.
Qed.
Print Assumptions C106_analysis.

(** 90 mm of ice: the modulus 9955.6 MPa of C74 is an exception of a weak layer of 70 mm with Poisson's ratio 0.2. *)
Example C106_example : exists o l, Layered exact_eig "skier" (LList [(917, 90)]) false = Ok o /\ built exact_eig o /\
  (1 <= List.length l <= 3)%nat /\ In (89600 / 9) l /\ ~ In (1 / 4) l /\
  forall E, 0 < E -> ~ In E l -> exists ews, good_eigenpairs (calc_system_matrix (o_par (set_foundation_properties exact_eig o 70 E (1 / 5) true))) ews.
Proof.
  destruct (ice_object exact_eig "skier" false 90 70 (89600 / 9) (1 / 5) ltac:(lra)) as (o & L & P).
  destruct (ice_object exact_eig "skier" false 90 70 (1 / 4) (1 / 5) ltac:(lra)) as (o2 & L2 & P2).
  rewrite L in L2. apply Ok_inj in L2. subst o2.
  assert (B : built exact_eig o) by (apply (built_new _ "skier" (LList [(917, 90)]) false); [repeat constructor; simpl; lra|exact L]).
  destruct (C106_exceptional exact_eig o 70 (1 / 5) B ltac:(lra) ltac:(lra)) as (l & N & _ & _ & H).
  exists o, l. split; [exact L|]. split; [exact B|]. split; [exact N|]. split; [|split].
  - destruct (in_dec Req_EM_T (89600 / 9) l) as [I|I]; [exact I|]. exfalso.
    destruct (proj2 (H (89600 / 9) ltac:(lra)) I) as (ews & G).
    destruct (C74_refuted exact_eig) as (o2 & L2 & _ & _ & Z). rewrite L in L2. apply Ok_inj in L2. subst o2. exact (Z ews G).
  - apply (proj1 (H (1 / 4) ltac:(lra))). rewrite P2.
    assert (A : adm (ice_par 90 70 (1 / 4) (1 / 5))) by (unfold adm, lam_ok, fnd_ok, ice_par; simpl; repeat split; lra).
    apply C74_exists; [exact A|]. set (K := calc_system_matrix _).
    assert (E2 : chi2 K = - 499 / 11321856000) by (unfold K, chi2, calc_system_matrix, ice_par; simpl; field).
    assert (E1 : chi1 K = 582419 / 65938489344000000) by (unfold K, chi1, calc_system_matrix, ice_par; simpl; field).
    assert (E0 : chi0 K = - 1 / 47475712327680000000) by (unfold K, chi0, calc_system_matrix, ice_par; simpl; field).
    unfold chi_disc. rewrite E0, E1, E2. lra.
  - intros E HE I. apply H; assumption.
Qed.

(** The default slab with the default factor 1000, or another one nearby. *)
Lemma uniform_kept eig system td rho h o : Layered eig system (LList [(rho, h)]) td = Ok o ->
  o_par o = o_par (set_foundation_properties eig o 30 (1 / 4) (1 / 4) true).
Proof.
  intros H. unfold Layered in H. rewrite set_beam_list in H by discriminate. cbn [bind] in H. apply Ok_inj in H. subst o.
  rewrite refound_par. match goal with |- o_par (o_calc_fundamental_system eig ?x) = _ => destruct (fundamental_par eig x) as (P & _) end.
  cbv zeta in P. rewrite P. reflexivity.
Qed.
Lemma four_of_three (l : list R) : (List.length l <= 3)%nat -> exists x, In x [997; 998; 999; 1000] /\ ~ In x l.
Proof.
  intros N. destruct (in_dec Req_EM_T 997 l) as [A|A]; [|exists 997; simpl; tauto].
  destruct (in_dec Req_EM_T 998 l) as [B|B]; [|exists 998; simpl; tauto].
  destruct (in_dec Req_EM_T 999 l) as [C|C]; [|exists 999; simpl; tauto].
  destruct (in_dec Req_EM_T 1000 l) as [D|D]; [|exists 1000; simpl; tauto]. exfalso.
  assert (H : (List.length [997; 998; 999; 1000]%R <= List.length l)%nat); [|simpl in H; lia].
  apply NoDup_incl_length.
  - repeat apply NoDup_cons; simpl; try (intros X; repeat destruct X as [X|X]; lra). apply NoDup_nil.
  - intros x [<-|[<-|[<-|[<-|[]]]]]; assumption.
Qed.
Example C106_example_default : exists o ratio, Layered exact_eig "pst-" (LList []) true = Ok o /\ In ratio [997; 998; 999; 1000] /\
  forall brent maxeval L a phi cf s o', stays_in_bracket brent -> 0 < a < L ->
  calc_segments exact_eig elim_solve brent maxeval [] [] [] [] L a 0 phi cf ratio o = (Ok s, o') ->
  exists kR, analysed exact_eig elim_solve RInt o' phi kR s.
Proof.
  change (Layered exact_eig "pst-" (LList []) true) with (Layered exact_eig "pst-" (LList [(240, 200)]) true).
  destruct (C104_uniform exact_eig "pst-" true 240 200 exact_dependable ltac:(lra) ltac:(lra)) as (o & H & Rg & Rd & _).
  assert (B : built exact_eig o)
    by (apply (built_new _ "pst-" (LList [(240, 200)]) true); [repeat constructor; simpl; lra|exact H]).
  destruct (layered_system _ _ _ _ _ H) as [Es _].
  destruct (C106_analysis exact_eig o exact_dependable B Rg) as (l & N & T); [rewrite Es; simpl; tauto|].
  destruct (four_of_three l N) as (x & I & I'). exists o, x. split; [exact H|]. split; [exact I|].
  assert (Hx : 0 < x <= 1000) by (destruct I as [<-|[<-|[<-|[<-|[]]]]]; lra).
  assert (St : x * kt (o_par o) * wt (o_par o) ^ 2 < 16 * kA55 (o_par o)).
  { destruct (plain_object exact_eig "pst-" true 240 200 30 (1 / 4) ltac:(lra) ltac:(lra)) as (o2 & H2 & P).
    rewrite H in H2. apply Ok_inj in H2. subst o2. rewrite (uniform_kept _ _ _ _ _ _ H), P.
    pose proof (dense_modulus 240 ltac:(lra)). unfold plain_par. cbn [kt wt kA55]. lra. }
  intros. apply (T elim_solve brent maxeval RInt [] [] [] [] L a 0 phi cf x s o'); trivial; [exact elim_sound|exact elim_complete|lra].
Qed.
