(** [create_skier_object] returns the solution of the boundary value problem (C64). *)
From Coquelicot Require Import Coquelicot.
Require Import Verif.Py Verif.MTools Verif.MEigen Verif.MFields Verif.SAdm Verif.SSlab Verif.MRaster
  Verif.MSolution Verif.MAnalysis Verif.SBeam Verif.SBvp Verif.SEig Verif.SRaster Verif.SOutput Verif.MEnvelope Verif.MCriterion
  Verif.SSegment Verif.PLam Verif.PSetup Verif.PBvp Verif.PWell2 Verif.PBvp6 Verif.PRaster2 Verif.PropRaster Verif.PropOutput Verif.PropBvp
  Verif.PSegment Verif.PCreate.

Section S.
Variable eig : mat6 -> list eigpair.
Variable solve : nat -> matrix -> vector -> res vector.
Variable brent : R -> R -> list (R * R) -> bstep.
Variable maxeval : nat.

Lemma layered_k system layers td o : Layered eig system (LList layers) td = Ok o -> o_k o = 5 / 6.
Proof.
  unfold Layered. match goal with |- bind ?m _ = _ -> _ => destruct m as [o1|e] eqn:E; [|discriminate] end.
  cbn [bind]. intros H. apply Ok_inj in H. subst o.
  assert (K : forall x, o_k (o_calc_fundamental_system eig x) = o_k x).
  { intros x. unfold o_calc_fundamental_system, o_calc_foundation_stiffness, o_calc_laminate, o_calc_eigensystem.
    destruct (calc_foundation_stiffness _ _ _) as [n t]. unfold with_kn_kt, with_par, with_eig. simpl.
    destruct (calc_laminate_stiffness_matrix _ _ _) as [[[[A B] D] Sk] K]. reflexivity. }
  rewrite K. unfold set_foundation_properties, with_weak. simpl. unfold set_beam_properties in E.
  match type of E with bind ?m _ = _ => destruct m as [[ly El]|e]; [|discriminate] end. cbn [bind] in E.
  destruct (calc_center_of_gravity ly) as [h z]. apply Ok_inj in E. subst o1. reflexivity.
Qed.
Lemma layered_some system layers td : exists o, Layered eig system (LList layers) td = Ok o.
Proof.
  unfold Layered. destruct layers as [|l ls].
  - eexists. reflexivity.
  - rewrite set_beam_list by discriminate. cbn [bind]. eexists. reflexivity.
Qed.
(** The model object of a profile, before the touchdown attributes are set. *)
Definition model_obj (o : obj) (E t : R) : obj := set_foundation_properties eig o t E (1 / 4) true.
Lemma model_adm layers o E t : pos_layers layers -> 0 < E -> 0 < t -> Layered eig "skiers" (LList layers) false = Ok o ->
  lam_ok (o_par (model_obj o E t)) /\ fnd_ok (o_par (model_obj o E t)) /\
  o_eig (model_obj o E t) = calc_eigensystem (eig (calc_system_matrix (o_par (model_obj o E t)))) /\
  o_slab (model_obj o E t) = o_slab o.
Proof.
  intros P HE Ht L. destruct (Layered_adm eig _ _ _ _ P L) as (_ & G & N). pose proof (layered_k _ _ _ _ L) as K.
  split; [|split; [refine (set_foundation_adm eig o t E (1 / 4) _ Ht HE ltac:(lra) eq_refl)|]].
  - unfold model_obj, set_foundation_properties. destruct (fundamental_par eig (with_weak o E (1 / 4) t)) as (Q & _ & _). cbv zeta in Q. rewrite Q.
    pose proof (laminate_pos_def (o_slab o) (hh (o_par o)) (o_k o) G N ltac:(rewrite K; lra)) as H.
    change (o_slab (with_weak o E (1 / 4) t)) with (o_slab o). change (o_k (with_weak o E (1 / 4) t)) with (o_k o).
    change (hh (o_par (with_weak o E (1 / 4) t))) with (hh (o_par o)).
    rewrite laminate_closed in H |- *. cbv zeta in H |- *. unfold lam_ok. simpl in H |- *. intuition lra.
  - unfold model_obj, set_foundation_properties. destruct (fundamental_par eig (with_weak o E (1 / 4) t)) as (_ & A & B). cbv zeta in A.
    split; [exact A|exact B].
Qed.

(** Object after [calc_segments]: only touchdown attributes change. *)
Definition same_model (o o' : obj) : Prop :=
  o_par o' = o_par o /\ o_eig o' = o_eig o /\ o_system o' = o_system o /\ o_slab o' = o_slab o /\ o_p o' = o_p o /\ o_g o' = o_g o.
Lemma skiers_run li mi ki k0 o : o_system o = "skiers"%string -> o_touchdown o = false ->
  exists o', calc_segments eig solve brent maxeval li mi ki k0 10000 0 0 0 (1 / 2) 1000 o = (Ok (mkSeg li mi ki k0), o') /\ same_model o o'.
Proof.
  intros S T. unfold calc_segments, sbind, calc_touchdown_system, sbind, calc_touchdown_mode.
  assert (E : o_touchdown (set_touchdown_attributes 10000 0 (1 / 2) 0 1000 o) = false) by exact T.
  rewrite E. unfold calc_touchdown_length, set_mode. cbn [o_mode]. unfold segment_lists.
  eexists. split.
  - simpl. rewrite S. reflexivity.
  - unfold same_model. simpl. auto 10.
Qed.

Lemma skier_weights_length li n w mi : skier_weights li n w = Ok mi -> List.length mi = (n - 1)%nat /\ n <> 0%nat.
Proof.
  unfold skier_weights. destruct (Nat.eqb_spec n 0) as [E|E]; [discriminate|]. destruct (median_loop _ _ _ _) as [m|e]; [|discriminate].
  cbn [bind]. destruct (Nat.ltb_spec (match m with Some i => i | None => (n - 1 - 1)%nat end) (n - 1)) as [M|M]; [|discriminate].
  intros H. apply Ok_inj in H. subst mi. destruct (set_nth_repeat _ _ w M) as (A & _). auto.
Qed.
Lemma create_full layers w phi (li : list R) (ki : list bool) (crack : bool) E t mi :
  let ks := if crack then ki else map (fun _ => true) ki in
  pos_layers layers -> 0 < E -> 0 < t -> sound_solver solve -> complete_solver solve ->
  (forall o, Layered eig "skiers" (LList layers) false = Ok o -> stable (o_par (model_obj o E t)) /\
     good_eigenpairs (calc_system_matrix (o_par (model_obj o E t))) (eig (calc_system_matrix (o_par (model_obj o E t))))) ->
  (2 <= List.length li)%nat -> List.length ki = List.length li -> nth 0 ks false = true -> last ks false = true ->
  proper_segments li ks -> skier_weights li (List.length ki) w = Ok mi ->
  exists k o, create_skier_object eig solve brent maxeval (LList layers) w phi li ki crack E t = Ok k /\
    Layered eig "skiers" (LList layers) false = Ok o /\ same_model (model_obj o E t) (k_obj k) /\ ready (k_obj k) /\
    bvp (k_obj k) 0 phi li mi ks (k_C k) /\ k_mi k = mi /\ k_li k = li /\ k_ki k = ks /\
    List.length (k_C k) = List.length li /\ Forall (fun C => List.length C = 6%nat) (k_C k).
Proof.
  intros ks P HE Ht So Co G N2 Lk K0 K1 Pr Em.
  destruct (layered_some "skiers" layers false) as [o L]. destruct (layered_system _ _ _ _ _ L) as [S T].
  destruct (G o L) as [St Ge]. destruct (model_adm layers o E t P HE Ht L) as (La & Fn & Ei & Sl).
  assert (S1 : o_system (model_obj o E t) = "skiers"%string).
  { unfold model_obj, set_foundation_properties. destruct (recalc_system eig (with_weak o E (1 / 4) t)) as [-> _]. exact S. }
  assert (T1 : o_touchdown (model_obj o E t) = false).
  { unfold model_obj, set_foundation_properties. destruct (recalc_system eig (with_weak o E (1 / 4) t)) as [_ ->]. exact T. }
  destruct (skiers_run li mi ki (map (fun _ => true) ki) (model_obj o E t) S1 T1) as (o' & Rn & SM).
  destruct SM as (M1 & M2 & M3 & M4 & M5 & M6).
  assert (Rd : ready o').
  { unfold ready. rewrite M1, M2. split; [exact La|]. split; [exact Fn|]. eexists. split; [exact Ei|exact Ge]. }
  assert (Lks : List.length ks = List.length li) by (unfold ks; destruct crack; [|rewrite map_length]; exact Lk).
  destruct (skier_weights_length li (List.length ki) w mi Em) as [Lm _].
  destruct (C67_well_posed eig solve o' false phi li mi ks KSkier 0 So Co Rd) as (Cs & ES & HB & LC & L6 & _).
  - rewrite M1. exact St.
  - exact N2.
  - rewrite M3, S1. intros [A|[A|[A|[A B]]]].
    + assert (H := A true). assert (In true ks); [|specialize (H H0); discriminate].
      rewrite <- K0. apply nth_In. lia.
    + congruence.
    + apply A. rewrite Lm, Lk. lia.
    + destruct B; congruence.
  - exact Pr.
  - rewrite M3, S1. reflexivity.
  - discriminate.
  - discriminate.
  - discriminate.
  - destruct (C38_accepted (o_par o') (o_eig o') (loads_of o' phi) Cs li ks 800 LC Lks) as [[[xq zq] xb] ER].
    + destruct Pr as [_ (i & I1 & I2 & I3)]. exists (nth i li 0). split; [apply nth_In; exact I1|lra].
    + intros b l C k Hs _ x. rewrite six_zh by (apply ready_six; exact Rd).
      assert (In C Cs).
      { assert (Q : forall x0 s b l0 d, seg_at (A := list R * bool) x0 s b l0 d -> In d (map snd s)).
        { clear. intros x0 s b l0 d H. induction H; simpl; auto. }
        pose proof (Q _ _ _ _ _ Hs) as I. apply in_map_iff in I. destruct I as ([l1 d1] & E1 & I1). simpl in E1. subst d1.
        apply in_combine_r in I1. apply in_combine_l in I1. exact I1. }
      symmetry. exact (proj1 (Forall_forall _ _) L6 C H).
    + assert (LZ : List.length xb = List.length zq).
      { pose proof (fun h => C38_grid _ _ _ _ _ _ _ _ _ _ h ER) as G0. destruct (G0 ltac:(apply Nat.leb_le; reflexivity)) as (_ & _ & _ & _ & _ & A & B). congruence. }
      destruct (C52_accepted o' "kPa" 1000 xb zq false ltac:(constructor) LZ) as [(x1 & s1 & E1) (x2 & s2 & E2)].
      eexists. exists o. split.
      * unfold create_skier_object. rewrite L. cbn [bind]. fold (model_obj o E t). rewrite Em. cbn [bind]. rewrite Rn.
        cbn [s_li s_mi s_ki s_k0]. fold ks. rewrite ES. cbn [bind]. rewrite ER. cbn [bind]. rewrite E1. cbn [bind]. rewrite E2. cbn [bind]. reflexivity.
      * cbn [k_obj k_C k_mi k_li k_ki]. split; [exact L|]. split; [unfold same_model; auto 10|]. auto 10.
Qed.

Lemma create_solves layers w phi (li : list R) (ki : list bool) (crack : bool) E t mi :
  let ks := if crack then ki else map (fun _ => true) ki in
  pos_layers layers -> 0 < E -> 0 < t -> sound_solver solve -> complete_solver solve ->
  (forall o, Layered eig "skiers" (LList layers) false = Ok o -> stable (o_par (model_obj o E t)) /\
     good_eigenpairs (calc_system_matrix (o_par (model_obj o E t))) (eig (calc_system_matrix (o_par (model_obj o E t))))) ->
  (2 <= List.length li)%nat -> List.length ki = List.length li -> nth 0 ks false = true -> last ks false = true ->
  proper_segments li ks -> skier_weights li (List.length ki) w = Ok mi ->
  exists k o, create_skier_object eig solve brent maxeval (LList layers) w phi li ki crack E t = Ok k /\
    Layered eig "skiers" (LList layers) false = Ok o /\ same_model (model_obj o E t) (k_obj k) /\ ready (k_obj k) /\
    bvp (k_obj k) 0 phi li mi ks (k_C k) /\ k_mi k = mi.
Proof.
  intros ks P HE Ht So Co G N2 Lk K0 K1 Pr Em. destruct (create_full layers w phi li ki crack E t mi P HE Ht So Co G N2 Lk K0 K1 Pr Em) as (k & o & H1 & H2 & H3 & H4 & H5 & H6 & _).
  exists k, o. auto 10.
Qed.

(** The stress arrays are not empty. *)
Lemma map2_length {A B C} (f : A -> B -> C) l m : List.length l = List.length m -> List.length (map2 f l m) = List.length l.
Proof. revert m. induction l as [|a l IH]; intros [|b m] H; simpl in *; try reflexivity; try discriminate. rewrite IH by lia. reflexivity. Qed.
Lemma stress_length f x z xs : weaklayer_stress f x z false = Ok xs -> List.length (snd xs) = List.length z.
Proof.
  unfold weaklayer_stress. destruct (columns f z) as [s|er] eqn:EC; [|discriminate]. cbn [bind].
  destruct (Nat.eqb_spec (List.length x) (List.length z)) as [L|L]; [|discriminate]. cbn [negb]. intros H. apply Ok_inj in H. subst xs. cbn [snd].
  assert (LS : List.length s = List.length z).
  { unfold columns in EC. destruct (f _) as [r|]; [|discriminate]. cbn [bind] in EC. clear - EC. revert s EC.
    induction z as [|a z IH]; intros s; simpl; [intros H; apply Ok_inj in H; subst s; reflexivity|].
    destruct (f a); [|discriminate]. cbn [bind]. destruct (mapM f z) as [v|]; [|discriminate]. cbn [bind]. intros H. apply Ok_inj in H. subst s.
    simpl. rewrite (IH v eq_refl). reflexivity. }
  rewrite map2_length; unfold to_cm; rewrite map_length; congruence.
Qed.
Lemma create_lengths profile w phi li ki crack E t k :
  create_skier_object eig solve brent maxeval profile w phi li ki crack E t = Ok k ->
  List.length (k_tau k) = List.length (k_sig k) /\ (801 <= List.length (k_sig k))%nat.
Proof.
  unfold create_skier_object. destruct (Layered eig "skiers" profile false) as [o|e] eqn:EL; [|discriminate]. cbn [bind].
  destruct (skier_weights li (List.length ki) w) as [mi|e]; [|discriminate]. cbn [bind].
  match goal with |- context [calc_segments ?a ?b ?c ?d ?e ?f ?g ?h ?i ?j ?k0 ?l ?m ?n ?o] => destruct (calc_segments a b c d e f g h i j k0 l m n o) as [[s|e'] o'] eqn:EC; [|discriminate] end.
  destruct (assemble_and_solve _ _ _ _ _ _ _ _) as [C|e]; [|discriminate]. cbn [bind].
  destruct (rasterize_solution _ _ _ _ _ _ _) as [[[xq z] xb]|e] eqn:ER; [|discriminate]. cbn [bind].
  pose proof (fun h => C38_grid _ _ _ _ _ _ _ _ _ _ h ER) as G0. destruct (G0 ltac:(apply Nat.leb_le; reflexivity)) as (_ & _ & _ & _ & [A _] & B & _).
  destruct (get_weaklayer_shearstress _ _ _ _ _) as [xt|e] eqn:ET; [|discriminate]. cbn [bind].
  destruct (get_weaklayer_normalstress _ _ _ _ _) as [xs|e] eqn:ES; [|discriminate]. cbn [bind].
  apply stress_length in ET. apply stress_length in ES.
  intros H. apply Ok_inj in H. subst k. cbn [k_sig k_tau]. rewrite ET, ES, B. split; [reflexivity|]. exact A.
Qed.
End S.

Definition known_envelope (s : string) : Prop :=
  In s ["adam_unpublished"; "schottner"; "mede_s-RG1"; "mede_s-RG2"; "mede_s-FCDH"]%string.
Lemma envelope_total s sf om rho a b : known_envelope s -> exists v, stress_envelope1 s sf om rho a b = Ok v.
Proof. unfold known_envelope. intros H. cbn [In] in H. unfold stress_envelope1. decompose [or] H; subst; try contradiction; eexists; reflexivity. Qed.
Lemma mapM_some {A B} (f : A -> res B) l : (forall a, exists v, f a = Ok v) -> l <> [] -> exists d, d <> [] /\ mapM f l = Ok d.
Proof.
  intros T. destruct l as [|a l]; [congruence|]. intros _. revert a. induction l as [|b l IH]; intros a; destruct (T a) as [v E].
  - exists [v]. split; [discriminate|]. cbn [mapM]. rewrite E. reflexivity.
  - destruct (IH b) as (d & _ & D). exists (v :: d). split; [discriminate|]. cbn [mapM] in D |- *. rewrite E. cbn [bind]. rewrite D. reflexivity.
Qed.
Lemma distances_total e k : known_envelope (e_name e) -> List.length (k_tau k) = List.length (k_sig k) -> k_sig k <> [] ->
  exists d, distances e k = Ok d.
Proof.
  intros N L E. unfold distances, envelope_of, stress_envelope.
  destruct (envelope_total (e_name e) (e_sf e) (e_om e) (e_rho e) 0 0 N) as [v ->]. cbn [bind].
  match goal with |- context [mapM ?f ?l] => destruct (mapM_some f l) as (d & D & ->) end.
  - intros [[s|] [t|]]; eauto. destruct (envelope_total (e_name e) (e_sf e) (e_om e) (e_rho e) s t N) as [u ->]. cbn [bind]. eauto.
  - destruct (k_sig k); [congruence|]. destruct (k_tau k); [discriminate|]. discriminate.
  - cbn [bind]. destruct d; [congruence|]. cbn [np_max np_min bind]. eauto.
Qed.
