(** The coupled criterion applied to slabs (C94). *)
From Coquelicot Require Import Coquelicot.
Require Import Verif.Py Verif.MTools Verif.MEigen Verif.MFields Verif.SAdm Verif.SSlab Verif.MRaster
  Verif.MSolution Verif.MAnalysis Verif.SBeam Verif.SBvp Verif.SEig Verif.SEnergy Verif.MEnvelope Verif.MCriterion
  Verif.SSegment Verif.SSplit Verif.SCoupled Verif.PLam Verif.PSetup Verif.PBvp Verif.PBvp5 Verif.PBvp6 Verif.PEnergy Verif.PEnergy2
  Verif.PCreate Verif.PCreate2 Verif.PCoupled Verif.PWell3 Verif.PropDepend.
Open Scope R_scope.

Lemma cracking_all ki i : (i < List.length ki)%nat -> cracking (map (fun _ => true) ki) ki i = negb (nth i ki false).
Proof.
  intros H. unfold cracking. rewrite (nth_indep _ false true) by (rewrite map_length; exact H).
  change true with ((fun _ : bool => true) true) at 2. rewrite map_nth. reflexivity.
Qed.
Lemma crack_sum_all ki f : crack_sum (map (fun _ => true) ki) ki (List.length ki) f = unsupported_sum ki f.
Proof.
  unfold crack_sum, unsupported_sum. f_equal. apply map_ext_in. intros i Hi. apply in_seq in Hi.
  rewrite cracking_all by lia. destruct (nth i ki false); reflexivity.
Qed.
Lemma select_unsupported li ki : List.length ki = List.length li ->
  rsum (select (map2 (fun a b => andb a (negb b)) (map (fun _ => true) ki) ki) li) = unsupported_length li ki.
Proof.
  unfold unsupported_length. revert li. induction ki as [|k ki IH]; intros [|l li] L; try discriminate; [reflexivity|].
  injection L as L. unfold unsupported_sum in *. cbn [List.length seq]. rewrite <- seq_shift. cbn [map]. rewrite map_map. cbn [nth].
  specialize (IH li L). unfold rsum in *. cbn [fold_right]. cbn [map2 select map andb]. destruct k; cbn [negb fold_right]; rewrite IH; ring.
Qed.

Section S.
Variable eig : mat6 -> list eigpair.
Variable solve : nat -> matrix -> vector -> res vector.
Variable brent : R -> R -> list (R * R) -> bstep.
Variable maxeval : nat.
Variable quad : (R -> R) -> R -> R -> R.
Variable eps : R.
Hypothesis HQ : accurate_quad quad eps.
Hypothesis So : sound_solver solve.
Variables (layers : list (R * R)) (E t : R).
Hypothesis P : pos_layers layers.
Hypothesis HE : 0 < E.
Hypothesis Ht : 0 < t.
Hypothesis Ge : forall o, Layered eig "skiers" (LList layers) false = Ok o ->
  good_eigenpairs (calc_system_matrix (o_par (model_obj eig o E t))) (eig (calc_system_matrix (o_par (model_obj eig o E t)))).
Notation create := (create_skier_object eig solve brent maxeval (LList layers)).

Lemma skiers_run2 o : o_system o = "skiers"%string -> o_touchdown o = false ->
  exists o', same_model o o' /\ forall li mi ki k0,
    calc_segments eig solve brent maxeval li mi ki k0 10000 0 0 0 (1 / 2) 1000 o = (Ok (mkSeg li mi ki k0), o').
Proof.
  intros S T. assert (H0 : forall li mi ki k0, calc_segments eig solve brent maxeval li mi ki k0 10000 0 0 0 (1 / 2) 1000 o
    = (Ok (mkSeg li mi ki k0), snd (calc_segments eig solve brent maxeval [] [] [] [] 10000 0 0 0 (1 / 2) 1000 o))).
  { intros li mi ki k0. unfold calc_segments, sbind, calc_touchdown_system, sbind, calc_touchdown_mode.
    assert (X : o_touchdown (set_touchdown_attributes 10000 0 (1 / 2) 0 1000 o) = false) by exact T.
    rewrite X. unfold calc_touchdown_length, set_mode. cbn [o_mode]. unfold segment_lists. simpl. rewrite S. reflexivity. }
  eexists. split; [|exact H0]. destruct (skiers_run eig solve brent maxeval [] [] [] [] o S T) as (o' & R & M).
  rewrite R. exact M.
Qed.

Lemma create_inv o o' : Layered eig "skiers" (LList layers) false = Ok o ->
  (forall li mi ki k0, calc_segments eig solve brent maxeval li mi ki k0 10000 0 0 0 (1 / 2) 1000 (model_obj eig o E t) = (Ok (mkSeg li mi ki k0), o')) ->
  forall w phi li ki (crack : bool) k, create w phi li ki crack E t = Ok k ->
  exists mi C, skier_weights li (List.length ki) w = Ok mi /\
    assemble_and_solve eig solve o' false phi li mi (if crack then ki else map (fun _ => true) ki) = Ok C /\
    k_obj k = o' /\ k_li k = li /\ k_ki k = (if crack then ki else map (fun _ => true) ki) /\ k_mi k = mi /\ k_C k = C.
Proof.
  intros L Rn w phi li ki crack k. unfold create_skier_object. rewrite L. cbn [bind]. fold (model_obj eig o E t).
  destruct (skier_weights li (List.length ki) w) as [mi|e]; [|discriminate]. cbn [bind]. rewrite Rn. cbn [s_li s_mi s_ki s_k0].
  destruct (assemble_and_solve eig solve o' false phi li mi (if crack then ki else map (fun _ => true) ki)) as [C|e] eqn:EA; [|discriminate]. cbn [bind].
  destruct (rasterize_solution _ _ _ _ _ _ _) as [[[xq z] xb]|e]; [|discriminate]. cbn [bind].
  destruct (get_weaklayer_shearstress _ _ _ _ _) as [xt|e]; [|discriminate]. cbn [bind].
  destruct (get_weaklayer_normalstress _ _ _ _ _) as [xs|e]; [|discriminate]. cbn [bind].
  intros H. apply Ok_inj in H. subst k. exists mi, C. cbn [k_obj k_li k_ki k_mi k_C]. split; [reflexivity|]. split; [exact EA|]. repeat (split; [reflexivity|]). reflexivity.
Qed.
(** Whatever is returned is a solution; the object depends on the profile and the weak layer only. *)
Lemma create_sound : exists o o', Layered eig "skiers" (LList layers) false = Ok o /\ same_model (model_obj eig o E t) o' /\ ready o' /\
  o_system o' = "skiers"%string /\
  forall w phi li ki crack k, create w phi li ki crack E t = Ok k ->
  let ks := if crack then ki else map (fun _ => true) ki in
  k_obj k = o' /\ (2 <= List.length li)%nat /\ List.length ki = List.length li /\
    skier_weights li (List.length li) w = Ok (k_mi k) /\ k_li k = li /\ k_ki k = ks /\
    bvp o' 0 phi li (k_mi k) ks (k_C k) /\ six_each (List.length li) (k_C k).
Proof.
  destruct (layered_some eig "skiers" layers false) as [o L]. destruct (layered_system _ _ _ _ _ L) as [S T].
  destruct (model_adm eig solve brent maxeval layers o E t P HE Ht L) as (La & Fn & Ei & Sl).
  assert (S1 : o_system (model_obj eig o E t) = "skiers"%string).
  { unfold model_obj, set_foundation_properties. destruct (recalc_system eig (with_weak o E (1 / 4) t)) as [-> _]. exact S. }
  assert (T1 : o_touchdown (model_obj eig o E t) = false).
  { unfold model_obj, set_foundation_properties. destruct (recalc_system eig (with_weak o E (1 / 4) t)) as [_ ->]. exact T. }
  destruct (skiers_run2 (model_obj eig o E t) S1 T1) as (o' & SM & Rn).
  assert (Rd : ready o').
  { destruct SM as (M1 & M2 & _). unfold ready. rewrite M1, M2. split; [exact La|]. split; [exact Fn|]. eexists. split; [exact Ei|exact (Ge o L)]. }
  assert (S2 : o_system o' = "skiers"%string) by (destruct SM as (_ & _ & M3 & _); congruence).
  exists o, o'. split; [exact L|]. split; [exact SM|]. split; [exact Rd|]. split; [exact S2|].
  intros w phi li ki crack k H ks. assert (H' : exists mi C, skier_weights li (List.length ki) w = Ok mi /\ assemble_and_solve eig solve o' false phi li mi ks = Ok C /\
    k_obj k = o' /\ k_li k = li /\ k_ki k = ks /\ k_mi k = mi /\ k_C k = C).
  { exact (create_inv o o' L Rn w phi li ki crack k H). }
  clear H. destruct H' as (mi & C & EW & EA & K1 & K2 & K3 & K4 & K5). rewrite K1, K2, K3, K4, K5.
  assert (V : ~ invalid_segments (o_system o') li mi ks).
  { apply (proj2 (check_iff o' li mi ks)). unfold assemble_and_solve, assemble_and_solve_with in EA. destruct (check_segments o' li mi ks) as [[]|e]; [reflexivity|discriminate]. }
  assert (Lk : List.length ks = List.length ki) by (unfold ks; destruct crack; [|rewrite map_length]; reflexivity).
  destruct (skier_weights_length li (List.length ki) w mi EW) as [Lm Nk].
  assert (LL : List.length ki = List.length li).
  { destruct (Nat.eq_dec (List.length li) (List.length ks)) as [Q|Q]; [congruence|]. exfalso. apply V. unfold invalid_segments. tauto. }
  assert (N2 : (2 <= List.length li)%nat).
  { unfold skier_weights in EW. destruct (Nat.eqb (List.length ki) 0); [discriminate|]. destruct (median_loop _ _ _ _) as [m|e]; [|discriminate].
    cbn [bind] in EW. destruct (Nat.ltb_spec (match m with Some i => i | None => (List.length ki - 1 - 1)%nat end) (List.length ki - 1)) as [M|M]; [lia|discriminate]. }
  split; [reflexivity|]. split; [exact N2|]. split; [exact LL|]. split; [congruence|]. split; [reflexivity|]. split; [reflexivity|].
  split; [|exact (solved_six _ _ _ _ _ _ _ _ _ N2 EA)].
  assert (Kd : kind_of (o_system o') = Some KSkier) by (rewrite S2; reflexivity).
  assert (Q1 : KSkier <> KPst) by discriminate. assert (Q2 : KSkier <> KVpst) by discriminate.
  refine (solved_bvp eig solve o' false phi li mi ks C KSkier 0 So Rd N2 Kd _ _ EA); intros Q; exfalso; auto.
Qed.

Lemma incremental_sound o phi li ki C0 C1 s c v : ready o -> k_obj c = o -> k_li c = li -> k_ki c = ki -> k_C s = C0 -> k_C c = C1 ->
  List.length ki = List.length li -> (exists i, (i < List.length ki)%nat /\ nth i ki false = false) ->
  incremental quad phi s c (map (fun _ => true) ki) = Ok (Some v) ->
  exists G1 G2, released o phi li ki C0 C1 eps G1 G2 /\ v = toughness (1000 * G1) (1000 * G2).
Proof.
  intros Rd Eo El Ek E0 E1 LL (i & Hi & Ni) H. unfold incremental in H. rewrite Eo, El, Ek, E0, E1 in H.
  destruct (ginc _ _ _ _ _ _ _ _ _) as [[[G G1] G2]|e] eqn:EG; [|discriminate]. cbn [bind] in H.
  destruct G1 as [G1|]; [|discriminate]. destruct G2 as [G2|]; [|discriminate]. apply Ok_inj in H. injection H as H.
  assert (G' : exists g, G = Some g).
  { unfold ginc in EG. repeat (match type of EG with (if ?b then _ else _) = _ => destruct b; [discriminate|] end).
    destruct (ginc_loop _ _ _ _ _ _ _) as [r|]; [|discriminate]. cbn [bind] in EG. destruct (select _ li).
    - apply Ok_inj in EG. injection EG as <-. eauto.
    - destruct (Rlt_dec _ _); [|discriminate]. apply Ok_inj in EG. injection EG as <-. eauto. }
  destruct G' as [g ->]. destruct (ginc_value quad eps HQ o phi C0 C1 li ki _ _ _ _ Rd EG) as (_ & _ & V).
  destruct V as (V1 & V2 & V3). { exists i. rewrite cracking_all by exact Hi. rewrite Ni. reflexivity. }
  exists G1, G2. rewrite <- LL in V1, V2, V3. repeat rewrite crack_sum_all in V1. repeat rewrite crack_sum_all in V2. repeat rewrite crack_sum_all in V3. rewrite LL in V2, V3. split; [exact (conj V1 (conj V2 V3))|].
  rewrite <- H. unfold fracture_toughness_criterion, toughness. f_equal; f_equal; lra.
Qed.

Lemma evaluated_judged : exists o o', Layered eig "skiers" (LList layers) false = Ok o /\ same_model (model_obj eig o E t) o' /\ ready o' /\
  o_system o' = "skiers"%string /\
  forall phi damped w li ki c g,
  evaluated (fun w li ki crack => create w phi li ki crack E t) (incremental quad phi) damped w li ki c g -> judged eps o' phi w li ki c g.
Proof.
  destruct create_sound as (o & o' & H1 & H2 & H3 & H4 & H5). exists o, o'. repeat (split; [assumption|]).
  intros phi damped w li ki c g (u & U & C & G).
  destruct (H5 _ _ _ _ _ _ U) as (U1 & U2 & U3 & U4 & U5 & U6 & U7 & U8). destruct (H5 _ _ _ _ _ _ C) as (C1 & C2 & C3 & C4 & C5 & C6 & C7 & C8).
  exists (k_C u), (k_mi c). repeat (split; [first [assumption|reflexivity]|]).
  assert (M : k_mi u = k_mi c) by (rewrite U4 in C4; apply Ok_inj in C4; exact C4).
  assert (K : (if damped then ki else map (fun _ => true) ki) = ki \/ (if damped then ki else map (fun _ => true) ki) = map (fun _ => true) ki) by (destruct damped; auto).
  assert (K2 : map (fun _ => true) (if damped then ki else map (fun _ => true) ki) = map (fun _ : bool => true) ki) by (destruct damped; [|rewrite map_map]; reflexivity).
  rewrite M in U7. cbv zeta in U7. rewrite K2 in U7. split; [exact U7|]. split; [exact C7|]. split; [exact U8|]. split; [exact C8|].
  intros X v ->. exact (incremental_sound o' phi li ki _ _ u c v H3 C1 C5 C6 eq_refl eq_refl C3 X G).
Qed.
Lemma judged_accepts (St : forall o, Layered eig "skiers" (LList layers) false = Ok o -> stable (o_par (model_obj eig o E t)))
  (Co : complete_solver solve) phi w li ki mi : List.length ki = List.length li -> (2 <= List.length li)%nat ->
  nth 0 ki false = true -> last ki false = true -> proper_segments li ki -> skier_weights li (List.length li) w = Ok mi ->
  0 < unsupported_length li ki ->
  exists u c v, evaluate (fun w li ki crack => create w phi li ki crack E t) (incremental quad phi) w li ki = Ok (u, c, Some v) /\
    evaluated (fun w li ki crack => create w phi li ki crack E t) (incremental quad phi) false w li ki c (Some v).
Proof.
  intros Lk N2 K0 K1 Pr Em Pos.
  assert (G : forall o, Layered eig "skiers" (LList layers) false = Ok o -> stable (o_par (model_obj eig o E t)) /\
     good_eigenpairs (calc_system_matrix (o_par (model_obj eig o E t))) (eig (calc_system_matrix (o_par (model_obj eig o E t))))) by auto.
  assert (A0 : nth 0 (map (fun _ => true) ki) false = true) by (destruct ki; [discriminate|reflexivity]).
  assert (A1 : forall l : list bool, l <> [] -> last (map (fun _ => true) l) false = true).
  { intros l. induction l as [|a [|b l] IH]; intros H; [congruence|reflexivity|]. apply IH. discriminate. }
  assert (KN : ki <> []) by (intros ->; discriminate).
  assert (Pr' : proper_segments li (map (fun _ => true) ki)).
  { destruct Pr as [Q (i & I1 & I2 & I3)]. split; [exact Q|]. exists i. split; [exact I1|]. split; [|exact I3].
    rewrite (nth_indep _ false true) by (rewrite map_length; lia). change true with ((fun _ : bool => true) true) at 2. rewrite map_nth. reflexivity. }
  rewrite <- Lk in Em.
  destruct (create_full eig solve brent maxeval layers w phi li (map (fun _ => true) ki) false E t mi P HE Ht So Co G N2) as (u & o & U1 & U2 & U3 & U4 & U5 & U6 & U7 & U8 & U9 & U10).
  { rewrite map_length. exact Lk. } { rewrite map_map. exact A0. } { rewrite map_map. apply A1. exact KN. } { rewrite map_map. exact Pr'. } { rewrite map_length. exact Em. }
  destruct (create_full eig solve brent maxeval layers w phi li ki true E t mi P HE Ht So Co G N2 Lk K0 K1 Pr Em) as (c & o2 & V1 & V2 & V3 & V4 & V5 & V6 & V7 & V8 & V9 & V10).
  destruct (ginc_total quad (k_obj c) phi (k_C u) (k_C c) li (map (fun _ => true) ki) ki V4) as (g & g1 & g2 & HG).
  - apply map_length.
  - congruence.
  - split; [congruence|exact U10].
  - split; [congruence|exact V10].
  - rewrite select_unsupported by exact Lk. exact Pos.
  - assert (I : incremental quad phi u c (map (fun _ => true) ki) = Ok (Some (fracture_toughness_criterion (1000 * g1) (1000 * g2)))).
    { unfold incremental. rewrite V7, V8, HG. reflexivity. }
    exists u, c, (fracture_toughness_criterion (1000 * g1) (1000 * g2)). split.
    + unfold evaluate. rewrite U1. cbn [bind]. rewrite V1. cbn [bind]. rewrite I. reflexivity.
    + exists u. split; [exact U1|]. split; [exact V1|exact I].
Qed.
End S.

(** Only the first iteration can end with the pure stress criterion. *)
Lemma iterate_first step fuel maxit s c :
  (forall s k, step s = Ok (inl k) -> l_n s = 0%nat) -> (forall s s', step s = Ok (inr s') -> l_n s' = S (l_n s)) ->
  iterate maxit step fuel s = Ok (inl c) -> step s = Ok (inl c).
Proof.
  intros A B. destruct fuel as [|fuel]; simpl; destruct (continue maxit s); try discriminate.
  destruct (step s) as [[k|s']|e] eqn:Es; cbn [bind]; [intros H; apply Ok_inj in H; congruence| |discriminate].
  intros H. exfalso. assert (N : l_n s' <> 0%nat) by (rewrite (B _ _ Es); lia). clear Es. revert s' N H.
  induction fuel as [|fuel IH]; intros s' N; simpl; destruct (continue maxit s'); try discriminate.
  destruct (step s') as [[k|s'']|e] eqn:Es'; cbn [bind]; [intros _; exact (N (A _ _ Es'))| |discriminate].
  apply IH. rewrite (B _ _ Es'). lia.
Qed.
