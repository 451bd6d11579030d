(** C74: for which parameters the eigenvalue decomposition that the solution formulas need exists;
    C64 (continued): [create_skier_object] returns the solution of the boundary value problem. *)
From Coq Require Import Lra Permutation.
From Coquelicot Require Import Coquelicot.
Require Import Verif.Py Verif.MTools Verif.MEigen Verif.MFields Verif.SAdm Verif.SSlab Verif.MRaster
  Verif.MSolution Verif.MAnalysis Verif.SBeam Verif.SBvp Verif.SEig Verif.MEnvelope Verif.MCriterion
  Verif.SSegment Verif.SExact Verif.PLam Verif.PSetup Verif.PLinAlg Verif.PBvp6 Verif.PropSegment Verif.PropForce Verif.PCreate Verif.PCreate2
  Verif.PExact Verif.PExact2 Verif.PExact3.
Open Scope R_scope.

(** C74: six different eigenvalues with true eigenvectors exist exactly when the discriminant of the
    characteristic polynomial does not vanish. *)
Theorem C74_exists p : adm p ->
  ((exists ews, good_eigenpairs (calc_system_matrix p) ews) <-> chi_disc (calc_system_matrix p) <> 0).
Proof.
  intros H. pose proof (chi0_neg p H) as N. assert (N0 : chi0 (calc_system_matrix p) <> 0) by lra.
  rewrite <- simple_disc. split.
  - intros [ews G]. exact (good_simple _ ews (system_shape p) N0 G).
  - intros S. exists (exact_eig (calc_system_matrix p)). exact (good_exact _ (system_shape p) S N0).
Qed.
Print Assumptions C74_exists.

(** One eigensolver serves every object: whenever the discriminant does not vanish, an object whose
    fundamental system has just been calculated is ready to be solved. *)
Theorem C74_ready : exists eig : mat6 -> list eigpair, forall o,
  let o' := o_calc_fundamental_system eig o in
  adm (o_par o') -> chi_disc (calc_system_matrix (o_par o')) <> 0 -> ready o'.
Proof.
  exists exact_eig. intros o o' H D.
  destruct (fundamental_par exact_eig o) as (_ & E & _). cbv zeta in E. fold o' in E.
  pose proof (chi0_neg _ H) as N. destruct H as (L & F & _).
  split; [exact L|]. split; [exact F|]. exists (exact_eig (calc_system_matrix (o_par o'))).
  split; [exact E|]. apply good_exact; [apply system_shape|now apply simple_disc|lra].
Qed.
Print Assumptions C74_ready.

(** Refuted without the condition: 90 mm of solid ice on a weak layer of 70 mm with modulus 9955.6 MPa and
    Poisson's ratio 0.2 is an admissible and stable object, but no eigensolver can return six different
    eigenvalues for it. *)
Theorem C74_refuted eig : exists o,
  Layered eig "skier" (LList [(917, 90)]) false = Ok o /\
  let o' := set_foundation_properties eig o 70 (89600 / 9) (1 / 5) true in
  adm (o_par o') /\ stable (o_par o') /\
  forall ews, ~ good_eigenpairs (calc_system_matrix (o_par o')) ews.
Proof.
  destruct (ice_object eig "skier" false 90 70 (89600 / 9) (1 / 5) ltac:(lra)) as (o & L & P).
  exists o. split; [exact L|]. cbv zeta. rewrite P.
  assert (A : adm (ice_par 90 70 (89600 / 9) (1 / 5))).
  { unfold adm, lam_ok, fnd_ok, ice_par; simpl. repeat split; lra. }
  split; [exact A|]. split; [unfold stable, ice_par; simpl; lra|].
  intros ews G. apply (proj1 (C74_exists _ A)); [now exists ews|]. exact ice_double_disc.
Qed.
Print Assumptions C74_refuted.

(** The default weak layer under 90 mm of ice meets the condition. *)
Lemma ice_model eig : exists o, Layered eig "skiers" (LList [(917, 90)]) false = Ok o /\
  o_par (model_obj eig o (1 / 4) 30) = ice_par 90 30 (1 / 4) (1 / 4).
Proof. exact (ice_object eig "skiers" false 90 30 (1 / 4) (1 / 4) ltac:(lra)). Qed.
Lemma ice_adm : adm (ice_par 90 30 (1 / 4) (1 / 4)).
Proof. unfold adm, lam_ok, fnd_ok, ice_par; simpl. repeat split; lra. Qed.
Lemma ice_stable : stable (ice_par 90 30 (1 / 4) (1 / 4)).
Proof. unfold stable, ice_par; simpl; lra. Qed.
Example C74_example : exists o, Layered exact_eig "skiers" (LList [(917, 90)]) false = Ok o /\
  let o' := set_foundation_properties exact_eig o 30 (1 / 4) (1 / 4) true in
  adm (o_par o') /\ chi_disc (calc_system_matrix (o_par o')) <> 0 /\
  good_eigenpairs (calc_system_matrix (o_par o')) (exact_eig (calc_system_matrix (o_par o'))).
Proof.
  destruct (ice_model exact_eig) as (o & L & P). exists o. split; [exact L|]. cbv zeta.
  unfold model_obj in P. rewrite P. split; [exact ice_adm|]. split; [exact ice_default_disc|].
  apply good_exact; [apply system_shape|apply simple_disc; exact ice_default_disc|].
  pose proof (chi0_neg _ ice_adm). lra.
Qed.

(** C64: with sound and complete solvers [create_skier_object] succeeds, and its constants solve the
    boundary value problem of the given segments, with the skier's weight at the chosen transition. *)
Theorem C64_solved eig solve brent maxeval layers w phi (li : list R) (ki : list bool) (crack : bool) E t mi :
  let ks := if crack then ki else map (fun _ => true) ki in
  pos_layers layers -> 0 < E -> 0 < t -> sound_solver solve -> complete_solver solve ->
  (forall o, Layered eig "skiers" (LList layers) false = Ok o ->
     let p := o_par (set_foundation_properties eig o t E (1 / 4) true) in
     stable p /\ good_eigenpairs (calc_system_matrix p) (eig (calc_system_matrix p))) ->
  (2 <= List.length li)%nat -> List.length ki = List.length li -> nth 0 ks false = true -> last ks false = true ->
  proper_segments li ks -> skier_weights li (List.length ki) w = Ok mi ->
  exists k o, create_skier_object eig solve brent maxeval (LList layers) w phi li ki crack E t = Ok k /\
    Layered eig "skiers" (LList layers) false = Ok o /\
    o_par (k_obj k) = o_par (set_foundation_properties eig o t E (1 / 4) true) /\ ready (k_obj k) /\
    bvp (k_obj k) 0 phi li mi ks (k_C k) /\ k_mi k = mi.
Proof.
  intros ks P HE Ht So Co G N2 Lk K0 K1 Pr Em.
  destruct (create_solves eig solve brent maxeval layers w phi li ki crack E t mi P HE Ht So Co G N2 Lk K0 K1 Pr Em)
    as (k & o & H1 & H2 & H3 & H4 & H5 & H6).
  exists k, o. split; [exact H1|]. split; [exact H2|]. split; [apply H3|]. auto.
Qed.
Print Assumptions C64_solved.

(** All hypotheses hold for 90 mm of ice on the default weak layer, a skier of 80 kg at the middle. *)
Lemma ice_hyps : forall o, Layered exact_eig "skiers" (LList [(917, 90)]) false = Ok o ->
  let p := o_par (set_foundation_properties exact_eig o 30 (1 / 4) (1 / 4) true) in
  stable p /\ good_eigenpairs (calc_system_matrix p) (exact_eig (calc_system_matrix p)).
Proof.
  intros o L. destruct C74_example as (o' & L' & A & D & G). rewrite L in L'. apply Ok_inj in L'. subst o'.
  cbv zeta. split; [|exact G]. destruct (ice_model exact_eig) as (o' & L' & P). rewrite L in L'. apply Ok_inj in L'.
  subst o'. unfold model_obj in P. rewrite P. exact ice_stable.
Qed.
Example C64_example_solved brent maxeval : exists k,
  create_skier_object exact_eig elim_solve brent maxeval (LList [(917, 90)]) 80 30 [5000; 100; 100; 5000]
    [true; false; false; true] true (1 / 4) 30 = Ok k /\ k_mi k = [0; 80; 0] /\
  bvp (k_obj k) 0 30 [5000; 100; 100; 5000] [0; 80; 0] [true; false; false; true] (k_C k).
Proof.
  destruct (C64_solved exact_eig elim_solve brent maxeval [(917, 90)] 80 30 [5000; 100; 100; 5000]
    [true; false; false; true] true (1 / 4) 30 [0; 80; 0]) as (k & o & H1 & _ & _ & _ & H5 & H6).
  - constructor; [simpl; lra|constructor].
  - lra.
  - lra.
  - exact elim_sound.
  - exact elim_complete.
  - exact ice_hyps.
  - simpl; lia.
  - reflexivity.
  - reflexivity.
  - reflexivity.
  - split.
    + intros i Hi. do 4 (destruct i as [|i]; [simpl; lra|]). simpl in Hi. lia.
    + exists 0%nat. simpl. split; [lia|]. split; [reflexivity|lra].
  - unfold skier_weights. cbn [List.length Nat.eqb]. unfold rsum. cbn [fold_right median_loop].
    unfold Rleb, Reqb. repeat (destruct (Rle_dec _ _); try lra). repeat (destruct (Req_EM_T _ _); try lra).
    reflexivity.
  - exists k. auto.
Qed.

(** C61: for every profile with such solvers, every known envelope and every list of segments with a
    boundary at its midpoint the search returns; its result belongs to the boundary value problem of the
    uncracked slab under one weight, and the reported weight is that weight or the failure value 0. *)
Theorem C61_accepted eig solve brent maxeval layers phi (li : list R) (ki : list bool) E t e j :
  pos_layers layers -> 0 < E -> 0 < t -> sound_solver solve -> complete_solver solve ->
  (forall o, Layered eig "skiers" (LList layers) false = Ok o ->
     let p := o_par (set_foundation_properties eig o t E (1 / 4) true) in
     stable p /\ good_eigenpairs (calc_system_matrix p) (eig (calc_system_matrix p))) ->
  (2 <= List.length li)%nat -> List.length ki = List.length li ->
  (forall l, In l li -> 0 <= l) -> 0 < rsum li -> (j <= List.length li)%nat -> seg_start li j = rsum li / 2 ->
  known_envelope (e_name e) ->
  exists r w, find_minimum_force eig solve brent maxeval (LList layers) phi E t e li ki = Ok r /\
    distances e (f_sk r) = Ok (f_max r, f_min r) /\
    bvp (k_obj (f_sk r)) 0 phi li (k_mi (f_sk r)) (map (fun _ => true) ki) (k_C (f_sk r)) /\
    skier_weights li (List.length li) w = Ok (k_mi (f_sk r)) /\
    (f_weight r = w /\ ((w = 1 /\ exists m, f_min r = Some m /\ 1 <= m) \/ f_max r = None \/
                        exists x, f_max r = Some x /\ Rabs (x - 1) <= 1 / 100)
     \/ f_weight r = 0).
Proof.
  intros P HE Ht So Co G N2 Lk Nn Pos Hj Mid Kn.
  assert (C : forall w, exists mi k, skier_weights li (List.length li) w = Ok mi /\
     create_skier_object eig solve brent maxeval (LList layers) w phi li ki false E t = Ok k /\
     bvp (k_obj k) 0 phi li mi (map (fun _ => true) ki) (k_C k) /\ k_mi k = mi).
  { intros w. destruct (C64_midpoint li w j Nn Pos Hj Mid) as [mi Em].
    destruct (C64_solved eig solve brent maxeval layers w phi li ki false E t mi P HE Ht So Co G N2 Lk)
      as (k & o & H1 & _ & _ & _ & H5 & H6).
    - destruct ki; [simpl in Lk; lia|reflexivity].
    - clear - Lk N2. assert (Hk : ki <> []) by (intros ->; simpl in Lk; lia). clear Lk N2.
      destruct ki as [|b ki]; [congruence|]. clear. revert b. induction ki as [|c ki IH]; intros b; [reflexivity|].
      exact (IH c).
    - split.
      + intros i Hi. apply Nn. now apply nth_In.
      + destruct (Exists_dec (fun l => 0 < l) li (fun l => Rlt_dec 0 l)) as [Ex|Ex].
        * apply Exists_exists in Ex. destruct Ex as (l & Hl & Hp). apply (In_nth _ _ 0) in Hl.
          destruct Hl as (i & Hi & Ei). exists i. split; [exact Hi|]. split; [|lra].
          rewrite (nth_indep _ false true) by (rewrite map_length; lia).
          change true with ((fun _ : bool => true) true). now rewrite map_nth.
        * exfalso. assert (Z : rsum li <= 0); [|lra]. clear - Ex.
          induction li as [|l li IH]; unfold rsum in *; simpl; [lra|].
          assert (l <= 0) by (destruct (Rlt_dec 0 l); [exfalso; apply Ex; now left|lra]).
          assert (fold_right Rplus 0 li <= 0) by (apply IH; intros H'; apply Ex; now right). lra.
    - rewrite Lk. exact Em.
    - exists mi, k. auto. }
  assert (T : forall w, exists k d, create_skier_object eig solve brent maxeval (LList layers) w phi li ki false E t = Ok k
     /\ distances e k = Ok d).
  { intros w. destruct (C w) as (mi & k & _ & H & _). exists k.
    destruct (create_lengths _ _ _ _ _ _ _ _ _ _ _ _ _ H) as [L1 L2].
    destruct (distances_total e k Kn L1) as [d D]; [intros Z; rewrite Z in L2; simpl in L2; lia|]. eauto. }
  destruct (proj1 (C61_total _ _ T)) as [r R]. destruct (C61_result _ _ _ R) as (w & W1 & W2 & W3).
  destruct (C w) as (mi & k & H1 & H2 & H3 & H4). rewrite W1 in H2. apply Ok_inj in H2. rewrite <- H2 in H3, H4.
  exists r, w. split; [exact R|]. split; [exact W2|]. rewrite H4. auto.
Qed.
Print Assumptions C61_accepted.
Example C61_example_accepted brent maxeval : exists r,
  find_minimum_force exact_eig elim_solve brent maxeval (LList [(917, 90)]) 30 (1 / 4) 30
    (mkEnv "schottner" 1 1 250) [5000; 0; 0; 5000] [true; true; true; true] = Ok r.
Proof.
  destruct (C61_accepted exact_eig elim_solve brent maxeval [(917, 90)] 30 [5000; 0; 0; 5000] [true; true; true; true]
    (1 / 4) 30 (mkEnv "schottner" 1 1 250) 1) as (r & w & H & _).
  - constructor; [simpl; lra|constructor].
  - lra.
  - lra.
  - exact elim_sound.
  - exact elim_complete.
  - exact ice_hyps.
  - simpl; lia.
  - reflexivity.
  - intros l [<-|[<-|[<-|[<-|[]]]]]; lra.
  - unfold rsum; simpl; lra.
  - simpl; lia.
  - unfold seg_start, rsum; simpl; lra.
  - right. now left.
  - now exists r.
Qed.
