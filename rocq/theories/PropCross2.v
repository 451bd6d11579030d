(** Examples for C72: models with and without crossings. *)
From Coq Require Import Lia Lra.
Require Import Verif.Py Verif.MTools Verif.MEigen Verif.MFields Verif.MRaster Verif.MSolution Verif.MAnalysis Verif.MEnvelope Verif.MCriterion
  Verif.SAdm Verif.SSlab Verif.SBeam Verif.SEig Verif.SExact Verif.SBvp Verif.SSegment Verif.SRaster Verif.SContact Verif.SCross Verif.PSetup Verif.PRaster Verif.PCreate Verif.PCreate2 Verif.PContact
  Verif.PBvp Verif.PBvp5 Verif.PBvp6 Verif.PBeam2 Verif.PLinAlg Verif.PWork Verif.PropBvp Verif.PropRaster Verif.PropOutput Verif.PropExact Verif.PropReach Verif.PropWindow Verif.PWell2 Verif.PExact3 Verif.PExact2 Verif.PropRigid Verif.PCross Verif.PropCross.

(** ** Root finders that evaluate inside the bracket *)
Definition evaluates_inside (brent : R -> R -> list (R * R) -> bstep) : Prop :=
  forall lo hi hist x, lo <= hi -> brent lo hi hist = BEval x -> lo <= x <= hi.
Lemma bisect_inside n : evaluates_inside (bisect n).
Proof.
  intros lo hi hist x H E. unfold bisect in E. destruct hist as [|[a v] [|[b w] [|c hist]]].
  - injection E as <-. lra.
  - injection E as <-. lra.
  - destruct (Rlt_dec 0 (w * v)); [discriminate|]. injection E as <-. apply clamp_in. exact H.
  - destruct (bracket lo hi _) as [l h]. destruct (_ <? n)%nat; [|discriminate]. injection E as <-. apply clamp_in. exact H.
Qed.
Lemma choose_inside l : evaluates_inside (choose l).
Proof.
  intros lo hi hist x H E. destruct hist as [|[a v] [|b hist]]; cbn [choose] in E.
  - injection E as <-. lra.
  - injection E as <-. lra.
  - destruct (Req_EM_T v 0); [destruct (inside lo hi a); discriminate|]. destruct (nth_error _ _) as [y|] eqn:Ey; [|discriminate].
    injection E as <-. apply nth_error_In in Ey. apply filter_In in Ey. apply inside_spec. apply Ey.
Qed.
Lemma safe_run brent (f : R -> res R) lo hi o : evaluates_inside brent -> lo <= hi -> (forall x, lo <= x <= hi -> exists v, f x = Ok v) ->
  forall fuel hist, (exists r, fst (brentq_run brent fuel (fun x o => (f x, o)) lo hi hist o) = Ok r) \/
    fst (brentq_run brent fuel (fun x o => (f x, o)) lo hi hist o) = Err ValueError \/ fst (brentq_run brent fuel (fun x o => (f x, o)) lo hi hist o) = Err RuntimeError.
Proof.
  intros I L F. induction fuel as [|n IH]; intros hist; cbn [brentq_run]; destruct (brent lo hi hist) as [x|r|] eqn:E; cbn [fst]; eauto.
  destruct (F x (I _ _ _ _ L E)) as [v ->]. apply IH.
Qed.
Lemma collect_total brent maxeval f o br : evaluates_inside brent ->
  (forall p, In p br -> exists a b, p = (Some a, Some b) /\ a <= b /\ forall x, 10 * a <= x <= 10 * b -> exists v, f x = Ok v) ->
  exists roots, collect_roots brent maxeval f o br = Ok roots.
Proof.
  intros I. induction br as [|p br IH]; intros H; [eexists; reflexivity|].
  destruct IH as [rs Er]; [intros q Q; apply H; right; exact Q|]. destruct (H p (or_introl eq_refl)) as (a & b & -> & L & F).
  cbn [collect_roots]. rewrite Er. cbn [bind]. unfold brentq.
  destruct (safe_run brent f (10 * a) (10 * b) o I ltac:(lra) F maxeval []) as [[r ->]|[-> | ->]]; eauto.
Qed.
Lemma roots_total brent maxeval eig solve brent' maxeval' profile w phi h E t k e d : 0 < h -> evaluates_inside brent ->
  create_skier_object eig solve brent' maxeval' profile w phi [h; h] [true; true] false E t = Ok k -> envelope_of e k = Ok d ->
  exists roots, find_roots_around_x brent maxeval e k [h; h] phi = Ok roots.
Proof.
  intros Hh I Hk Hd. unfold find_roots_around_x. rewrite Hd. cbn [bind]. apply collect_total; [exact I|].
  intros p P. apply in_map_iff in P. destruct P as (i & <- & Ii). rewrite transitions_filter in Ii. apply filter_In in Ii. destruct Ii as [Ii _].
  apply in_seq in Ii. rewrite map_length in Ii.
  destruct (sample_ok _ _ _ _ _ _ _ _ _ _ _ _ _ Hh Hk Hd i ltac:(lia)) as (x & v & Ex & _ & Bx & _).
  destruct (sample_ok _ _ _ _ _ _ _ _ _ _ _ _ _ Hh Hk Hd (S i) ltac:(lia)) as (y & u & Ey & _ & By & _).
  pose proof (samples_increase _ _ _ _ _ _ _ _ _ _ _ Hh Hk i x y Ex Ey) as Lt.
  rewrite (nth_error_nth _ _ None Ex), (nth_error_nth _ _ None Ey). exists x, y. split; [reflexivity|]. split; [lra|].
  intros q Q. apply (root_total _ _ _ _ _ _ _ _ _ _ _ _ _ Hh Hk Hd). lra.
Qed.

(** The criterion of Schottner with a given critical normal stress. *)
Definition with_limit (K : R) : envp := mkEnv "schottner" 1 1 (K * (9167 / 10) / 26000).
Definition square (s t : R) : R := s ^ 2 + (616 / 509 * t) ^ 2.
Lemma limit_value K s t : 0 < K -> stress_envelope1 "schottner" 1 1 (K * (9167 / 10) / 26000) s t = Ok (square s t / K ^ 2).
Proof.
  intros HK. unfold stress_envelope1. cbn [String.eqb Ascii.eqb Bool.eqb]. unfold quadratic, schottner_critical, rpow. cbn [fst snd].
  assert (P : 0 < K * (9167 / 10) / 26000 / (9167 / 10)) by lra.
  destruct (Req_EM_T (K * (9167 / 10) / 26000 / (9167 / 10)) 0) as [Z|_]; [lra|]. rewrite Rpower_1 by exact P.
  f_equal. unfold square. replace (2000 * 13 * (K * (9167 / 10) / 26000 / (9167 / 10))) with K by field.
  unfold Rdiv. rewrite !Rpow_mult_distr, !pow2_abs. field. lra.
Qed.
Lemma limit_values K k zq p : 0 < K -> k_sig k = map (fun z => Some (1000 * f_sig p z)) zq -> k_tau k = map (fun z => Some (1000 * f_tau p z)) zq ->
  envelope_of (with_limit K) k = Ok (map (fun z => Some (square (1000 * f_sig p z) (1000 * f_tau p z) / K ^ 2)) zq).
Proof.
  intros HK Es Et. unfold envelope_of, with_limit. cbn [e_name e_sf e_om e_rho]. unfold stress_envelope. rewrite limit_value by exact HK. cbn [bind].
  rewrite Es, Et. clear Es Et. induction zq as [|z zq IH]; [reflexivity|]. cbn [map combine mapM]. rewrite limit_value by exact HK. cbn [bind].
  cbn [map] in IH. rewrite IH. reflexivity.
Qed.

Lemma pow2_pos x : x <> 0 -> 0 < x ^ 2.
Proof. intros H. rewrite <- Rsqr_pow2. apply Rsqr_pos_lt. exact H. Qed.
Lemma filter_nil_iff {A} (f : A -> bool) l : filter f l = [] <-> forall x, In x l -> f x = false.
Proof.
  split.
  - intros H x I. destruct (f x) eqn:E; [|reflexivity]. assert (Q : In x (filter f l)) by (apply filter_In; auto). rewrite H in Q. destruct Q.
  - induction l as [|a l IH]; intros H; [reflexivity|]. simpl. rewrite (H a (or_introl eq_refl)). apply IH. intros x I. apply H. right. exact I.
Qed.

(** ** Without crossings: nobody on the slab *)
Lemma halves_weights w : skier_weights [5000; 5000] 2 w = Ok [w].
Proof.
  unfold skier_weights. cbn [Nat.eqb]. unfold rsum. cbn [fold_right median_loop].
  unfold Rleb, Reqb. repeat (destruct (Rle_dec _ _); try lra). repeat (destruct (Req_EM_T _ _); try lra). reflexivity.
Qed.
Lemma ice_loads eig o k phi : Layered eig "skiers" (LList [(917, 90)]) false = Ok o -> same_model (model_obj eig o (1 / 4) 30) (k_obj k) ->
  loads_of (k_obj k) phi = mkLd (917 * (1 / 1000000000000) * 9810 * 90 * cos (deg2rad phi)) (- (917 * (1 / 1000000000000) * 9810 * 90) * sin (deg2rad phi)) 0 0.
Proof.
  intros HL (_ & _ & _ & M4 & M5 & M6). destruct (plain_loads eig "skiers" false 917 90 o phi HL) as [P _]. rewrite <- P.
  unfold loads_of. rewrite M4, M5, M6. unfold model_obj, set_foundation_properties.
  unfold o_calc_fundamental_system, o_calc_foundation_stiffness, o_calc_laminate, o_calc_eigensystem.
  destruct (calc_foundation_stiffness _ _ _) as [n t]. unfold with_kn_kt, with_par, with_eig. simpl.
  destruct (calc_laminate_stiffness_matrix _ _ _) as [[[[A B] D] Sk] K]. simpl. reflexivity.
Qed.
Lemma uniform_model brent maxeval phi : exists k,
  create_skier_object exact_eig elim_solve brent maxeval (LList [(917, 90)]) 0 phi [5000; 5000] [true; true] false (1 / 4) 30 = Ok k /\
  let p := o_par (k_obj k) in let z := zp p (loads_of (k_obj k) phi) 0 true in
  exists zq, zq <> [] /\ (forall y, In y zq -> y = z) /\
    k_sig k = map (fun z => Some (1000 * f_sig p z)) zq /\ k_tau k = map (fun z => Some (1000 * f_tau p z)) zq /\
    f_sig p z = - (917 * (1 / 1000000000000) * 9810 * 90 * cos (deg2rad phi)).
Proof.
  destruct (create_full exact_eig elim_solve brent maxeval [(917, 90)] 0 phi [5000; 5000] [true; true] false (1 / 4) 30 [0])
    as (k & o & Hk & HL & HM & Hr & Hb & _ & _ & _ & LC & L6).
  - constructor; [simpl; lra|constructor].
  - lra.
  - lra.
  - exact elim_sound.
  - exact elim_complete.
  - exact ice_hyps.
  - simpl; lia.
  - reflexivity.
  - reflexivity.
  - reflexivity.
  - split.
    + intros i Hi. do 2 (destruct i as [|i]; [simpl; lra|]). simpl in Hi. lia.
    + exists 0%nat. simpl. split; [lia|]. split; [reflexivity|lra].
  - exact (halves_weights 0).
  - exists k. split; [exact Hk|]. cbv zeta.
    assert (Sy : o_system (k_obj k) = "skiers"%string).
    { destruct HM as (_ & _ & M3 & _). rewrite M3. unfold model_obj, set_foundation_properties. destruct (recalc_system exact_eig (with_weak o (1 / 4) (1 / 4) 30)) as [-> _].
      exact (proj1 (layered_system _ _ _ _ _ HL)). }
    assert (St : stable (o_par (k_obj k))) by (rewrite (proj1 HM); exact (proj1 (ice_hyps o HL))).
    assert (EC : k_C k = [zeros; zeros]).
    { destruct (C67_well_posed exact_eig elim_solve (k_obj k) true phi [5000; 5000] [0] [true; true] KSkier 0 elim_sound elim_complete Hr St) as (Cs & _ & _ & _ & _ & U).
      - simpl; lia.
      - rewrite Sy. intros [A|[A|[A|[A B]]]].
        + specialize (A true (or_introl eq_refl)). discriminate.
        + apply A. reflexivity.
        + apply A. reflexivity.
        + destruct B as [B|B]; discriminate.
      - split.
        + intros i Hi. do 2 (destruct i as [|i]; [simpl; lra|]). simpl in Hi. lia.
        + exists 0%nat. simpl. split; [lia|]. split; [reflexivity|lra].
      - rewrite Sy. reflexivity.
      - discriminate.
      - discriminate.
      - discriminate.
      - rewrite (U (k_C k) LC L6 Hb). symmetry. apply U; [reflexivity|repeat constructor|]. apply uniform_bvp. rewrite Sy. reflexivity. }
    destruct (create_samples _ _ _ _ _ _ _ _ _ _ _ (ltac:(lra) : 0 < 5000) Hk) as (C1 & C2 & xq & zq & EC' & _ & Ex & Es & Et & _ & Eg & F).
    rewrite EC in EC'. injection EC' as <- <-.
    exists zq. split.
    { intros ->. apply F2_len in F. apply List.length_zero_iff_nil in F. pose proof (create_lengths _ _ _ _ _ _ _ _ _ _ _ _ _ Hk) as [_ Q]. rewrite Es in Q. simpl in Q. lia. }
    split.
    { intros y Iy. destruct (In_nth_error _ _ Iy) as [i Ei]. destruct (nth_error xq i) as [x|] eqn:Exi.
      - destruct (F2_nth _ _ _ _ _ F Exi) as (y' & Ey & [[_ Q]|[_ Q]]); rewrite Ei in Ey; injection Ey as <-; rewrite Q.
        + exact (uniform_field (k_obj k) phi 5000 x).
        + exact (uniform_field (k_obj k) phi 5000 (x - 5000)).
      - apply nth_error_None in Exi. assert (i < List.length zq)%nat by (apply nth_error_Some; congruence). apply F2_len in F. lia. }
    split; [exact Es|]. split; [exact Et|].
    rewrite (ice_loads _ _ _ phi HL HM). unfold f_sig, f_w, zp. cbn [z_w qn pn]. destruct Hr as (_ & (Hn & _) & _). field. lra.
Qed.
(** All samples on one side: no crossings, and the anticrack is everything or nothing. *)
Example C72_example_no_crossing brent maxeval : exists K1 K2, 0 < K1 /\ 0 < K2 /\
  find_new_anticrack_length exact_eig elim_solve brent maxeval (LList [(917, 90)]) 30 (1 / 4) 30 (with_limit K1) 0 [3000; 7000] [true; true]
    = Ok (10000, [5000; 5000], [false; false]) /\
  find_new_anticrack_length exact_eig elim_solve brent maxeval (LList [(917, 90)]) 30 (1 / 4) 30 (with_limit K2) 0 [3000; 7000] [true; true]
    = Ok (0, [5000; 5000], [true; true]).
Proof.
  destruct (uniform_model brent maxeval 30) as (k & Hk & Q). cbv zeta in Q. destruct Q as (zq & Ne & Eq & Es & Et & Sg).
  set (p := o_par (k_obj k)) in *. set (z := zp p (loads_of (k_obj k) 30) 0 true) in *.
  set (N := square (1000 * f_sig p z) (1000 * f_tau p z)).
  assert (HN : 0 < N).
  { unfold N, square. assert (C : 0 < cos (deg2rad 30)) by (apply cos_gt_0; unfold deg2rad; pose proof PI_RGT_0; lra).
    assert (0 < (1000 * f_sig p z) ^ 2) by (rewrite Sg; apply pow2_pos; nra). pose proof (pow2_ge_0 (616 / 509 * (1000 * f_tau p z))). lra. }
  assert (Main : forall K, 0 < K -> exists d, envelope_of (with_limit K) k = Ok d /\ d <> [] /\ forall y, In y d -> y = Some (N / K ^ 2)).
  { intros K HK. eexists. split; [apply (limit_values K k zq p HK Es Et)|]. split; [destruct zq; [congruence|discriminate]|].
    intros y Iy. apply in_map_iff in Iy. destruct Iy as (y' & <- & Iy). rewrite (Eq y' Iy). reflexivity. }
  assert (Res : forall K, 0 < K -> exists d crack ki, envelope_of (with_limit K) k = Ok d /\ d <> [] /\ (forall y, In y d -> y = Some (N / K ^ 2)) /\
    find_roots_around_x brent maxeval (with_limit K) k [5000; 5000] 30 = Ok [] /\
    find_new_anticrack_length exact_eig elim_solve brent maxeval (LList [(917, 90)]) 30 (1 / 4) 30 (with_limit K) 0 [3000; 7000] [true; true] = Ok (crack, [5000; 5000], ki)).
  { intros K HK. destruct (Main K HK) as (d & Ed & Nd & Ad).
    assert (Rt : find_roots_around_x brent maxeval (with_limit K) k [5000; 5000] 30 = Ok []).
    { unfold find_roots_around_x. rewrite Ed. cbn [bind]. rewrite transitions_filter.
      match goal with |- context [filter ?f ?l] => assert (E : filter f l = []) end.
      { apply (proj2 (filter_nil_iff _ _)). intros i Ii. apply in_seq in Ii. rewrite map_length in Ii. rewrite Nat.sub_0_r.
        destruct (nth_error d i) as [a|] eqn:Ea; [|apply nth_error_None in Ea; lia]. destruct (nth_error d (S i)) as [b|] eqn:Eb; [|apply nth_error_None in Eb; lia].
        rewrite (Ad a (nth_error_In _ _ Ea)) in Ea. rewrite (Ad b (nth_error_In _ _ Eb)) in Eb.
        apply (crossing_sides d i _ _ Ea Eb). unfold same_side. destruct (Rtotal_order (N / K ^ 2) 1) as [A|[A|A]]; auto. }
      rewrite E. reflexivity. }
    assert (T : rsum [3000; 7000] / 2 = 5000) by (unfold rsum; simpl; lra).
    unfold find_new_anticrack_length. rewrite T, Hk. cbn [bind]. unfold distances. rewrite Ed. cbn [bind]. destruct d as [|a d]; [congruence|].
    cbn [np_max np_min bind fst snd]. rewrite Rt. cbn [bind]. exists (a :: d). eexists. eexists. split; [reflexivity|]. split; [discriminate|]. split; [exact Ad|]. split; [reflexivity|]. reflexivity. }
  pose proof (sqrt_lt_R0 N HN) as HS. pose proof (sqrt_sqrt N ltac:(lra)) as SS.
  assert (V1 : N / (sqrt N / 2) ^ 2 = 4) by (simpl; rewrite <- SS at 1; field; lra).
  assert (V2 : N / (2 * sqrt N) ^ 2 = 1 / 4) by (simpl; rewrite <- SS at 1; field; lra).
  assert (T : rsum [3000; 7000] / 2 = 5000) by (unfold rsum; simpl; lra). assert (T' : rsum [3000; 7000] = 10000) by (unfold rsum; simpl; lra).
  exists (sqrt N / 2), (2 * sqrt N). split; [lra|]. split; [lra|]. split.
  - destruct (Res (sqrt N / 2) ltac:(lra)) as (d & crack & ki & Ed & Nd & Ad & Rt & Fn).
    pose proof (C72_no_crossing exact_eig elim_solve brent maxeval (LList [(917, 90)]) 30 (1 / 4) 30 (with_limit (sqrt N / 2)) 0 [3000; 7000] [true; true] k d crack [5000; 5000] ki) as C.
    cbv zeta in C. rewrite T, T' in C. destruct (C ltac:(lra) Hk Ed Rt Fn) as (_ & C1 & _). rewrite Fn.
    destruct C1 as [-> ->]; [|reflexivity]. intros v Iv. pose proof (Ad _ Iv) as Q. rewrite V1 in Q. injection Q as Q. lra.
  - destruct (Res (2 * sqrt N) ltac:(lra)) as (d & crack & ki & Ed & Nd & Ad & Rt & Fn).
    pose proof (C72_no_crossing exact_eig elim_solve brent maxeval (LList [(917, 90)]) 30 (1 / 4) 30 (with_limit (2 * sqrt N)) 0 [3000; 7000] [true; true] k d crack [5000; 5000] ki) as C.
    cbv zeta in C. rewrite T, T' in C. destruct (C ltac:(lra) Hk Ed Rt Fn) as (_ & _ & C2). rewrite Fn.
    destruct C2 as [-> ->]; [|reflexivity]. destruct d as [|a d]; [congruence|]. exists (N / (2 * sqrt N) ^ 2). split; [left; apply Ad; left; reflexivity|rewrite V2; lra].
Qed.

(** ** With crossings: a wave that decays from the middle *)
Definition wave_solve (s : R) : nat -> matrix -> vector -> res vector := fun _ _ _ => Ok (fun r => if Nat.eqb r 0 then s else 0).
Lemma wave_six o : o_eig o = calc_eigensystem ex_ews -> six_cols o.
Proof.
  intros E x l. rewrite E. exact (ready_six _ (ex_ready "skiers" None 30) x l).
Qed.
Lemma wave_cols x l : exists cs, zh_bedded (calc_eigensystem ex_ews) x l = vscale (exp (x - l)) (mkV (-6) (-6) 1 1 1 1) :: cs.
Proof.
  unfold zh_bedded, calc_eigensystem, ex_ews. cbn [eR eC filter]. unfold is_real_ew at 1. cbn [fst snd]. unfold Reqb.
  destruct (Req_EM_T 0 0) as [_|N]; [|lra]. destruct (Req_EM_T 1 0) as [N|_]; [lra|]. cbn [negb andb map app]. unfold colR at 1. cbn [fst snd]. unfold shiftR at 1.
  destruct (Rlt_dec 0 1) as [_|N]; [|lra]. eexists. f_equal. f_equal. f_equal. ring.
Qed.
Lemma wave_model s brent maxeval : exists k C2,
  create_skier_object (fun _ => ex_ews) (wave_solve s) brent maxeval (LList [(917, 90)]) 80 30 [5000; 5000] [true; true] false (1 / 4) 30 = Ok k /\
  k_C k = [[s; 0; 0; 0; 0; 0]; C2] /\ o_eig (k_obj k) = calc_eigensystem ex_ews /\ 0 < kn (o_par (k_obj k)) /\
  o_par (k_obj k) = ice_par 90 30 (1 / 4) (1 / 4) /\ 
  loads_of (k_obj k) 30 = mkLd (917 * (1 / 1000000000000) * 9810 * 90 * cos (deg2rad 30)) (- (917 * (1 / 1000000000000) * 9810 * 90) * sin (deg2rad 30)) 0 0.
Proof.
  set (eig := fun _ : mat6 => ex_ews).
  destruct (ice_model eig) as (o & L & Pi). destruct (layered_system _ _ _ _ _ L) as [Sy Td].
  assert (P : pos_layers [(917, 90)]) by (constructor; [simpl; lra|constructor]).
  destruct (model_adm eig (wave_solve s) brent maxeval [(917, 90)] o (1 / 4) 30 P ltac:(lra) ltac:(lra) L) as (La & Fn & Ei & Sl).
  assert (S1 : o_system (model_obj eig o (1 / 4) 30) = "skiers"%string).
  { unfold model_obj, set_foundation_properties. destruct (recalc_system eig (with_weak o (1 / 4) (1 / 4) 30)) as [-> _]. exact Sy. }
  assert (T1 : o_touchdown (model_obj eig o (1 / 4) 30) = false).
  { unfold model_obj, set_foundation_properties. destruct (recalc_system eig (with_weak o (1 / 4) (1 / 4) 30)) as [_ ->]. exact Td. }
  destruct (skiers_run eig (wave_solve s) brent maxeval [5000; 5000] [80] [true; true] [true; true] (model_obj eig o (1 / 4) 30) S1 T1) as (o' & Rn & SM).
  pose proof SM as (M1 & M2 & M3 & M4 & M5 & M6).
  assert (Eo : o_eig o' = calc_eigensystem ex_ews) by (rewrite M2; exact Ei).
  pose proof (wave_six o' Eo) as H6.
  assert (Ed : forall k kR, ends_defined o' kR k) by (intros k kR; exists KSkier; split; [rewrite M3, S1; reflexivity|discriminate]).
  destruct (assemble_succeeds o' (fst (substitute_stiffness eig (wave_solve s) o' (o_a o' - o_td o') "rested" "rot")) 30 [5000; 5000] [80] [true; true] H6
    ltac:(simpl; lia) eq_refl (Ed _ _) (Ed _ _)) as (zh0 & zp0 & rhs & Ea).
  assert (ES : assemble_and_solve eig (wave_solve s) o' false 30 [5000; 5000] [80] [true; true] = Ok [[s; 0; 0; 0; 0; 0]; [0; 0; 0; 0; 0; 0]]).
  { unfold assemble_and_solve, assemble_and_solve_with.
    assert (Hc : check_segments o' [5000; 5000] [80] [true; true] = Ok tt) by (unfold check_segments; rewrite M3, S1; reflexivity).
    rewrite Hc. cbn [bind List.length Nat.eqb]. rewrite Ea. cbn [bind]. unfold wave_solve. cbn [bind]. reflexivity. }
  destruct (C38_accepted (o_par o') (o_eig o') (loads_of o' 30) [[s; 0; 0; 0; 0; 0]; [0; 0; 0; 0; 0; 0]] [5000; 5000] [true; true] 800 eq_refl eq_refl) as [[[xq zq] xb] ER].
  - exists 5000. split; [left; reflexivity|lra].
  - intros b l C kk Hs _ x. rewrite six_zh by exact H6.
    inversion Hs; subst; [reflexivity|]. match goal with A : seg_at _ _ _ _ _ |- _ => inversion A; subst; [reflexivity|match goal with B : seg_at _ [] _ _ _ |- _ => inversion B end] end.
  - assert (N8 : (1 <= 800)%nat) by (apply Nat.leb_le; reflexivity).
    assert (LZ : List.length xb = List.length zq).
    { destruct (C38_grid _ _ _ _ _ _ _ _ _ _ N8 ER) as (_ & _ & _ & _ & _ & A & B). congruence. }
    destruct (C52_accepted o' "kPa" 1000 xb zq false ltac:(constructor) LZ) as [(x1 & s1 & E1) (x2 & s2 & E2)].
    eexists. eexists. split.
    + unfold create_skier_object. fold eig. rewrite L. cbn [bind]. fold (model_obj eig o (1 / 4) 30). cbn [List.length]. rewrite halves_weights. cbn [bind map]. rewrite Rn.
      cbn [s_li s_mi s_ki s_k0]. rewrite ES. cbn [bind]. rewrite ER. cbn [bind]. rewrite E1. cbn [bind]. rewrite E2. cbn [bind]. reflexivity.
    + cbn [k_C k_obj]. split; [reflexivity|]. split; [exact Eo|]. rewrite M1. split; [exact (proj1 Fn)|]. split; [exact Pi|].
      exact (ice_loads eig o (mkSk o' [] [] [] [] [] [] []) 30 L SM).
Qed.
Lemma bisect_crosses n : (3 <= n)%nat -> finds_crossings (bisect n) n.
Proof.
  intros Hn f g lo hi o Hl Hf Hg. unfold brentq.
  assert (P : forall fuel hist, (3 <= List.length hist)%nat -> (n <= fuel + List.length hist)%nat ->
    exists r, brentq_run (bisect n) fuel f lo hi hist o = (Ok r, o) /\ lo <= r <= hi).
  { induction fuel as [|fuel IH]; intros hist H3 Hs; (destruct hist as [|[x v] [|[y w] [|c hist]]]; try (simpl in H3; lia)).
    - cbn [brentq_run]. unfold bisect. destruct (bracket lo hi ((x, v) :: (y, w) :: c :: hist)) as [l h].
      destruct (Nat.ltb_spec (List.length ((x, v) :: (y, w) :: c :: hist)) n) as [C|C]; [simpl in *; lia|].
      eexists. split; [reflexivity|]. apply clamp_in. lra.
    - cbn [brentq_run]. unfold bisect at 1. destruct (bracket lo hi ((x, v) :: (y, w) :: c :: hist)) as [l h].
      destruct (Nat.ltb_spec (List.length ((x, v) :: (y, w) :: c :: hist)) n) as [C|C].
      + rewrite Hf by (apply clamp_in; lra). apply IH; simpl in *; lia.
      + eexists. split; [reflexivity|]. apply clamp_in. lra. }
  destruct n as [|[|[|n]]]; try lia. cbn [brentq_run]. unfold bisect at 1. rewrite Hf by lra.
  unfold bisect at 1. rewrite Hf by lra. unfold bisect at 1.
  destruct (Rlt_dec 0 (g lo * g hi)) as [C|_]; [exfalso; lra|]. rewrite Hf by (apply clamp_in; lra).
  apply P; simpl; lia.
Qed.
Lemma lincomb_zero cs n : lincomb cs (repeat 0 n) = vzero.
Proof.
  revert n. induction cs as [|c cs IH]; intros [|n]; try reflexivity. cbn [repeat lincomb]. rewrite IH. unfold vadd, vscale, vzero. simpl. f_equal; ring.
Qed.
Lemma wave_field p ld s x : zsol p (calc_eigensystem ex_ews) ld x [s; 0; 0; 0; 0; 0] 5000 true
  = vadd (vscale (s * exp (x - 5000)) (mkV (-6) (-6) 1 1 1 1)) (zp p ld 0 true).
Proof.
  unfold zsol, zh. destruct (wave_cols x 5000) as [cs ->]. cbn [lincomb]. change [0; 0; 0; 0; 0] with (repeat 0 5). rewrite lincomb_zero.
  unfold zp, vadd, vscale, vzero. simpl. f_equal; ring.
Qed.
Lemma wave_values : exists A a B b, A <> 0 /\ forall ld s x,
  ld = mkLd (917 * (1 / 1000000000000) * 9810 * 90 * cos (deg2rad 30)) (- (917 * (1 / 1000000000000) * 9810 * 90) * sin (deg2rad 30)) 0 0 ->
  let p := ice_par 90 30 (1 / 4) (1 / 4) in let z := zsol p (calc_eigensystem ex_ews) ld x [s; 0; 0; 0; 0; 0] 5000 true in
  1000 * f_sig p z = A * (s * exp (x - 5000)) + a /\ 1000 * f_tau p z = B * (s * exp (x - 5000)) + b.
Proof.
  set (ld0 := mkLd (917 * (1 / 1000000000000) * 9810 * 90 * cos (deg2rad 30)) (- (917 * (1 / 1000000000000) * 9810 * 90) * sin (deg2rad 30)) 0 0).
  set (p := ice_par 90 30 (1 / 4) (1 / 4)). set (z0 := zp p ld0 0 true).
  exists (- 1000 * kn p), (1000 * f_sig p z0), (1000 * f_tau p (mkV (-6) (-6) 1 1 1 1)), (1000 * f_tau p z0). split.
  { assert (0 < kn p) by (exact (proj1 (proj1 (proj2 ice_adm)))). lra. }
  intros ld s x -> p' z. subst p' z. rewrite wave_field. fold ld0 p z0. split.
  - unfold f_sig, f_w, vadd, vscale. simpl. ring.
  - unfold f_tau, f_dw, f_u, f_psi, vadd, vscale. simpl. field.
Qed.
Lemma second_sample : exists n xs, raster_xq 0 [5000; 5000] (raster_counts [5000; 5000] 800) = 0 :: 5000 / INR (S (S n)) :: xs.
Proof.
  assert (N8 : INR 800 = 800) by (rewrite INR_IZR_INZ; f_equal).
  assert (R0 : rsum [5000; 5000] = 10000) by (unfold rsum; simpl; lra).
  unfold raster_counts. rewrite R0, N8. cbn [map incr_last].
  destruct (ceil_nat_bounds (5000 / 10000 * 800) ltac:(lra)) as [[L _] _].
  destruct (ceil_nat (5000 / 10000 * 800)) as [|[|n]]; [simpl in L; lra|simpl in L; lra|].
  exists n. eexists. cbn [raster_xq]. unfold raster_local, linspace. cbn [seq map app]. f_equal; [simpl; lra|]. f_equal. simpl (INR 1). unfold Rdiv. ring.
Qed.
(** The first two samples lie on different sides of the limit, and both kinds of root finders report a root between them. *)
Example C72_example_crossings : exists s K, forall brent maxeval, exists k d v w x y,
  create_skier_object (fun _ => ex_ews) (wave_solve s) brent maxeval (LList [(917, 90)]) 80 30 [5000; 5000] [true; true] false (1 / 4) 30 = Ok k /\
  envelope_of (with_limit K) k = Ok d /\ nth_error d 0 = Some (Some v) /\ nth_error d 1 = Some (Some w) /\ v < 1 < w /\
  nth 0 (k_x k) None = Some x /\ nth 1 (k_x k) None = Some y /\ 10 * x < 10 * y < 5000 /\
  (exists r roots, finds_crossings (bisect 50) 50 /\ find_roots_around_x (bisect 50) 50 (with_limit K) k [5000; 5000] 30 = Ok (r :: roots) /\ 10 * x <= r <= 10 * y) /\
  (exists r roots, returns_sign_change (choose [r]) 0 /\ find_roots_around_x (choose [r]) 3 (with_limit K) k [5000; 5000] 30 = Ok (r :: roots) /\
     10 * x <= r <= 10 * y /\ criterion_at (with_limit K) k [5000; 5000] 30 r 1).
Proof.
  destruct wave_values as (A & a & B & b & HA & W).
  set (c := (616 / 509) ^ 2). set (M := A * a + c * B * b). set (q := A ^ 2 + c * B ^ 2).
  assert (Hq : 0 < q) by (unfold q, c; pose proof (pow2_pos A HA); pose proof (pow2_ge_0 B); nra).
  set (s := if Rle_dec 0 M then 1 else -1). assert (HsM : 0 <= s * M /\ s ^ 2 = 1) by (unfold s; destruct (Rle_dec 0 M); split; lra).
  destruct second_sample as (n & xs & Ext). set (x1 := 5000 / INR (S (S n))) in *.
  assert (B1 : 0 < x1 < 5000).
  { assert (2 <= INR (S (S n))) by (rewrite !S_INR; pose proof (pos_INR n); lra). unfold x1. split; [apply Rdiv_lt_0_compat; lra|].
    apply (Rmult_lt_reg_r (INR (S (S n)))); [lra|]. unfold Rdiv. rewrite Rmult_assoc, Rinv_l by lra. lra. }
  set (F := fun x => square (A * (s * exp (x - 5000)) + a) (B * (s * exp (x - 5000)) + b)).
  assert (HF : forall x y, x < y -> F x < F y).
  { intros x y Hxy. pose proof (exp_increasing (x - 5000) (y - 5000) ltac:(lra)) as Ei. pose proof (exp_pos (x - 5000)) as Ep. unfold F, square.
    set (E0 := exp (x - 5000)) in *. set (E1 := exp (y - 5000)) in *.
    assert (D : (A * (s * E1) + a) ^ 2 + (616 / 509 * (B * (s * E1) + b)) ^ 2 - ((A * (s * E0) + a) ^ 2 + (616 / 509 * (B * (s * E0) + b)) ^ 2)
      = (E1 - E0) * (s ^ 2 * q * (E1 + E0) + 2 * (s * M))) by (unfold q, M, c; ring).
    rewrite (proj2 HsM) in D. assert (0 < (E1 - E0) * (1 * q * (E1 + E0) + 2 * (s * M))); [|lra]. apply Rmult_lt_0_compat; [lra|]. pose proof (Rmult_lt_0_compat q (E1 + E0) Hq ltac:(lra)). lra. }
  assert (Fp : forall x, 0 <= F x) by (intros x; unfold F, square; pose proof (pow2_ge_0 (A * (s * exp (x - 5000)) + a)); pose proof (pow2_ge_0 (616 / 509 * (B * (s * exp (x - 5000)) + b))); lra).
  set (K := sqrt ((F 0 + F x1) / 2)). pose proof (HF 0 x1 ltac:(lra)) as Lt. pose proof (Fp 0) as F0.
  assert (HK : 0 < K) by (apply sqrt_lt_R0; lra). assert (KK : K ^ 2 = (F 0 + F x1) / 2) by (unfold K; rewrite <- Rsqr_pow2; apply Rsqr_sqrt; lra).
  exists s, K. intros brent maxeval. destruct (wave_model s brent maxeval) as (k & C2 & Hk & EC & Eo & _ & Ep & Eld).
  assert (H5 : 0 < 5000) by lra.
  destruct (create_samples _ _ _ _ _ _ _ _ _ _ _ H5 Hk) as (C1' & C2' & xq & zq & EC' & Lz & Ex & Es & Et & _ & Eg & Fz).
  rewrite EC in EC'. injection EC' as <- <-. rewrite Ext in Eg. rewrite Eo, Eld, Ep in Fz.
  pose proof (limit_values K k zq _ HK Es Et) as Ed. rewrite Ep in Ed.
  assert (Z0 : exists z, nth_error zq 0 = Some z /\ square (1000 * f_sig (ice_par 90 30 (1 / 4) (1 / 4)) z) (1000 * f_tau (ice_par 90 30 (1 / 4) (1 / 4)) z) = F 0).
  { destruct (F2_nth _ _ _ 0%nat 0 Fz) as (z & Ez & [[_ Qz]|[Q _]]); [rewrite Eg; reflexivity| |lra]. exists z. split; [exact Ez|].
    destruct (W _ s 0 eq_refl) as [W1 W2]. cbv zeta in W1, W2. rewrite Qz, W1, W2. reflexivity. }
  assert (Z1 : exists z, nth_error zq 1 = Some z /\ square (1000 * f_sig (ice_par 90 30 (1 / 4) (1 / 4)) z) (1000 * f_tau (ice_par 90 30 (1 / 4) (1 / 4)) z) = F x1).
  { destruct (F2_nth _ _ _ 1%nat x1 Fz) as (z & Ez & [[_ Qz]|[Q _]]); [rewrite Eg; reflexivity| |lra]. exists z. split; [exact Ez|].
    destruct (W _ s x1 eq_refl) as [W1 W2]. cbv zeta in W1, W2. rewrite Qz, W1, W2. reflexivity. }
  destruct Z0 as (z0 & Z0 & V0). destruct Z1 as (z1 & Z1 & V1).
  set (d := map _ zq) in Ed. exists k, d, (F 0 / K ^ 2), (F x1 / K ^ 2), (0 / 10), (x1 / 10).
  assert (D0 : nth_error d 0 = Some (Some (F 0 / K ^ 2))) by (unfold d; rewrite nth_error_map, Z0; simpl; rewrite V0; reflexivity).
  assert (D1 : nth_error d 1 = Some (Some (F x1 / K ^ 2))) by (unfold d; rewrite nth_error_map, Z1; cbn [option_map]; rewrite V1; reflexivity).
  assert (Kp : 0 < K ^ 2) by lra.
  assert (VW : F 0 / K ^ 2 < 1 < F x1 / K ^ 2).
  { split; [apply (Rmult_lt_reg_r (K ^ 2))|apply (Rmult_lt_reg_r (K ^ 2))]; try exact Kp; unfold Rdiv; rewrite Rmult_assoc, Rinv_l by lra; lra. }
  assert (X0 : nth 0 (k_x k) None = Some (0 / 10)) by (rewrite Ex, Eg; reflexivity).
  assert (X1 : nth 1 (k_x k) None = Some (x1 / 10)) by (rewrite Ex, Eg; reflexivity).
  replace (10 * (0 / 10)) with 0 by field. replace (10 * (x1 / 10)) with x1 by field.
  split; [exact Hk|]. split; [exact Ed|]. split; [exact D0|]. split; [exact D1|]. split; [exact VW|]. split; [exact X0|]. split; [exact X1|]. split; [lra|].
  assert (Ns : ~ same_side (F 0 / K ^ 2) (F x1 / K ^ 2)) by (unfold same_side; lra).
  assert (Cr : crossing (map (option_map (fun v => v - 1)) d) 0 = true).
  { destruct (crossing (map (option_map (fun v => v - 1)) d) 0) eqn:E; [reflexivity|]. exfalso. apply Ns. apply (crossing_sides d 0 _ _ D0 D1). exact E. }
  assert (Ld : exists m, (List.length d - 1)%nat = S m).
  { destruct d as [|? [|? d']]; try discriminate. simpl. eauto. }
  destruct Ld as [m Ld].
  assert (G : forall x, 0 <= x <= x1 -> root_function (with_limit K) k [5000; 5000] 30 x = Ok (F x / K ^ 2 - 1)).
  { intros x Hx. destruct (seg_two 5000) as (S0 & S1 & S2). unfold root_function, calculate_sigma_tau.
    rewrite (proj2 (PSegment.find_lookup [5000; 5000] x 0%nat x ltac:(discriminate))) by (repeat split; [simpl; lia|lra|intros j J; lia|lra]).
    rewrite EC. cbn [nth_error nth]. unfold zsol_checked. rewrite (proj1 (Lz x)), Nat.eqb_refl. cbn [bind]. rewrite kpa_tau, kpa_sig. cbn [bind fst snd].
    rewrite envelope_flip, Ep, Eo, Eld. destruct (W _ s x eq_refl) as [W1 W2]. cbv zeta in W1, W2. rewrite W1, W2.
    unfold with_limit. cbn [e_name e_sf e_om e_rho]. rewrite limit_value by exact HK. reflexivity. }
  split.
  - assert (Fi : finds_crossings (bisect 50) 50) by (apply bisect_crosses; lia).
    destruct (roots_total (bisect 50) 50 _ _ _ _ _ _ _ _ _ _ _ _ _ H5 (bisect_inside 50) Hk Ed) as [roots Hr].
    destruct (C72_crossings _ _ _ _ _ _ _ _ Hr Ed) as (rs & Er & Lr & Hi). destruct (Hi 0%nat _ _ D0 D1) as (_ & _ & H3).
    destruct (H3 _ _ _ _ _ _ _ _ _ Fi H5 eq_refl Hk Ns) as (x & y & Ex' & Ey' & Lxy & H4). rewrite X0 in Ex'. injection Ex' as <-. rewrite X1 in Ey'. injection Ey' as <-.
    destruct H4 as (r & Er' & Br); [lra|lra|]. destruct rs as [|r0 rs]; [discriminate|]. injection Er' as ->. simpl in Er.
    exists r, (List.concat rs). split; [exact Fi|]. split; [rewrite Hr, Er; reflexivity|lra].
  - set (g := fun x => F x / K ^ 2 - 1).
    assert (Cg : forall x, continuity_pt g x).
    { intros x. unfold g, F, square. reg. }
    destruct (Ranalysis5.IVT_interv g 0 x1) as (r & Br & Zr); [intros; apply Cg|lra|unfold g; lra|unfold g; lra|].
    exists r. 
    destruct (roots_total (choose [r]) 3 _ _ _ _ _ _ _ _ _ _ _ _ _ H5 (choose_inside [r]) Hk Ed) as [roots Hr].
    destruct (roots_tried _ _ _ _ _ _ _ _ Hr Ed) as [Er _]. cbv zeta in Er. rewrite Ld in Er. cbn [seq map List.concat] in Er.
    unfold tried at 1 in Er. rewrite Cr, X0, X1 in Er. replace (10 * (0 / 10)) with 0 in Er by field. replace (10 * (x1 / 10)) with x1 in Er by field.
    destruct (choose_finds [r] 3 (fun x o => (root_function (with_limit K) k [5000; 5000] 30 x, o)) g 0 x1 (k_obj k)) as (pre & r' & post & Ef & _ & _ & _ & Eb).
    + lra.
    + intros x Hx. rewrite (G x Hx). reflexivity.
    + unfold g; lra.
    + exists r. split; [left; reflexivity|]. split; [lra|exact Zr].
    + simpl; lia.
    + assert (r' = r).
      { assert (I : In r' (filter (inside 0 x1) [r])) by (rewrite Ef; apply in_or_app; right; left; reflexivity). apply filter_In in I. destruct I as [[<-|[]] _]. reflexivity. }
      subst r'. rewrite Eb in Er. cbn [fst app] in Er. eexists. split; [apply choose_change|]. split; [rewrite Hr, Er; reflexivity|]. split; [lra|].
      pose proof (root_at (with_limit K) k [5000; 5000] 30 r 0 ltac:(discriminate)) as Q. rewrite Rplus_0_l in Q. apply Q.
      rewrite (G r) by lra. change (Ok (g r) = Ok 0). rewrite Zr. reflexivity.
Qed.
