(** Property C124: the self-propagation check as a function of the crack length. *)
From Coq Require Import Classical.
From Coquelicot Require Import Coquelicot.
Require Import Verif.Py Verif.MTools Verif.MEigen Verif.MFields Verif.SAdm Verif.SSlab Verif.MRaster
  Verif.MSolution Verif.MAnalysis Verif.SBeam Verif.SBvp Verif.SEig Verif.SEnergy Verif.SContact Verif.SMirror Verif.MEnvelope Verif.MCriterion
  Verif.SSegment Verif.SSplit Verif.SExact Verif.SCritical Verif.SCoupled Verif.SSelf Verif.SShort Verif.PLam Verif.PSetup Verif.PSetup2 Verif.PLinAlg Verif.PBvp Verif.PBvp5 Verif.PWell2 Verif.PWell3 Verif.PBvp6 Verif.PEnergy Verif.PEnergy2 Verif.PContact Verif.PContact3
  Verif.PEnvelope Verif.PCreate Verif.PCreate2 Verif.PExact Verif.PExact2 Verif.PExact3 Verif.PropExact Verif.PCoupled2 Verif.PSelf Verif.PropSelf Verif.PCritical Verif.PCritical2 Verif.PCritical7 Verif.PShort.
Open Scope R_scope.

Section T.
Variable eig : mat6 -> list eigpair.
Variable solve : nat -> matrix -> vector -> res vector.
Variable brent : R -> R -> list (R * R) -> bstep.
Variable maxeval : nat.
Variables (layers : list (R * R)) (phi E t : R).
(** The slab is 1000 times as long as thick; the check of a crack of length [a] in its middle. *)
Definition slab_length : R := 1000 * rsum (map snd layers).
Definition check (a : R) : res (R * bool) :=
  check_crack_propagation_criterion eig solve brent maxeval (LList layers) phi (middle_crack slab_length a) middle_support 0 E t.
Definition profile : Prop := pos_layers layers /\ layers <> [] /\ 0 < E /\ 0 < t /\ sound_solver solve /\ complete_solver solve /\
  forall o, Layered eig "skiers" (LList layers) false = Ok o ->
    let p := o_par (set_foundation_properties eig o t E (1 / 4) true) in
    stable p /\ good_eigenpairs (calc_system_matrix p) (eig (calc_system_matrix p)).

Lemma length_pos : profile -> 0 < slab_length.
Proof.
  intros (P & N & _). unfold slab_length. destruct layers as [|l ls]; [congruence|]. inversion P as [|? ? [H1 H2] P']; subst. simpl.
  assert (Q : 0 <= rsum (map snd ls)).
  { clear - P'. induction P' as [|x r [Hx1 Hx2] _ IH]; unfold rsum in *; simpl; lra. }
  unfold rsum in *. simpl. lra.
Qed.
Lemma crack_all : profile -> exists o, ready o /\ stable (o_par o) /\ kind_of (o_system o) = Some KSkier /\
  (forall e, 0 < e -> exists d, 0 < d /\ forall a Cs, 0 < a < d -> six_each 4 Cs -> bvp o 0 phi (middle_crack slab_length a) [0; 0; 0] middle_support Cs ->
     Rabs (tip_value (o_par o) (end_state o phi (middle_crack slab_length a) middle_support Cs) - rest_toughness layers phi E t) <= e) /\
  forall a, 0 < a < slab_length -> exists Cs, six_each 4 Cs /\ bvp o 0 phi (middle_crack slab_length a) [0; 0; 0] middle_support Cs /\
    let v := tip_value (o_par o) (end_state o phi (middle_crack slab_length a) middle_support Cs) in check a = Ok (v, Rleb 1 v).
Proof.
  intros Pr. pose proof (length_pos Pr) as HT. destruct Pr as (P & N & HE & Ht & So & Co & G).
  assert (Ge : forall o, Layered eig "skiers" (LList layers) false = Ok o ->
    good_eigenpairs (calc_system_matrix (o_par (model_obj eig o E t))) (eig (calc_system_matrix (o_par (model_obj eig o E t))))) by (intros o H; apply (G o H)).
  destruct (create_sound eig solve brent maxeval So layers E t P HE Ht Ge) as (o & o' & L & SM & Rd & Sy & Cr).
  assert (St : stable (o_par o')) by (destruct SM as (-> & _); apply (G o L)).
  assert (Kd : kind_of (o_system o') = Some KSkier) by (rewrite Sy; reflexivity).
  exists o'. split; [exact Rd|]. split; [exact St|]. split; [exact Kd|]. split.
  - intros e He. destruct (value_short o' phi slab_length Rd St Kd HT e He) as (d & Hd & H). exists d. split; [exact Hd|].
    intros a Cs Ha S6 B. specialize (H a Cs Ha (conj S6 B)).
    destruct (layered_loads eig layers _ _ _ phi N L) as [LD LP]. destruct SM as (M1 & M2 & M3 & M4 & M5 & M6).
    assert (LQ : loads_of o' phi = mkLd (weight_per_area layers * cos (deg2rad phi)) (- weight_per_area layers * sin (deg2rad phi)) 0 0).
    { unfold loads_of. rewrite M4, M5, M6. unfold model_obj, set_foundation_properties. destruct (fundamental_misc eig (with_weak o E (1 / 4) t)) as (-> & -> & -> & _).
      change (o_g (with_weak o E (1 / 4) t)) with (o_g o). change (o_slab (with_weak o E (1 / 4) t)) with (o_slab o). change (o_p (with_weak o E (1 / 4) t)) with (o_p o). rewrite LD, LP. unfold get_surface_load. f_equal; ring. }
    destruct (foundation_setter eig o t E (1 / 4) _ Ht HE ltac:(lra) eq_refl) as (Kn & Kt & _). fold (model_obj eig o E t) in Kn, Kt. rewrite <- M1 in Kn, Kt.
    rewrite LQ, Kn, Kt in H. cbn [qn qt pn pt] in H.
    replace (fracture_toughness_criterion _ _) with (rest_toughness layers phi E t) in H; [exact H|].
    unfold rest_toughness, toughness, fracture_toughness_criterion. cbv zeta.
    f_equal; f_equal; try (f_equal; f_equal; f_equal; f_equal; ring); lra.
  - intros a Ha. destruct (crack_value eig solve brent maxeval layers E t P HE Ht So Co G phi a Ha) as (k & o1 & v & H1 & _ & _ & _ & H5 & H6 & H7).
    destruct (Cr _ _ _ _ _ _ H1) as (K1 & _ & _ & _ & _ & _ & _ & K6). rewrite K1 in H5, H7. exists (k_C k). split; [exact K6|]. split; [exact H5|].
    cbv zeta in H7 |- *. fold slab_length in H1, H7. unfold check, check_crack_propagation_criterion. rewrite H1. cbn [bind]. rewrite H6. cbn [bind]. unfold tip_value. rewrite <- H7. reflexivity.
Qed.

(** The value depends continuously on the crack length, ... *)
Theorem C124_continuous a0 e : profile -> 0 < a0 < slab_length -> 0 < e ->
  exists v0 b0 d, check a0 = Ok (v0, b0) /\ 0 < d /\ forall a, 0 < a < slab_length -> Rabs (a - a0) < d -> exists v b, check a = Ok (v, b) /\ Rabs (v - v0) <= e.
Proof.
  intros Pr Ha He. pose proof (length_pos Pr) as HT. destruct (crack_all Pr) as (o & Rd & St & Kd & _ & V).
  destruct (V a0 Ha) as (C0 & S0 & B0 & E0). destruct (value_near o phi slab_length Rd St Kd a0 C0 e ltac:(lra) (conj S0 B0) He) as (d & Hd & H).
  cbv zeta in E0. eexists _, _, d. split; [exact E0|]. split; [exact Hd|]. intros a Ha' Hn. destruct (V a Ha') as (Cs & S1 & B1 & E1). cbv zeta in E1.
  eexists _, _. split; [exact E1|]. apply H; [exact (conj S1 B1)|exact Hn].
Qed.
(** ... tends to the value of the energy stored in the undisturbed weak layer as the crack closes, ... *)
Theorem C124_short e : profile -> 0 < e ->
  exists d, 0 < d <= slab_length /\ forall a, 0 < a < d -> exists v b, check a = Ok (v, b) /\ (b = true <-> 1 <= v) /\ Rabs (v - rest_toughness layers phi E t) <= e.
Proof.
  intros Pr He. pose proof (length_pos Pr) as HT. destruct (crack_all Pr) as (o & Rd & St & Kd & Sh & V).
  destruct (Sh e He) as (d & Hd & H). exists (Rmin d slab_length). split; [split; [apply Rmin_pos; assumption|apply Rmin_r]|].
  intros a [A1 A2]. assert (A3 := Rlt_le_trans _ _ _ A2 (Rmin_l _ _)). assert (A4 := Rlt_le_trans _ _ _ A2 (Rmin_r _ _)).
  destruct (V a (conj A1 A4)) as (Cs & S1 & B1 & E1). cbv zeta in E1. eexists _, _. split; [exact E1|]. split; [|exact (H a Cs (conj A1 A3) S1 B1)].
  unfold Rleb. destruct (Rle_dec 1 _) as [X|X]; split; intros Y; congruence || contradiction || reflexivity.
Qed.
(** ... so a slab whose undisturbed weak layer is above the criterion has no shortest crack that propagates, ... *)
Theorem C124_none : profile -> 1 < rest_toughness layers phi E t ->
  (exists d, 0 < d /\ forall a, 0 < a < d -> propagates check a) /\ forall m, ~ shortest check m.
Proof.
  intros Pr H. destruct (C124_short ((rest_toughness layers phi E t - 1) / 2) Pr ltac:(lra)) as (d & [Hd _] & V).
  assert (A : forall a, 0 < a < d -> propagates check a).
  { intros a Ha. destruct (V a Ha) as (v & b & E1 & Hb & E2). exists v. rewrite E1. f_equal. f_equal. apply Hb. apply Rabs_le_between in E2. lra. }
  split; [exists d; auto|]. intros m (M1 & _ & M2).
  assert (Q : 0 < Rmin (d / 2) (m / 2)) by (apply Rmin_pos; lra). pose proof (Rmin_l (d / 2) (m / 2)). pose proof (Rmin_r (d / 2) (m / 2)).
  destruct (A (Rmin (d / 2) (m / 2)) ltac:(lra)) as [v Ev]. destruct (M2 (Rmin (d / 2) (m / 2)) ltac:(lra)) as [v' Ev']. congruence.
Qed.
(** ... and otherwise either no crack propagates or there is a shortest one that does, and it just meets the criterion. *)
Lemma shortest_below b : profile -> rest_toughness layers phi E t < 1 -> 0 < b < slab_length -> propagates check b ->
  exists m, m <= b /\ shortest check m /\ check m = Ok (1, true).
Proof.
  intros Pr H Hb [vb Eb]. destruct (crack_all Pr) as (o & Rd & St & Kd & _ & V).
  destruct (C124_short ((1 - rest_toughness layers phi E t) / 2) Pr ltac:(lra)) as (d & [Hd _] & Sh).
  set (f a := match check a with Ok (v, _) => v | Err _ => 0 end).
  assert (Fv : forall a, 0 < a < slab_length -> check a = Ok (f a, Rleb 1 (f a))).
  { intros a Ha. destruct (V a Ha) as (Cs & _ & _ & E1). cbv zeta in E1. unfold f. rewrite E1. reflexivity. }
  assert (Fb : 1 <= f b). { assert (X := Fv b Hb). rewrite Eb in X. apply Ok_inj in X. injection X as _ X. unfold Rleb in X. destruct (Rle_dec 1 (f b)); [assumption|discriminate]. }
  assert (Fs : forall a, 0 < a < d -> a < slab_length -> f a < 1).
  { intros a Ha Ha'. destruct (Sh a Ha) as (v & b0 & E1 & _ & E2). unfold f. rewrite E1. apply Rabs_le_between in E2. lra. }
  assert (Db : d <= b). { destruct (Rle_dec d b) as [X|X]; [exact X|]. specialize (Fs b ltac:(lra) ltac:(lra)). lra. }
  destruct (first_hit f (d / 2) b ltac:(lra) (Fs (d / 2) ltac:(lra) ltac:(lra)) Fb) as (m & Hm & Fm & Below).
  { intros x e Hx He. destruct (C124_continuous x e Pr ltac:(lra) He) as (v0 & b0 & r & E0 & Hr & HC). exists r. split; [exact Hr|].
    intros y Hy Hn. destruct (HC y ltac:(lra) Hn) as (v & b1 & E1 & E2). unfold f. rewrite E0, E1. exact E2. }
  assert (Cm : check m = Ok (1, true)).
  { rewrite Fv by lra. rewrite Fm. f_equal. f_equal. unfold Rleb. destruct (Rle_dec 1 1); [reflexivity|lra]. }
  exists m. split; [lra|]. split; [|exact Cm]. split; [lra|]. split; [exists 1; exact Cm|]. intros a Ha. exists (f a).
  rewrite Fv at 1 by lra. f_equal. f_equal. unfold Rleb. destruct (Rle_dec 1 (f a)) as [X|X]; [|reflexivity]. exfalso.
  destruct (Rlt_dec a d) as [Y|Y]; [specialize (Fs a ltac:(lra) ltac:(lra)); lra|specialize (Below a ltac:(lra)); lra].
Qed.
Theorem C124_shortest : profile -> rest_toughness layers phi E t < 1 ->
  (forall a, 0 < a < slab_length -> stays check a) \/
  exists m, m < slab_length /\ shortest check m /\ check m = Ok (1, true).
Proof.
  intros Pr H. destruct (classic (exists b, 0 < b < slab_length /\ propagates check b)) as [(b & Hb & Pb)|N].
  - right. destruct (shortest_below b Pr H Hb Pb) as (m & M1 & M2). exists m. split; [lra|exact M2].
  - left. intros a Ha. destruct (crack_all Pr) as (o & _ & _ & _ & _ & V). destruct (V a Ha) as (Cs & _ & _ & E1). cbv zeta in E1.
    set (v := tip_value _ _) in E1. destruct (Rleb 1 v) eqn:Ev; [exfalso; apply N; exists a; split; [exact Ha|exists v; exact E1]|exists v; exact E1].
Qed.
(** A search among short cracks, none of which propagates, raises ValueError. *)
Theorem C124_raises : profile -> rest_toughness layers phi E t < 1 -> rejects_equal_signs brent -> (2 <= maxeval)%nat ->
  exists d, 0 < d <= slab_length /\ forall a b, 0 < a -> a <= b -> b < d -> (forall x, a <= x <= b -> stays check x) /\
    find_min_crack_length_self_propagation eig solve brent maxeval (LList layers) phi E t a b = Err ValueError.
Proof.
  intros Pr H Br M. destruct (C124_short ((1 - rest_toughness layers phi E t) / 2) Pr ltac:(lra)) as (d & Hd & Sh). exists d. split; [exact Hd|].
  assert (S1 : forall x, 0 < x < d -> exists v, v < 1 /\ check x = Ok (v, false)).
  { intros x Hx. destruct (Sh x Hx) as (v & b0 & E1 & Hb & E2). apply Rabs_le_between in E2. exists v. split; [lra|]. rewrite E1. f_equal. f_equal.
    destruct b0; [|reflexivity]. assert (1 <= v) by (apply Hb; reflexivity). lra. }
  intros a b A B C. split.
  - intros x Hx. destruct (S1 x ltac:(lra)) as (v & _ & E1). exists v. exact E1.
  - destruct (S1 a ltac:(lra)) as (va & La & Ea). destruct (S1 b ltac:(lra)) as (vb & Lb & Eb).
    exact (C88_rejected eig solve brent maxeval layers phi E t a b va vb false false Br M Ea Eb (or_introl (conj La Lb))).
Qed.
End T.
Print Assumptions C124_continuous.
Print Assumptions C124_short.
Print Assumptions C124_none.
Print Assumptions C124_shortest.
Print Assumptions C124_raises.

(** ** 90 mm of ice *)
Lemma rpow_below x y : 0 <= x <= 1 -> 1 <= y -> rpow x y <= x.
Proof.
  intros [A B] Y. destruct (Req_dec x 0) as [->|N]; [rewrite rpow_0 by lra; lra|]. rewrite rpow_Rpower by lra.
  replace y with ((y - 1) + 1) by lra. rewrite Rpower_plus, Rpower_1 by lra. rewrite <- (Rmult_1_l x) at 3. apply Rmult_le_compat_r; [lra|].
  unfold Rpower. apply Rle_trans with (exp 0); [|rewrite exp_0; lra]. destruct (Req_dec ((y - 1) * ln x) 0) as [->|Q]; [lra|]. left. apply exp_increasing.
  assert (ln x <= 0). { rewrite <- ln_1. destruct B as [B| ->]; [left; apply ln_increasing; lra|lra]. } nra.
Qed.
(** The default weak layer is far below the criterion, ... *)
Lemma ice_rest_low phi : rest_toughness [(917, 90)] phi (1 / 4) 30 <= 3 / 10.
Proof.
  assert (B : forall c, -1 <= c <= 1 -> 0 <= (weight_per_area [(917, 90)] * c) ^ 2 <= 1 / 1000000).
  { intros c Hc. unfold weight_per_area, rsum. cbn [map fold_right fst snd]. set (W := 917 * (1 / 1000000000000) * 9810 * 90 + 0). assert (HW : 0 <= W <= 1 / 1000) by (unfold W; lra).
    replace ((W * c) ^ 2) with (W * W * (c * c)) by ring. assert (0 <= W * W <= 1 / 1000000) by nra. assert (0 <= c * c <= 1) by nra. nra. }
  pose proof (B _ (COS_bound (deg2rad phi))) as BX. pose proof (B _ (SIN_bound (deg2rad phi))) as BY. unfold rest_toughness, toughness. cbv zeta.
  set (X := (_ * cos _) ^ 2) in *. set (Y := (_ * sin _) ^ 2) in *.
  replace (1000 * (X / (2 * (1 / 4 / (1 - (1 / 4) ^ 2) / 30)))) with (56250 * X) by field.
  replace (1000 * (Y / (2 * (1 / 4 / (2 * (1 + 1 / 4)) / 30)))) with (150000 * Y) by field.
  rewrite !Rabs_pos_eq by lra.
  pose proof (rpow_below (56250 * X / (56 / 100)) 5 ltac:(lra) ltac:(lra)). pose proof (rpow_below (150000 * Y / (79 / 100)) (20 / 9) ltac:(lra) ltac:(lra)). lra.
Qed.
Lemma ice_profile : profile exact_eig elim_solve [(917, 90)] (1 / 4) 30.
Proof.
  split; [constructor; [simpl; lra|constructor]|]. split; [discriminate|]. split; [lra|]. split; [lra|]. split; [exact elim_sound|]. split; [exact elim_complete|exact ice_hyps].
Qed.
(** ... one of modulus 5 kPa above it. *)
Lemma soft_rest : 1 < rest_toughness [(917, 90)] 0 (1 / 200) 30.
Proof.
  unfold rest_toughness, toughness. cbv zeta. unfold deg2rad. rewrite Rmult_0_l. try (replace (0 / 180) with 0 by field). rewrite cos_0, sin_0.
  unfold weight_per_area, rsum. cbn [map fold_right fst snd].
  match goal with |- 1 < rpow ?x 5 + rpow ?y _ => assert (HX : 1 < x); [|assert (HY : 0 <= rpow y (20 / 9))] end.
  - rewrite Rabs_pos_eq; lra.
  - apply rpow_nonneg. apply Rdiv_le_0_compat; [apply Rabs_pos|lra].
  - match goal with |- 1 < rpow ?x 5 + _ => pose proof (rpow_lt 1 x 5 ltac:(lra) ltac:(lra)) as Q end.
    rewrite (rpow_Rpower 1) in Q by lra. unfold Rpower at 1 in Q. rewrite ln_1, Rmult_0_r, exp_0 in Q. lra.
Qed.
Lemma soft_disc : chi_disc (calc_system_matrix (ice_par 90 30 (1 / 200) (1 / 4))) <> 0.
Proof.
  set (K := calc_system_matrix _). intros H. unfold K, chi_disc, chi2, chi1, chi0, calc_system_matrix, ice_par in H. simpl in H. field_simplify in H. lra.
Qed.
Lemma soft_profile : profile exact_eig elim_solve [(917, 90)] (1 / 200) 30.
Proof.
  split; [constructor; [simpl; lra|constructor]|]. split; [discriminate|]. split; [lra|]. split; [lra|]. split; [exact elim_sound|]. split; [exact elim_complete|].
  intros o L. destruct (ice_object exact_eig "skiers" false 90 30 (1 / 200) (1 / 4) ltac:(lra)) as (o' & L' & P). rewrite L in L'. apply Ok_inj in L'. subst o'. cbv zeta. rewrite P.
  assert (A : adm (ice_par 90 30 (1 / 200) (1 / 4))) by (unfold adm, lam_ok, fnd_ok, ice_par; simpl; repeat split; lra).
  split; [unfold stable, ice_par; simpl; lra|]. apply good_exact; [apply system_shape|apply simple_disc; exact soft_disc|]. pose proof (chi0_neg _ A). lra.
Qed.
(** Short cracks: the values lie near those of the slab at rest; on the default weak layer they stay, on the soft one they propagate. *)
Example C124_example brent maxeval : exists d, 0 < d <= slab_length [(917, 90)] /\ slab_length [(917, 90)] = 90000 /\ forall a, 0 < a < d ->
  (exists v, check exact_eig elim_solve brent maxeval [(917, 90)] 30 (1 / 4) 30 a = Ok (v, false) /\ v <= 4 / 10) /\
  propagates (check exact_eig elim_solve brent maxeval [(917, 90)] 0 (1 / 200) 30) a.
Proof.
  destruct (C124_short exact_eig elim_solve brent maxeval [(917, 90)] 30 (1 / 4) 30 (1 / 10) ice_profile ltac:(lra)) as (d1 & D1 & H1).
  destruct (C124_none exact_eig elim_solve brent maxeval [(917, 90)] 0 (1 / 200) 30 soft_profile soft_rest) as [(d2 & D2 & H2) _].
  exists (Rmin d1 d2). split; [split; [apply Rmin_pos; lra|eapply Rle_trans; [apply Rmin_l|lra]]|]. split; [unfold slab_length, rsum; simpl; lra|]. intros a [A1 A2].
  pose proof (Rlt_le_trans _ _ _ A2 (Rmin_l _ _)). pose proof (Rlt_le_trans _ _ _ A2 (Rmin_r _ _)). split; [|apply H2; lra].
  destruct (H1 a ltac:(lra)) as (v & b & E1 & Hb & E2). pose proof (ice_rest_low 30). apply Rabs_le_between in E2. exists v. split; [|lra]. rewrite E1. f_equal. f_equal.
  destruct b; [|reflexivity]. assert (1 <= v) by (apply Hb; reflexivity). lra.
Qed.
Example C124_example_shortest brent maxeval : let chk := check exact_eig elim_solve brent maxeval [(917, 90)] 30 (1 / 4) 30 in
  (forall a, 0 < a < 90000 -> stays chk a) \/ exists m, m < 90000 /\ shortest chk m /\ chk m = Ok (1, true).
Proof.
  assert (L : slab_length [(917, 90)] = 90000) by (unfold slab_length, rsum; simpl; lra).
  pose proof (C124_shortest exact_eig elim_solve brent maxeval [(917, 90)] 30 (1 / 4) 30 ice_profile ltac:(pose proof (ice_rest_low 30); lra)) as H. rewrite L in H. exact H.
Qed.
(** C88 refuted: among short cracks in 90 mm of ice none propagates, and the search does not return None but raises ValueError. *)
Theorem C88_refuted : exists a b, 0 < a < b /\ b < slab_length [(917, 90)] /\
  (forall x, a <= x <= b -> stays (check exact_eig elim_solve ex_brent 100 [(917, 90)] 30 (1 / 4) 30) x) /\
  find_min_crack_length_self_propagation exact_eig elim_solve ex_brent 100 (LList [(917, 90)]) 30 (1 / 4) 30 a b = Err ValueError.
Proof.
  destruct (C124_raises exact_eig elim_solve ex_brent 100 [(917, 90)] 30 (1 / 4) 30 ice_profile ltac:(pose proof (ice_rest_low 30); lra) ex_brent_rejects ltac:(lia)) as (d & Hd & H).
  exists (d / 3), (d / 2). destruct (H (d / 3) (d / 2) ltac:(lra) ltac:(lra) ltac:(lra)) as [H1 H2]. split; [lra|]. split; [lra|]. split; [exact H1|exact H2].
Qed.
Print Assumptions C88_refuted.
