(** Property C125: a short crack raises the mode I energy release rate above that of the slab at rest. *)
From Coquelicot Require Import Coquelicot.
Require Import Verif.Py Verif.MTools Verif.MEigen Verif.MFields Verif.SAdm Verif.SSlab Verif.MRaster
  Verif.MSolution Verif.MAnalysis Verif.SBeam Verif.SBvp Verif.SEig Verif.SEnergy Verif.SContact Verif.SMirror Verif.MEnvelope Verif.MCriterion
  Verif.SSegment Verif.SSkier Verif.SDecay Verif.SSplit Verif.SExact Verif.SCritical Verif.SCoupled Verif.SSelf Verif.SShort Verif.SRaise Verif.PLam Verif.PSetup Verif.PSetup2 Verif.PLinAlg Verif.PBvp Verif.PBvp5 Verif.PWell2 Verif.PWell3 Verif.PBvp6 Verif.PEnergy Verif.PEnergy2 Verif.PContact Verif.PContact3
  Verif.PEnvelope Verif.PConvex Verif.PCreate Verif.PCreate2 Verif.PExact Verif.PExact2 Verif.PExact3 Verif.PropExact Verif.PCoupled2 Verif.PSelf Verif.PropSelf Verif.PCritical Verif.PCritical2 Verif.PCritical7
  Verif.PMirror Verif.PSkier Verif.PDecay Verif.PDecay4 Verif.PDecay5 Verif.PDecay6 Verif.PropDecay2 Verif.PRelease Verif.PShort Verif.PropShort Verif.PRaise.
Open Scope R_scope.

(** * Models: both tips together are lowered, so the mean mode I rate rises. *)
Lemma mean_rises p r w0 w2 : 0 < kn p -> 0 < kn p * r -> 0 < (w0 - r) + (w2 - r) ->
  (kn p * r) ^ 2 / (2 * kn p) < ((kn p * w0) ^ 2 / (2 * kn p) + (kn p * w2) ^ 2 / (2 * kn p)) / 2.
Proof.
  intros K H1 H2. assert (0 < r) by nra.
  replace ((kn p * r) ^ 2 / (2 * kn p)) with (kn p / 2 * (r * r)) by (field; lra).
  replace (((kn p * w0) ^ 2 / (2 * kn p) + (kn p * w2) ^ 2 / (2 * kn p)) / 2) with (kn p / 2 * ((w0 * w0 + w2 * w2) / 2)) by (field; lra).
  apply Rmult_lt_compat_l; [lra|]. assert (0 <= (w0 - w2) * (w0 - w2)) by apply Rle_0_sqr. nra.
Qed.
Theorem C125_opens o phi T : ready o -> stable (o_par o) -> kind_of (o_system o) = Some KSkier -> 3 <= T ->
  0 < qn (loads_of o phi) + pn (loads_of o phi) ->
  exists d, 0 < d <= 1 /\ forall a Cs, 0 < a < d -> bvp o 0 phi (middle_crack T a) [0; 0; 0] middle_support Cs ->
    let z := end_state o phi (middle_crack T a) middle_support Cs in let p := o_par o in let ld := loads_of o phi in
    2 * ((qn ld + pn ld) / kn p) < z_w (z 0%nat) + z_w (z 2%nat) /\
    (qn ld + pn ld) ^ 2 / (2 * kn p) < (GI p (z 0%nat) + GI p (z 2%nat)) / 2.
Proof.
  intros Hr Hs Hk HT Hq. pose proof Hr as (Hl & Hf & _). destruct (both_tips (o_par o) Hl Hf Hs) as (h0 & H0 & B).
  exists (Rmin 1 h0). split; [split; [apply Rmin_pos; lra|apply Rmin_l]|]. intros a Cs [A1 A2] HB.
  pose proof (Rlt_le_trans _ _ _ A2 (Rmin_l _ _)) as A3. pose proof (Rlt_le_trans _ _ _ A2 (Rmin_r _ _)) as A4.
  set (li := middle_crack T a) in *. set (L := (T - a) / 2). set (h := a / 2).
  assert (Hne : li <> []) by (unfold li, middle_crack; discriminate).
  pose proof (bvp_fbvp _ _ _ _ _ _ _ Hr Hne HB) as HF. change (List.length li - 1)%nat with 3%nat in HF.
  set (zz := fun j => dev o phi (field o phi (nth j li 0) (nth j middle_support false) (nth j Cs []))).
  assert (Ch : fchain (o_par o) 3 (fun i => nth i [L; h; h; L] 0) (fun i => nth i middle_support false) (pushN (loads_of o phi)) (pushM (o_par o) (loads_of o phi))
    (- (qn (loads_of o phi) + pn (loads_of o phi))) (fun _ => 0) (fun _ => 0) zz).
  { destruct HF as (_ & _ & A & D). split; [|split].
    - intros i Hi. do 4 (destruct i as [|i]; [cbn [nth]; unfold L, h; lra|]). lia.
    - intros i x Hi Hx. apply dev_forced; [exact Hr|]. exact (D i x Hi Hx).
    - intros i Hi. pose proof (dev_jump o phi _ _ (nth i [0; 0; 0] 0) (nth i li 0) 0 (skier_kind o Hk) (A i Hi)) as J.
      replace (nth i [0; 0; 0] 0) with 0 in J by (do 3 (destruct i as [|i]; [reflexivity|]); lia).
      assert (SF : skier_force o 0 = 0) by (unfold skier_force; unfold Rdiv; ring). rewrite SF in J. replace (- (0 * sin (phi * PI / 180))) with 0 in J by ring. rewrite Rmult_0_l in J. exact J. }
  assert (Z0 : d2 (zz 0%nat 0) = 0) by exact (dev_left o 0 phi Hk 3 _ _ _ _ HF).
  assert (Zn : d2 (zz 3%nat L) = 0) by exact (dev_right o 0 phi Hk 3 _ _ _ _ HF).
  pose proof (B L h _ _ _ zz ltac:(unfold L; lra) ltac:(unfold h; lra) Hq Ch Z0 Zn) as X.
  assert (Kn : 0 < kn (o_par o)) by (unfold fnd_ok in Hf; tauto).
  assert (Rw : z_w (at_rest o phi) = (qn (loads_of o phi) + pn (loads_of o phi)) / kn (o_par o)) by (unfold at_rest, zp; cbn [z_w]; field; lra).
  intros z p ld. fold p in Kn, Rw. fold ld in Rw, Hq.
  unfold zz, dev in X. rewrite !rest_is in X. unfold combo in X. cbn [z_w] in X. rewrite Rw in X.
  change (z_w (field o phi (nth 0 li 0) (nth 0 middle_support false) (nth 0 Cs []) L)) with (z_w (z 0%nat)) in X.
  change (z_w (field o phi (nth 2 li 0) (nth 2 middle_support false) (nth 2 Cs []) h)) with (z_w (z 2%nat)) in X.
  split; [lra|]. pose proof (mean_rises p ((qn ld + pn ld) / kn p) (z_w (z 0%nat)) (z_w (z 2%nat)) Kn) as M.
  replace (kn p * ((qn ld + pn ld) / kn p)) with (qn ld + pn ld) in M by (field; lra). apply M; lra.
Qed.

Section T.
Variable eig : mat6 -> list eigpair.
Variable solve : nat -> matrix -> vector -> res vector.
Variable brent : R -> R -> list (R * R) -> bstep.
Variable maxeval : nat.
Variables (layers : list (R * R)) (phi E t : R).
Notation check := (check eig solve brent maxeval layers phi E t).
Notation profile := (profile eig solve layers E t).
Notation slab_length := (slab_length layers).

Lemma weight_pos : profile -> 0 < weight_per_area layers.
Proof.
  intros (P & N & _). unfold weight_per_area. destruct layers as [|l ls]; [congruence|]. inversion P as [|? ? [H1 H2] P']; subst.
  match goal with |- 0 < rsum (map ?g _) => set (f := g) end.
  assert (Fp : forall x, 0 < fst x /\ 0 < snd x -> 0 < f x) by (intros [r hh] [X1 X2]; unfold f; cbn [fst snd] in *; repeat apply Rmult_lt_0_compat; lra).
  assert (Q : 0 <= rsum (map f ls)).
  { clear - P' Fp. induction P' as [|x r Hx _ IH]; unfold rsum in *; simpl; [lra|]. pose proof (Fp x Hx). lra. }
  unfold rsum in *. simpl. pose proof (Fp l (conj H1 H2)). lra.
Qed.
Lemma crack_gdif : profile -> exists o, ready o /\ stable (o_par o) /\ kind_of (o_system o) = Some KSkier /\
  loads_of o phi = mkLd (weight_per_area layers * cos (deg2rad phi)) (- weight_per_area layers * sin (deg2rad phi)) 0 0 /\
  kn (o_par o) = E / (1 - (1 / 4) ^ 2) / t /\ kt (o_par o) = E / (2 * (1 + 1 / 4)) / t /\
  forall a, 0 < a < slab_length -> exists k g g1 g2,
    create_skier_object eig solve brent maxeval (LList layers) 0 phi (middle_crack slab_length a) middle_support true E t = Ok k /\
    gdif (o_par (k_obj k)) (o_eig (k_obj k)) (loads_of (k_obj k) phi) (k_C k) (k_li k) (k_ki k) "kJ/m^2" = Ok (g, g1, g2) /\
    bvp o 0 phi (middle_crack slab_length a) [0; 0; 0] middle_support (k_C k) /\
    let z := end_state o phi (middle_crack slab_length a) middle_support (k_C k) in
    g1 = mean_of (GI (o_par o)) z /\ g2 = mean_of (GII (o_par o)) z /\
    check a = Ok (fracture_toughness_criterion (1000 * g1) (1000 * g2), Rleb 1 (fracture_toughness_criterion (1000 * g1) (1000 * g2))).
Proof.
  intros Pr. pose proof (length_pos _ _ _ _ _ Pr) as HT. destruct Pr as (P & N & HE & Ht & So & Co & G).
  assert (Ge : forall o, Layered eig "skiers" (LList layers) false = Ok o ->
    good_eigenpairs (calc_system_matrix (o_par (model_obj eig o E t))) (eig (calc_system_matrix (o_par (model_obj eig o E t))))) by (intros o H; apply (G o H)).
  destruct (create_sound eig solve brent maxeval So layers E t P HE Ht Ge) as (o & o' & L & SM & Rd & Sy & Cr).
  assert (St : stable (o_par o')) by (destruct SM as (-> & _); apply (G o L)).
  assert (Kd : kind_of (o_system o') = Some KSkier) by (rewrite Sy; reflexivity).
  exists o'. split; [exact Rd|]. split; [exact St|]. split; [exact Kd|].
  destruct (layered_loads eig layers _ _ _ phi N L) as [LD LP]. destruct SM as (M1 & M2 & M3 & M4 & M5 & M6).
  assert (LQ : loads_of o' phi = mkLd (weight_per_area layers * cos (deg2rad phi)) (- weight_per_area layers * sin (deg2rad phi)) 0 0).
  { unfold loads_of. rewrite M4, M5, M6. unfold model_obj, set_foundation_properties. destruct (fundamental_misc eig (with_weak o E (1 / 4) t)) as (-> & -> & -> & _).
    change (o_g (with_weak o E (1 / 4) t)) with (o_g o). change (o_slab (with_weak o E (1 / 4) t)) with (o_slab o). change (o_p (with_weak o E (1 / 4) t)) with (o_p o). rewrite LD, LP. unfold get_surface_load. f_equal; ring. }
  destruct (foundation_setter eig o t E (1 / 4) _ Ht HE ltac:(lra) eq_refl) as (Kn & Kt & _). fold (model_obj eig o E t) in Kn, Kt. rewrite <- M1 in Kn, Kt.
  split; [exact LQ|]. split; [exact Kn|]. split; [exact Kt|]. intros a Ha.
  destruct (crack_value eig solve brent maxeval layers E t P HE Ht So Co G phi a Ha) as (k & o1 & v & H1 & _ & _ & _ & H5 & H6 & _).
  destruct (Cr _ _ _ _ _ _ H1) as (K1 & _ & _ & _ & K4 & K5 & _ & K6 & K7). cbv zeta in K5. rewrite K1 in H5.
  destruct (gdif_accepts (o_par o') (o_eig o') (loads_of o' phi) (k_C k) (middle_crack slab_length a) middle_support "kJ/m^2" 1 ltac:(right; left; auto) eq_refl) as [[[g g1] g2] Eg].
  { intros j Hj _. fold slab_length in K6. split; [rewrite K6; lia|]. rewrite six_zh by (apply ready_six; exact Rd).
    rewrite Forall_forall in K7. symmetry. apply K7. apply nth_In. rewrite K6. lia. }
  exists k, g, g1, g2. split; [exact H1|]. rewrite K1, K4, K5. split; [exact Eg|]. split; [exact H5|]. cbv zeta.
  assert (Lk : List.length middle_support = List.length (middle_crack slab_length a)) by reflexivity.
  destruct (gdif_value2 _ _ _ _ _ _ _ _ _ _ (fun _ => 1 / 2) Lk (crack_tip_weights slab_length a) Eg) as [(H & _)|(c & Hc & V)].
  { exfalso. apply (H 0%nat ltac:(simpl; lia)). unfold is_tip. simpl. congruence. }
  cbv zeta in V. destruct V as (V1 & V2 & _). rewrite !crack_tip_sum in V1, V2. destruct Hc as [[X _]|[[_ ->]|[X _]]]; try discriminate. rewrite Rmult_1_l in V1, V2.
  split; [exact V1|]. split; [exact V2|].
  unfold PropShort.check, check_crack_propagation_criterion. fold slab_length in H1. rewrite H1. cbn [bind]. unfold differential. rewrite K1, K4, K5. fold slab_length. rewrite Eg. reflexivity.
Qed.

(** * Every short crack has a larger mean mode I rate than the slab at rest. *)
Theorem C125_mode_I : profile -> 3 <= slab_length -> 0 < cos (deg2rad phi) ->
  exists d, 0 < d <= 1 /\ forall a, 0 < a < d -> exists k g g1 g2,
    create_skier_object eig solve brent maxeval (LList layers) 0 phi (middle_crack slab_length a) middle_support true E t = Ok k /\
    gdif (o_par (k_obj k)) (o_eig (k_obj k)) (loads_of (k_obj k) phi) (k_C k) (k_li k) (k_ki k) "kJ/m^2" = Ok (g, g1, g2) /\
    rest_mode_I layers phi E t < g1.
Proof.
  intros Pr H3 Hc. destruct (crack_gdif Pr) as (o & Rd & St & Kd & LQ & Kn & _ & V). pose proof (weight_pos Pr) as HW.
  assert (Q : 0 < qn (loads_of o phi) + pn (loads_of o phi)) by (rewrite LQ; cbn [qn pn]; nra).
  destruct (C125_opens o phi slab_length Rd St Kd H3 Q) as (d & Hd & H). exists d. split; [exact Hd|]. intros a Ha.
  destruct (V a ltac:(lra)) as (k & g & g1 & g2 & C1 & C2 & B & E1 & _). exists k, g, g1, g2. split; [exact C1|]. split; [exact C2|].
  rewrite E1. destruct (H a (k_C k) Ha B) as [_ X]. rewrite LQ, Kn in X. cbn [qn pn] in X. rewrite Rplus_0_r in X. exact X.
Qed.
End T.

(** * On flat ground every short crack has a larger value than the slab at rest, ... *)
Theorem C125_flat eig solve brent maxeval layers E t : profile eig solve layers E t -> 3 <= slab_length layers ->
  exists d, 0 < d <= 1 /\ forall a, 0 < a < d -> exists v b, check eig solve brent maxeval layers 0 E t a = Ok (v, b) /\ (b = true <-> 1 <= v) /\
    rest_toughness layers 0 E t < v.
Proof.
  intros Pr H3. assert (D0 : deg2rad 0 = 0) by (unfold deg2rad; field).
  destruct (crack_gdif eig solve brent maxeval layers 0 E t Pr) as (o & Rd & St & Kd & LQ & Kn & Kt & V). pose proof (weight_pos _ _ _ _ _ Pr) as HW.
  rewrite D0, cos_0, sin_0, !Rmult_1_r, !Rmult_0_r in LQ.
  assert (Q : 0 < qn (loads_of o 0) + pn (loads_of o 0)) by (rewrite LQ; cbn [qn pn]; lra).
  destruct (C125_opens o 0 (slab_length layers) Rd St Kd H3 Q) as (d & Hd & H). exists d. split; [exact Hd|]. intros a Ha.
  destruct (V a ltac:(lra)) as (k & g & g1 & g2 & _ & _ & B & E1 & E2 & E3). eexists _, _. split; [exact E3|]. split.
  { unfold Rleb. destruct (Rle_dec 1 _) as [X|X]; split; intros Y; congruence || contradiction || reflexivity. }
  destruct (H a (k_C k) Ha B) as [_ X]. change ((GI _ _ + GI _ _) / 2) with (mean_of (GI (o_par o)) (end_state o 0 (middle_crack (slab_length layers) a) middle_support (k_C k))) in X. rewrite <- E1, LQ in X. cbn [qn pn] in X. rewrite Rplus_0_r in X.
  unfold rest_toughness, toughness. cbv zeta. rewrite D0, cos_0, sin_0, Rmult_1_r, Rmult_0_r. rewrite <- Kn.
  assert (Kp : 0 < kn (o_par o)) by (destruct Rd as (_ & Hf & _); unfold fnd_ok in Hf; tauto).
  set (r := weight_per_area layers ^ 2 / (2 * kn (o_par o))) in *. assert (R0 : 0 <= r) by (apply Rdiv_le_0_compat; [apply pow2_ge_0|lra]).
  replace (1000 * (0 ^ 2 / (2 * (E / (2 * (1 + 1 / 4)) / t)))) with 0 by (unfold Rdiv; ring). rewrite Rabs_R0. replace (0 / (79 / 100)) with 0 by field. rewrite rpow_0 by lra. rewrite Rplus_0_r.
  unfold fracture_toughness_criterion. cbv zeta.
  match goal with |- _ < rpow ?x ?e + rpow ?y ?f => assert (A1 : rpow (Rabs (1000 * r) / (56 / 100)) 5 < rpow x e); [|assert (A2 : 0 <= rpow y f)] end.
  - match goal with |- _ < rpow ?x ?e => replace e with 5 by lra end. apply rpow_lt; [|lra]. rewrite !Rabs_pos_eq by lra. lra.
  - apply rpow_nonneg. apply Rdiv_le_0_compat; [apply Rabs_pos|lra].
  - lra.
Qed.
(** ... so if the slab at rest meets the criterion, all short cracks propagate and there is no shortest one. *)
Theorem C125_propagates eig solve brent maxeval layers E t : profile eig solve layers E t -> 3 <= slab_length layers -> 1 <= rest_toughness layers 0 E t ->
  (exists d, 0 < d /\ forall a, 0 < a < d -> propagates (check eig solve brent maxeval layers 0 E t) a) /\
  forall m, ~ shortest (check eig solve brent maxeval layers 0 E t) m.
Proof.
  intros Pr H3 H. destruct (C125_flat eig solve brent maxeval layers E t Pr H3) as (d & Hd & V).
  assert (A : forall a, 0 < a < d -> propagates (check eig solve brent maxeval layers 0 E t) a).
  { intros a Ha. destruct (V a Ha) as (v & b & E1 & Hb & E2). exists v. rewrite E1. f_equal. f_equal. apply Hb. lra. }
  split; [exists d; split; [lra|exact A]|]. intros m (M1 & _ & M2).
  assert (Q : 0 < Rmin (d / 2) (m / 2)) by (apply Rmin_pos; lra). pose proof (Rmin_l (d / 2) (m / 2)). pose proof (Rmin_r (d / 2) (m / 2)).
  destruct (A (Rmin (d / 2) (m / 2)) ltac:(lra)) as [v Ev]. destruct (M2 (Rmin (d / 2) (m / 2)) ltac:(lra)) as [v' Ev']. congruence.
Qed.
Print Assumptions C125_opens.
Print Assumptions C125_mode_I.
Print Assumptions C125_flat.
Print Assumptions C125_propagates.

(** ** 90 mm of ice: on a slope of 60 degrees short cracks raise the mode I rate; on flat ground they raise the value of the check,
    and on a weak layer of 5 kPa they all propagate. *)
Example C125_example brent maxeval : slab_length [(917, 90)] = 90000 /\ 0 < cos (deg2rad 60) /\ exists d, 0 < d <= 1 /\ forall a, 0 < a < d ->
  (exists k g g1 g2, create_skier_object exact_eig elim_solve brent maxeval (LList [(917, 90)]) 0 60 (middle_crack 90000 a) middle_support true (1 / 4) 30 = Ok k /\
    gdif (o_par (k_obj k)) (o_eig (k_obj k)) (loads_of (k_obj k) 60) (k_C k) (k_li k) (k_ki k) "kJ/m^2" = Ok (g, g1, g2) /\
    0 < rest_mode_I [(917, 90)] 60 (1 / 4) 30 < g1) /\
  (exists v b, check exact_eig elim_solve brent maxeval [(917, 90)] 0 (1 / 4) 30 a = Ok (v, b) /\ rest_toughness [(917, 90)] 0 (1 / 4) 30 < v) /\
  propagates (check exact_eig elim_solve brent maxeval [(917, 90)] 0 (1 / 200) 30) a.
Proof.
  assert (L : slab_length [(917, 90)] = 90000) by (unfold slab_length, rsum; simpl; lra). split; [exact L|].
  assert (C : cos (deg2rad 60) = 1 / 2) by (unfold deg2rad; replace (60 * (PI / 180)) with (PI / 3) by field; apply cos_PI3). split; [rewrite C; lra|].
  destruct (C125_mode_I exact_eig elim_solve brent maxeval [(917, 90)] 60 (1 / 4) 30 ice_profile ltac:(rewrite L; lra) ltac:(rewrite C; lra)) as (d1 & D1 & H1).
  destruct (C125_flat exact_eig elim_solve brent maxeval [(917, 90)] (1 / 4) 30 ice_profile ltac:(rewrite L; lra)) as (d2 & D2 & H2).
  pose proof soft_rest as SR. destruct (C125_propagates exact_eig elim_solve brent maxeval [(917, 90)] (1 / 200) 30 soft_profile ltac:(rewrite L; lra) ltac:(lra)) as [(d3 & D3 & H3) _].
  rewrite L in H1. exists (Rmin d1 (Rmin d2 d3)). split; [split; [repeat apply Rmin_pos; lra|eapply Rle_trans; [apply Rmin_l|lra]]|].
  intros a [A1 A2]. pose proof (Rlt_le_trans _ _ _ A2 (Rmin_l _ _)) as A3. pose proof (Rlt_le_trans _ _ _ A2 (Rmin_r _ _)) as A4.
  pose proof (Rlt_le_trans _ _ _ A4 (Rmin_l _ _)) as A5. pose proof (Rlt_le_trans _ _ _ A4 (Rmin_r _ _)) as A6. split; [|split].
  - destruct (H1 a ltac:(lra)) as (k & g & g1 & g2 & E1 & E2 & E3). exists k, g, g1, g2. split; [exact E1|]. split; [exact E2|]. split; [|exact E3].
    unfold rest_mode_I. rewrite C. unfold weight_per_area, rsum. cbn [map fold_right fst snd]. apply Rdiv_lt_0_compat; [apply pow_lt; lra|lra].
  - destruct (H2 a ltac:(lra)) as (v & b & E1 & _ & E2). exists v, b. split; [exact E1|exact E2].
  - apply H3. lra.
Qed.
