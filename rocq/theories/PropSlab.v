(** Property theorems C01-C10: slab, wedge, loads, foundation. Each theorem is
    followed by what it assumes and by a concrete case meeting its hypotheses. *)
From Coq Require Import Sorted.
From Coquelicot Require Import Coquelicot.
Require Import Verif.Py Verif.MTools Verif.MEigen Verif.SSlab Verif.SWedge
  Verif.SAdm Verif.PSlab Verif.PCog Verif.PLam Verif.PWedge Verif.PSetup Verif.PSetup2.

(** A three-layer profile used in the examples. *)
Definition ex_layers : list layer := [(120, 80); (250, 60); (200, 150)].
Lemma ex_pos : pos_layers ex_layers.
Proof. repeat constructor; simpl; lra. Qed.
Lemma ex_nonempty : ex_layers <> [].
Proof. discriminate. Qed.
Definition ex_slab : list ply := user_slab ex_layers (65 / 10) (44 / 10) (1 / 4).
Lemma ex_slab_good : Forall good_ply ex_slab.
Proof. apply user_slab_good; [exact ex_pos|lra|lra]. Qed.

(** C01: height and centre of gravity of a profile; the centroid is inside the
    slab; reversing the profile flips its sign. *)
Theorem C01_center_of_gravity layers : pos_layers layers -> layers <> [] ->
  calc_center_of_gravity layers
    = (thickness layers,
       depth_integral layers (fun z => z) / depth_integral layers (fun _ => 1)) /\
  - thickness layers / 2 < snd (calc_center_of_gravity layers) < thickness layers / 2 /\
  calc_center_of_gravity (rev layers)
    = (fst (calc_center_of_gravity layers), - snd (calc_center_of_gravity layers)).
Proof.
  exact (fun H N => conj (cog_centroid layers H N)
           (conj (cog_inside layers H N) (cog_rev layers H N))).
Qed.
Print Assumptions C01_center_of_gravity.
Example C01_example : pos_layers ex_layers /\ ex_layers <> [].
Proof. exact (conj ex_pos ex_nonempty). Qed.

(** C02: dividing a layer in two changes neither stiffnesses, height and centre
    of gravity (all in [o_par]) nor the eigensystem nor the loads. *)
Theorem C02_layer_split eig o l1 rho a b l2 C0 C1 nu o1 o2 :
  set_beam_properties eig o (LList (l1 ++ (rho, a + b) :: l2)) C0 C1 nu true = Ok o1 ->
  set_beam_properties eig o (LList (l1 ++ (rho, a) :: (rho, b) :: l2)) C0 C1 nu true = Ok o2 ->
  o_par o1 = o_par o2 /\ o_eig o1 = o_eig o2 /\
  forall phi, loads_of o1 phi = loads_of o2 phi.
Proof. exact (split_invariant eig o l1 rho a b l2 C0 C1 nu o1 o2). Qed.
Print Assumptions C02_layer_split.
Example C02_example eig o : exists o1 o2,
  set_beam_properties eig o (LList ([(120, 80)] ++ (250, 40 + 20) :: [(200, 150)]))
    (65 / 10) (44 / 10) (1 / 4) true = Ok o1 /\
  set_beam_properties eig o (LList ([(120, 80)] ++ (250, 40) :: (250, 20) :: [(200, 150)]))
    (65 / 10) (44 / 10) (1 / 4) true = Ok o2.
Proof. eexists; eexists; split; reflexivity. Qed.

(** C03: laminate stiffnesses are depth integrals over the plies, and the ply
    coordinates run from -h/2 to h/2. *)
Theorem C03_laminate_integrals slab k :
  Forall (fun q => 0 < p_h q) slab ->
  let h := rsum (map p_h slab) in
  let Ep := map (fun q => (p_E q / (1 - p_nu q ^ 2), p_h q)) slab in
  let G := map (fun q => (p_G q, p_h q)) slab in
  (let '(A, B, D, Sk, K) := calc_laminate_stiffness_matrix slab h k in
   A = depth_integral Ep (fun _ => 1) /\
   B = depth_integral Ep (fun z => z) /\
   D = depth_integral Ep (fun z => z ^ 2) /\
   Sk = k * depth_integral G (fun _ => 1)) /\
  (let z := get_ply_coordinates slab h in
   List.length z = S (List.length slab) /\
   nth 0 z 0 = - h / 2 /\ last z 0 = h / 2 /\ Sorted Rlt z).
Proof. exact (fun H => conj (laminate_integrals slab k H) (ply_coordinates slab H)). Qed.
Print Assumptions C03_laminate_integrals.
(** The setter uses k = 5/6 and the height of the profile. *)
Theorem C03_setter eig o layers C0 C1 nu o' : pos_layers layers -> layers <> [] ->
  set_beam_properties eig o (LList layers) C0 C1 nu true = Ok o' ->
  let p := o_par o' in
  let Ep := map (fun l => (bergfeld (fst l) 917 C0 C1 / (1 - nu ^ 2), snd l)) layers in
  let G := map (fun l => (bergfeld (fst l) 917 C0 C1 / (2 * (1 + nu)), snd l)) layers in
  hh p = thickness layers /\
  A11 p = depth_integral Ep (fun _ => 1) /\
  B11 p = depth_integral Ep (fun z => z) /\
  D11 p = depth_integral Ep (fun z => z ^ 2) /\
  kA55 p = 5 / 6 * depth_integral G (fun _ => 1) /\
  K0 p = B11 p ^ 2 - A11 p * D11 p.
Proof. exact (setter_integrals eig o layers C0 C1 nu o'). Qed.
Print Assumptions C03_setter.
Example C03_example : Forall (fun q => 0 < p_h q) ex_slab /\
  (forall eig o, exists o',
     set_beam_properties eig o (LList ex_layers) (65 / 10) (44 / 10) (1 / 4) true = Ok o').
Proof.
  split; [|intros; eexists; reflexivity].
  eapply Forall_impl; [|exact ex_slab_good]. intros q H; apply H.
Qed.

(** C04: admissible slabs have a positive definite stiffness; every model built
    by [Layered] is admissible. *)
Theorem C04_positive_definite slab h k :
  Forall good_ply slab -> slab <> [] -> 0 < k ->
  let '(A, B, D, Sk, K) := calc_laminate_stiffness_matrix slab h k in
  0 < A /\ 0 < D /\ 0 < Sk /\ B ^ 2 < A * D /\ K < 0.
Proof. exact (laminate_pos_def slab h k). Qed.
Print Assumptions C04_positive_definite.
Theorem C04_setter eig o layers C0 C1 nu o' :
  pos_layers layers -> layers <> [] -> 0 < C0 -> -1 < nu < 1 ->
  set_beam_properties eig o (LList layers) C0 C1 nu true = Ok o' ->
  lam_ok (o_par o') /\ 0 < hh (o_par o') /\
  - hh (o_par o') / 2 < zs (o_par o') < hh (o_par o') / 2.
Proof. exact (set_beam_adm eig o layers C0 C1 nu o'). Qed.
Print Assumptions C04_setter.
Theorem C04_Layered eig system layers touchdown o :
  pos_layers layers -> Layered eig system (LList layers) touchdown = Ok o ->
  adm (o_par o) /\ Forall good_ply (o_slab o) /\ o_slab o <> [].
Proof. exact (Layered_adm eig system layers touchdown o). Qed.
Print Assumptions C04_Layered.
Example C04_example : Forall good_ply ex_slab /\ ex_slab <> [] /\ 0 < 5 / 6 /\
  forall eig, exists o, Layered eig "skier" (LList ex_layers) true = Ok o.
Proof.
  split; [exact ex_slab_good|]. split; [discriminate|]. split; [lra|].
  intros; eexists; reflexivity.
Qed.

(** C05: homogeneous slabs are textbook beams; reversal. *)
Theorem C05_homogeneous eig o layers rho C0 C1 nu o' :
  layers <> [] -> Forall (fun l => fst l = rho) layers -> pos_layers layers ->
  -1 < nu < 1 ->
  set_beam_properties eig o (LList layers) C0 C1 nu true = Ok o' ->
  let p := o_par o' in
  let E := bergfeld rho 917 C0 C1 in
  let h := thickness layers in
  hh p = h /\ zs p = 0 /\ B11 p = 0 /\ A11 p = E * h / (1 - nu ^ 2) /\
  D11 p = E * h ^ 3 / (12 * (1 - nu ^ 2)) /\
  kA55 p = 5 / 6 * (E / (2 * (1 + nu))) * h.
Proof. exact (homogeneous_slab eig o layers rho C0 C1 nu o'). Qed.
Print Assumptions C05_homogeneous.
Theorem C05_reversal eig o layers C0 C1 nu o1 o2 :
  layers <> [] -> pos_layers layers ->
  set_beam_properties eig o (LList layers) C0 C1 nu true = Ok o1 ->
  set_beam_properties eig o (LList (rev layers)) C0 C1 nu true = Ok o2 ->
  let p := o_par o1 in let q := o_par o2 in
  hh q = hh p /\ zs q = - zs p /\ A11 q = A11 p /\ B11 q = - B11 p /\
  D11 q = D11 p /\ kA55 q = kA55 p.
Proof. exact (reversed_slab eig o layers C0 C1 nu o1 o2). Qed.
Print Assumptions C05_reversal.
Example C05_example : let l := [(200, 30); (200, 70)] in
  l <> [] /\ Forall (fun l => fst l = 200) l /\ pos_layers l /\
  forall eig o, (exists o', set_beam_properties eig o (LList l) (65/10) (44/10) (1/4) true = Ok o')
   /\ (exists o', set_beam_properties eig o (LList (rev ex_layers)) (65/10) (44/10) (1/4) true = Ok o').
Proof.
  cbv zeta. split; [discriminate|]. split; [repeat constructor|].
  split; [repeat constructor; simpl; lra|].
  intros; split; eexists; reflexivity.
Qed.

(** C06: mass and slope-normal centroid of the wedge at a vertical face. The
    wedge densities are in t/mm^3, i.e. scaled by 1e-12. *)
Theorem C06_wedge slab phi :
  Forall (fun q => 0 < p_rho q /\ 0 < p_h q) slab -> slab <> [] -> phi <> 0 ->
  let rhos := map (fun q => (1 / 1000000000000 * p_rho q, p_h q)) slab in
  let W := wedge_integral rhos (deg2rad phi) in
  exists xs, calc_vertical_bc_center_of_gravity slab phi
  = (xs, W (fun _ z => z) / W (fun _ _ => 1), W (fun _ _ => 1)).
Proof. exact (wedge_correct slab phi). Qed.
Print Assumptions C06_wedge.
Theorem C06_wedge_positive slab phi :
  Forall (fun q => 0 < p_rho q /\ 0 < p_h q) slab -> slab <> [] -> 0 < phi < 90 ->
  0 < snd (calc_vertical_bc_center_of_gravity slab phi).
Proof. exact (wedge_mass_pos slab phi). Qed.
Print Assumptions C06_wedge_positive.
Theorem C06_flat slab : calc_vertical_bc_center_of_gravity slab 0 = (0, 0, 0).
Proof. exact (wedge_flat slab). Qed.
Print Assumptions C06_flat.
Example C06_example : Forall (fun q => 0 < p_rho q /\ 0 < p_h q) ex_slab /\ ex_slab <> [].
Proof.
  split; [|discriminate]. unfold ex_slab, user_slab, ex_layers; simpl.
  repeat constructor; simpl; lra.
Qed.

(** C07: the returned xs is NOT the slope-parallel centroid. *)
Theorem C07_wedge_xs_refuted :
  exists slab phi,
    (Forall (fun q => 0 < p_rho q /\ 0 < p_h q) slab /\ slab <> [] /\ 0 < phi < 90) /\
    let rhos := map (fun q => (1 / 1000000000000 * p_rho q, p_h q)) slab in
    let W := wedge_integral rhos (deg2rad phi) in
    fst (fst (calc_vertical_bc_center_of_gravity slab phi))
    <> W (fun x _ => x) / W (fun _ _ => 1).
Proof. exact wedge_xs_wrong. Qed.
Print Assumptions C07_wedge_xs_refuted.
(** It is off by the factor 1 - tan^2(phi/2), for every slab and slope. *)
Theorem C07_wedge_xs_ratio slab phi :
  Forall (fun q => 0 < p_rho q /\ 0 < p_h q) slab -> slab <> [] ->
  -90 < phi < 90 -> phi <> 0 ->
  let rhos := map (fun q => (1 / 1000000000000 * p_rho q, p_h q)) slab in
  let W := wedge_integral rhos (deg2rad phi) in
  fst (fst (calc_vertical_bc_center_of_gravity slab phi))
  = (1 - tan (deg2rad phi / 2) ^ 2) * (W (fun x _ => x) / W (fun _ _ => 1))
  /\ W (fun x _ => x) / W (fun _ _ => 1) <> 0.
Proof. exact (wedge_xs_ratio slab phi). Qed.
Print Assumptions C07_wedge_xs_ratio.
Example C07_example : Forall (fun q => 0 < p_rho q /\ 0 < p_h q) ex_slab /\ ex_slab <> [] /\ -90 < 38 < 90 /\ 38 <> 0 /\
  let W := wedge_integral (map (fun q => (1 / 1000000000000 * p_rho q, p_h q)) ex_slab) (deg2rad 38) in
  fst (fst (calc_vertical_bc_center_of_gravity ex_slab 38)) = (1 - tan (deg2rad 38 / 2) ^ 2) * (W (fun x _ => x) / W (fun _ _ => 1)).
Proof.
  destruct C06_example as [H1 H2]. split; [exact H1|]. split; [exact H2|]. split; [lra|]. split; [lra|].
  exact (proj1 (C07_wedge_xs_ratio ex_slab 38 H1 H2 ltac:(lra) ltac:(lra))).
Qed.

(** C08: decomposition of weight, surface and skier loads. *)
Theorem C08_load_decomposition :
  (forall g slab phi,
     let q := rsum (map (fun p => p_rho p * (1 / 1000000000000) * g * p_h p) slab) in
     let '(n, t) := get_weight_load g slab phi in
     n ^ 2 + t ^ 2 = q ^ 2 /\
     n = q * cos (phi * PI / 180) /\ t = - (q * sin (phi * PI / 180)) /\
     get_weight_load g slab (- phi) = (n, - t) /\
     get_weight_load g slab 0 = (q, 0)) /\
  (forall p phi,
     let '(n, t) := get_surface_load p phi in
     n ^ 2 + t ^ 2 = p ^ 2 /\
     n = p * cos (phi * PI / 180) /\ t = - (p * sin (phi * PI / 180)) /\
     get_surface_load p (- phi) = (n, - t) /\ get_surface_load p 0 = (p, 0)) /\
  (forall g lski m phi,
     let F := m * g / 1000 / lski in
     let '(n, t) := get_skier_load g lski m phi in
     n ^ 2 + t ^ 2 = F ^ 2 /\
     n = F * cos (phi * PI / 180) /\ t = - (F * sin (phi * PI / 180)) /\
     get_skier_load g lski m (- phi) = (n, - t) /\
     get_skier_load g lski m 0 = (F, 0)).
Proof. exact load_decomposition2. Qed.
Print Assumptions C08_load_decomposition.
Example C08_example : get_surface_load 3 0 = (3, 0).
Proof. exact (proj2 (proj2 (proj2 (proj2 ((proj1 (proj2 C08_load_decomposition)) 3 0))))). Qed.

(** C09: foundation stiffness. *)
Theorem C09_foundation E nu t : 0 < E -> -1 < nu < 1 -> 0 < t ->
  let n := fst (calc_foundation_stiffness E nu t) in
  let s := snd (calc_foundation_stiffness E nu t) in
  0 < n /\ 0 < s /\ n / s = 2 / (1 - nu) /\
  n = E / (1 - nu ^ 2) / t /\ s = E / (2 * (1 + nu)) / t /\
  forall c, 0 < c -> calc_foundation_stiffness E nu (c * t) = (n / c, s / c).
Proof. exact (foundation_all E nu t). Qed.
Print Assumptions C09_foundation.
Theorem C09_setter eig o t E nu o' : 0 < t -> 0 < E -> -1 < nu < 1 ->
  set_foundation_properties eig o t E nu true = o' ->
  kn (o_par o') = E / (1 - nu ^ 2) / t /\ kt (o_par o') = E / (2 * (1 + nu)) / t /\
  wt (o_par o') = t /\ fnd_ok (o_par o').
Proof. exact (foundation_setter eig o t E nu o'). Qed.
Print Assumptions C09_setter.
Example C09_example : 0 < 1 / 4 /\ -1 < 1 / 4 < 1 /\ 0 < 30.
Proof. lra. Qed.

(** C10: density parametrisations. *)
Theorem C10_parametrisations :
  (forall r1 r2, 0 < r1 < r2 -> 0 < scapozza r1 < scapozza r2) /\
  (forall r1 r2 C0 C1, 0 < r1 < r2 -> 0 < C0 -> 0 < C1 ->
     0 < gerling r1 C0 C1 < gerling r2 C0 C1) /\
  (forall r1 r2 r0 C0 C1, 0 < r1 < r2 -> 0 < r0 -> 0 < C0 -> 0 < C1 ->
     0 < bergfeld r1 r0 C0 C1 < bergfeld r2 r0 C0 C1) /\
  (forall r1 r2 unit s1 s2, 0 < r1 < r2 ->
     tensile_strength_slab r1 unit = Ok s1 -> tensile_strength_slab r2 unit = Ok s2 ->
     0 < s1 < s2) /\
  (forall r a b, tensile_strength_slab r "kPa" = Ok a ->
     tensile_strength_slab r "MPa" = Ok b -> a = 1000 * b) /\
  (forall r u, (u = "kPa" \/ u = "MPa")%string <-> exists s, tensile_strength_slab r u = Ok s).
Proof. exact parametrisations2. Qed.
Print Assumptions C10_parametrisations.
Example C10_example : 0 < 200 < 300 /\ (exists s, tensile_strength_slab 200 "kPa" = Ok s).
Proof. split; [lra|]. eexists; reflexivity. Qed.

(** C10: each parametrisation is a power law through its reference value: 5.07 GPa (Scapozza) and
    C0 GPa (Bergfeld) for ice, C0 times 1e-10 MPa at 1 kg/m^3 (Gerling), and a strength of 240 kPa for ice. *)
Definition power_law (f : R -> R) (exponent reference value : R) : Prop :=
  f reference = value /\ forall c r, 0 < c -> 0 < r -> f (c * r) = Rpower c exponent * f r.
Lemma Rpower_1_l y : Rpower 1 y = 1.
Proof. unfold Rpower. rewrite ln_1, Rmult_0_r. apply exp_0. Qed.
Lemma power_law_ratio a b n : 0 < b -> power_law (fun r => a * Rpower (r / b) n) n b a.
Proof.
  intros B. split; [unfold Rdiv; rewrite Rinv_r, Rpower_1_l by lra; ring|]. intros c r C P.
  replace (c * r / b) with (c * (r / b)) by (field; lra).
  rewrite <- Rpower_mult_distr; [ring|exact C|apply Rmult_lt_0_compat; [exact P|apply Rinv_0_lt_compat; exact B]].
Qed.
Theorem C10_power_laws :
  power_law scapozza (513 / 100) 917 5070 /\
  (forall C0 C1, power_law (fun r => gerling r C0 C1) C1 1 (C0 / 10000000000)) /\
  (forall rho0 C0 C1, 0 < rho0 -> power_law (fun r => bergfeld r rho0 C0 C1) C1 rho0 (1000 * C0)) /\
  exists f, power_law f (244 / 100) 917 240 /\ forall r, tensile_strength_slab r "kPa" = Ok (f r).
Proof.
  split; [|split; [|split]].
  - pose proof (power_law_ratio 5070 917 (513 / 100) ltac:(lra)) as [A B].
    assert (E : forall r, scapozza r = 5070 * Rpower (r / 917) (513 / 100)) by (intros r; unfold scapozza; do 2 f_equal; field).
    split; [rewrite E; exact A|]. intros c r C P. rewrite !E. apply B; assumption.
  - intros C0 C1. split; [unfold gerling; rewrite Rpower_1_l; field|]. intros c r C P. unfold gerling. rewrite <- Rpower_mult_distr by assumption. ring.
  - intros rho0 C0 C1 P. pose proof (power_law_ratio (C0 * 1000) rho0 C1 P) as [A B].
    split; [unfold bergfeld; rewrite A; ring|exact B].
  - exists (fun r => 240 * Rpower (r / 917) (244 / 100)). split; [apply power_law_ratio; lra|].
    intros r. unfold tensile_strength_slab. cbn. f_equal. ring.
Qed.
Print Assumptions C10_power_laws.
