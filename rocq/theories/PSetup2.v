(** Further proofs for the slab properties C03, C07-C10. *)
From Coquelicot Require Import Coquelicot.
Require Import Verif.Py Verif.MTools Verif.MEigen Verif.SSlab Verif.SWedge
  Verif.SAdm Verif.PSlab Verif.PCog Verif.PLam Verif.PWedge Verif.PSetup.

Lemma setter_integrals eig o layers C0 C1 nu o' : pos_layers layers -> layers <> [] ->
  set_beam_properties eig o (LList layers) C0 C1 nu true = Ok o' ->
  let p := o_par o' in
  let Ep := map (fun l => (bergfeld (fst l) 917 C0 C1 / (1 - nu ^ 2), snd l)) layers in
  let G := map (fun l => (bergfeld (fst l) 917 C0 C1 / (2 * (1 + nu)), snd l)) layers in
  hh p = thickness layers /\
  A11 p = depth_integral Ep (fun _ => 1) /\
  B11 p = depth_integral Ep (fun z => z) /\
  D11 p = depth_integral Ep (fun z => z ^ 2) /\
  kA55 p = 5 / 6 * depth_integral G (fun _ => 1) /\
  K0 p = B11 p ^ 2 - A11 p * D11 p.
Proof.
  intros Hp Hne H p Ep G.
  rewrite set_beam_list in H by exact Hne. apply Ok_inj in H. subst o'.
  unfold p; clear p.
  set (o1 := with_slab o (5 / 6) _ _ _).
  destruct (fundamental_par eig o1) as (E & _). cbv zeta in E. rewrite E. clear E.
  cbn [hh A11 B11 D11 kA55 K0].
  assert (Hh : hh (o_par o1) = thickness layers).
  { change (hh (o_par o1)) with (fst (calc_center_of_gravity layers)). rewrite cog_closed. reflexivity. }
  assert (Hs : o_slab o1 = user_slab layers C0 C1 nu) by reflexivity.
  assert (Hk : o_k o1 = 5 / 6) by reflexivity.
  rewrite Hh, Hs, Hk. clear Hh Hs Hk o1.
  assert (HT : Forall (fun q => 0 < p_h q) (user_slab layers C0 C1 nu)).
  { unfold user_slab. apply Forall_map. eapply Forall_impl; [|exact Hp]. intros [r t] [_ Q]; exact Q. }
  pose proof (laminate_integrals _ (5 / 6) HT) as I. cbv zeta in I.
  rewrite user_slab_h, ps_user, sh_user in I.
  split; [reflexivity|].
  fold Ep in I. fold G in I.
  pose proof (laminate_closed (user_slab layers C0 C1 nu) (thickness layers) (5 / 6)) as E.
  destruct (calc_laminate_stiffness_matrix (user_slab layers C0 C1 nu) (thickness layers) (5 / 6))
    as [[[[A B] D] Sk] K] eqn:EQ.
  cbv zeta in E. injection E; intros EK _ _ _ _. 
  destruct I as (IA & IB & ID & IS). cbn [fst snd].
  repeat split; try assumption.
  injection E; intros E5 E4 E3 E2 E1. rewrite E5, E1, E2, E3. reflexivity.
Qed.

Lemma wedge_xs_wrong :
  exists slab phi,
    (Forall (fun q => 0 < p_rho q /\ 0 < p_h q) slab /\ slab <> [] /\ 0 < phi < 90) /\
    let rhos := map (fun q => (1 / 1000000000000 * p_rho q, p_h q)) slab in
    let W := wedge_integral rhos (deg2rad phi) in
    fst (fst (calc_vertical_bc_center_of_gravity slab phi))
    <> W (fun x _ => x) / W (fun _ _ => 1).
Proof.
  exists [mkPly 200 300 1 1 (1 / 4)], 40.
  assert (G : Forall (fun q => 0 < p_rho q /\ 0 < p_h q) [mkPly 200 300 1 1 (1 / 4)])
    by (repeat constructor; simpl; lra).
  assert (N : [mkPly 200 300 1 1 (1 / 4)] <> []) by discriminate.
  split; [split; [exact G|split; [exact N|lra]]|].
  intros rhos W E.
  destruct (wedge_xs_ratio _ 40 G N ltac:(lra) ltac:(lra)) as [R1 R2].
  fold rhos in R1, R2. fold W in R1, R2.
  change (rl [mkPly 200 300 1 1 (1 / 4)]) with rhos in *. fold W in R1, R2.
  rewrite E in R1.
  assert (T : 0 < tan (deg2rad 40 / 2)).
  { apply tan_pos_quarter. unfold deg2rad. pose proof PI_RGT_0. split; nra. }
  apply R2. apply (Rmult_eq_reg_l (tan (deg2rad 40 / 2) ^ 2)); [|nra].
  rewrite Rmult_0_r. lra.
Qed.

Lemma load_decomposition2 :
  (forall g slab phi,
     let q := rsum (map (fun p => p_rho p * (1 / 1000000000000) * g * p_h p) slab) in
     let '(n, t) := get_weight_load g slab phi in
     n ^ 2 + t ^ 2 = q ^ 2 /\
     n = q * cos (phi * PI / 180) /\ t = - (q * sin (phi * PI / 180)) /\
     get_weight_load g slab (- phi) = (n, - t) /\
     get_weight_load g slab 0 = (q, 0)) /\
  (forall p phi,
     let '(n, t) := get_surface_load p phi in
     n ^ 2 + t ^ 2 = p ^ 2 /\
     n = p * cos (phi * PI / 180) /\ t = - (p * sin (phi * PI / 180)) /\
     get_surface_load p (- phi) = (n, - t) /\ get_surface_load p 0 = (p, 0)) /\
  (forall g lski m phi,
     let F := m * g / 1000 / lski in
     let '(n, t) := get_skier_load g lski m phi in
     n ^ 2 + t ^ 2 = F ^ 2 /\
     n = F * cos (phi * PI / 180) /\ t = - (F * sin (phi * PI / 180)) /\
     get_skier_load g lski m (- phi) = (n, - t) /\
     get_skier_load g lski m 0 = (F, 0)).
Proof.
  destruct load_decomposition as (H1 & H2 & H3).
  assert (E : forall phi, deg2rad phi = phi * PI / 180) by (intros; unfold deg2rad; field).
  split; [|split].
  - intros g slab phi. specialize (H1 g slab phi). cbv zeta in *.
    unfold get_weight_load at 1 in H1; unfold get_weight_load at 1. cbv zeta in *.
    rewrite <- E. destruct H1 as (A & B & C).
    split; [exact A|]. split; [reflexivity|]. split; [ring|]. split; assumption.
  - intros g phi. specialize (H2 g phi).
    unfold get_surface_load at 1 in H2; unfold get_surface_load at 1. cbv zeta in *.
    rewrite <- E. destruct H2 as (A & B & C).
    split; [exact A|]. split; [reflexivity|]. split; [ring|]. split; assumption.
  - intros g lski m phi. specialize (H3 g lski m phi).
    unfold get_skier_load at 1 in H3; unfold get_skier_load at 1. cbv zeta in *.
    rewrite <- E. destruct H3 as (A & B & C).
    split; [exact A|]. split; [unfold Rdiv; ring|]. split; [unfold Rdiv; ring|]. split; assumption.
Qed.

Lemma foundation_all E nu t : 0 < E -> -1 < nu < 1 -> 0 < t ->
  let n := fst (calc_foundation_stiffness E nu t) in
  let s := snd (calc_foundation_stiffness E nu t) in
  0 < n /\ 0 < s /\ n / s = 2 / (1 - nu) /\
  n = E / (1 - nu ^ 2) / t /\ s = E / (2 * (1 + nu)) / t /\
  forall c, 0 < c -> calc_foundation_stiffness E nu (c * t) = (n / c, s / c).
Proof.
  intros HE Hn Ht n s. destruct (foundation_pos E nu t HE Hn Ht) as (A & B & C).
  repeat split; try assumption; try reflexivity.
  intros c Hc. apply foundation_thickness; assumption.
Qed.

Lemma foundation_setter eig o t E nu o' : 0 < t -> 0 < E -> -1 < nu < 1 ->
  set_foundation_properties eig o t E nu true = o' ->
  kn (o_par o') = E / (1 - nu ^ 2) / t /\ kt (o_par o') = E / (2 * (1 + nu)) / t /\
  wt (o_par o') = t /\ fnd_ok (o_par o').
Proof.
  intros Ht HE Hn H. pose proof (set_foundation_adm eig o t E nu o' Ht HE Hn H) as F.
  unfold set_foundation_properties in H. rewrite <- H. rewrite <- H in F.
  destruct (fundamental_par eig (with_weak o E nu t)) as (Q & _). cbv zeta in Q.
  rewrite Q in *. repeat split; try reflexivity; apply F.
Qed.

Lemma parametrisations2 :
  (forall r1 r2, 0 < r1 < r2 -> 0 < scapozza r1 < scapozza r2) /\
  (forall r1 r2 C0 C1, 0 < r1 < r2 -> 0 < C0 -> 0 < C1 ->
     0 < gerling r1 C0 C1 < gerling r2 C0 C1) /\
  (forall r1 r2 r0 C0 C1, 0 < r1 < r2 -> 0 < r0 -> 0 < C0 -> 0 < C1 ->
     0 < bergfeld r1 r0 C0 C1 < bergfeld r2 r0 C0 C1) /\
  (forall r1 r2 unit s1 s2, 0 < r1 < r2 ->
     tensile_strength_slab r1 unit = Ok s1 -> tensile_strength_slab r2 unit = Ok s2 ->
     0 < s1 < s2) /\
  (forall r a b, tensile_strength_slab r "kPa" = Ok a ->
     tensile_strength_slab r "MPa" = Ok b -> a = 1000 * b) /\
  (forall r u, (u = "kPa" \/ u = "MPa")%string <-> exists s, tensile_strength_slab r u = Ok s).
Proof.
  destruct parametrisations as (A & B & C & D & E). repeat (split; [assumption|]).
  intros r u. unfold tensile_strength_slab. split.
  - intros [->| ->]; simpl; eexists; reflexivity.
  - destruct (String.eqb u "kPa") eqn:E1; [apply String.eqb_eq in E1; auto|].
    destruct (String.eqb u "MPa") eqn:E2; [apply String.eqb_eq in E2; auto|].
    intros [s Hs]; discriminate.
Qed.
