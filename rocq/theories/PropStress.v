(** Property theorems C46-C51: stresses over the slab thickness. *)
Require Import Verif.Py Verif.MTools Verif.MEigen Verif.MFields Verif.MAnalysis
  Verif.SAdm Verif.SBeam Verif.SSlab Verif.SStress Verif.PSetup Verif.PBeam Verif.PBeam2 Verif.PStress Verif.PStress2.
Require Import Sorting.Sorted.

(** Every slab built by [Layered] has the laminate the theorems below ask for. *)
Theorem C46_laminated eig system layers touchdown o : pos_layers layers ->
  Layered eig system (LList layers) touchdown = Ok o -> laminated o.
Proof. exact (Layered_laminated eig system layers touchdown o). Qed.
Print Assumptions C46_laminated.
(** C46: the mesh is the sequence of the layers' blocks. *)
Theorem C46_mesh o dz : 0 < dz -> Forall good_ply (o_slab o) ->
  exists blocks, get_zmesh o dz = List.concat blocks /\
    Forall2 (layer_block dz) (layer_tops (- hh (o_par o) / 2) (o_slab o)) blocks.
Proof. exact (zmesh_spec o dz). Qed.
Print Assumptions C46_mesh.
Definition ex_slab_layers : list (R * R) := [(200, 100); (300, 50)].
Lemma ex_slab_pos : pos_layers ex_slab_layers.
Proof. repeat constructor; simpl; lra. Qed.
Example C46_example : forall eig, exists o, Layered eig "skier" (LList ex_slab_layers) true = Ok o /\
  laminated o /\ adm (o_par o) /\ List.length (o_slab o) = 2%nat /\ 0 < o_g o /\
  exists q s, o_slab o = q :: s /\ p_rho q = 200.
Proof.
  intros eig. destruct (Layered eig "skier" (LList ex_slab_layers) true) as [o|] eqn:E; [|discriminate].
  exists o. split; [reflexivity|]. split; [exact (C46_laminated eig _ _ _ o ex_slab_pos E)|].
  split; [exact (proj1 (Layered_adm eig _ _ _ o ex_slab_pos E))|].
  apply Ok_inj in E. subst o. split; [reflexivity|]. split; [simpl; lra|]. eexists _, _. split; reflexivity.
Qed.

(** C47: the slab shear stress is zero at the top and equals the weak-layer shear stress less the
    tangential surface load at the bottom, whatever the mesh size. *)
Theorem C47_equilibrium o phi dz z : laminated o -> lam_ok (o_par o) -> 0 < dz ->
  exists T, Txz o phi dz "MPa" z = Ok T /\ List.length T = List.length (get_zmesh o dz) /\
    hd 1 T = 0 /\ last T 0 = s_tau (o_par o) true z - pt (loads_of o phi).
Proof. exact (Txz_ends o phi dz z). Qed.
Print Assumptions C47_equilibrium.
(** Units of the slab stresses. *)
Theorem C47_units o phi dz z : laminated o -> 0 < dz -> exists X T Z,
  (Sxx o phi dz "MPa" z = Ok X /\ Txz o phi dz "MPa" z = Ok T /\ Szz o phi dz "MPa" z = Ok Z) /\
  (Sxx o phi dz "kPa" z = Ok (map (Rmult 1000) X) /\ Txz o phi dz "kPa" z = Ok (map (Rmult 1000) T) /\
   Szz o phi dz "kPa" z = Ok (map (Rmult 1000) Z)) /\
  forall u, u <> "MPa"%string -> u <> "kPa"%string ->
    (forall r, Sxx o phi dz u z <> Ok r) /\ (forall r, Txz o phi dz u z <> Ok r) /\ (forall r, Szz o phi dz u z <> Ok r).
Proof. exact (stress_kPa o phi dz z). Qed.
Print Assumptions C47_units.
(** Weak-layer shear stress of a state with displacement and slope. *)
Example C47_example : forall eig, exists o T, Layered eig "skier" (LList ex_slab_layers) true = Ok o /\
  Txz o 38 10 "MPa" (mkV 1 0 0 0 0 0) = Ok T /\ hd 1 T = 0 /\ 0 < last T 0.
Proof.
  intros eig. destruct (C46_example eig) as (o & E & L & (A & F & _) & _). exists o.
  destruct (C47_equilibrium o 38 10 (mkV 1 0 0 0 0 0) L A ltac:(lra)) as (T & ET & _ & H0 & H1). exists T.
  repeat split; try assumption. rewrite H1. apply Ok_inj in E. subst o.
  unfold s_tau, loads_of. cbn. destruct F as (_ & K & _). cbn in K. lra.
Qed.

(** C48 is false: the formula on unsupported segments still contains the weak-layer stress, so
    for every slab there are states of an unsupported segment with shear stress at its free bottom. *)
Theorem C48_refuted o phi dz x l e : laminated o -> lam_ok (o_par o) -> fnd_ok (o_par o) -> 0 < dz ->
  exists C T, List.length C = 6%nat /\
    Txz o phi dz "MPa" (zsol (o_par o) e (loads_of o phi) x C l false) = Ok T /\ last T 0 <> 0.
Proof. exact (free_bottom o phi dz x l e). Qed.
Print Assumptions C48_refuted.

(** C49: independent of the mesh on flat ground, ... *)
Theorem C49_flat_partial o phi dz z : laminated o -> 0 < dz -> sin (deg2rad phi) = 0 ->
  Sxx o phi dz "MPa" z = Ok (map (fun q => m_E q / (1 - m_nu q ^ 2) * (z_du z + m_z q * z_dpsi z)) (get_zmesh o dz)).
Proof. exact (Sxx_flat o phi dz z). Qed.
Print Assumptions C49_flat_partial.
(** ... but not on a slope: the stress at the slab surface changes with the mesh size. *)
Theorem C49_refuted o phi z q s : laminated o -> o_slab o = q :: s -> 0 < p_rho q -> 0 < o_g o -> sin (deg2rad phi) <> 0 ->
  exists dz1 dz2 S1 S2, 0 < dz1 /\ 0 < dz2 /\
    Sxx o phi dz1 "MPa" z = Ok S1 /\ Sxx o phi dz2 "MPa" z = Ok S2 /\
    (0 < List.length S1)%nat /\ (0 < List.length S2)%nat /\
    hd 0 (map m_z (get_zmesh o dz1)) = hd 0 (map m_z (get_zmesh o dz2)) /\ hd 0 S1 <> hd 0 S2.
Proof. exact (Sxx_mesh_dependent o phi z q s). Qed.
Print Assumptions C49_refuted.
Example C48_C49_example : forall eig, exists o q s, Layered eig "skier" (LList ex_slab_layers) true = Ok o /\
  laminated o /\ lam_ok (o_par o) /\ fnd_ok (o_par o) /\ o_slab o = q :: s /\ 0 < p_rho q /\ 0 < o_g o /\ sin (deg2rad 30) <> 0.
Proof.
  intros eig. destruct (C46_example eig) as (o & E & L & (A & F & _) & _ & G & q & s & Eq & Hq). exists o, q, s.
  repeat (split; [assumption|]). split; [lra|]. split; [exact G|].
  replace (deg2rad 30) with (PI / 6) by (unfold deg2rad; field). rewrite sin_PI6. lra.
Qed.

(** C50: principal stresses of the slab, ... *)
Theorem C50_slab o phi dz unit z sx tx sz :
  Sxx o phi dz unit z = Ok sx -> Txz o phi dz unit z = Ok tx -> Szz o phi dz unit z = Ok sz ->
  exists P Q, principal_stress_slab o phi dz unit "max" false z = Ok P /\
    principal_stress_slab o phi dz unit "min" false z = Ok Q /\
    List.length P = List.length (get_zmesh o dz) /\ List.length Q = List.length (get_zmesh o dz) /\
    forall i, (i < List.length (get_zmesh o dz))%nat ->
      nth i P 0 + nth i Q 0 = nth i sx 0 + nth i sz 0 /\
      nth i P 0 * nth i Q 0 = nth i sx 0 * nth i sz 0 - nth i tx 0 ^ 2 /\ nth i Q 0 <= nth i P 0.
Proof. exact (principal_roots o phi dz unit z sx tx sz). Qed.
Print Assumptions C50_slab.
(** ... of the weak layer, ... *)
Theorem C50_weak_layer o sc unit z s t : sig_unit (o_par o) unit z = Ok s -> tau_unit (o_par o) unit z = Ok t ->
  exists P Q, principal_stress_weaklayer o sc unit "max" false z = Ok P /\
    principal_stress_weaklayer o sc unit "min" false z = Ok Q /\
    P + Q = s /\ P * Q = - t ^ 2 /\ Q <= 0 <= P.
Proof. exact (weak_principal o sc unit z s t). Qed.
Print Assumptions C50_weak_layer.
(** ... and rejected requests. *)
Theorem C50_invalid o phi dz sc unit val normalize z :
  (val <> "max" -> val <> "min" ->
     principal_stress_slab o phi dz unit val normalize z = Err ValueError /\
     principal_stress_weaklayer o sc unit val normalize z = Err ValueError)%string /\
  (forall sx tx sz, Sxx o phi dz unit z = Ok sx -> Txz o phi dz unit z = Ok tx -> Szz o phi dz unit z = Ok sz ->
     principal_stress_slab o phi dz unit "min" true z = Err ValueError) /\
  (forall s t, sig_unit (o_par o) unit z = Ok s -> tau_unit (o_par o) unit z = Ok t ->
     principal_stress_weaklayer o sc unit "max" true z = Err ValueError).
Proof. exact (invalid_requests o phi dz sc unit val normalize z). Qed.
Print Assumptions C50_invalid.
Example C50_example : forall eig, exists o sx tx sz s t, Layered eig "skier" (LList ex_slab_layers) true = Ok o /\
  let z := mkV 1 0 1 0 0 0 in
  Sxx o 38 10 "kPa" z = Ok sx /\ Txz o 38 10 "kPa" z = Ok tx /\ Szz o 38 10 "kPa" z = Ok sz /\
  sig_unit (o_par o) "kPa" z = Ok s /\ tau_unit (o_par o) "kPa" z = Ok t.
Proof.
  intros eig. destruct (C46_example eig) as (o & E & L & _).
  destruct (C47_units o 38 10 (mkV 1 0 1 0 0 0) L ltac:(lra)) as (X & T & Z & _ & (H1 & H2 & H3) & _).
  eexists o, _, _, _, _, _. split; [exact E|]. split; [exact H1|]. split; [exact H2|]. split; [exact H3|].
  split; reflexivity.
Qed.

(** C51: the normalised slab stress does not depend on the unit, ... *)
Theorem C51_slab_partial o phi dz val z : laminated o -> 0 < dz ->
  principal_stress_slab o phi dz "kPa" val true z = principal_stress_slab o phi dz "MPa" val true z /\
  exists P, principal_stress_slab o phi dz "MPa" "max" true z = Ok P.
Proof. exact (normalised_slab o phi dz val z). Qed.
Print Assumptions C51_slab_partial.
(** ... the normalised weak-layer stress does, ... *)
Theorem C51_weak_layer o sc z :
  exists a b, principal_stress_weaklayer o sc "kPa" "min" true z = Ok a /\
    principal_stress_weaklayer o sc "MPa" "min" true z = Ok b /\ a = 1000 * b /\
    b = (s_sig (o_par o) true z / 2 - sqrt (s_sig (o_par o) true z ^ 2 + 4 * s_tau (o_par o) true z ^ 2) / 2) / sc.
Proof.
  destruct (normalised_weak o sc z) as (a & b & H1 & H2 & H3 & H4). exists a, b.
  destruct (accessors (o_par o) z) as (_ & _ & _ & Q1 & Q2). rewrite Q1, Q2 in H4. auto.
Qed.
Print Assumptions C51_weak_layer.
(** ... with the default compressive strength 2.6 too, for every admissible model under compression. *)
Theorem C51_refuted o z : 0 < kn (o_par o) -> 0 < z_w z ->
  exists a b, principal_stress_weaklayer o (26 / 10) "kPa" "min" true z = Ok a /\
    principal_stress_weaklayer o (26 / 10) "MPa" "min" true z = Ok b /\ a <> b.
Proof.
  intros K W. destruct (C51_weak_layer o (26 / 10) z) as (a & b & H1 & H2 & H3 & H4). exists a, b.
  split; [exact H1|]. split; [exact H2|].
  assert (S0 : s_sig (o_par o) true z < 0). { unfold s_sig. pose proof (Rmult_lt_0_compat _ _ K W). lra. }
  pose proof (sqrt_pos (s_sig (o_par o) true z ^ 2 + 4 * s_tau (o_par o) true z ^ 2)). lra.
Qed.
Print Assumptions C51_refuted.
Example C51_example : exists o, 0 < kn (o_par o) /\ 0 < z_w (mkV 0 0 1 0 0 0) /\ adm (o_par o).
Proof.
  destruct (C46_example (fun _ => ex_ews)) as (o & _ & _ & A & _). exists o. pose proof A as (_ & (K & _) & _).
  split; [exact K|]. split; [simpl; lra|exact A].
Qed.
