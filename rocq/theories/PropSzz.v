(** C81: transverse normal stress at the slab surface and at the weak layer. *)
From Coquelicot Require Import Coquelicot.
Require Import Verif.Py Verif.MTools Verif.MEigen Verif.MFields Verif.MSolution Verif.MAnalysis
  Verif.SAdm Verif.SSlab Verif.SBeam Verif.SEig Verif.SStress Verif.SSzz
  Verif.PSetup Verif.PLam Verif.PBeam Verif.PBeam2 Verif.PStress Verif.PStress2 Verif.PSzz Verif.PComplete
  Verif.SExact Verif.PExact Verif.PExact2 Verif.PExact3 Verif.PropExact.
Open Scope R_scope.

(** Every slab built by [Layered] has the bending stiffness the theorems below ask for. *)
Theorem C81_bending eig system layers touchdown o : pos_layers layers ->
  Layered eig system (LList layers) touchdown = Ok o -> laminated o /\ bending o.
Proof.
  intros P E. split; [exact (Layered_laminated eig system layers touchdown o P E)|].
  revert E. unfold Layered.
  set (ly := match layers with [] => [(240, 200)] | _ => layers end).
  assert (Hnl : ly <> []) by (unfold ly; destruct layers; discriminate).
  replace (match LList layers with
           | LStr "" => LList [(240, 200)]
           | LStr (String _ _) => LList layers
           | LList [] => LList [(240, 200)]
           | LList (_ :: _) => LList layers end) with (LList ly)
    by (simpl; unfold ly; destruct layers; reflexivity).
  rewrite set_beam_list by exact Hnl. cbn [bind].
  intros E; apply Ok_inj in E; subst o. apply fundamental_bending.
Qed.
Print Assumptions C81_bending.

(** On a supported segment: zero at the slab surface; at the slab bottom the weak-layer normal stress plus
    the normal surface load, less half the weak-layer thickness times the derivative of the weak-layer
    shear stress, up to a discretisation error of second order in the mesh size. *)
Theorem C81_faces o phi dz ews C l x : laminated o -> bending o -> lam_ok (o_par o) -> fnd_ok (o_par o) -> 0 < dz ->
  Forall (true_eigenpair (calc_system_matrix (o_par o))) ews ->
  let p := o_par o in let ld := loads_of o phi in
  let z := fun s => zsol p (calc_eigensystem ews) ld s C l true in
  exists Z dtau (psi2 : R -> R) psi3 e, Szz o phi dz "MPa" (z x) = Ok Z /\
    List.length Z = List.length (get_zmesh o dz) /\
    is_derive (fun s => s_tau p true (z s)) x dtau /\
    (forall s, is_derive (fun r => z_dpsi (z r)) s (psi2 s)) /\ is_derive psi2 x psi3 /\
    hd 1 Z = 0 /\ last Z 0 = s_sig p true (z x) + pn ld - wt p / 2 * dtau + e /\
    Rabs e <= A11 p * Rabs psi3 * dz ^ 2 / 12.
Proof.
  intros HL HB Hl Hf Hd HT p ld z.
  destruct (Szz_ends o phi dz (z x) HL HB Hl Hd) as (Z & E & L & H0 & H1). fold p ld in H1.
  pose proof (fun s => supported_solution p ews ld C l s Hl Hf HT) as D. fold z in D.
  exists Z, (s_tau p true (dz_dx p ld (z x))), (fun s => z_dpsi (dz_dx p ld (z s))), (dpsi_dxdxdx p ld (z x)),
    (dpsi_dxdxdx p ld (z x) / 12 * mesh_err o dz).
  split; [exact E|]. split; [exact L|]. split; [|split; [|split; [|split; [exact H0|split; [exact H1|]]]]].
  - destruct (proj1 (D x)) as (D1 & _ & _ & D4 & D5 & _). unfold s_tau.
    pose proof (is_derive_scal _ x (kt p) _ (is_derive_minus _ _ x _ _ (is_derive_plus _ _ x _ _ D1
      (is_derive_scal _ x (hh p / 2) _ D5)) (is_derive_scal _ x (wt p / 2) _ D4))) as T.
    unfold plus, minus, opp, scal in T. simpl in T. unfold mult in T. simpl in T. exact T.
  - intros s. apply (proj1 (D s)).
  - destruct (proj1 (proj2 (D x))) as (_ & _ & _ & _ & _ & D6). exact D6.
  - destruct (mesh_err_bound o dz HL Hd) as [B1 B2]. fold p in B2. rewrite Rabs_mult.
    rewrite (Rabs_right (mesh_err o dz)) by lra. unfold Rdiv at 1. rewrite Rabs_mult, (Rabs_right (/ 12)) by lra.
    replace (A11 p * Rabs (dpsi_dxdxdx p ld (z x)) * dz ^ 2 / 12)
      with (Rabs (dpsi_dxdxdx p ld (z x)) * / 12 * (A11 p * dz ^ 2)) by field.
    apply Rmult_le_compat_l; [|exact B2]. pose proof (Rabs_pos (dpsi_dxdxdx p ld (z x))). lra.
Qed.
Print Assumptions C81_faces.

(** Refuted: in every model ready to be solved there are supported segments where, however fine the mesh,
    the transverse normal stress at the slab bottom is not the weak-layer normal stress, ... *)
Theorem C81_refuted o phi l : laminated o -> bending o -> ready o ->
  exists C dz0, List.length C = 6%nat /\ 0 < dz0 /\
    let z := zsol (o_par o) (o_eig o) (loads_of o phi) 0 C l true in
    forall dz, 0 < dz <= dz0 -> exists Z, Szz o phi dz "MPa" z = Ok Z /\
      wt (o_par o) / 4 <= Rabs (last Z 0 - s_sig (o_par o) true z).
Proof.
  intros HL HB Hr. pose proof Hr as (Hl & Hf & _). set (p := o_par o) in *. set (ld := loads_of o phi).
  destruct Hf as (Hkn & Hkt & Hwt).
  set (c0 := s_tau p true (dz_dx p ld vzero)).
  assert (Ht : forall a, s_tau p true (dz_dx p ld (mkV 0 a 0 0 0 0)) = kt p * a + c0).
  { intros a. unfold c0, s_tau, dz_dx, calc_system_matrix, get_load_vector, matvec, vadd, vzero, dot6. simpl. ring. }
  set (a := ((2 * pn ld / wt p - 1) - c0) / kt p).
  destruct (supported_state o ld l (mkV 0 a 0 0 0 0) Hr) as (C & LC & EC). fold p in EC.
  set (W := dpsi_dxdxdx p ld (mkV 0 a 0 0 0 0)).
  set (B := A11 p * Rabs W).
  assert (HA : 0 < A11 p) by apply Hl.
  assert (HBn : 0 <= B) by (apply Rmult_le_pos; [lra|apply Rabs_pos]).
  exists C, (Rmin 1 (wt p / (B + 1))). split; [exact LC|].
  assert (Hq : 0 < wt p / (B + 1)) by (apply Rdiv_lt_0_compat; lra).
  split; [apply Rmin_glb_lt; lra|]. intros z dz [Hd1 Hd2]. unfold z. rewrite EC. clear z.
  destruct (Szz_ends o phi dz (mkV 0 a 0 0 0 0) HL HB Hl Hd1) as (Z & E & _ & _ & H1). exists Z. split; [exact E|].
  rewrite H1. fold p ld W. rewrite Ht.
  replace (s_sig p true (mkV 0 a 0 0 0 0) + pn ld - wt p / 2 * (kt p * a + c0) + W / 12 * mesh_err o dz - s_sig p true (mkV 0 a 0 0 0 0))
    with (wt p / 2 + W / 12 * mesh_err o dz) by (unfold a; field; lra).
  assert (He : Rabs (W / 12 * mesh_err o dz) <= wt p / 4).
  { destruct (mesh_err_bound o dz HL Hd1) as [B1 B2]. fold p in B2. rewrite Rabs_mult.
    rewrite (Rabs_right (mesh_err o dz)) by lra. unfold Rdiv at 1. rewrite Rabs_mult, (Rabs_right (/ 12)) by lra.
    apply Rle_trans with (Rabs W * / 12 * (A11 p * dz ^ 2)).
    - apply Rmult_le_compat_l; [|exact B2]. pose proof (Rabs_pos W). lra.
    - replace (Rabs W * / 12 * (A11 p * dz ^ 2)) with (B * dz ^ 2 / 12) by (unfold B; field).
      assert (D1 : dz <= 1) by (eapply Rle_trans; [exact Hd2|apply Rmin_l]).
      assert (D2 : dz <= wt p / (B + 1)) by (eapply Rle_trans; [exact Hd2|apply Rmin_r]).
      assert (D3 : dz ^ 2 <= dz) by (simpl; nra).
      assert (D4 : (B + 1) * dz <= wt p).
      { apply Rmult_le_compat_l with (r := B + 1) in D2; [|lra]. replace ((B + 1) * (wt p / (B + 1))) with (wt p) in D2 by (field; lra). exact D2. }
      assert (B * dz ^ 2 <= B * dz) by (apply Rmult_le_compat_l; assumption). nra. }
  apply Rabs_le_between in He. rewrite Rabs_right; lra.
Qed.
Print Assumptions C81_refuted.
(** ... and under a surface load the stress at the slab surface is not that load. *)
Theorem C81_surface_refuted o phi dz z : laminated o -> bending o -> lam_ok (o_par o) -> 0 < dz ->
  0 < o_p o -> 0 < cos (deg2rad phi) ->
  exists Z, Szz o phi dz "MPa" z = Ok Z /\ 0 < pn (loads_of o phi) /\ hd 1 Z <> - pn (loads_of o phi).
Proof.
  intros HL HB Hl Hd Hp Hc. destruct (Szz_ends o phi dz z HL HB Hl Hd) as (Z & E & _ & H0 & _). exists Z.
  assert (P : 0 < pn (loads_of o phi)).
  { unfold loads_of, get_surface_load. destruct (get_weight_load _ _ _). simpl. apply Rmult_lt_0_compat; assumption. }
  split; [exact E|]. split; [exact P|]. rewrite H0. lra.
Qed.
Print Assumptions C81_surface_refuted.

(** 90 mm of ice under 1 kPa on the default weak layer. *)
Example C81_example : exists o, Layered exact_eig "skiers" (LList [(917, 90)]) false = Ok o /\
  let o' := set_surface_load (set_foundation_properties exact_eig o 30 (1 / 4) (1 / 4) true) 1 in
  laminated o' /\ bending o' /\ ready o' /\ 0 < o_p o' /\ 0 < cos (deg2rad 0).
Proof.
  destruct C74_example as (o & E & A & _ & G). exists o. split; [exact E|]. cbv zeta in A, G |- *.
  assert (P : pos_layers [(917, 90)]) by (repeat constructor; simpl; lra).
  destruct (C81_bending _ _ _ _ o P E) as [L _].
  set (o1 := set_foundation_properties exact_eig o 30 (1 / 4) (1 / 4) true) in *.
  assert (H1 : laminated o1 /\ bending o1 /\ o_eig o1 = calc_eigensystem (exact_eig (calc_system_matrix (o_par o1)))).
  { unfold o1, set_foundation_properties. cbv beta iota zeta. split; [|split].
    - apply fundamental_laminated; cbn; apply L.
    - apply fundamental_bending.
    - match goal with |- context [o_calc_fundamental_system ?e ?x] => destruct (fundamental_par e x) as (_ & Q & _) end.
      exact Q. }
  clearbody o1. destruct H1 as (H1 & H2 & H3).
  split; [exact H1|]. split; [exact H2|]. split; [|split].
  - split; [apply A|]. split; [apply A|]. eexists. split; [exact H3|exact G].
  - unfold set_surface_load. simpl. lra.
  - replace (deg2rad 0) with 0 by (unfold deg2rad; field). rewrite cos_0. lra.
Qed.
