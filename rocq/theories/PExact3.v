(** A slab of solid ice: the parameters are rational numbers. *)
From Coq Require Import Lra Permutation.
From Coquelicot Require Import Coquelicot.
Require Import Verif.Py Verif.MTools Verif.MEigen Verif.SAdm Verif.SSlab Verif.SBeam Verif.SBvp Verif.SEig
  Verif.SExact Verif.PSlab Verif.PCog Verif.PLam Verif.PSetup Verif.PExact Verif.PExact2.
Open Scope R_scope.

Definition ice_par (h t E nu : R) : params :=
  mkPar (E / (1 - nu ^ 2) / t) (E / (2 * (1 + nu)) / t) t h 0
        (20800 / 3 * h) 0 (5200 / 9 * h ^ 3) (6500 / 3 * h) (- (20800 / 3 * h) * (5200 / 9 * h ^ 3)).

Lemma ice_modulus : bergfeld 917 917 (65 / 10) (44 / 10) = 6500.
Proof.
  unfold bergfeld. replace (917 / 917) with 1 by field.
  unfold Rpower. rewrite ln_1, Rmult_0_r, exp_0. field.
Qed.

Lemma ice_object eig system td h t E nu : 0 < h ->
  exists o, Layered eig system (LList [(917, h)]) td = Ok o /\
    o_par (set_foundation_properties eig o t E nu true) = ice_par h t E nu.
Proof.
  intros Hh. unfold Layered. rewrite set_beam_list by discriminate. cbn [bind].
  eexists. split; [reflexivity|].
  unfold set_foundation_properties.
  match goal with |- o_par (o_calc_fundamental_system eig ?x) = _ =>
    destruct (fundamental_par eig x) as (P & _ & _) end.
  cbv zeta in P. rewrite P. clear P.
  unfold ice_par. simpl. rewrite ice_modulus.
  unfold calc_laminate_stiffness_matrix, calc_center_of_gravity, get_ply_coordinates, calc_foundation_stiffness.
  simpl. f_equal; try field; lra.
Qed.

(** Ice on the default weak layer: six different eigenvalues. *)
Lemma ice_default_disc : chi_disc (calc_system_matrix (ice_par 90 30 (1 / 4) (1 / 4))) <> 0.
Proof.
  set (K := calc_system_matrix _).
  assert (E2 : chi2 K = - 223 / 2808000000)
    by (unfold K, chi2, calc_system_matrix, ice_par; simpl; field).
  assert (E1 : chi1 K = 52003 / 2464020000000000)
    by (unfold K, chi1, calc_system_matrix, ice_par; simpl; field).
  assert (E0 : chi0 K = - 1 / 8870472000000000000)
    by (unfold K, chi0, calc_system_matrix, ice_par; simpl; field).
  unfold chi_disc. rewrite E0, E1, E2. lra.
Qed.
(** Ice on a weak layer chosen to make two eigenvalues coincide. *)
Lemma ice_double_disc : chi_disc (calc_system_matrix (ice_par 90 70 (89600 / 9) (1 / 5))) = 0.
Proof.
  unfold chi_disc, chi2, chi1, chi0, calc_system_matrix, ice_par; simpl. field.
Qed.
