(** A profile of snow of 300 kg/m3 with rational stiffnesses, used in examples. *)
From Coquelicot Require Import Coquelicot.
Require Import Verif.Py Verif.MTools Verif.MEigen Verif.MFields Verif.SAdm Verif.SSlab Verif.MRaster Verif.MSolution Verif.MAnalysis Verif.SBvp Verif.SEig Verif.SSegment Verif.SExact
  Verif.MEnvelope Verif.MCriterion Verif.PLam Verif.PSetup Verif.PLinAlg Verif.PBvp6 Verif.PCreate Verif.PExact Verif.PExact2 Verif.PExact3 Verif.PCreate2 Verif.PropExact.
Open Scope R_scope.

(** Density 917 (4/5)^5 kg/m3, about 300.5. *)
Definition snow_rho : R := 917 * (1024 / 3125).
(** Its stiffness relative to ice, (4/5)^22. *)
Definition snow_s : R := 17592186044416 / 2384185791015625.
Definition snow_par : params :=
  mkPar (1 / 4 / (1 - (1 / 4) ^ 2) / 30) (1 / 4 / (2 * (1 + 1 / 4)) / 30) 30 90 0
        (20800 / 3 * snow_s * 90) 0 (5200 / 9 * snow_s * 90 ^ 3) (6500 / 3 * snow_s * 90) (- (20800 / 3 * snow_s * 90) * (5200 / 9 * snow_s * 90 ^ 3)).
Lemma snow_modulus : bergfeld snow_rho 917 (65 / 10) (44 / 10) = 6500 * snow_s.
Proof.
  unfold bergfeld, snow_rho. replace (917 * (1024 / 3125) / 917) with ((4 / 5) ^ 5) by field.
  rewrite <- Rpower_pow by lra. rewrite Rpower_mult. replace (INR 5 * (44 / 10)) with (INR 22) by (simpl; field). rewrite Rpower_pow by lra.
  replace ((4 / 5) ^ 22) with snow_s by (unfold snow_s; field). field.
Qed.
Lemma snow_object eig system td : exists o, Layered eig system (LList [(snow_rho, 90)]) td = Ok o /\
    o_par (set_foundation_properties eig o 30 (1 / 4) (1 / 4) true) = snow_par.
Proof.
  unfold Layered. rewrite set_beam_list by discriminate. cbn [bind].
  eexists. split; [reflexivity|].
  unfold set_foundation_properties.
  match goal with |- o_par (o_calc_fundamental_system eig ?x) = _ =>
    destruct (fundamental_par eig x) as (P & _ & _) end.
  cbv zeta in P. rewrite P. clear P.
  assert (H : 0 < snow_rho) by (unfold snow_rho; lra).
  unfold snow_par. simpl. rewrite snow_modulus.
  unfold calc_laminate_stiffness_matrix, calc_center_of_gravity, get_ply_coordinates, calc_foundation_stiffness.
  simpl. f_equal; try field; lra.
Qed.
Lemma snow_adm : adm snow_par.
Proof. unfold adm, lam_ok, fnd_ok, snow_par, snow_s; simpl. repeat split; lra. Qed.
Lemma snow_stable : stable snow_par.
Proof. unfold stable, snow_par, snow_s; simpl; lra. Qed.
Lemma snow_disc : chi_disc (calc_system_matrix snow_par) <> 0.
Proof.
  set (K := calc_system_matrix _).
  assert (E2 : chi2 K = - 34027099609375 / 3161526938414088192)
    by (unfold K, chi2, calc_system_matrix, snow_par, snow_s; simpl; field).
  assert (E1 : chi1 K = 225084529219404022216796875 / 78087910799359045246897665802764288)
    by (unfold K, chi1, calc_system_matrix, snow_par, snow_s; simpl; field).
  assert (E0 : chi0 K = - 23283064365386962890625 / 11244659155107702515553263875598057472)
    by (unfold K, chi0, calc_system_matrix, snow_par, snow_s; simpl; field).
  unfold chi_disc. rewrite E0, E1, E2. lra.
Qed.
Lemma snow_hyps : forall o, Layered exact_eig "skiers" (LList [(snow_rho, 90)]) false = Ok o ->
  let p := o_par (set_foundation_properties exact_eig o 30 (1 / 4) (1 / 4) true) in
  stable p /\ good_eigenpairs (calc_system_matrix p) (exact_eig (calc_system_matrix p)).
Proof.
  intros o L. destruct (snow_object exact_eig "skiers" false) as (o' & L' & P). rewrite L in L'. apply Ok_inj in L'. subst o'. cbv zeta. rewrite P. split; [exact snow_stable|].
  apply good_exact; [apply system_shape|apply simple_disc; exact snow_disc|].
  pose proof (chi0_neg _ snow_adm). lra.
Qed.
