(** A two-layer slab on the default weak layer with rational parameters. *)
From Coq Require Import Lra Permutation.
From Coquelicot Require Import Coquelicot.
Require Import Verif.Py Verif.MTools Verif.MEigen Verif.MSolution Verif.SAdm Verif.SSlab Verif.SBeam Verif.SBvp Verif.SEig
  Verif.SExact Verif.PSlab Verif.PCog Verif.PLam Verif.PSetup Verif.PLinAlg Verif.PBvp Verif.PBvp2 Verif.PBvp6 Verif.PBalance Verif.PExact Verif.PExact2
  Verif.PMoment.
Open Scope R_scope.

(** Moduli proportional to density: 60 mm of ice on 60 mm of half its density. *)
Definition two_layers : list (R * R) := [(917, 60); (917 / 2, 60)].
Lemma half_modulus : bergfeld (917 / 2) 917 (65 / 10) 1 = 3250.
Proof.
  unfold bergfeld. replace (917 / 2 / 917) with (1 / 2) by field. rewrite Rpower_1 by lra. field.
Qed.
Lemma full_modulus : bergfeld 917 917 (65 / 10) 1 = 6500.
Proof. unfold bergfeld. rewrite Rpower_1; [field|lra]. Qed.
Definition two_par : params :=
  mkPar (1 / 4 / (1 - (1 / 4) ^ 2) / 30) (1 / 4 / (2 * (1 + 1 / 4)) / 30) 30 120 (-10)
    624000 (-6240000) 748800000 195000 (-428313600000000).

Lemma two_object eig system td : exists o o', Layered eig system (LList [(917, 90)]) td = Ok o /\
  set_beam_properties eig o (LList two_layers) (65 / 10) 1 (1 / 4) true = Ok o' /\
  o_par o' = two_par /\ o_system o' = system /\
  o_eig o' = calc_eigensystem (eig (calc_system_matrix two_par)).
Proof.
  unfold Layered. rewrite set_beam_list by discriminate. cbn [bind].
  eexists _, _. split; [reflexivity|]. rewrite set_beam_list by discriminate. split; [reflexivity|].
  cbv zeta. cbv iota.
  match goal with |- o_par (o_calc_fundamental_system eig ?x) = _ /\ _ =>
    destruct (fundamental_par eig x) as (P & Q & _) end.
  cbv zeta in P, Q. 
  match type of P with _ = ?r => assert (E : r = two_par) end.
  { unfold two_par. simpl. rewrite half_modulus, full_modulus.
    unfold calc_laminate_stiffness_matrix, calc_center_of_gravity, get_ply_coordinates, calc_foundation_stiffness.
    simpl. f_equal; try field; lra. }
  rewrite E in P. rewrite P in Q |- *. split; [reflexivity|]. split; [reflexivity|exact Q].
Qed.
Lemma two_disc : chi_disc (calc_system_matrix two_par) <> 0.
Proof.
  set (K := calc_system_matrix _).
  assert (E2 : chi2 K = - 10627 / 123552000000)
    by (unfold K, chi2, calc_system_matrix, two_par; simpl; field).
  assert (E1 : chi1 K = 390047 / 30115800000000000)
    by (unfold K, chi1, calc_system_matrix, two_par; simpl; field).
  assert (E0 : chi0 K = - 1 / 14455584000000000000)
    by (unfold K, chi0, calc_system_matrix, two_par; simpl; field).
  unfold chi_disc. rewrite E0, E1, E2. lra.
Qed.
Lemma two_adm : adm two_par.
Proof. unfold adm, lam_ok, fnd_ok, two_par; simpl. repeat split; lra. Qed.
Lemma two_stable : stable two_par.
Proof. unfold stable, two_par; simpl; lra. Qed.
Lemma two_good : good_eigenpairs (calc_system_matrix two_par) (exact_eig (calc_system_matrix two_par)).
Proof.
  apply good_exact; [apply system_shape|apply simple_disc; exact two_disc|].
  pose proof (chi0_neg _ two_adm). lra.
Qed.
(** Under a surface load, with a crack of 200 mm and a skier above its middle. *)
Definition m_li : list R := [5000; 100; 100; 5000].
Definition m_mi : list R := [0; 80; 0].
Definition m_ki : list bool := [true; false; false; true].
Lemma two_solved : exists o1 o2, Layered exact_eig "skiers" (LList [(917, 90)]) false = Ok o1 /\
  set_beam_properties exact_eig o1 (LList two_layers) (65 / 10) 1 (1 / 4) true = Ok o2 /\
  let o := set_surface_load o2 1 in
  o_par o = two_par /\ ready o /\ exists Cs,
    assemble_and_solve exact_eig elim_solve o true 30 m_li m_mi m_ki = Ok Cs /\ bvp o 0 30 m_li m_mi m_ki Cs.
Proof.
  destruct (two_object exact_eig "skiers" false) as (o1 & o2 & E1 & E2 & P & Q & G). exists o1, o2.
  split; [exact E1|]. split; [exact E2|]. clear E1 E2 o1. cbv zeta.
  assert (P' : o_par (set_surface_load o2 1) = two_par) by exact P.
  assert (Q' : o_system (set_surface_load o2 1) = "skiers"%string) by exact Q.
  assert (G' : o_eig (set_surface_load o2 1) = calc_eigensystem (exact_eig (calc_system_matrix two_par))) by exact G.
  set (o := set_surface_load o2 1) in *. clearbody o. clear P Q G o2.
  split; [exact P'|].
  assert (Hr : ready o).
  { unfold ready. rewrite P'. split; [apply two_adm|]. split; [apply two_adm|]. eexists. split; [exact G'|exact two_good]. }
  split; [exact Hr|].
  destruct (well_posed exact_eig elim_solve o true 30 m_li m_mi m_ki KSkier 0 elim_sound elim_complete Hr) as (Cs & E & B & _).
  - rewrite P'. exact two_stable.
  - simpl; lia.
  - rewrite Q'. unfold invalid_segments, m_li, m_mi, m_ki. simpl. intros [A|[A|[A|[_ [A|A]]]]]; try discriminate; try (apply A; reflexivity).
    specialize (A true ltac:(auto)). discriminate.
  - split.
    + intros i Hi. unfold m_li in *. do 4 (destruct i as [|i]; [simpl; lra|]). simpl in Hi. lia.
    + exists 0%nat. simpl. split; [lia|]. split; [reflexivity|lra].
  - rewrite Q'. reflexivity.
  - discriminate.
  - discriminate.
  - discriminate.
  - exists Cs. split; assumption.
Qed.
