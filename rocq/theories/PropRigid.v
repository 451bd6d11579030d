(** C107: the substitute springs lie between a rigid slab and the reaction of a rigid slab. *)
From Coq Require Import Lra Lia.
From Coquelicot Require Import Coquelicot.
Require Import Verif.Py Verif.MTools Verif.MEigen Verif.MRaster Verif.MSolution Verif.SAdm Verif.SSlab Verif.SBeam Verif.SBvp Verif.SEig
  Verif.SExact Verif.SContact Verif.SRegular Verif.PLam Verif.PSetup Verif.PLinAlg Verif.PSub Verif.PRegular Verif.PRegular2 Verif.PExact Verif.PExact2 Verif.PropRegular Verif.PRigid.
Open Scope R_scope.

(** The rotational substitute spring of a supported part of length L is at most as stiff as under a rigid slab, kn L^3/12,
    and for every s up to L at least as stiff as under a slab which spreads the moment over s. *)
Theorem C107_rotational eig solve o L support : sound_solver solve -> complete_solver solve ->
  substitute_ready eig o support -> 0 < L ->
  let p := foundation_of o support in
  exists k, fst (substitute_stiffness eig solve o L support "rot") = Ok k /\ 0 < k <= kn p * L ^ 3 / 12 /\
  forall s, 0 < s <= L ->
    1 / k <= 12 / (kn p * s ^ 3) + 13 * s / (35 * (D11 p - B11 p ^ 2 / A11 p)) + 6 / (5 * s * (kA55 p - kt p * wt p ^ 2 / 16)).
Proof.
  intros Hso Hco Hsr HL p. destruct (beam_exists eig o L support Hsr HL) as [[z B] _].
  destruct (sub_rot eig solve o L support z Hso Hco Hsr HL B) as [Hz E].
  assert (Hl : lam_ok p) by (unfold p, foundation_of; destruct (String.eqb support "rested"); exact (proj1 (proj1 Hsr))).
  destruct Hsr as (_ & _ & Hf & Hst & _). fold p in Hf, Hst, B. assert (Hn : 0 < kn p) by exact (proj1 Hf).
  assert (P3 : 0 < L ^ 3) by (apply pow_lt; lra).
  exists (1 / - z_psi (z 0)). split; [exact E|]. split; [split|].
  - apply Rdiv_lt_0_compat; lra.
  - pose proof (rigid_rot p L z Hl Hf Hst HL B) as Q. apply (Rmult_le_reg_r (- z_psi (z 0))); [lra|].
    replace (1 / - z_psi (z 0) * - z_psi (z 0)) with 1 by (field; lra).
    apply (Rmult_le_compat_l (kn p * L ^ 3 / 12)) in Q; [|apply Rlt_le, Rdiv_lt_0_compat; [apply Rmult_lt_0_compat|]; lra].
    replace (kn p * L ^ 3 / 12 * (12 / (kn p * L ^ 3))) with 1 in Q by (field; lra). exact Q.
  - intros s Hs. replace (1 / (1 / - z_psi (z 0))) with (- z_psi (z 0)) by (field; lra).
    exact (soft_rot p L s z Hl Hf Hst Hs B).
Qed.
Print Assumptions C107_rotational.

(** The translational one, as long as the load q on level ground does not hide it (C27). *)
Theorem C107_translational eig solve o L support : sound_solver solve -> complete_solver solve ->
  substitute_ready eig o support -> 0 < L ->
  let p := foundation_of o support in
  let q := qn (loads_of o 0) + pn (loads_of o 0) in
  0 <= q -> q * L < 4 ->
  exists k, fst (substitute_stiffness eig solve o L support "trans") = Ok k /\ 0 < k <= kn p * L / (4 - q * L) /\
  forall s, 0 < s <= L ->
    1 / k <= 4 / (kn p * s) + s ^ 3 / (105 * (D11 p - B11 p ^ 2 / A11 p)) + 2 * s / (15 * (kA55 p - kt p * wt p ^ 2 / 16)) - q / kn p.
Proof.
  intros Hso Hco Hsr HL p q Hq HqL. destruct (beam_exists eig o L support Hsr HL) as [_ [z B]].
  destruct (sub_trans eig solve o L support z Hso Hco Hsr HL B) as [Hz E].
  assert (Hl : lam_ok p) by (unfold p, foundation_of; destruct (String.eqb support "rested"); exact (proj1 (proj1 Hsr))).
  destruct Hsr as (_ & _ & Hf & Hst & _). fold p in Hf, Hst, B, E. fold q in E. assert (Hn : 0 < kn p) by exact (proj1 Hf).
  pose proof (rigid_trans p L z Hl Hf Hst HL B) as Q.
  assert (D : (4 - q * L) / (kn p * L) <= - (z_w (z 0) + q / kn p)).
  { replace ((4 - q * L) / (kn p * L)) with (4 / (kn p * L) - q / kn p) by (field; lra). lra. }
  assert (P : 0 < (4 - q * L) / (kn p * L)) by (apply Rdiv_lt_0_compat; [lra|apply Rmult_lt_0_compat; lra]).
  set (w := z_w (z 0) + q / kn p) in *.
  assert (A : Rabs (1 / w) = 1 / - w).
  { unfold Rdiv. rewrite !Rmult_1_l, Rabs_inv, Rabs_left by lra. reflexivity. }
  rewrite A in E. exists (1 / - w). split; [exact E|]. split; [split|].
  - apply Rdiv_lt_0_compat; lra.
  - apply (Rmult_le_reg_r (- w)); [lra|]. replace (1 / - w * - w) with 1 by (field; lra).
    apply (Rmult_le_compat_l (kn p * L / (4 - q * L))) in D; [|apply Rlt_le, Rdiv_lt_0_compat; [apply Rmult_lt_0_compat|]; lra].
    replace (kn p * L / (4 - q * L) * ((4 - q * L) / (kn p * L))) with 1 in D by (field; repeat split; lra). exact D.
  - intros s Hs. replace (1 / (1 / - w)) with (- w) by (field; lra).
    pose proof (soft_trans p L s z Hl Hf Hst Hs B) as T. fold p in T. unfold w. unfold bend, shear_left in T. lra.
Qed.
Print Assumptions C107_translational.

(** A regular model is ready for its own weak layer. *)
Lemma own_ready eig o : dependable eig -> built eig o -> regular (o_par o) -> substitute_ready eig o "supported".
Proof.
  intros De B Rg. destruct (built_ready eig o De B Rg) as [Hr Hst]. destruct (built_object eig o B) as (L & F & Hh & _ & Fr).
  split; [exact Hr|]. split; [exact Fr|]. split; [exact F|]. split; [exact Hst|].
  destruct Hr as (_ & _ & ews & _ & G). apply De with (exact_eig (calc_system_matrix (o_par o))); [exact (conj L (conj F Hh))|].
  destruct (built_object eig o B) as (_ & _ & _ & HB & _). pose proof (Rle_abs (2 * B11 (o_par o))).
  apply good_exact; [apply system_shape|apply regular_simple; trivial; lra|].
  pose proof (chi0_neg (o_par o) (conj L (conj F Hh))). lra.
Qed.

Lemma plain_loads eig system td rho h o phi : Layered eig system (LList [(rho, h)]) td = Ok o ->
  loads_of o phi = mkLd (rho * (1 / 1000000000000) * 9810 * h * cos (deg2rad phi)) (- (rho * (1 / 1000000000000) * 9810 * h) * sin (deg2rad phi)) 0 0
  /\ o_phi o = 0.
Proof.
  intros H. unfold Layered in H. rewrite set_beam_list in H by discriminate. cbn [bind] in H. apply Ok_inj in H. subst o.
  split; [|reflexivity]. unfold loads_of, get_weight_load, get_surface_load. cbn. f_equal; ring.
Qed.
(** One metre of the default slab on its weak layer. *)
Example C107_example : exists o, Layered exact_eig "pst-" (LList []) true = Ok o /\
  substitute_ready exact_eig o "supported" /\ 0 <= qn (loads_of o 0) + pn (loads_of o 0) /\ (qn (loads_of o 0) + pn (loads_of o 0)) * 1000 < 4.
Proof.
  change (Layered exact_eig "pst-" (LList []) true) with (Layered exact_eig "pst-" (LList [(240, 200)]) true).
  destruct (C104_uniform exact_eig "pst-" true 240 200 exact_dependable ltac:(lra) ltac:(lra)) as (o & H & Rg & _).
  assert (B : built exact_eig o)
    by (apply (built_new _ "pst-" (LList [(240, 200)]) true); [repeat constructor; simpl; lra|exact H]).
  exists o. split; [exact H|]. split; [exact (own_ready _ _ exact_dependable B Rg)|].
  destruct (plain_loads _ _ _ _ _ _ 0 H) as [-> _]. cbn [qn pn]. unfold deg2rad. rewrite Rmult_0_l, cos_0. lra.
Qed.
