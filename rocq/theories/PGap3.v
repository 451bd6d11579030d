(** Cracks just beyond full contact (C109): the search for the contact length fails. *)
From Coq Require Import Lra Lia.
From Coquelicot Require Import Coquelicot.
Require Import Verif.Py Verif.MTools Verif.MEigen Verif.MFields Verif.SAdm Verif.MRaster
  Verif.MSolution Verif.SBeam Verif.SBvp Verif.SEig Verif.SContact Verif.SWindow Verif.PSetup Verif.PBeam Verif.PBeam2 Verif.PBalance
  Verif.PSub Verif.PTouch Verif.PContact Verif.PContact2 Verif.PContact3 Verif.PRigid Verif.PWindow Verif.PWindow2 Verif.PGap Verif.PGap2.
Open Scope R_scope.

Section Gap.
Variable eig : mat6 -> list eigpair.
Variable solve : nat -> matrix -> vector -> res vector.
Variable brent : R -> R -> list (R * R) -> bstep.
Variable maxeval : nat.
Hypotheses (Hso : sound_solver solve) (Hco : complete_solver solve).
Variables (o : obj) (L phi cf ratio : R).
Hypotheses (Hs : substitute_ready eig o "supported") (NH : never_hidden o L) (Hq0 : 0 <= level_load o).
Let q := slope_load o phi.
Let tc := fall o cf.
Hypotheses (Hq : 0 < q) (Ht : 0 < tc).
Let ob a := attributes_of o L a cf phi ratio.

Lemma spring_same a dof l : (dof = "rot"%string \/ dof = "trans"%string) -> 0 < l ->
  spring_of eig solve (ob a) "supported" dof l = spring_of eig solve o "supported" dof l /\
  spring_of eig solve (set_mode ModeC (ob a)) "supported" dof l = spring_of eig solve o "supported" dof l.
Proof.
  intros Hd Hl. destruct (beam_exists eig o l "supported" Hs Hl) as [[z B] [z' B']].
  assert (S1 : substitute_ready eig (ob a) "supported") by exact Hs.
  assert (S2 : substitute_ready eig (set_mode ModeC (ob a)) "supported") by exact Hs.
  unfold spring_of. destruct Hd as [->| ->].
  - rewrite (proj2 (sub_rot eig solve o l "supported" z Hso Hco Hs Hl B)), (proj2 (sub_rot eig solve (ob a) l "supported" z Hso Hco S1 Hl B)),
      (proj2 (sub_rot eig solve (set_mode ModeC (ob a)) l "supported" z Hso Hco S2 Hl B)). split; reflexivity.
  - rewrite (proj2 (sub_trans eig solve o l "supported" z' Hso Hco Hs Hl B')), (proj2 (sub_trans eig solve (ob a) l "supported" z' Hso Hco S1 Hl B')),
      (proj2 (sub_trans eig solve (set_mode ModeC (ob a)) l "supported" z' Hso Hco S2 Hl B')). split; reflexivity.
Qed.

(** Full contact is a root of the polynomial. *)
Lemma full_root b : 0 < b < L -> (full_contact_at eig solve o L q tc b <-> a2_of eig solve (ob 0) L b = 0).
Proof.
  intros Hb. pose proof (proj1 (proj1 Hs)) as Hl.
  destruct (kn_pos eig solve Hso Hco o L Hs NH Hq0 b Hb) as [K N].
  destruct (spring_rot eig solve Hso Hco o "supported" (L - b) Hs ltac:(lra)) as (F1 & _).
  destruct (spring_trans eig solve Hso Hco o (L - b) L Hs ltac:(lra) NH Hq0) as (F2 & _).
  unfold a2_of. rewrite (proj1 (spring_same 0 "rot" (L - b) (or_introl eq_refl) ltac:(lra))), (proj1 (spring_same 0 "trans" (L - b) (or_intror eq_refl) ltac:(lra))).
  change (o_par (ob 0)) with (o_par o). change (calc_qn (ob 0)) with q. change (o_tc (ob 0)) with tc. rewrite poly_a2_is_lC. split.
  - intros (kR & kN & z & E1 & E2 & HB & HC & HD). rewrite F1 in E1. rewrite F2 in E2. apply Ok_inj in E1. apply Ok_inj in E2. subst kR kN.
    exact (proj2 (proj1 (lC_sign (o_par o) q _ _ b 0 tc z Hl K N ltac:(lra) ltac:(lra) HB HC)) HD).
  - intros E. destruct (contact_tip_exists (o_par o) q _ _ 0 tc b Hl K N ltac:(lra) ltac:(lra)) as (z & HB & HC).
    exists (spring_of eig solve o "supported" "rot" (L - b)), (spring_of eig solve o "supported" "trans" (L - b)), z.
    rewrite F1, F2. repeat (split; [assumption || reflexivity|]).
    exact (proj1 (proj1 (lC_sign (o_par o) q _ _ b 0 tc z Hl K N ltac:(lra) ltac:(lra) HB HC)) E).
Qed.

Lemma no_contact_length b : substitute_ready eig (set_stiffness_ratio ratio o) "rested" -> rejects_equal_signs brent -> (2 <= maxeval)%nat ->
  0 < b < L -> a2_of eig solve (ob 0) L b = 0 -> ratio * kn (o_par o) * b ^ 2 < 12000000 * kA55 (o_par o) ->
  exists e, 0 < e /\ forall a, Rabs (a - b) < e -> 0 < a < L /\
    calc_lC eig solve brent maxeval (set_mode ModeC (ob a)) = (Err ValueError, set_mode ModeC (ob a)).
Proof.
  intros Hr Hrj Hme Hb H0 Hm.
  destruct (near_full eig solve Hso Hco (ob 0) L Hs NH Hq0 Hq b (ratio * kn (o_par o)) Hb H0 Hm) as (e & He & E1 & E2 & P).
  exists e. split; [exact He|]. intros a Ha. destruct (P a Ha) as (M & Lo & Hi). clear P. apply Rabs_def2 in Ha. 
  assert (Pa : 0 < a < L) by lra. split; [exact Pa|].
  set (oC := set_mode ModeC (ob a)). assert (Hs' : substitute_ready eig oC "supported") by exact Hs.
  assert (Hr' : substitute_ready eig oC "rested") by exact Hr.
  rewrite (proj1 (spring_same 0 "rot" (L - a) (or_introl eq_refl) ltac:(lra))), (proj1 (spring_same 0 "trans" (L - a) (or_intror eq_refl) ltac:(lra))) in Lo, Hi.
  rewrite <- (proj2 (spring_same a "rot" (L - a) (or_introl eq_refl) ltac:(lra))), <- (proj2 (spring_same a "trans" (L - a) (or_intror eq_refl) ltac:(lra))) in Lo, Hi.
  fold oC in Lo, Hi.
  unfold calc_lC. change (o_L oC) with (Some L). cbv iota beta. change (o_a oC) with a.
  destruct (spring_rot eig solve Hso Hco oC "rested" (a - a / 1000) Hr' ltac:(lra)) as (_ & (C1 & _) & _).
  destruct (spring_rot eig solve Hso Hco oC "rested" (a - 999 / 1000 * a) Hr' ltac:(lra)) as (_ & (C2 & C3) & _).
  apply (rejects brent maxeval oC oC (lC_of eig solve oC L a (a / 1000)) (lC_of eig solve oC L a (999 / 1000 * a)));
    [exact Hrj|exact Hme| | | |reflexivity].
  - apply (three_springs eig solve Hso Hco oC (L - a) (a - a / 1000) L (fun kR kN kT => poly_lC _ _ _ _ kR kN kT (a / 1000)) Hs' Hr' ltac:(lra) ltac:(lra) NH Hq0).
  - apply (three_springs eig solve Hso Hco oC (L - a) (a - 999 / 1000 * a) L (fun kR kN kT => poly_lC _ _ _ _ kR kN kT (999 / 1000 * a)) Hs' Hr' ltac:(lra) ltac:(lra) NH Hq0).
  - specialize (Lo _ (Rlt_le _ _ C1)).
    assert (B : 0 <= spring_of eig solve oC "rested" "rot" (a - 999 / 1000 * a) <= kA55 (o_par o) * a / 1000).
    { split; [lra|]. apply (Rle_trans _ _ _ C3). change (kn (foundation_of oC "rested")) with (ratio * kn (o_par o)).
      replace (a - 999 / 1000 * a) with (a / 1000) by field.
      replace (ratio * kn (o_par o) * (a / 1000) ^ 3 / 12) with (ratio * kn (o_par o) * a ^ 2 * (a / 12000000000)) by field.
      replace (kA55 (o_par o) * a / 1000) with (12000000 * kA55 (o_par o) * (a / 12000000000)) by field.
      apply Rmult_le_compat_r; [lra|]. apply Rlt_le. exact M. }
    specialize (Hi _ B). change (lC_of eig solve oC L a (a / 1000) < 0) in Lo. change (lC_of eig solve oC L a (999 / 1000 * a) < 0) in Hi.
    rewrite <- Rmult_opp_opp. apply Rmult_lt_0_compat; lra.
Qed.

(** The call in stage C. *)
Lemma call_fails li mi ki k0 a m a1 a2 : o_touchdown o = true ->
  fst (calc_a1 eig solve brent maxeval (ob a)) = Ok a1 -> fst (calc_a2 eig solve brent maxeval (ob a)) = Ok a2 -> a1 < a -> a2 < a ->
  calc_lC eig solve brent maxeval (set_mode ModeC (ob a)) = (Err ValueError, set_mode ModeC (ob a)) ->
  fst (calc_segments eig solve brent maxeval li mi ki k0 L a m phi cf ratio o) = Err ValueError.
Proof.
  intros Htd E1 E2 H1 H2 EC. pose proof (proj1 (proj2 Hs)) as Hf.
  assert (Hfa : fresh eig (ob a)) by exact Hf.
  destruct (calc_a1 eig solve brent maxeval (ob a)) as [r1 o1] eqn:F1. cbn [fst] in E1. subst r1.
  destruct (calc_a2 eig solve brent maxeval (ob a)) as [r2 o2] eqn:F2. cbn [fst] in E2. subst r2.
  destruct (calc_a1_ok eig solve brent maxeval _ _ _ Hfa F1) as (? & _ & -> & _). destruct (calc_a2_ok eig solve brent maxeval _ _ _ Hfa F2) as (? & _ & -> & _).
  assert (Est : stage a a1 a2 = ModeC) by (apply stage_spec; lra).
  assert (E : calc_touchdown_mode eig solve brent maxeval (ob a) = (Ok tt, set_mode ModeC (ob a))).
  { unfold calc_touchdown_mode. change (o_touchdown (ob a)) with (o_touchdown o). rewrite Htd. unfold sbind.
    rewrite F1. cbn [fst snd]. rewrite F2. cbn [fst snd]. change (o_a (ob a)) with a. rewrite Est. reflexivity. }
  unfold calc_segments, calc_touchdown_system, sbind. rewrite attributes_eq. fold (ob a). rewrite E.
  unfold calc_touchdown_length. change (o_mode (set_mode ModeC (ob a))) with (Some ModeC). cbv iota. unfold sbind. rewrite EC. reflexivity.
Qed.
End Gap.
