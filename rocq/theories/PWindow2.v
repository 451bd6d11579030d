(** Success of the touchdown analysis (C108): the whole call. *)
From Coq Require Import Lra Lia.
From Coquelicot Require Import Coquelicot.
Require Import Verif.Py Verif.MTools Verif.MEigen Verif.MFields Verif.SAdm Verif.MRaster
  Verif.MSolution Verif.SBeam Verif.SBvp Verif.SEig Verif.SContact Verif.SWindow Verif.PSetup Verif.PBeam Verif.PBeam2
  Verif.PBalance Verif.PWell Verif.PSub Verif.PTouch Verif.PContact Verif.PRigid Verif.PWindow.
Open Scope R_scope.

Section Oracle.
Variable eig : mat6 -> list eigpair.
Variable solve : nat -> matrix -> vector -> res vector.
Variable brent : R -> R -> list (R * R) -> bstep.
Variable maxeval : nat.

(** ** The thresholds do not depend on the crack length *)
Definition same_cut {A} (a : R) (f : stM A) : Prop :=
  forall o, f (set_cracklength a o) = (fst (f o), set_cracklength a (snd (f o))).
Lemma sub_cut a L support dof : same_cut a (sub eig solve L support dof).
Proof.
  intros o. unfold sub, substitute_stiffness.
  fold (subst_obj eig o support dof). fold (subst_obj eig (set_cracklength a o) support dof).
  assert (E : subst_obj eig (set_cracklength a o) support dof = set_cracklength a (subst_obj eig o support dof)).
  { unfold subst_obj. destruct (mem_str dof ["rot"]%string), (mem_str dof ["trans"]%string), (mem_str support ["rested"]%string); reflexivity. }
  rewrite E. set (o2 := subst_obj eig o support dof).
  replace (assemble_and_solve_with solve (Err RuntimeError) (set_cracklength a o2) false 0 [L; 0] [0] [true; true])
    with (assemble_and_solve_with solve (Err RuntimeError) o2 false 0 [L; 0] [0] [true; true]).
  2: { unfold assemble_and_solve_with. change (check_segments (set_cracklength a o2)) with (check_segments o2).
       destruct (check_segments o2 [L; 0] [0] [true; true]); reflexivity. }
  destruct (assemble_and_solve_with solve (Err RuntimeError) o2 false 0 [L; 0] [0] [true; true]) as [C|]; [|reflexivity].
  change (o_par (set_cracklength a o2)) with (o_par o2).
  change (o_eig (set_cracklength a o2)) with (o_eig o2).
  change (loads_of (set_cracklength a o2) 0) with (loads_of o2 0).
  destruct (rasterize_solution _ _ _ C [L; 0] [true; true] 1) as [[[xq [|z0 zq]] xb]|]; try reflexivity.
  destruct (mem_str dof ["rot"; "trans"]%string); [|reflexivity].
  destruct (mem_str support ["rested"]%string); reflexivity.
Qed.
Lemma sbind_cut {A B} a (f : stM A) (g : A -> stM B) : same_cut a f -> (forall x, same_cut a (g x)) -> same_cut a (sbind f g).
Proof.
  intros Hf Hg o. unfold sbind. rewrite Hf. destruct (f o) as [[x|] o1]; cbn [fst snd]; [apply Hg|reflexivity].
Qed.
Lemma brentq_cut a f lo hi : (forall x, same_cut a (f x)) -> same_cut a (brentq brent maxeval f lo hi).
Proof.
  intros Hf. unfold brentq. generalize (@nil (R * R)). induction maxeval as [|fuel IH]; intros hist o; simpl.
  - destruct (brent lo hi hist); reflexivity.
  - destruct (brent lo hi hist); try reflexivity.
    rewrite Hf. destruct (f x o) as [[v|] o1]; cbn [fst snd]; [apply IH|reflexivity].
Qed.
Lemma calc_a1_cut a : same_cut a (calc_a1 eig solve brent maxeval).
Proof.
  intros o. unfold calc_a1. change (o_L (set_cracklength a o)) with (o_L o). destruct (o_L o) as [L|]; [|reflexivity].
  apply brentq_cut. intros x. apply sbind_cut; [apply sub_cut|intros u].
  apply sbind_cut; [apply sub_cut|intros b]. intros y. reflexivity.
Qed.
Lemma calc_a2_cut a : same_cut a (calc_a2 eig solve brent maxeval).
Proof.
  intros o. unfold calc_a2. change (o_L (set_cracklength a o)) with (o_L o). destruct (o_L o) as [L|]; [|reflexivity].
  apply brentq_cut. intros x. apply sbind_cut; [apply sub_cut|intros u].
  apply sbind_cut; [apply sub_cut|intros b]. intros y. reflexivity.
Qed.
Lemma attributes_cut o L a b cf phi ratio : attributes_of o L a cf phi ratio = set_cracklength a (attributes_of o L b cf phi ratio).
Proof. reflexivity. Qed.

(** ** The call *)
Lemma list_fine o li mi ki k0 L a m : In (o_system o) ["skiers"; "pst-"; "-pst"; "vpst-"; "-vpst"; "skier"]%string ->
  exists s, segment_lists o li mi ki k0 L a m = Ok s.
Proof.
  intros [E|[E|[E|[E|[E|[E|[]]]]]]]; unfold segment_lists; rewrite <- E; eexists; reflexivity.
Qed.
Lemma run_stage o li mi ki k0 L a m phi cf ratio a1 a2 : o_touchdown o = true ->
  In (o_system o) ["skiers"; "pst-"; "-pst"; "vpst-"; "-vpst"; "skier"]%string ->
  calc_a1 eig solve brent maxeval (attributes_of o L 0 cf phi ratio) = (Ok a1, attributes_of o L 0 cf phi ratio) ->
  calc_a2 eig solve brent maxeval (attributes_of o L 0 cf phi ratio) = (Ok a2, attributes_of o L 0 cf phi ratio) ->
  (stage a a1 a2 = ModeC -> exists l, calc_lC eig solve brent maxeval (set_mode ModeC (attributes_of o L a cf phi ratio))
     = (Ok l, set_mode ModeC (attributes_of o L a cf phi ratio))) ->
  exists s o', calc_segments eig solve brent maxeval li mi ki k0 L a m phi cf ratio o = (Ok s, o') /\ o_mode o' = Some (stage a a1 a2).
Proof.
  intros Ht Hy E1 E2 HC. set (o0 := attributes_of o L 0 cf phi ratio) in *.
  set (oa := attributes_of o L a cf phi ratio) in *.
  assert (Eo : oa = set_cracklength a o0) by reflexivity.
  assert (E : calc_touchdown_mode eig solve brent maxeval oa = (Ok tt, set_mode (stage a a1 a2) oa)).
  { unfold calc_touchdown_mode. change (o_touchdown oa) with (o_touchdown o). rewrite Ht. unfold sbind.
    rewrite Eo, calc_a1_cut, E1. cbn [fst snd]. rewrite calc_a2_cut, E2. reflexivity. }
  unfold calc_segments, calc_touchdown_system, sbind. rewrite attributes_eq. fold oa. rewrite E.
  unfold calc_touchdown_length. change (o_mode (set_mode (stage a a1 a2) oa)) with (Some (stage a a1 a2)).
  destruct (stage a a1 a2) eqn:Es.
  - destruct (list_fine (set_td (o_a (set_mode ModeA oa)) (set_mode ModeA oa)) li mi ki k0 L a m Hy) as (s & F).
    rewrite F. eexists _, _. split; reflexivity.
  - destruct (list_fine (set_td (o_a (set_mode ModeB oa)) (set_mode ModeB oa)) li mi ki k0 L a m Hy) as (s & F).
    rewrite F. eexists _, _. split; reflexivity.
  - destruct (HC eq_refl) as (l & El). unfold sbind. rewrite El.
    destruct (list_fine (set_td l (set_mode ModeC oa)) li mi ki k0 L a m Hy) as (s & F).
    rewrite F. eexists _, _. split; reflexivity.
Qed.

(** ** Long columns *)
Lemma long_rejected o li mi ki k0 L a m phi cf ratio :
  sound_solver solve -> complete_solver solve -> substitute_ready eig o "supported" ->
  rejects_equal_signs brent -> (2 <= maxeval)%nat -> 0 < L -> o_touchdown o = true ->
  let oa := attributes_of o L a cf phi ratio in
  0 < calc_qn oa -> 8 * bending (o_par o) * o_tc oa <= calc_qn oa * (L / 1000) ^ 4 ->
  fst (calc_segments eig solve brent maxeval li mi ki k0 L a m phi cf ratio o) = Err ValueError.
Proof.
  intros Hso Hco Hsr Hrj Hme HL Htd oa Hq Hfar.
  assert (Hsa : substitute_ready eig oa "supported") by exact Hsr. pose proof (proj1 (proj1 Hsa)) as Hlm.
  set (g := fun x => poly_a1 (bs_of (o_par oa)) (kA55 (o_par oa)) (calc_qn oa) (o_tc oa)
                       (spring_of eig solve oa "supported" "rot" (L - x)) (spring_of eig solve oa "supported" "trans" (L - x)) x).
  assert (P : forall x, L / 1000 <= x < L -> 0 < g x /\
     sbind (MSolution.sub eig solve (L - x) "supported" "rot") (fun kRl =>
     sbind (MSolution.sub eig solve (L - x) "supported" "trans") (fun kNl =>
     sret (poly_a1 (bs_of (o_par oa)) (kA55 (o_par oa)) (calc_qn oa) (o_tc oa) kRl kNl x))) oa = (Ok (g x), oa)).
  { intros x Hx. destruct (spring_rot eig solve Hso Hco oa "supported" (L - x) Hsa ltac:(lra)) as (F1 & (R1 & _) & _).
    destruct (spring_some eig solve Hso Hco oa (L - x) Hsa ltac:(lra)) as (F2 & T1). split.
    - apply a1_above; try assumption; [exact (bs_pos _ Hlm)|exact (ss_pos _ Hlm)|lra|].
      rewrite bs_bend. change (o_par oa) with (o_par o). eapply Rle_trans; [exact Hfar|].
      apply Rmult_le_compat_l; [lra|]. apply pow_incr. lra.
    - unfold sbind, sret, MSolution.sub. rewrite F1, F2. reflexivity. }
  destruct (P (L / 1000) ltac:(lra)) as (V1 & F1).
  destruct (P (999 / 1000 * L) ltac:(lra)) as (V2 & F2).
  unfold calc_segments, calc_touchdown_system, sbind. rewrite attributes_eq. fold oa.
  assert (E : calc_touchdown_mode eig solve brent maxeval oa = (Err ValueError, oa)).
  { unfold calc_touchdown_mode. change (o_touchdown oa) with (o_touchdown o). rewrite Htd. unfold sbind at 1.
    unfold calc_a1. change (o_L oa) with (Some L). cbv iota beta.
    rewrite (rejects brent maxeval oa oa _ _ _ _ _ Hrj Hme F1 F2 ltac:(apply Rmult_lt_0_compat; assumption) eq_refl). reflexivity. }
  rewrite E. reflexivity.
Qed.
End Oracle.
