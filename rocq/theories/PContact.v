(** Touchdown analysis (C28, C30 - C36, C69). *)
From Coquelicot Require Import Coquelicot.
Require Import Verif.Py Verif.MTools Verif.MEigen Verif.MFields Verif.SAdm Verif.MRaster
  Verif.MSolution Verif.SBeam Verif.SBvp Verif.SEig Verif.SContact Verif.PSetup Verif.PBeam Verif.PBeam2
  Verif.PBvp Verif.PBvp2 Verif.PBvp3 Verif.PBvp4 Verif.PBvp5 Verif.PBalance Verif.PLinAlg
  Verif.PWell Verif.PIndep Verif.PWell2 Verif.PWell3 Verif.PBvp6 Verif.PSub Verif.PTouch.

(** ** C30 *)
Lemma a2_after_a1 bs ss q tc kR kN l : 0 < bs -> 0 < ss -> 0 < q -> 0 < kR -> 0 < kN -> 0 < l ->
  poly_a2 bs ss q tc kR kN l = 0 -> 0 < poly_a1 bs ss q tc kR kN l.
Proof.
  intros Hb Hs Hq HR HN Hl H.
  set (Q := 72 * bs * ss ^ 2 * kR * kN * l ^ 2 + 144 * bs ^ 2 * ss ^ 2 * kN * l + 144 * bs ^ 2 * ss * kR * kN).
  set (S := 8 * ss ^ 2 * kR * kN * l ^ 6 + 48 * bs * ss ^ 2 * kN * l ^ 5 + 24 * bs * ss * kR * kN * l ^ 4
    + 24 * bs * ss ^ 2 * kR * l ^ 3 + 72 * bs ^ 2 * ss ^ 2 * kN * l ^ 4 / kR + 72 * bs ^ 2 * ss * kN * l ^ 3
    + 72 * bs ^ 2 * ss ^ 2 * l ^ 2).
  assert (HQ : 0 < Q).
  { unfold Q. repeat apply Rplus_lt_0_compat; repeat apply Rmult_lt_0_compat; try lra; apply pow_lt; lra. }
  assert (HS : 0 < S).
  { unfold S. repeat apply Rplus_lt_0_compat; try (apply Rdiv_lt_0_compat; [|lra]);
      repeat apply Rmult_lt_0_compat; try lra; apply pow_lt; lra. }
  assert (E : q * (Q * poly_a1 bs ss q tc kR kN l) = q * S + poly_a2 bs ss q tc kR kN l).
  { unfold Q, S, poly_a1, poly_a2. field. repeat split; lra. }
  rewrite H, Rplus_0_r in E. apply Rmult_eq_reg_l in E; [|lra].
  apply (Rmult_lt_reg_l Q); [exact HQ|]. rewrite Rmult_0_r, E. exact HS.
Qed.
Lemma stage_spec a a1 a2 :
  (stage a a1 a2 = ModeA <-> a <= a1) /\
  (stage a a1 a2 = ModeB <-> a1 < a <= a2) /\
  (stage a a1 a2 = ModeC <-> a1 < a /\ a2 < a).
Proof.
  unfold stage, Rltb, Rleb.
  destruct (Rle_dec a a1); destruct (Rlt_dec a1 a); destruct (Rle_dec a a2); simpl;
    repeat split; intros; try discriminate; try reflexivity; try lra.
Qed.
Definition mode_rank (m : tmode) : nat := match m with ModeA => 0 | ModeB => 1 | ModeC => 2 end.
Lemma stage_monotone a b a1 a2 : a <= b -> (mode_rank (stage a a1 a2) <= mode_rank (stage b a1 a2))%nat.
Proof.
  intros H. unfold stage, Rltb, Rleb.
  destruct (Rle_dec a a1), (Rlt_dec a1 a), (Rle_dec a a2), (Rle_dec b a1), (Rlt_dec a1 b), (Rle_dec b a2);
    simpl; try lia; lra.
Qed.

Section Oracle.
Variable eig : mat6 -> list eigpair.
Variable solve : nat -> matrix -> vector -> res vector.
Variable brent : R -> R -> list (R * R) -> bstep.
Variable maxeval : nat.

(** ** Runs of the root finder on functions that restore the object *)
Lemma brentq_run_ok f lo hi o : (forall x v o', f x o = (Ok v, o') -> o' = o) ->
  forall fuel hist r o', brentq_run brent fuel f lo hi hist o = (Ok r, o') ->
  o' = o /\ exists hist', brent lo hi hist' = BRet r /\
    forall x v, In (x, v) hist' -> In (x, v) hist \/ f x o = (Ok v, o).
Proof.
  intros Hf. induction fuel as [|fuel IH]; intros hist r o' H; simpl in H.
  - destruct (brent lo hi hist) as [x|r'|] eqn:E; try discriminate.
    injection H; intros <- <-. split; [reflexivity|]. exists hist. split; [exact E|]. auto.
  - destruct (brent lo hi hist) as [x|r'|] eqn:E; try discriminate.
    + destruct (f x o) as [[v|] o1] eqn:Ef; [|discriminate].
      pose proof (Hf x v o1 Ef) as ->. destruct (IH _ _ _ H) as (-> & h & Eh & HI).
      split; [reflexivity|]. exists h. split; [exact Eh|].
      intros y w Hy. destruct (HI y w Hy) as [[G|G]|G]; auto. right. injection G; intros <- <-. exact Ef.
    + injection H; intros <- <-. split; [reflexivity|]. exists hist. split; [exact E|]. auto.
Qed.

Let sub := sub eig solve.
Lemma sub2_restores o l1 l2 (g : R -> R -> R) v o' : fresh eig o ->
  sbind (sub l1 "supported" "rot") (fun a => sbind (sub l2 "supported" "trans") (fun b => sret (g a b))) o = (Ok v, o') ->
  o' = o /\ exists a b, fst (sub l1 "supported" "rot" o) = Ok a /\ fst (sub l2 "supported" "trans" o) = Ok b /\ v = g a b.
Proof.
  intros Hf. unfold sbind, sret.
  destruct (sub l1 "supported" "rot" o) as [[a|] o1] eqn:E1; [|discriminate].
  pose proof (sub_restores eig solve _ _ _ _ _ _ Hf E1) as ->.
  destruct (sub l2 "supported" "trans" o) as [[b|] o2] eqn:E2; [|discriminate].
  pose proof (sub_restores eig solve _ _ _ _ _ _ Hf E2) as ->.
  intros H. injection H; intros <- <-. split; [reflexivity|]. exists a, b. auto.
Qed.
Lemma sub3_restores o l1 l2 l3 (g : R -> R -> R -> R) v o' : fresh eig o ->
  sbind (sub l1 "supported" "rot") (fun a => sbind (sub l2 "supported" "trans") (fun b =>
    sbind (sub l3 "rested" "rot") (fun c => sret (g a b c)))) o = (Ok v, o') ->
  o' = o /\ exists a b c, fst (sub l1 "supported" "rot" o) = Ok a /\ fst (sub l2 "supported" "trans" o) = Ok b /\
    fst (sub l3 "rested" "rot" o) = Ok c /\ v = g a b c.
Proof.
  intros Hf. unfold sbind, sret.
  destruct (sub l1 "supported" "rot" o) as [[a|] o1] eqn:E1; [|discriminate].
  pose proof (sub_restores eig solve _ _ _ _ _ _ Hf E1) as ->.
  destruct (sub l2 "supported" "trans" o) as [[b|] o2] eqn:E2; [|discriminate].
  pose proof (sub_restores eig solve _ _ _ _ _ _ Hf E2) as ->.
  destruct (sub l3 "rested" "rot" o) as [[c|] o3] eqn:E3; [|discriminate].
  pose proof (sub_restores eig solve _ _ _ _ _ _ Hf E3) as ->.
  intros H. injection H; intros <- <-. split; [reflexivity|]. exists a, b, c. auto.
Qed.

Lemma calc_a1_ok o r o' : fresh eig o -> calc_a1 eig solve brent maxeval o = (Ok r, o') ->
  exists L, o_L o = Some L /\ o' = o /\ exists hist,
  brent (L / 1000) (999 / 1000 * L) hist = BRet r /\
  forall x v, In (x, v) hist -> exists kRl kNl, fst (sub (L - x) "supported" "rot" o) = Ok kRl /\
    fst (sub (L - x) "supported" "trans" o) = Ok kNl /\
    v = poly_a1 (bs_of (o_par o)) (kA55 (o_par o)) (calc_qn o) (o_tc o) kRl kNl x.
Proof.
  intros Hf H. unfold calc_a1 in H. destruct (o_L o) as [L|]; [|discriminate]. exists L. split; [reflexivity|].
  unfold brentq in H. apply brentq_run_ok in H.
  - destruct H as (-> & hist & E & HI). split; [reflexivity|]. exists hist. split; [exact E|].
    intros x v Hx. destruct (HI x v Hx) as [[]|G]. apply sub2_restores in G; [|exact Hf].
    destruct G as (_ & a & b & E1 & E2 & E3). exists a, b. auto.
  - intros x v o1 G. apply sub2_restores in G; [|exact Hf]. apply G.
Qed.
Lemma calc_a2_ok o r o' : fresh eig o -> calc_a2 eig solve brent maxeval o = (Ok r, o') ->
  exists L, o_L o = Some L /\ o' = o /\ exists hist,
  brent (L / 1000) (999 / 1000 * L) hist = BRet r /\
  forall x v, In (x, v) hist -> exists kRl kNl, fst (sub (L - x) "supported" "rot" o) = Ok kRl /\
    fst (sub (L - x) "supported" "trans" o) = Ok kNl /\
    v = poly_a2 (bs_of (o_par o)) (kA55 (o_par o)) (calc_qn o) (o_tc o) kRl kNl x.
Proof.
  intros Hf H. unfold calc_a2 in H. destruct (o_L o) as [L|]; [|discriminate]. exists L. split; [reflexivity|].
  unfold brentq in H. apply brentq_run_ok in H.
  - destruct H as (-> & hist & E & HI). split; [reflexivity|]. exists hist. split; [exact E|].
    intros x v Hx. destruct (HI x v Hx) as [[]|G]. apply sub2_restores in G; [|exact Hf].
    destruct G as (_ & a & b & E1 & E2 & E3). exists a, b. auto.
  - intros x v o1 G. apply sub2_restores in G; [|exact Hf]. apply G.
Qed.
Lemma calc_lC_ok o r o' : fresh eig o -> calc_lC eig solve brent maxeval o = (Ok r, o') ->
  exists L, o_L o = Some L /\ o' = o /\ exists hist,
  brent (o_a o / 1000) (999 / 1000 * o_a o) hist = BRet r /\
  forall x v, In (x, v) hist -> exists kRl kNl kRr, fst (sub (L - o_a o) "supported" "rot" o) = Ok kRl /\
    fst (sub (L - o_a o) "supported" "trans" o) = Ok kNl /\ fst (sub (o_a o - x) "rested" "rot" o) = Ok kRr /\
    v = poly_lC (bs_of (o_par o)) (kA55 (o_par o)) (calc_qn o) (o_tc o) kRl kNl kRr x.
Proof.
  intros Hf H. unfold calc_lC in H. destruct (o_L o) as [L|]; [|discriminate]. exists L. split; [reflexivity|].
  unfold brentq in H. apply brentq_run_ok in H.
  - destruct H as (-> & hist & E & HI). split; [reflexivity|]. exists hist. split; [exact E|].
    intros x v Hx. destruct (HI x v Hx) as [[]|G]. apply sub3_restores in G; [|exact Hf].
    destruct G as (_ & a & b & c & E1 & E2 & E3 & E4). exists a, b, c. auto.
  - intros x v o1 G. apply sub3_restores in G; [|exact Hf]. apply G.
Qed.

(** ** C34, C31: the touchdown analysis sets attributes only *)
Definition attributes_of (o : obj) (L a cf phi ratio : R) : obj :=
  with_contact o phi a (Some L) (cf * wt (o_par o) - calc_qn o / kn (o_par o)) ratio (o_mode o) (o_td o).
Lemma attributes_eq o L a cf phi ratio : set_touchdown_attributes L a cf phi ratio o = attributes_of o L a cf phi ratio.
Proof. reflexivity. Qed.

Lemma touchdown_mode_ok o o' : fresh eig o ->
  calc_touchdown_mode eig solve brent maxeval o = (Ok tt, o') ->
  exists m, o' = set_mode m o /\
  (o_touchdown o = false -> m = ModeA) /\
  (o_touchdown o = true -> exists a1 a2, calc_a1 eig solve brent maxeval o = (Ok a1, o) /\
     calc_a2 eig solve brent maxeval o = (Ok a2, o) /\ m = stage (o_a o) a1 a2).
Proof.
  intros Hf H. unfold calc_touchdown_mode in H. destruct (o_touchdown o).
  - unfold sbind in H. destruct (calc_a1 eig solve brent maxeval o) as [[a1|] o1] eqn:E1; [|discriminate].
    destruct (calc_a1_ok _ _ _ Hf E1) as (L1 & _ & -> & _).
    destruct (calc_a2 eig solve brent maxeval o) as [[a2|] o2] eqn:E2; [|discriminate].
    destruct (calc_a2_ok _ _ _ Hf E2) as (L2 & _ & -> & _).
    injection H; intros <-. eexists. split; [reflexivity|]. split; [discriminate|]. intros _. exists a1, a2. auto.
  - injection H; intros <-. exists ModeA. split; [reflexivity|]. split; [reflexivity|discriminate].
Qed.
Lemma touchdown_length_ok o o' : fresh eig o ->
  calc_touchdown_length eig solve brent maxeval o = (Ok tt, o') ->
  exists td, o' = set_td td o /\
    ((o_mode o = Some ModeA \/ o_mode o = Some ModeB) -> td = o_a o) /\
    (o_mode o = Some ModeC -> calc_lC eig solve brent maxeval o = (Ok td, o)).
Proof.
  intros Hf H. unfold calc_touchdown_length in H. destruct (o_mode o) as [[| |]|] eqn:Em.
  - injection H; intros <-. exists (o_a o). split; [reflexivity|]. split; [auto|discriminate].
  - injection H; intros <-. exists (o_a o). split; [reflexivity|]. split; [auto|discriminate].
  - unfold sbind in H. destruct (calc_lC eig solve brent maxeval o) as [[l|] o1] eqn:E1; [|discriminate].
    destruct (calc_lC_ok _ _ _ Hf E1) as (L1 & _ & -> & _).
    injection H; intros <-. exists l. split; [reflexivity|]. split; [intros [G|G]; discriminate|]. auto.
  - injection H; intros <-. exists (o_td o). split; [destruct o; simpl in *; subst; reflexivity|].
    split; [intros [G|G]; discriminate|discriminate].
Qed.

Lemma segments_state o li mi ki k0 L a m phi cf ratio s o' : fresh eig o ->
  calc_segments eig solve brent maxeval li mi ki k0 L a m phi cf ratio o = (Ok s, o') ->
  exists md td,
  o' = with_contact o phi a (Some L) (cf * wt (o_par o) - calc_qn o / kn (o_par o)) ratio (Some md) td /\
  segment_lists o' li mi ki k0 L a m = Ok s /\
  (md = ModeC -> exists o1, o_a o1 = a /\ fresh eig o1 /\ calc_lC eig solve brent maxeval o1 = (Ok td, o1)) /\
  (md <> ModeC -> td = a) /\
  (o_touchdown o = false -> md = ModeA).
Proof.
  intros Hf H. unfold calc_segments, calc_touchdown_system, sbind in H. rewrite attributes_eq in H.
  set (oa := attributes_of o L a cf phi ratio) in H.
  assert (Ha : fresh eig oa) by exact Hf.
  destruct (calc_touchdown_mode eig solve brent maxeval oa) as [[[]|] ob] eqn:E1; [|discriminate].
  destruct (touchdown_mode_ok _ _ Ha E1) as (md & -> & Hm & _).
  assert (Hb : fresh eig (set_mode md oa)) by exact Hf.
  destruct (calc_touchdown_length eig solve brent maxeval (set_mode md oa)) as [[[]|] oc] eqn:E2; [|discriminate].
  destruct (touchdown_length_ok _ _ Hb E2) as (td & -> & Ht1 & Ht2).
  injection H; intros <- Es. exists md, td. split; [reflexivity|].
  split; [exact Es|]. split; [|split].
  - intros ->. exists (set_mode ModeC oa). split; [reflexivity|]. split; [exact Hf|]. apply Ht2. reflexivity.
  - intros Hn. apply Ht1. destruct md; [left|right|contradiction]; reflexivity.
  - exact Hm.
Qed.

(** ** C31 *)
Lemma td_bounds o li mi ki k0 L a m phi cf ratio s o' : fresh eig o -> stays_in_bracket brent -> 0 <= a ->
  calc_segments eig solve brent maxeval li mi ki k0 L a m phi cf ratio o = (Ok s, o') ->
  (o_mode o' = Some ModeA \/ o_mode o' = Some ModeB \/ o_mode o' = Some ModeC) /\
  (o_mode o' <> Some ModeC -> o_td o' = a) /\
  (o_mode o' = Some ModeC -> a / 1000 <= o_td o' <= 999 / 1000 * a) /\
  (o_touchdown o = false -> o_mode o' = Some ModeA).
Proof.
  intros Hf Hb Ha H. destruct (segments_state _ _ _ _ _ _ _ _ _ _ _ _ _ Hf H) as (md & td & -> & _ & HC & HN & HT).
  simpl. split; [destruct md; auto|]. split; [|split].
  - intros Hn. apply HN. intros ->. apply Hn; reflexivity.
  - intros E. injection E; intros ->. destruct (HC eq_refl) as (o1 & Eo & Hf1 & E1).
    destruct (calc_lC_ok _ _ _ Hf1 E1) as (L1 & _ & _ & hist & Eb & _). rewrite Eo in Eb.
    exact (Hb (a / 1000) (999 / 1000 * a) hist td ltac:(lra) Eb).
  - intros E. rewrite (HT E). reflexivity.
Qed.

(** ** C33: neither stage nor touchdown length influence the analysis *)
Definition upd (m : option tmode) (t : R) (o : obj) : obj :=
  with_contact o (o_phi o) (o_a o) (o_L o) (o_tc o) (o_ratio o) m t.
Definition natural {A} (m : option tmode) (t : R) (f : stM A) : Prop :=
  forall o, f (upd m t o) = (fst (f o), upd m t (snd (f o))).
Lemma bc_upd m t o kR pos z : mem_str (o_system o) ["pst-"; "-pst"; "rested"]%string = false ->
  bc (upd m t o) kR false pos z = bc o kR false pos z.
Proof.
  intros H. assert (E : mem_str (o_system o) ["pst-"; "-pst"]%string = false).
  { unfold mem_str in *; simpl in *. destruct (String.eqb (o_system o) "pst-"), (String.eqb (o_system o) "-pst"); simpl in *; congruence. }
  unfold bc. change (o_system (upd m t o)) with (o_system o). rewrite E. reflexivity.
Qed.
Lemma assemble_upd m t o kR L : assemble (upd m t o) kR 0 [L; 0] [0] [true; true] = assemble o kR 0 [L; 0] [0] [true; true].
Proof.
  assert (E : build_rhs (upd m t o) kR 0 [L; 0] [0] [true; true] 2 = build_rhs o kR 0 [L; 0] [0] [true; true] 2).
  { unfold build_rhs. change (o_system (upd m t o)) with (o_system o).
    destruct (mem_str (o_system o) ["pst-"; "-pst"; "rested"]%string) eqn:E; cbn [negb].
    - reflexivity.
    - rewrite !bc_upd by exact E. reflexivity. }
  unfold assemble. cbn [List.length]. rewrite E. reflexivity.
Qed.
Lemma solve_upd m t o kR L : assemble_and_solve_with solve kR (upd m t o) false 0 [L; 0] [0] [true; true]
  = assemble_and_solve_with solve kR o false 0 [L; 0] [0] [true; true].
Proof.
  unfold assemble_and_solve_with. change (check_segments (upd m t o)) with (check_segments o).
  destruct (check_segments o [L; 0] [0] [true; true]); [|reflexivity]. cbn [bind List.length Nat.eqb].
  rewrite assemble_upd. reflexivity.
Qed.
Lemma sub_natural m t L support dof : natural m t (sub L support dof).
Proof.
  intros o. unfold sub, MSolution.sub, substitute_stiffness.
  fold (subst_obj eig o support dof). fold (subst_obj eig (upd m t o) support dof).
  assert (E : subst_obj eig (upd m t o) support dof = upd m t (subst_obj eig o support dof)).
  { unfold subst_obj. destruct (mem_str dof ["rot"]%string), (mem_str dof ["trans"]%string), (mem_str support ["rested"]%string); reflexivity. }
  rewrite E, solve_upd.
  destruct (assemble_and_solve_with solve (Err RuntimeError) (subst_obj eig o support dof) false 0 [L; 0] [0] [true; true]) as [C|]; [|reflexivity].
  change (o_par (upd m t (subst_obj eig o support dof))) with (o_par (subst_obj eig o support dof)).
  change (o_eig (upd m t (subst_obj eig o support dof))) with (o_eig (subst_obj eig o support dof)).
  change (loads_of (upd m t (subst_obj eig o support dof)) 0) with (loads_of (subst_obj eig o support dof) 0).
  destruct (rasterize_solution _ _ _ C [L; 0] [true; true] 1) as [[[xq [|z0 zq]] xb]|]; try reflexivity.
  destruct (mem_str dof ["rot"; "trans"]%string); [|reflexivity].
  destruct (mem_str support ["rested"]%string); reflexivity.
Qed.
Lemma sbind_natural {A B} m t (f : stM A) (g : A -> stM B) : natural m t f -> (forall a, natural m t (g a)) ->
  natural m t (sbind f g).
Proof.
  intros Hf Hg o. unfold sbind. rewrite Hf. destruct (f o) as [[a|] o1]; cbn [fst snd]; [apply Hg|reflexivity].
Qed.
Lemma sret_natural {A} m t (a : A) : natural m t (sret a).
Proof. intros o. reflexivity. Qed.
Lemma brentq_natural m t f lo hi : (forall x, natural m t (f x)) -> natural m t (brentq brent maxeval f lo hi).
Proof.
  intros Hf. unfold brentq. generalize (@nil (R * R)). induction maxeval as [|fuel IH]; intros hist o; simpl.
  - destruct (brent lo hi hist); reflexivity.
  - destruct (brent lo hi hist); try reflexivity.
    rewrite Hf. destruct (f x o) as [[v|] o1]; cbn [fst snd]; [apply IH|reflexivity].
Qed.
Lemma calc_a1_natural m t : natural m t (calc_a1 eig solve brent maxeval).
Proof.
  intros o. unfold calc_a1. change (o_L (upd m t o)) with (o_L o). destruct (o_L o) as [L|]; [|reflexivity].
  apply brentq_natural. intros x. apply sbind_natural; [apply sub_natural|intros a].
  apply sbind_natural; [apply sub_natural|intros b]. apply sret_natural.
Qed.
Lemma calc_a2_natural m t : natural m t (calc_a2 eig solve brent maxeval).
Proof.
  intros o. unfold calc_a2. change (o_L (upd m t o)) with (o_L o). destruct (o_L o) as [L|]; [|reflexivity].
  apply brentq_natural. intros x. apply sbind_natural; [apply sub_natural|intros a].
  apply sbind_natural; [apply sub_natural|intros b]. apply sret_natural.
Qed.
Lemma calc_lC_natural m t : natural m t (calc_lC eig solve brent maxeval).
Proof.
  intros o. unfold calc_lC. change (o_L (upd m t o)) with (o_L o). destruct (o_L o) as [L|]; [|reflexivity].
  apply brentq_natural. intros x. apply sbind_natural; [apply sub_natural|intros a].
  apply sbind_natural; [apply sub_natural|intros b]. apply sbind_natural; [apply sub_natural|intros c]. apply sret_natural.
Qed.
Lemma repeatable o li mi ki k0 L a m phi cf ratio s o1 : fresh eig o -> o_phi o = phi ->
  calc_segments eig solve brent maxeval li mi ki k0 L a m phi cf ratio o = (Ok s, o1) ->
  calc_segments eig solve brent maxeval li mi ki k0 L a m phi cf ratio o1 = (Ok s, o1).
Proof.
  intros Hf Hphi H. unfold calc_segments, calc_touchdown_system, sbind in H.
  rewrite attributes_eq in H.
  set (oa := attributes_of o L a cf phi ratio) in H.
  assert (Ha : fresh eig oa) by exact Hf.
  destruct (calc_touchdown_mode eig solve brent maxeval oa) as [[[]|] ob] eqn:E1; [|discriminate].
  destruct (touchdown_mode_ok _ _ Ha E1) as (md & -> & Hm & Hm2).
  assert (Hb : fresh eig (set_mode md oa)) by exact Hf.
  destruct (calc_touchdown_length eig solve brent maxeval (set_mode md oa)) as [[[]|] oc] eqn:E2; [|discriminate].
  destruct (touchdown_length_ok _ _ Hb E2) as (td & -> & Ht1 & Ht2).
  injection H; intros <- Es.
  set (o1' := set_td td (set_mode md oa)) in *.
  unfold calc_segments, calc_touchdown_system, sbind. rewrite attributes_eq.
  assert (Eo : attributes_of o1' L a cf phi ratio = upd (Some md) td oa).
  { unfold attributes_of, upd, oa, o1'. unfold attributes_of.
    assert (Eq : calc_qn o1' = calc_qn o).
    { unfold calc_qn, o1', oa, attributes_of, set_td, set_mode, with_contact, loads_of; simpl. rewrite Hphi. reflexivity. }
    fold oa o1'. unfold o1' in Eq |- *. rewrite Eq. reflexivity. }
  rewrite Eo.
  assert (E1' : calc_touchdown_mode eig solve brent maxeval (upd (Some md) td oa) = (Ok tt, upd (Some md) td oa)).
  { unfold calc_touchdown_mode. change (o_touchdown (upd (Some md) td oa)) with (o_touchdown oa).
    destruct (o_touchdown oa) eqn:Et.
    - destruct (Hm2 eq_refl) as (a1 & a2 & F1 & F2 & ->). unfold sbind.
      rewrite calc_a1_natural, F1. cbn [fst snd]. rewrite calc_a2_natural, F2. reflexivity.
    - rewrite (Hm eq_refl). reflexivity. }
  assert (E2' : calc_touchdown_length eig solve brent maxeval (upd (Some md) td oa) = (Ok tt, o1')).
  { unfold calc_touchdown_length. change (o_mode (upd (Some md) td oa)) with (Some md). destruct md.
    - unfold o1'. rewrite (Ht1 (or_introl eq_refl)). reflexivity.
    - unfold o1'. rewrite (Ht1 (or_intror eq_refl)). reflexivity.
    - unfold sbind. change (upd (Some ModeC) td oa) with (upd (Some ModeC) td (set_mode ModeC oa)).
      rewrite calc_lC_natural, (Ht2 eq_refl). reflexivity. }
  rewrite E1', E2', Es. reflexivity.
Qed.

(** ** C35 *)
Lemma rejects o L v1 v2 f lo hi : rejects_equal_signs brent -> (2 <= maxeval)%nat ->
  f lo o = (Ok v1, o) -> f hi o = (Ok v2, o) -> 0 < v1 * v2 ->
  L = o -> brentq brent maxeval f lo hi o = (Err ValueError, o).
Proof.
  intros Hr Hm E1 E2 Hp _. destruct (Hr lo hi) as (R1 & R2 & R3).
  assert (v1 <> 0) by (intros ->; lra).
  unfold brentq. destruct maxeval as [|[|n]]; try lia. simpl. rewrite R1, E1.
  rewrite R2 by assumption. rewrite E2. destruct n; simpl; rewrite R3 by assumption; reflexivity.
Qed.
Lemma poly_a1_pos bs ss q tc kR kN x : 0 < bs -> 0 < ss -> 0 < q -> 0 < kR -> 0 <= kN -> 0 < x -> tc <= 0 ->
  0 < poly_a1 bs ss q tc kR kN x.
Proof.
  intros Hb Hs Hq HR HN Hx Ht. unfold poly_a1.
  assert (P1 : 0 < 1 / (8 * bs) * x ^ 4).
  { apply Rmult_lt_0_compat; [apply Rdiv_lt_0_compat; lra|apply pow_lt; lra]. }
  assert (P2 : 0 < 1 / (2 * kR) * x ^ 3).
  { apply Rmult_lt_0_compat; [apply Rdiv_lt_0_compat; lra|apply pow_lt; lra]. }
  assert (P3 : 0 < 1 / (2 * ss) * x ^ 2).
  { apply Rmult_lt_0_compat; [apply Rdiv_lt_0_compat; lra|apply pow_lt; lra]. }
  assert (P4 : 0 <= 1 / kN * x).
  { apply Rmult_le_pos; [|lra]. destruct HN as [HN|<-].
    - apply Rlt_le, Rdiv_lt_0_compat; lra.
    - unfold Rdiv. rewrite Rinv_0. lra. }
  assert (P5 : 0 <= - tc / q) by (apply Rdiv_le_0_compat; lra).
  lra.
Qed.

Lemma touchdown_rejected o li mi ki k0 L a m phi cf ratio :
  sound_solver solve -> complete_solver solve -> substitute_ready eig o "supported" ->
  rejects_equal_signs brent -> (2 <= maxeval)%nat -> 0 < L -> o_touchdown o = true ->
  let oa := set_touchdown_attributes L a cf phi ratio o in
  0 < calc_qn oa -> o_tc oa <= 0 ->
  fst (calc_segments eig solve brent maxeval li mi ki k0 L a m phi cf ratio o) = Err ValueError.
Proof.
  intros Hso Hco Hsr Hrj Hme HL Htd oa Hq Htc.
  assert (Hsa : substitute_ready eig oa "supported") by exact Hsr.
  pose proof Hsa as ((Hlm & _) & Hfa & _).
  assert (P : forall x, 0 < x < L -> exists v, 0 < v /\
     sbind (MSolution.sub eig solve (L - x) "supported" "rot") (fun kRl =>
     sbind (MSolution.sub eig solve (L - x) "supported" "trans") (fun kNl =>
     sret (poly_a1 (bs_of (o_par oa)) (kA55 (o_par oa)) (calc_qn oa) (o_tc oa) kRl kNl x))) oa = (Ok v, oa)).
  { intros x Hx. destruct (beam_exists eig oa (L - x) "supported" Hsa ltac:(lra)) as [[z1 B1] [z2 B2]].
    destruct (sub_rot eig solve oa (L - x) "supported" z1 Hso Hco Hsa ltac:(lra) B1) as [S1 F1].
    destruct (sub_trans eig solve oa (L - x) "supported" z2 Hso Hco Hsa ltac:(lra) B2) as [S2 F2].
    set (kR := 1 / - z_psi (z1 0)) in *.
    set (kN := Rabs (1 / (z_w (z2 0) + (qn (loads_of oa 0) + pn (loads_of oa 0)) / kn (foundation_of oa "supported")))) in *.
    exists (poly_a1 (bs_of (o_par oa)) (kA55 (o_par oa)) (calc_qn oa) (o_tc oa) kR kN x). split.
    - apply poly_a1_pos; try assumption; try lra.
      + apply (bs_pos _ Hlm).
      + apply (ss_pos _ Hlm).
      + unfold kR. apply Rdiv_lt_0_compat; lra.
      + unfold kN. apply Rabs_pos.
    - unfold sbind, sret, MSolution.sub.
      destruct (substitute_stiffness eig solve oa (L - x) "supported" "rot") as [r1 o1] eqn:E1. cbn [fst] in F1. subst r1.
      pose proof (sub_restores eig solve _ _ _ _ _ _ Hfa E1) as ->.
      destruct (substitute_stiffness eig solve oa (L - x) "supported" "trans") as [r2 o2] eqn:E2. cbn [fst] in F2. subst r2.
      pose proof (sub_restores eig solve _ _ _ _ _ _ Hfa E2) as ->. reflexivity. }
  destruct (P (L / 1000) ltac:(lra)) as (v1 & V1 & F1).
  destruct (P (999 / 1000 * L) ltac:(lra)) as (v2 & V2 & F2).
  unfold calc_segments, calc_touchdown_system, sbind. fold oa.
  assert (E : calc_touchdown_mode eig solve brent maxeval oa = (Err ValueError, oa)).
  { unfold calc_touchdown_mode. change (o_touchdown oa) with (o_touchdown o). rewrite Htd. unfold sbind at 1.
    unfold calc_a1. change (o_L oa) with (Some L). cbv iota beta.
    rewrite (rejects oa oa v1 v2 _ _ _ Hrj Hme F1 F2 ltac:(apply Rmult_lt_0_compat; assumption) eq_refl). reflexivity. }
  rewrite E. reflexivity.
Qed.
End Oracle.
