(** Touchdown analysis, end to end statements, refutations and examples. *)
From Coquelicot Require Import Coquelicot.
Require Import Verif.Py Verif.MTools Verif.MEigen Verif.MFields Verif.SAdm Verif.MRaster
  Verif.MSolution Verif.SBeam Verif.SBvp Verif.SEig Verif.SContact Verif.PSetup Verif.PBeam Verif.PBeam2
  Verif.PBvp Verif.PBvp2 Verif.PBvp3 Verif.PBvp4 Verif.PBvp5 Verif.PBalance Verif.PLinAlg
  Verif.PWell Verif.PIndep Verif.PWell2 Verif.PWell3 Verif.PBvp6 Verif.PSub Verif.PTouch Verif.PContact.

(** * C26 *)
Lemma sub_zero_length eig solve o support : sound_solver solve -> substitute_ready eig o support ->
  exists e o', substitute_stiffness eig solve o 0 support "rot" = (Err e, o') /\
    o_system o' = "rot"%string /\ kn (o_par o') = kn (foundation_of o support).
Proof.
  intros Hso Hsr.
  destruct (subst_ready eig o support "rot" Hsr (or_introl eq_refl)) as (Hr & Hs & P & _ & Es).
  unfold substitute_stiffness. fold (subst_obj eig o support "rot").
  destruct (assemble_and_solve_with solve (Err RuntimeError) (subst_obj eig o support "rot") false 0 [0; 0] [0] [true; true])
    as [C|e] eqn:E.
  - exfalso. assert (exists C0 C1, C = [C0; C1]) as (C0 & C1 & ->).
    { unfold assemble_and_solve_with in E.
      destruct (check_segments _ _ _ _); [|discriminate]. cbn [bind List.length Nat.eqb] in E.
      destruct (assemble _ _ _ _ _ _) as [[[m v] w]|]; [|discriminate]. cbn [bind] in E.
      destruct (solve _ _ _); [|discriminate]. cbn [bind] in E. apply Ok_inj in E. subst C.
      eexists _, _. reflexivity. }
    destruct (sub_beam eig solve o 0 support "rot" C0 C1 Hso Hsr (or_introl eq_refl) E) as (z & (_ & (_ & B1 & _) & (_ & B2 & _)) & _).
    cbn in B1. rewrite B1 in B2. lra.
  - exists e, (subst_obj eig o support "rot"). split; [reflexivity|]. split; [exact Es|]. rewrite P. reflexivity.
Qed.
Lemma sub_unknown_dof eig solve o L dof : dof <> "rot"%string -> dof <> "trans"%string ->
  exists e o', substitute_stiffness eig solve o L "rested" dof = (Err e, o') /\
    kn (o_par o') = o_ratio o * kn (o_par o).
Proof.
  intros H1 H2. unfold substitute_stiffness. fold (subst_obj eig o "rested" dof).
  assert (N : forall l, (forall s, In s l -> s = "rot"%string \/ s = "trans"%string) -> mem_str dof l = false).
  { intros l Hl. destruct (mem_str dof l) eqn:E; [|reflexivity]. apply mem_str_In in E. destruct (Hl _ E); contradiction. }
  assert (K : kn (o_par (subst_obj eig o "rested" dof)) = o_ratio o * kn (o_par o)).
  { unfold subst_obj. rewrite !N; [reflexivity|simpl; intros s [<-|[]]; auto|simpl; intros s [<-|[]]; auto]. }
  destruct (assemble_and_solve_with _ _ _ _ _ _ _ _) as [C|e]; [|eauto].
  destruct (rasterize_solution _ _ _ _ _ _ _) as [[[xq [|z0 zq]] xb]|e]; eauto.
  rewrite N by (simpl; intros s [<-|[<-|[]]]; auto). eauto.
Qed.

(** * C27, C68 *)
Lemma rot_positive eig solve o L support : sound_solver solve -> complete_solver solve ->
  substitute_ready eig o support -> 0 < L ->
  exists k, fst (substitute_stiffness eig solve o L support "rot") = Ok k /\ 0 < k.
Proof.
  intros Hso Hco Hsr HL. destruct (beam_exists eig o L support Hsr HL) as [[z B] _].
  destruct (sub_rot eig solve o L support z Hso Hco Hsr HL B) as [Hn E].
  exists (1 / - z_psi (z 0)). split; [exact E|]. apply Rdiv_lt_0_compat; lra.
Qed.
Lemma rot_load_free eig solve o L support p : sound_solver solve -> complete_solver solve ->
  substitute_ready eig o support -> 0 < L ->
  fst (substitute_stiffness eig solve (set_surface_load o p) L support "rot")
  = fst (substitute_stiffness eig solve o L support "rot").
Proof.
  intros Hso Hco Hsr HL. destruct (beam_exists eig o L support Hsr HL) as [[z B] _].
  destruct (sub_rot eig solve o L support z Hso Hco Hsr HL B) as [_ E].
  assert (Hsr' : substitute_ready eig (set_surface_load o p) support) by exact Hsr.
  destruct (sub_rot eig solve (set_surface_load o p) L support z Hso Hco Hsr' HL B) as [_ E'].
  rewrite E, E'. reflexivity.
Qed.
Lemma surface_flat o p : qn (loads_of (set_surface_load o p) 0) + pn (loads_of (set_surface_load o p) 0)
  = qn (loads_of o 0) + p.
Proof.
  unfold loads_of, get_weight_load, get_surface_load, deg2rad; simpl.
  replace (0 * (PI / 180)) with 0 by ring. rewrite cos_0. ring.
Qed.
Lemma trans_depends eig solve o L support : sound_solver solve -> complete_solver solve ->
  substitute_ready eig o support -> 0 < L ->
  exists p1 p2 k1 k2, 0 < p1 < p2 /\
  fst (substitute_stiffness eig solve (set_surface_load o p1) L support "trans") = Ok k1 /\
  fst (substitute_stiffness eig solve (set_surface_load o p2) L support "trans") = Ok k2 /\ k2 < k1.
Proof.
  intros Hso Hco Hsr HL. destruct (beam_exists eig o L support Hsr HL) as [_ [z B]].
  pose proof Hsr as (_ & _ & (Hn & _) & _).
  set (K := kn (foundation_of o support)) in *. set (w := z_w (z 0)). set (q := qn (loads_of o 0)).
  set (p1 := K * (1 + Rabs w) + Rabs q).
  assert (F : forall p, fst (substitute_stiffness eig solve (set_surface_load o p) L support "trans") = Ok (Rabs (1 / (w + (q + p) / K)))).
  { intros p. assert (Hsr' : substitute_ready eig (set_surface_load o p) support) by exact Hsr.
    destruct (sub_trans eig solve (set_surface_load o p) L support z Hso Hco Hsr' HL B) as [_ E'].
    rewrite E'. rewrite surface_flat. reflexivity. }
  pose proof (Rle_abs (- w)) as W. rewrite Rabs_Ropp in W. pose proof (Rle_abs (- q)) as Q. rewrite Rabs_Ropp in Q.
  pose proof (Rabs_pos w) as W0. pose proof (Rabs_pos q) as Q0.
  assert (P1 : 0 < p1) by (unfold p1; assert (0 < K * (1 + Rabs w)) by (apply Rmult_lt_0_compat; lra); lra).
  assert (X1 : 1 <= w + (q + p1) / K).
  { unfold p1. replace ((q + (K * (1 + Rabs w) + Rabs q)) / K) with ((q + Rabs q) / K + (1 + Rabs w)) by (field; lra).
    assert (0 <= (q + Rabs q) / K) by (apply Rdiv_le_0_compat; lra). lra. }
  assert (X2 : w + (q + (p1 + K)) / K = w + (q + p1) / K + 1) by (field; lra).
  set (x := w + (q + p1) / K) in *.
  exists p1, (p1 + K), (1 / x), (1 / (x + 1)). split; [lra|].
  rewrite !F. fold x. rewrite X2. split; [|split].
  - f_equal. apply Rabs_right. apply Rle_ge, Rlt_le. apply Rdiv_lt_0_compat; lra.
  - f_equal. apply Rabs_right. apply Rle_ge, Rlt_le. apply Rdiv_lt_0_compat; lra.
  - unfold Rdiv. rewrite !Rmult_1_l. apply Rinv_lt_contravar; [apply Rmult_lt_0_compat; lra|lra].
Qed.

(** * C28, C29 end to end *)
Section Oracle.
Variable eig : mat6 -> list eigpair.
Variable solve : nat -> matrix -> vector -> res vector.
Variable brent : R -> R -> list (R * R) -> bstep.
Variable maxeval : nat.

Definition springs (o : obj) (l kR kN : R) : Prop :=
  fst (substitute_stiffness eig solve o l "supported" "rot") = Ok kR /\
  fst (substitute_stiffness eig solve o l "supported" "trans") = Ok kN.

Lemma first_contact o r o' delta L : lam_ok (o_par o) -> fresh eig o -> returns_sign_change brent delta ->
  0 < calc_qn o -> o_L o = Some L -> 0 < L ->
  calc_a1 eig solve brent maxeval o = (Ok r, o') ->
  exists x1 x2, Rabs (x1 - r) <= delta /\ Rabs (x2 - r) <= delta /\
    0 < x1 < L /\ 0 < x2 < L /\
    (exists kR kN, springs o (L - x1) kR kN /\
      forall z, 0 < kR -> 0 < kN -> hanging_beam (o_par o) (calc_qn o) kR kN x1 z -> free_tip (o_par o) x1 z ->
        z_w (z x1) <= o_tc o) /\
    (exists kR kN, springs o (L - x2) kR kN /\
      forall z, 0 < kR -> 0 < kN -> hanging_beam (o_par o) (calc_qn o) kR kN x2 z -> free_tip (o_par o) x2 z ->
        o_tc o <= z_w (z x2)).
Proof.
  intros Hl Hf Hb Hq HL HL0 H. destruct (calc_a1_ok eig solve brent maxeval o r o' Hf H) as (L' & EL & _ & hist & Eb & HI).
  rewrite HL in EL. injection EL; intros <-.
  destruct (Hb _ _ _ _ Eb) as (x1 & v1 & x2 & v2 & I1 & I2 & [V1 V2] & B1 & B2 & D1 & D2).
  exists x1, x2. split; [exact D1|]. split; [exact D2|]. split; [lra|]. split; [lra|].
  destruct (HI x1 v1 I1) as (kR1 & kN1 & S1 & S1' & E1). destruct (HI x2 v2 I2) as (kR2 & kN2 & S2 & S2' & E2).
  split.
  - exists kR1, kN1. split; [split; assumption|]. intros z HR HN Hz HT.
    pose proof (poly_a1_meaning (o_par o) Hl (calc_qn o) kR1 kN1 x1 HR HN ltac:(lra) z Hz (o_tc o) ltac:(lra) HT) as M.
    rewrite <- E1 in M. assert (calc_qn o * v1 <= 0).
    { rewrite <- (Rmult_0_r (calc_qn o)). apply Rmult_le_compat_l; lra. } lra.
  - exists kR2, kN2. split; [split; assumption|]. intros z HR HN Hz HT.
    pose proof (poly_a1_meaning (o_par o) Hl (calc_qn o) kR2 kN2 x2 HR HN ltac:(lra) z Hz (o_tc o) ltac:(lra) HT) as M.
    rewrite <- E2 in M. assert (0 <= calc_qn o * v2) by (apply Rmult_le_pos; lra). lra.
Qed.

Lemma lC_sign p q kR kN l kT tc z : lam_ok p -> 0 < kR -> 0 < kN -> 0 <= kT -> 0 <= l ->
  hanging_beam p q kR kN l z -> contact_tip p kT tc l z ->
  (poly_lC (bs_of p) (kA55 p) q tc kR kN kT l = 0 <-> z_dw (z l) = 0) /\
  (poly_lC (bs_of p) (kA55 p) q tc kR kN kT l < 0 <-> 0 < z_dw (z l)) /\
  (0 < poly_lC (bs_of p) (kA55 p) q tc kR kN kT l <-> z_dw (z l) < 0).
Proof.
  intros Hl HR HN HT Hl0 HB HC.
  pose proof (poly_lC_meaning p Hl q kR kN l HN Hl0 z HB kT tc HT HC) as E.
  pose proof (contact_den_pos p Hl kR kN l HR HN Hl0 kT HT) as D.
  pose proof (bs_pos p Hl) as Hb. pose proof (ss_pos p Hl) as Hs.
  set (c := 144 * bs_of p ^ 2 * kA55 p ^ 2 * kN * contact_den p kR kN l kT) in *.
  assert (Hc : 0 < c).
  { unfold c. repeat apply Rmult_lt_0_compat; try lra; apply pow_lt; lra. }
  assert (E' : poly_lC (bs_of p) (kA55 p) q tc kR kN kT l = - (c * z_dw (z l))).
  { rewrite E. unfold c. ring. }
  rewrite E'. set (d := z_dw (z l)).
  assert (A : forall x, 0 < x -> 0 < c * x) by (intros; apply Rmult_lt_0_compat; assumption).
  assert (B : forall x, x < 0 -> c * x < 0).
  { intros x Hx. pose proof (A (- x) ltac:(lra)). rewrite <- Ropp_mult_distr_r in H. lra. }
  destruct (Rtotal_order d 0) as [G|[G|G]].
  - pose proof (B d G). repeat split; intros; lra.
  - rewrite G, Rmult_0_r. repeat split; intros; lra.
  - pose proof (A d G). repeat split; intros; lra.
Qed.

Lemma full_contact o r o' delta L : lam_ok (o_par o) -> fresh eig o -> returns_sign_change brent delta ->
  o_L o = Some L -> 0 < L ->
  calc_a2 eig solve brent maxeval o = (Ok r, o') ->
  exists x1 x2, Rabs (x1 - r) <= delta /\ Rabs (x2 - r) <= delta /\
    0 < x1 < L /\ 0 < x2 < L /\
    (exists kR kN, springs o (L - x1) kR kN /\
      forall z, 0 < kR -> 0 < kN -> hanging_beam (o_par o) (calc_qn o) kR kN x1 z ->
        contact_tip (o_par o) 0 (o_tc o) x1 z -> 0 <= z_dw (z x1)) /\
    (exists kR kN, springs o (L - x2) kR kN /\
      forall z, 0 < kR -> 0 < kN -> hanging_beam (o_par o) (calc_qn o) kR kN x2 z ->
        contact_tip (o_par o) 0 (o_tc o) x2 z -> z_dw (z x2) <= 0).
Proof.
  intros Hl Hf Hb HL HL0 H. destruct (calc_a2_ok eig solve brent maxeval o r o' Hf H) as (L' & EL & _ & hist & Eb & HI).
  rewrite HL in EL. injection EL; intros <-.
  destruct (Hb _ _ _ _ Eb) as (x1 & v1 & x2 & v2 & I1 & I2 & [V1 V2] & B1 & B2 & D1 & D2).
  exists x1, x2. split; [exact D1|]. split; [exact D2|]. split; [lra|]. split; [lra|].
  destruct (HI x1 v1 I1) as (kR1 & kN1 & S1 & S1' & E1). destruct (HI x2 v2 I2) as (kR2 & kN2 & S2 & S2' & E2).
  split.
  - exists kR1, kN1. split; [split; assumption|]. intros z HR HN Hz HT.
    destruct (lC_sign (o_par o) (calc_qn o) kR1 kN1 x1 0 (o_tc o) z Hl HR HN ltac:(lra) ltac:(lra) Hz HT) as (_ & _ & M).
    rewrite <- poly_a2_is_lC, <- E1 in M. destruct (Rle_or_lt 0 (z_dw (z x1))); [assumption|]. apply M in H0. lra.
  - exists kR2, kN2. split; [split; assumption|]. intros z HR HN Hz HT.
    destruct (lC_sign (o_par o) (calc_qn o) kR2 kN2 x2 0 (o_tc o) z Hl HR HN ltac:(lra) ltac:(lra) Hz HT) as (_ & M & _).
    rewrite <- poly_a2_is_lC, <- E2 in M. destruct (Rle_or_lt (z_dw (z x2)) 0); [assumption|]. apply M in H0. lra.
Qed.

Lemma contact_length o r o' delta L : lam_ok (o_par o) -> fresh eig o -> returns_sign_change brent delta ->
  o_L o = Some L -> 0 < o_a o < L ->
  calc_lC eig solve brent maxeval o = (Ok r, o') ->
  exists x1 x2, Rabs (x1 - r) <= delta /\ Rabs (x2 - r) <= delta /\
    0 < x1 < o_a o /\ 0 < x2 < o_a o /\ exists kR kN, springs o (L - o_a o) kR kN /\
    (exists kT, fst (substitute_stiffness eig solve o (o_a o - x1) "rested" "rot") = Ok kT /\
      forall z, 0 < kR -> 0 < kN -> 0 <= kT -> hanging_beam (o_par o) (calc_qn o) kR kN x1 z ->
        contact_tip (o_par o) kT (o_tc o) x1 z -> 0 <= z_dw (z x1)) /\
    (exists kT, fst (substitute_stiffness eig solve o (o_a o - x2) "rested" "rot") = Ok kT /\
      forall z, 0 < kR -> 0 < kN -> 0 <= kT -> hanging_beam (o_par o) (calc_qn o) kR kN x2 z ->
        contact_tip (o_par o) kT (o_tc o) x2 z -> z_dw (z x2) <= 0).
Proof.
  intros Hl Hf Hb HL HL0 H. destruct (calc_lC_ok eig solve brent maxeval o r o' Hf H) as (L' & EL & _ & hist & Eb & HI).
  rewrite HL in EL. injection EL; intros <-.
  destruct (Hb _ _ _ _ Eb) as (x1 & v1 & x2 & v2 & I1 & I2 & [V1 V2] & B1 & B2 & D1 & D2).
  exists x1, x2. split; [exact D1|]. split; [exact D2|]. split; [lra|]. split; [lra|].
  destruct (HI x1 v1 I1) as (kR1 & kN1 & kT1 & S1 & S1' & T1 & E1).
  destruct (HI x2 v2 I2) as (kR2 & kN2 & kT2 & S2 & S2' & T2 & E2).
  assert (kR2 = kR1) as -> by (rewrite S1 in S2; apply Ok_inj in S2; congruence).
  assert (kN2 = kN1) as -> by (rewrite S1' in S2'; apply Ok_inj in S2'; congruence).
  exists kR1, kN1. split; [split; assumption|]. split.
  - exists kT1. split; [exact T1|]. intros z HR HN H0 Hz HT.
    destruct (lC_sign (o_par o) (calc_qn o) kR1 kN1 x1 kT1 (o_tc o) z Hl HR HN ltac:(lra) ltac:(lra) Hz HT) as (_ & _ & M).
    rewrite <- E1 in M. destruct (Rle_or_lt 0 (z_dw (z x1))); [assumption|]. apply M in H1. lra.
  - exists kT2. split; [exact T2|]. intros z HR HN H0 Hz HT.
    destruct (lC_sign (o_par o) (calc_qn o) kR1 kN1 x2 kT2 (o_tc o) z Hl HR HN ltac:(lra) ltac:(lra) Hz HT) as (_ & M & _).
    rewrite <- E2 in M. destruct (Rle_or_lt (z_dw (z x2)) 0); [assumption|]. apply M in H1. lra.
Qed.

(** * C32 *)
Lemma partition o li mi ki k0 L a m phi cf ratio s o' : fresh eig o ->
  calc_segments eig solve brent maxeval li mi ki k0 L a m phi cf ratio o = (Ok s, o') ->
  o_system o <> "skiers"%string ->
  List.length (s_ki s) = List.length (s_li s) /\ List.length (s_k0 s) = List.length (s_li s) /\
  List.length (s_li s) = S (List.length (s_mi s)) /\
  (forall k, In k (s_k0 s) -> k = true) /\
  ((o_system o = "pst-"%string \/ o_system o = "-pst"%string) /\
     rsum (s_li s) = L - a + o_td o' /\ free_length (s_li s) (s_ki s) = o_td o' \/
   (o_system o = "vpst-"%string \/ o_system o = "-vpst"%string \/ o_system o = "skier"%string) /\
     rsum (s_li s) = L /\ free_length (s_li s) (s_ki s) = a) /\
  (o_mode o' <> Some ModeC -> rsum (s_li s) = L /\ free_length (s_li s) (s_ki s) = a) /\
  (stays_in_bracket brent -> 0 <= a <= L -> forall l, In l (s_li s) -> 0 <= l) /\
  (o_system o = "skier"%string -> s_mi s = [0; m; 0] /\ rsum (firstn 2 (s_li s)) = L / 2).
Proof.
  intros Hf H Hn.
  destruct (segments_state _ _ _ _ _ _ _ _ _ _ _ _ _ _ _ _ _ Hf H) as (md & td & -> & Es & HC & HN & HT).
  assert (TB : stays_in_bracket brent -> 0 <= a -> 0 <= td).
  { intros Hb Ha. destruct (td_bounds _ _ _ _ _ _ _ _ _ _ _ _ _ _ _ _ _ Hf Hb Ha H) as (_ & B1 & B2 & _). simpl in B1, B2.
    destruct md; [rewrite B1 by discriminate; lra|rewrite B1 by discriminate; lra|specialize (B2 eq_refl); lra]. }
  assert (TC : Some md <> Some ModeC -> td = a) by (intros G; apply HN; intros ->; apply G; reflexivity).
  unfold segment_lists in Es. simpl in Es |- *.
  destruct (String.eqb_spec (o_system o) "skiers") as [|_]; [contradiction|].
  repeat match type of Es with
  | (if String.eqb ?a ?b then _ else _) = _ => destruct (String.eqb_spec a b)
  end; try discriminate; apply Ok_inj in Es; subst s; cbn [s_li s_mi s_ki s_k0 List.length rsum fold_right free_length firstn];
  (split; [reflexivity|split; [reflexivity|split; [reflexivity|split; [simpl; intuition congruence|]]]]);
  (split; [first [left; split; [tauto|split; simpl; lra] | right; split; [tauto|split; simpl; lra]]|]);
  (split; [intros G; pose proof (TC G); simpl; split; lra|]);
  (split; [intros Hb Ha l Hl; pose proof (TB Hb ltac:(lra)); simpl in Hl;
     repeat match goal with h : _ \/ _ |- _ => destruct h as [h|h] end; try contradiction; subst; lra|]);
  intros Ez; try (exfalso; congruence).
  split; [reflexivity|simpl; lra].
Qed.
Lemma unknown_system o li mi ki k0 L a m phi cf ratio :
  ~ In (o_system o) ["skiers"; "pst-"; "-pst"; "vpst-"; "-vpst"; "skier"]%string ->
  o_touchdown o = false ->
  fst (calc_segments eig solve brent maxeval li mi ki k0 L a m phi cf ratio o) = Err ValueError.
Proof.
  intros Hn Ht. unfold calc_segments, calc_touchdown_system, sbind, calc_touchdown_mode. simpl. rewrite Ht. simpl.
  unfold segment_lists; simpl.
  repeat match goal with |- context [String.eqb ?a ?b] => destruct (String.eqb_spec a b) as [E|_];
    [exfalso; apply Hn; rewrite E; simpl; tauto|] end. reflexivity.
Qed.
End Oracle.
