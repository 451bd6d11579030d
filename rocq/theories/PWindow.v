(** Success of the touchdown analysis (C108). *)
From Coq Require Import Lra Lia.
From Coquelicot Require Import Coquelicot.
Require Import Verif.Py Verif.MTools Verif.MEigen Verif.MFields Verif.SAdm Verif.MRaster
  Verif.MSolution Verif.SBeam Verif.SBvp Verif.SEig Verif.SContact Verif.SWindow Verif.PSetup Verif.PBeam Verif.PBeam2
  Verif.PBalance Verif.PWell Verif.PSub Verif.PTouch Verif.PContact Verif.PRigid.
Open Scope R_scope.

(** ** Signs of the polynomials *)
Section Signs.
Variables b s q tc : R.
Hypotheses (Hb : 0 < b) (Hs : 0 < s) (Hq : 0 < q) (Ht : 0 < tc).

Ltac pos := repeat first [assumption | apply Rmult_lt_0_compat | apply Rmult_le_pos | apply pow_lt | apply Rlt_le | lra].

Lemma a1_above kR kN x : 0 < kR -> 0 <= kN -> 0 < x -> 8 * b * tc <= q * x ^ 4 -> 0 < poly_a1 b s q tc kR kN x.
Proof.
  intros HR HN Hx H. unfold poly_a1.
  assert (P1 : tc / q <= 1 / (8 * b) * x ^ 4).
  { apply (Rmult_le_reg_r (8 * b * q)); [pos|]. replace (tc / q * (8 * b * q)) with (8 * b * tc) by (field; lra).
    replace (1 / (8 * b) * x ^ 4 * (8 * b * q)) with (q * x ^ 4) by (field; lra). exact H. }
  assert (P2 : 0 < 1 / (2 * kR) * x ^ 3) by (apply Rmult_lt_0_compat; [apply Rdiv_lt_0_compat; lra|apply pow_lt; lra]).
  assert (P3 : 0 < 1 / (2 * s) * x ^ 2) by (apply Rmult_lt_0_compat; [apply Rdiv_lt_0_compat; lra|apply pow_lt; lra]).
  assert (P4 : 0 <= 1 / kN * x).
  { apply Rmult_le_pos; [|lra]. destruct HN as [HN|<-]; [apply Rlt_le, Rdiv_lt_0_compat; lra|].
    unfold Rdiv. rewrite Rinv_0. lra. }
  unfold Rdiv in *. lra.
Qed.
Lemma a1_below kR kN x : 0 < kR -> 0 < kN -> 0 < x ->
  x ^ 4 / (3 * b) + x ^ 3 / 2 * (1 / kR) + x ^ 2 / s + 3 * x * (1 / kN) < tc / q -> poly_a1 b s q tc kR kN x < 0.
Proof.
  intros HR HN Hx H. unfold poly_a1.
  assert (P1 : 1 / (8 * b) * x ^ 4 <= x ^ 4 / (3 * b)).
  { replace (1 / (8 * b) * x ^ 4) with (x ^ 4 / (3 * b) * (3 / 8)) by (field; lra).
    assert (0 < x ^ 4 / (3 * b)) by (apply Rdiv_lt_0_compat; [pos|lra]). lra. }
  assert (P2 : 1 / (2 * kR) * x ^ 3 = x ^ 3 / 2 * (1 / kR)) by (field; lra).
  assert (P3 : 1 / (2 * s) * x ^ 2 <= x ^ 2 / s).
  { replace (1 / (2 * s) * x ^ 2) with (x ^ 2 / s * (1 / 2)) by (field; lra).
    assert (0 < x ^ 2 / s) by (apply Rdiv_lt_0_compat; [pos|lra]). lra. }
  assert (P4 : 0 < x * (1 / kN)) by (apply Rmult_lt_0_compat; [lra|apply Rdiv_lt_0_compat; lra]).
  replace (- tc / q) with (- (tc / q)) by (field; lra). lra.
Qed.

(** Load and contact parts of the full-contact polynomials. *)
Definition load0 (kR kN x : R) : R :=
  s ^ 2 * kR * kN * x ^ 6 + 6 * s ^ 2 * b * kN * x ^ 5 + 30 * b * s * kR * kN * x ^ 4
  + 24 * b * (2 * s ^ 2 * kR + 3 * b * s * kN) * x ^ 3 + 72 * b ^ 2 * (s ^ 2 + kR * kN) * x ^ 2 + 144 * b ^ 2 * s * kR * x.
Definition rest0 (kR kN x : R) : R :=
  72 * b * s ^ 2 * kR * kN * x ^ 2 + 144 * b ^ 2 * s ^ 2 * kN * x + 144 * b ^ 2 * s * kR * kN.
Definition load1 (kR kN x : R) : R :=
  6 * s * kR * kN * x ^ 5 + 30 * b * s * kN * x ^ 4 + 72 * b * kR * kN * x ^ 3 + 72 * b * (b * kN + 2 * s * kR) * x ^ 2 + 144 * b ^ 2 * s * x.
Definition rest1 (kR kN x : R) : R := 144 * b * s * kR * kN * x + 144 * b ^ 2 * s * kN.
Lemma lC_parts kR kN kT x : poly_lC b s q tc kR kN kT x
  = q * (load0 kR kN x + kT * load1 kR kN x) - tc * (rest0 kR kN x + kT * rest1 kR kN x).
Proof. unfold poly_lC, load0, load1, rest0, rest1. ring. Qed.
Lemma a2_parts kR kN x : poly_a2 b s q tc kR kN x = q * load0 kR kN x - tc * rest0 kR kN x.
Proof. unfold poly_a2, load0, rest0. ring. Qed.
Lemma parts_pos kR kN x : 0 < kR -> 0 < kN -> 0 < x ->
  0 < load0 kR kN x /\ 0 < rest0 kR kN x /\ 0 < load1 kR kN x /\ 0 < rest1 kR kN x.
Proof.
  intros HR HN Hx. unfold load0, rest0, load1, rest1.
  assert (H : forall y n, 0 < y -> 0 < y ^ n) by (intros; apply pow_lt; assumption).
  repeat split; repeat apply Rplus_lt_0_compat; repeat apply Rmult_lt_0_compat; try lra; try (apply H; lra);
    repeat apply Rplus_lt_0_compat; repeat apply Rmult_lt_0_compat; try lra; apply H; lra.
Qed.
Lemma above kR kN x : 0 < kR -> 0 < kN -> 0 < x -> 72 * b * tc <= q * x ^ 4 ->
  tc * rest0 kR kN x < q * load0 kR kN x /\ tc * rest1 kR kN x < q * load1 kR kN x.
Proof.
  intros HR HN Hx H.
  assert (P : forall y n, 0 < y -> 0 < y ^ n) by (intros; apply pow_lt; assumption).
  split.
  - assert (E : q * load0 kR kN x - tc * rest0 kR kN x
      = (q * x ^ 4 - 72 * b * tc) * (s ^ 2 * kR * kN * x ^ 2 + 6 * s ^ 2 * b * kN * x + 30 * b * s * kR * kN)
        + tc * (288 * b ^ 2 * s ^ 2 * kN * x + 2016 * b ^ 2 * s * kR * kN)
        + q * (24 * b * (2 * s ^ 2 * kR + 3 * b * s * kN) * x ^ 3 + 72 * b ^ 2 * (s ^ 2 + kR * kN) * x ^ 2 + 144 * b ^ 2 * s * kR * x))
      by (unfold load0, rest0; ring).
    assert (0 <= (q * x ^ 4 - 72 * b * tc) * (s ^ 2 * kR * kN * x ^ 2 + 6 * s ^ 2 * b * kN * x + 30 * b * s * kR * kN)).
    { apply Rmult_le_pos; [lra|]. apply Rlt_le. repeat apply Rplus_lt_0_compat; repeat apply Rmult_lt_0_compat; try lra; apply P; lra. }
    assert (0 < tc * (288 * b ^ 2 * s ^ 2 * kN * x + 2016 * b ^ 2 * s * kR * kN)).
    { apply Rmult_lt_0_compat; [lra|]. apply Rplus_lt_0_compat; repeat apply Rmult_lt_0_compat; try lra; apply P; lra. }
    assert (0 < q * (24 * b * (2 * s ^ 2 * kR + 3 * b * s * kN) * x ^ 3 + 72 * b ^ 2 * (s ^ 2 + kR * kN) * x ^ 2 + 144 * b ^ 2 * s * kR * x)).
    { apply Rmult_lt_0_compat; [lra|]. repeat apply Rplus_lt_0_compat; repeat apply Rmult_lt_0_compat; try lra; try (apply P; lra);
        apply Rplus_lt_0_compat; repeat apply Rmult_lt_0_compat; try lra; apply P; lra. }
    lra.
  - assert (E : q * load1 kR kN x - tc * rest1 kR kN x
      = (q * x ^ 4 - 72 * b * tc) * (6 * s * kR * kN * x + 30 * b * s * kN)
        + tc * (288 * b * s * kR * kN * x + 2016 * b ^ 2 * s * kN)
        + q * (72 * b * kR * kN * x ^ 3 + 72 * b * (b * kN + 2 * s * kR) * x ^ 2 + 144 * b ^ 2 * s * x))
      by (unfold load1, rest1; ring).
    assert (0 <= (q * x ^ 4 - 72 * b * tc) * (6 * s * kR * kN * x + 30 * b * s * kN)).
    { apply Rmult_le_pos; [lra|]. apply Rlt_le. repeat apply Rplus_lt_0_compat; repeat apply Rmult_lt_0_compat; try lra; apply P; lra. }
    assert (0 < tc * (288 * b * s * kR * kN * x + 2016 * b ^ 2 * s * kN)).
    { apply Rmult_lt_0_compat; [lra|]. apply Rplus_lt_0_compat; repeat apply Rmult_lt_0_compat; try lra; apply P; lra. }
    assert (0 < q * (72 * b * kR * kN * x ^ 3 + 72 * b * (b * kN + 2 * s * kR) * x ^ 2 + 144 * b ^ 2 * s * x)).
    { apply Rmult_lt_0_compat; [lra|]. repeat apply Rplus_lt_0_compat; repeat apply Rmult_lt_0_compat; try lra; try (apply P; lra);
        apply Rplus_lt_0_compat; repeat apply Rmult_lt_0_compat; try lra; apply P; lra. }
    lra.
Qed.
Lemma below kR kN x : 0 < kR -> 0 < kN -> 0 < x ->
  x ^ 4 / (3 * b) + x ^ 2 / s + 3 * x * (1 / kN) < tc / q ->
  q * load0 kR kN x < tc * rest0 kR kN x /\ q * load1 kR kN x < tc * rest1 kR kN x.
Proof.
  intros HR HN Hx H. set (W := x ^ 4 / (3 * b) + x ^ 2 / s + 3 * x * (1 / kN)) in *.
  destruct (parts_pos kR kN x HR HN Hx) as (_ & T0 & _ & T1).
  assert (P : forall y n, 0 < y -> 0 < y ^ n) by (intros; apply pow_lt; assumption).
  assert (Hq' : q * W < tc).
  { apply (Rmult_lt_compat_l q) in H; [|lra]. replace (q * (tc / q)) with tc in H by (field; lra). exact H. }
  split.
  - assert (L : load0 kR kN x <= W * rest0 kR kN x).
    { assert (E : W * rest0 kR kN x - load0 kR kN x =
        (24 - 1) * s ^ 2 * kR * kN * x ^ 6 + (48 - 6) * b * s ^ 2 * kN * x ^ 5 + 48 * b * s * kR * kN * x ^ 4
        + 72 * b * s * kR * kN * x ^ 4 - 30 * b * s * kR * kN * x ^ 4 + 144 * b ^ 2 * s * kN * x ^ 3 - 72 * b ^ 2 * s * kN * x ^ 3
        + 144 * b ^ 2 * kR * kN * x ^ 2 - 72 * b ^ 2 * kR * kN * x ^ 2
        + 216 * b * s ^ 2 * kR * x ^ 3 - 48 * b * s ^ 2 * kR * x ^ 3 + 432 * b ^ 2 * s ^ 2 * x ^ 2 - 72 * b ^ 2 * s ^ 2 * x ^ 2
        + 432 * b ^ 2 * s * kR * x - 144 * b ^ 2 * s * kR * x) by (unfold W, rest0, load0; field; lra).
      assert (0 < s ^ 2 * kR * kN * x ^ 6) by (repeat apply Rmult_lt_0_compat; try lra; apply P; lra).
      assert (0 < b * s ^ 2 * kN * x ^ 5) by (repeat apply Rmult_lt_0_compat; try lra; apply P; lra).
      assert (0 < b * s * kR * kN * x ^ 4) by (repeat apply Rmult_lt_0_compat; try lra; apply P; lra).
      assert (0 < b ^ 2 * s * kN * x ^ 3) by (repeat apply Rmult_lt_0_compat; try lra; apply P; lra).
      assert (0 < b ^ 2 * kR * kN * x ^ 2) by (repeat apply Rmult_lt_0_compat; try lra; apply P; lra).
      assert (0 < b * s ^ 2 * kR * x ^ 3) by (repeat apply Rmult_lt_0_compat; try lra; apply P; lra).
      assert (0 < b ^ 2 * s ^ 2 * x ^ 2) by (repeat apply Rmult_lt_0_compat; try lra; apply P; lra).
      assert (0 < b ^ 2 * s * kR * x) by (repeat apply Rmult_lt_0_compat; try lra; apply P; lra).
      lra. }
    apply Rle_lt_trans with (q * W * rest0 kR kN x).
    + rewrite Rmult_assoc. apply Rmult_le_compat_l; lra.
    + apply Rmult_lt_compat_r; assumption.
  - assert (L : load1 kR kN x <= W * rest1 kR kN x).
    { assert (E : W * rest1 kR kN x - load1 kR kN x =
        (48 - 6) * s * kR * kN * x ^ 5 + (48 - 30) * b * s * kN * x ^ 4 + (144 - 72) * b * kR * kN * x ^ 3
        + (144 - 72) * b ^ 2 * kN * x ^ 2 + (432 - 144) * b * s * kR * x ^ 2 + (432 - 144) * b ^ 2 * s * x) by (unfold W, rest1, load1; field; lra).
      assert (0 < s * kR * kN * x ^ 5) by (repeat apply Rmult_lt_0_compat; try lra; apply P; lra).
      assert (0 < b * s * kN * x ^ 4) by (repeat apply Rmult_lt_0_compat; try lra; apply P; lra).
      assert (0 < b * kR * kN * x ^ 3) by (repeat apply Rmult_lt_0_compat; try lra; apply P; lra).
      assert (0 < b ^ 2 * kN * x ^ 2) by (repeat apply Rmult_lt_0_compat; try lra; apply P; lra).
      assert (0 < b * s * kR * x ^ 2) by (repeat apply Rmult_lt_0_compat; try lra; apply P; lra).
      assert (0 < b ^ 2 * s * x) by (repeat apply Rmult_lt_0_compat; try lra; apply P; lra).
      lra. }
    apply Rle_lt_trans with (q * W * rest1 kR kN x).
    + rewrite Rmult_assoc. apply Rmult_le_compat_l; lra.
    + apply Rmult_lt_compat_r; assumption.
Qed.
End Signs.

(** ** Springs *)
Section Oracle.
Variable eig : mat6 -> list eigpair.
Variable solve : nat -> matrix -> vector -> res vector.
Variable brent : R -> R -> list (R * R) -> bstep.
Variable maxeval : nat.
Hypotheses (Hso : sound_solver solve) (Hco : complete_solver solve).

Definition spring_of (o : obj) (support dof : string) (l : R) : R :=
  match fst (substitute_stiffness eig solve o l support dof) with Ok k => k | Err _ => 0 end.

Lemma bs_bend p : bs_of p = bending p.
Proof. unfold bs_of, bending. ring. Qed.

Lemma spring_rot o support l : substitute_ready eig o support -> 0 < l ->
  substitute_stiffness eig solve o l support "rot" = (Ok (spring_of o support "rot" l), o) /\
  0 < spring_of o support "rot" l <= kn (foundation_of o support) * l ^ 3 / 12 /\
  forall s, 0 < s <= l -> 1 / spring_of o support "rot" l <= turn (foundation_of o support) s.
Proof.
  intros Hsr HL. set (p := foundation_of o support). destruct (beam_exists eig o l support Hsr HL) as [[z B] _].
  destruct (sub_rot eig solve o l support z Hso Hco Hsr HL B) as [Hz E].
  assert (Hl : lam_ok p) by (unfold p, foundation_of; destruct (String.eqb support "rested"); exact (proj1 (proj1 Hsr))).
  pose proof Hsr as (_ & Hfr & Hf & Hst & _). fold p in Hf, Hst, B. assert (Hn : 0 < kn p) by exact (proj1 Hf).
  assert (P3 : 0 < l ^ 3) by (apply pow_lt; lra).
  assert (V : spring_of o support "rot" l = 1 / - z_psi (z 0)) by (unfold spring_of; rewrite E; reflexivity).
  split; [|rewrite V; split; [split|]].
  - destruct (substitute_stiffness eig solve o l support "rot") as [r o1] eqn:E1. cbn [fst] in E. subst r.
    pose proof (sub_restores eig solve _ _ _ _ _ _ Hfr E1) as ->. rewrite V. reflexivity.
  - apply Rdiv_lt_0_compat; lra.
  - pose proof (rigid_rot p l z Hl Hf Hst HL B) as Q. apply (Rmult_le_reg_r (- z_psi (z 0))); [lra|].
    replace (1 / - z_psi (z 0) * - z_psi (z 0)) with 1 by (field; lra).
    apply (Rmult_le_compat_l (kn p * l ^ 3 / 12)) in Q; [|apply Rlt_le, Rdiv_lt_0_compat; [apply Rmult_lt_0_compat|]; lra].
    replace (kn p * l ^ 3 / 12 * (12 / (kn p * l ^ 3))) with 1 in Q by (field; lra). exact Q.
  - intros s Hs. replace (1 / (1 / - z_psi (z 0))) with (- z_psi (z 0)) by (field; lra).
    exact (soft_rot p l s z Hl Hf Hst Hs B).
Qed.
Lemma spring_trans o l L : substitute_ready eig o "supported" -> 0 < l < L -> never_hidden o L -> 0 <= level_load o ->
  substitute_stiffness eig solve o l "supported" "trans" = (Ok (spring_of o "supported" "trans" l), o) /\
  0 < spring_of o "supported" "trans" l /\
  forall s, 0 < s <= l -> 1 / spring_of o "supported" "trans" l <= sink (o_par o) s + level_load o / kn (o_par o).
Proof.
  intros Hsr HL NH Hq. assert (Hl0 : 0 < l) by lra. destruct (beam_exists eig o l "supported" Hsr Hl0) as [_ [z B]].
  destruct (sub_trans eig solve o l "supported" z Hso Hco Hsr Hl0 B) as [Hz E].
  change (foundation_of o "supported") with (o_par o) in *. fold (level_load o) in E.
  pose proof Hsr as ((Hl & _) & Hfr & Hf & Hst & _). change (foundation_of o "supported") with (o_par o) in *.
  assert (Hn : 0 < kn (o_par o)) by exact (proj1 Hf).
  pose proof (NH l z HL B) as Z. set (w := z_w (z 0) + level_load o / kn (o_par o)) in *.
  assert (V : spring_of o "supported" "trans" l = Rabs (1 / w)) by (unfold spring_of; rewrite E; reflexivity).
  assert (A : Rabs (1 / w) = 1 / Rabs w) by (unfold Rdiv; rewrite !Rmult_1_l, Rabs_inv; reflexivity).
  assert (Pw : 0 < Rabs w) by (apply Rabs_pos_lt; exact Z).
  split; [|rewrite V, A; split].
  - destruct (substitute_stiffness eig solve o l "supported" "trans") as [r o1] eqn:E1. cbn [fst] in E. subst r.
    pose proof (sub_restores eig solve _ _ _ _ _ _ Hfr E1) as ->. rewrite V. reflexivity.
  - apply Rdiv_lt_0_compat; lra.
  - intros s Hs. replace (1 / (1 / Rabs w)) with (Rabs w) by (field; lra).
    pose proof (soft_trans (o_par o) l s z Hl Hf Hst Hs B) as T.
    assert (0 <= level_load o / kn (o_par o)) by (apply Rdiv_le_0_compat; lra).
    unfold sink, bending, shearing. unfold bend, shear_left in T. unfold w. apply Rabs_le. lra.
Qed.

Lemma spring_some o l : substitute_ready eig o "supported" -> 0 < l ->
  substitute_stiffness eig solve o l "supported" "trans" = (Ok (spring_of o "supported" "trans" l), o) /\
  0 <= spring_of o "supported" "trans" l.
Proof.
  intros Hsr HL. destruct (beam_exists eig o l "supported" Hsr HL) as [_ [z B]].
  destruct (sub_trans eig solve o l "supported" z Hso Hco Hsr HL B) as [Hz E]. pose proof Hsr as (_ & Hfr & _).
  unfold spring_of. rewrite E. split; [|apply Rabs_pos].
  destruct (substitute_stiffness eig solve o l "supported" "trans") as [r o1] eqn:E1. cbn [fst] in E. subst r.
  pose proof (sub_restores eig solve _ _ _ _ _ _ Hfr E1) as ->. reflexivity.
Qed.

(** ** The three root searches *)
Definition a1_of (o : obj) (L x : R) : R :=
  poly_a1 (bs_of (o_par o)) (kA55 (o_par o)) (calc_qn o) (o_tc o) (spring_of o "supported" "rot" (L - x)) (spring_of o "supported" "trans" (L - x)) x.
Definition a2_of (o : obj) (L x : R) : R :=
  poly_a2 (bs_of (o_par o)) (kA55 (o_par o)) (calc_qn o) (o_tc o) (spring_of o "supported" "rot" (L - x)) (spring_of o "supported" "trans" (L - x)) x.
Definition lC_of (o : obj) (L a x : R) : R :=
  poly_lC (bs_of (o_par o)) (kA55 (o_par o)) (calc_qn o) (o_tc o) (spring_of o "supported" "rot" (L - a)) (spring_of o "supported" "trans" (L - a))
    (spring_of o "rested" "rot" (a - x)) x.

Lemma two_springs o l L (g : R -> R -> R) : substitute_ready eig o "supported" -> 0 < l < L -> never_hidden o L -> 0 <= level_load o ->
  sbind (sub eig solve l "supported" "rot") (fun kR => sbind (sub eig solve l "supported" "trans") (fun kN => sret (g kR kN))) o
  = (Ok (g (spring_of o "supported" "rot" l) (spring_of o "supported" "trans" l)), o).
Proof.
  intros Hs Hl NH Hq. unfold sbind, sub, sret.
  rewrite (proj1 (spring_rot o "supported" l Hs ltac:(lra))), (proj1 (spring_trans o l L Hs Hl NH Hq)). reflexivity.
Qed.
Lemma three_springs o l m L (g : R -> R -> R -> R) : substitute_ready eig o "supported" -> substitute_ready eig o "rested" ->
  0 < l < L -> 0 < m -> never_hidden o L -> 0 <= level_load o ->
  sbind (sub eig solve l "supported" "rot") (fun kR => sbind (sub eig solve l "supported" "trans") (fun kN =>
    sbind (sub eig solve m "rested" "rot") (fun kT => sret (g kR kN kT)))) o
  = (Ok (g (spring_of o "supported" "rot" l) (spring_of o "supported" "trans" l) (spring_of o "rested" "rot" m)), o).
Proof.
  intros Hs Hr Hl Hm NH Hq. unfold sbind, sub, sret.
  rewrite (proj1 (spring_rot o "supported" l Hs ltac:(lra))), (proj1 (spring_trans o l L Hs Hl NH Hq)), (proj1 (spring_rot o "rested" m Hr Hm)). reflexivity.
Qed.

Section Model.
Variables (o : obj) (L s : R).
Hypotheses (Hs : substitute_ready eig o "supported") (NH : never_hidden o L) (Hq0 : 0 <= level_load o)
  (Hq : 0 < calc_qn o) (Ht : 0 < o_tc o) (HLo : o_L o = Some L) (Hfind : finds_roots brent maxeval)
  (Hlen : 0 < s <= 999 / 1000 * L) (Hdroop : droop o s (L / 1000) < o_tc o / calc_qn o)
  (Hlong : 72 * bending (o_par o) * o_tc o <= calc_qn o * (999 / 1000 * L) ^ 4).

Lemma bend_ok : 0 < bs_of (o_par o).
Proof. rewrite bs_bend. exact (bend_pos _ (proj1 (proj1 Hs))). Qed.
Lemma shear_ok : 0 < kA55 (o_par o).
Proof. exact (ss_pos _ (proj1 (proj1 Hs))). Qed.

Lemma droop_le x y l : 0 < x <= y -> 0 < l <= l -> s <= l -> l < L -> droop o s y < o_tc o / calc_qn o ->
  x ^ 4 / (3 * bs_of (o_par o)) + x ^ 3 / 2 * (1 / spring_of o "supported" "rot" l) + x ^ 2 / kA55 (o_par o)
    + 3 * x * (1 / spring_of o "supported" "trans" l) < o_tc o / calc_qn o.
Proof.
  intros Hx Hl Hsl HL D. apply Rle_lt_trans with (droop o s y); [|exact D].
  destruct (spring_rot o "supported" l Hs ltac:(lra)) as (_ & (R1 & _) & R2).
  destruct (spring_trans o l L Hs ltac:(lra) NH Hq0) as (_ & T1 & T2).
  specialize (R2 s ltac:(lra)). specialize (T2 s ltac:(lra)). change (foundation_of o "supported") with (o_par o) in R2.
  pose proof bend_ok as B. pose proof shear_ok as K. unfold droop. rewrite <- bs_bend.
  assert (P : forall n, 0 <= x ^ n <= y ^ n) by (intros n; split; [apply pow_le; lra|apply pow_incr; lra]).
  assert (0 <= 1 / spring_of o "supported" "rot" l) by (apply Rlt_le, Rdiv_lt_0_compat; lra).
  assert (0 <= 1 / spring_of o "supported" "trans" l) by (apply Rlt_le, Rdiv_lt_0_compat; lra).
  repeat apply Rplus_le_compat.
  - unfold Rdiv. apply Rmult_le_compat_r; [apply Rlt_le, Rinv_0_lt_compat; lra|apply P].
  - apply Rmult_le_compat; [destruct (P 3%nat); lra|assumption| |assumption]. destruct (P 3%nat); lra.
  - unfold Rdiv. apply Rmult_le_compat_r; [apply Rlt_le, Rinv_0_lt_compat; lra|apply P].
  - apply Rmult_le_compat; try lra.
Qed.
Lemma a1_ends : a1_of o L (L / 1000) < 0 < a1_of o L (999 / 1000 * L).
Proof.
  split.
  - destruct (spring_rot o "supported" (L - L / 1000) Hs ltac:(lra)) as (_ & (R1 & _) & _).
    destruct (spring_trans o (L - L / 1000) L Hs ltac:(lra) NH Hq0) as (_ & T1 & _).
    apply a1_below; [exact bend_ok|exact shear_ok|exact Hq|exact R1|exact T1|lra|].
    apply (droop_le (L / 1000) (L / 1000) (L - L / 1000)); try lra.
  - destruct (spring_rot o "supported" (L - 999 / 1000 * L) Hs ltac:(lra)) as (_ & (R1 & _) & _).
    destruct (spring_trans o (L - 999 / 1000 * L) L Hs ltac:(lra) NH Hq0) as (_ & T1 & _).
    apply a1_above; [exact bend_ok|exact shear_ok|exact Hq|exact R1|exact (Rlt_le _ _ T1)|lra|]. rewrite bs_bend.
    assert (0 < bending (o_par o) * o_tc o) by (rewrite <- bs_bend; apply Rmult_lt_0_compat; [exact bend_ok|exact Ht]). lra.
Qed.
Lemma a1_eval x : L / 1000 <= x <= 999 / 1000 * L ->
  sbind (sub eig solve (L - x) "supported" "rot") (fun kR => sbind (sub eig solve (L - x) "supported" "trans") (fun kN =>
    sret (poly_a1 (bs_of (o_par o)) (kA55 (o_par o)) (calc_qn o) (o_tc o) kR kN x))) o = (Ok (a1_of o L x), o).
Proof. intros Hx. apply (two_springs o (L - x) L (fun kR kN => poly_a1 _ _ _ _ kR kN x) Hs ltac:(lra) NH Hq0). Qed.
Lemma find_a1 : exists r, calc_a1 eig solve brent maxeval o = (Ok r, o) /\ L / 1000 <= r <= 999 / 1000 * L.
Proof. unfold calc_a1. rewrite HLo. apply (Hfind _ (a1_of o L)); [lra|exact a1_eval|exact a1_ends]. Qed.
Lemma a2_ends : a2_of o L (L / 1000) < 0 < a2_of o L (999 / 1000 * L).
Proof.
  split.
  - destruct (spring_rot o "supported" (L - L / 1000) Hs ltac:(lra)) as (_ & (R1 & _) & _).
    destruct (spring_trans o (L - L / 1000) L Hs ltac:(lra) NH Hq0) as (_ & T1 & _).
    unfold a2_of. rewrite a2_parts. apply Rlt_minus. apply (below _ _ _ _ bend_ok shear_ok Hq); [exact R1|exact T1|lra|].
    pose proof (droop_le (L / 1000) (L / 1000) (L - L / 1000) ltac:(lra) ltac:(lra) ltac:(lra) ltac:(lra) Hdroop) as D.
    assert (0 < (L / 1000) ^ 3 / 2 * (1 / spring_of o "supported" "rot" (L - L / 1000))); [|lra].
    apply Rmult_lt_0_compat; [assert (0 < (L / 1000) ^ 3) by (apply pow_lt; lra); lra|apply Rdiv_lt_0_compat; lra].
  - destruct (spring_rot o "supported" (L - 999 / 1000 * L) Hs ltac:(lra)) as (_ & (R1 & _) & _).
    destruct (spring_trans o (L - 999 / 1000 * L) L Hs ltac:(lra) NH Hq0) as (_ & T1 & _).
    unfold a2_of. rewrite a2_parts. apply Rgt_minus. apply (above _ _ _ _ bend_ok shear_ok Hq Ht); [exact R1|exact T1|lra|].
    rewrite bs_bend. exact Hlong.
Qed.
Lemma a2_eval x : L / 1000 <= x <= 999 / 1000 * L ->
  sbind (sub eig solve (L - x) "supported" "rot") (fun kR => sbind (sub eig solve (L - x) "supported" "trans") (fun kN =>
    sret (poly_a2 (bs_of (o_par o)) (kA55 (o_par o)) (calc_qn o) (o_tc o) kR kN x))) o = (Ok (a2_of o L x), o).
Proof. intros Hx. apply (two_springs o (L - x) L (fun kR kN => poly_a2 _ _ _ _ kR kN x) Hs ltac:(lra) NH Hq0). Qed.
Lemma find_a2 : exists r, calc_a2 eig solve brent maxeval o = (Ok r, o) /\ L / 1000 <= r <= 999 / 1000 * L.
Proof. unfold calc_a2. rewrite HLo. apply (Hfind _ (a2_of o L)); [lra|exact a2_eval|exact a2_ends]. Qed.
Lemma lC_eval x : substitute_ready eig o "rested" -> 0 < o_a o <= L - s -> o_a o / 1000 <= x <= 999 / 1000 * o_a o ->
  sbind (sub eig solve (L - o_a o) "supported" "rot") (fun kR => sbind (sub eig solve (L - o_a o) "supported" "trans") (fun kN =>
    sbind (sub eig solve (o_a o - x) "rested" "rot") (fun kT =>
    sret (poly_lC (bs_of (o_par o)) (kA55 (o_par o)) (calc_qn o) (o_tc o) kR kN kT x)))) o = (Ok (lC_of o L (o_a o) x), o).
Proof.
  intros Hr Ha Hx.
  apply (three_springs o (L - o_a o) (o_a o - x) L (fun kR kN kT => poly_lC _ _ _ _ kR kN kT x) Hs Hr ltac:(lra) ltac:(lra) NH Hq0).
Qed.
Lemma lC_ends : substitute_ready eig o "rested" -> 0 < o_a o <= L - s ->
  72 * bending (o_par o) * o_tc o <= calc_qn o * (999 / 1000 * o_a o) ^ 4 ->
  lC_of o L (o_a o) (o_a o / 1000) < 0 < lC_of o L (o_a o) (999 / 1000 * o_a o).
Proof.
  intros Hr Ha Hfar. set (a := o_a o) in *.
  destruct (spring_rot o "supported" (L - a) Hs ltac:(lra)) as (_ & (R1 & _) & _).
  destruct (spring_trans o (L - a) L Hs ltac:(lra) NH Hq0) as (_ & T1 & _).
  split.
  - destruct (spring_rot o "rested" (a - a / 1000) Hr ltac:(lra)) as (_ & (C1 & _) & _).
    unfold lC_of. rewrite lC_parts.
    destruct (below _ _ _ (o_tc o) bend_ok shear_ok Hq (spring_of o "supported" "rot" (L - a)) (spring_of o "supported" "trans" (L - a)) (a / 1000) R1 T1 ltac:(lra)) as (B0 & B1).
    { pose proof (droop_le (a / 1000) (L / 1000) (L - a) ltac:(lra) ltac:(lra) ltac:(lra) ltac:(lra) Hdroop) as D.
      assert (0 < (a / 1000) ^ 3 / 2 * (1 / spring_of o "supported" "rot" (L - a))); [|lra].
      apply Rmult_lt_0_compat; [assert (0 < (a / 1000) ^ 3) by (apply pow_lt; lra); lra|apply Rdiv_lt_0_compat; lra]. }
    set (kT := spring_of o "rested" "rot" (a - a / 1000)) in *.
    apply (Rmult_lt_compat_l kT) in B1; [|exact C1]. lra.
  - destruct (spring_rot o "rested" (a - 999 / 1000 * a) Hr ltac:(lra)) as (_ & (C1 & _) & _).
    unfold lC_of. rewrite lC_parts.
    destruct (above _ _ _ _ bend_ok shear_ok Hq Ht (spring_of o "supported" "rot" (L - a)) (spring_of o "supported" "trans" (L - a)) (999 / 1000 * a) R1 T1 ltac:(lra)) as (B0 & B1);
      [rewrite bs_bend; exact Hfar|].
    set (kT := spring_of o "rested" "rot" (a - 999 / 1000 * a)) in *.
    apply (Rmult_lt_compat_l kT) in B1; [|exact C1]. lra.
Qed.
Lemma find_lC : substitute_ready eig o "rested" -> 0 < o_a o <= L - s ->
  72 * bending (o_par o) * o_tc o <= calc_qn o * (999 / 1000 * o_a o) ^ 4 ->
  exists r, calc_lC eig solve brent maxeval o = (Ok r, o) /\ o_a o / 1000 <= r <= 999 / 1000 * o_a o.
Proof.
  intros Hr Ha Hfar. unfold calc_lC. rewrite HLo.
  apply (Hfind _ (lC_of o L (o_a o))); [lra|intros x Hx; exact (lC_eval x Hr Ha Hx)|exact (lC_ends Hr Ha Hfar)].
Qed.
End Model.
End Oracle.
