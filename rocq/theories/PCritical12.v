(** Strong weak layers (C122). *)
From Coquelicot Require Import Coquelicot.
Require Import Verif.Py Verif.MTools Verif.MEigen Verif.MFields Verif.SAdm Verif.SSlab Verif.MRaster Verif.MSolution Verif.MAnalysis Verif.SBvp Verif.SEig Verif.SSegment
  Verif.MEnvelope Verif.MCriterion Verif.SCritical Verif.PSetup Verif.PEnvelope Verif.PForce Verif.PCreate Verif.PCreate2 Verif.PropForce Verif.PropExact Verif.PCritical Verif.PCritical2 Verif.PCritical4 Verif.PCritical5 Verif.PCritical6 Verif.PCritical7
  Verif.PCritical8 Verif.PCritical9 Verif.PCritical10 Verif.PCritical11.
Open Scope R_scope.

Lemma strength_value sc a b : 0 < sc -> env (strength sc) a b = Ok ((a / sc) ^ 2 + (b / (509 / 616 * sc)) ^ 2).
Proof.
  intros Hs. unfold strength. cbn [e_name e_sf e_om e_rho]. unfold stress_envelope1. cbn [String.eqb Ascii.eqb Bool.eqb]. unfold schottner_critical.
  replace (rpow (sc * (9167 / 10) / 26000 / (9167 / 10)) 1) with (sc / 26000).
  2:{ unfold rpow. replace (sc * (9167 / 10) / 26000 / (9167 / 10)) with (sc / 26000) by field. destruct (Req_EM_T (sc / 26000) 0) as [Z|_]; [lra|]. rewrite Rpower_1; lra. }
  cbv zeta. unfold quadratic. cbn [fst snd]. f_equal. unfold Rdiv. rewrite !Rpow_mult_distr, !RPow_abs. rewrite !(Rabs_pos_eq (_ ^ 2)) by apply pow2_ge_0. f_equal; field; lra.
Qed.
Lemma gmax_scale sc tc K qs w : 0 < sc -> 0 < tc -> 0 < K -> gmax (K * sc) (K * tc) qs w = gmax sc tc qs w / K ^ 2.
Proof.
  intros Hs Ht HK. unfold gmax. induction qs as [|q qs IH]; cbn [fold_right]; [field; lra|]. rewrite IH.
  assert (E : qval (K * sc) (K * tc) w q = qval sc tc w q / K ^ 2) by (unfold qval; field; lra). rewrite E.
  assert (P : 0 <= / K ^ 2) by (left; apply Rinv_0_lt_compat; apply pow_lt; exact HK). unfold Rdiv. rewrite <- !(Rmult_comm (/ K ^ 2)). apply RmaxRmult. exact P.
Qed.
Lemma strength_quadratic sc : 0 < sc -> quadratic_envelope (strength sc).
Proof. intros H. right. split; [reflexivity|]. unfold strength. cbn [e_rho]. apply Rdiv_lt_0_compat; nra. Qed.
Lemma gmax_upper sc tc qs : 0 < sc -> 0 < tc -> exists be, 0 < be /\ forall w, 0 <= w -> gmax sc tc qs w <= be * (1 + w) ^ 2.
Proof.
  intros Hs Ht. induction qs as [|q qs (be & P & H)].
  - exists 1. split; [lra|]. intros w Hw. unfold gmax. cbn [fold_right]. pose proof (pow2_ge_0 (1 + w)). lra.
  - destruct q as [[a0 a1] [b0 b1]]. set (c := ((Rabs a0 + Rabs a1) / sc) ^ 2 + ((Rabs b0 + Rabs b1) / tc) ^ 2).
    assert (Pc : 0 <= c) by (unfold c; pose proof (pow2_ge_0 ((Rabs a0 + Rabs a1) / sc)); pose proof (pow2_ge_0 ((Rabs b0 + Rabs b1) / tc)); lra).
    exists (c + be). split; [lra|]. intros w Hw. change (gmax sc tc (((a0, a1), (b0, b1)) :: qs) w) with (Rmax (qval sc tc w ((a0, a1), (b0, b1))) (gmax sc tc qs w)).
    pose proof (pow2_ge_0 (1 + w)) as S2. specialize (H w Hw).
    assert (L : forall x0 x1 s, 0 < s -> ((x0 + w * x1) / s) ^ 2 <= ((Rabs x0 + Rabs x1) / s) ^ 2 * (1 + w) ^ 2).
    { intros x0 x1 s Hp. unfold Rdiv. rewrite !Rpow_mult_distr. replace ((Rabs x0 + Rabs x1) ^ 2 * (/ s) ^ 2 * (1 + w) ^ 2) with (((Rabs x0 + Rabs x1) * (1 + w)) ^ 2 * (/ s) ^ 2) by ring.
      apply Rmult_le_compat_r; [apply pow2_ge_0|]. rewrite <- (Rabs_pos_eq ((x0 + w * x1) ^ 2)) by apply pow2_ge_0. rewrite <- RPow_abs. apply pow_incr. split; [apply Rabs_pos|].
      eapply Rle_trans; [apply Rabs_triang|]. rewrite Rabs_mult, (Rabs_pos_eq w) by exact Hw. pose proof (Rabs_pos x0). pose proof (Rabs_pos x1). nra. }
    apply Rmax_lub; [|nra]. unfold qval. cbn [fst snd]. pose proof (L a0 a1 sc Hs). pose proof (L b0 b1 tc Ht). unfold c. nra.
Qed.

Section S.
Variable eig : mat6 -> list eigpair.
Variable solve : nat -> matrix -> vector -> res vector.
Variable brent : R -> R -> list (R * R) -> bstep.
Variable maxeval : nat.
Variables (layers : list layer) (phi E t : R) (li : list R) (ki : list bool).
Hypothesis St : setting eig solve layers li ki E t.
Notation create := (fun w => create_skier_object eig solve brent maxeval (LList layers) w phi li ki false E t).
(** One function of the weight for all strengths. *)
Lemma strength_peaks : exists q : R -> R, (forall w, 0 <= q w) /\ (exists be, 0 < be /\ forall w, 0 <= w -> q w <= be * (1 + w) ^ 2) /\
  forall sc u M, 0 < sc -> (peak_of create (env (strength sc)) u M <-> M = q u / sc ^ 2).
Proof.
  destruct (setting_affine eig solve brent maxeval layers phi E t li ki St) as (s0 & s1 & t0 & t1 & AF & N).
  exists (gmax 1 (509 / 616) (quads s0 s1 t0 t1)). split; [intros; apply gmax_nonneg|]. split; [apply gmax_upper; lra|].
  intros sc u M H. assert (G : gmax sc (509 / 616 * sc) (quads s0 s1 t0 t1) u = gmax 1 (509 / 616) (quads s0 s1 t0 t1) u / sc ^ 2).
  { rewrite <- gmax_scale by lra. rewrite Rmult_1_r, (Rmult_comm sc). reflexivity. }
  rewrite <- G. split.
  - intros (k & K & P). apply (peak_gmax _ _ _ _ _ AF (strength sc) sc (509 / 616 * sc) u k M); try assumption; try lra. intros a b. apply strength_value. exact H.
  - intros ->. destruct (peak_exists _ _ _ _ _ AF (strength sc) u (strength_quadratic sc H) N) as (k & _ & K & _). exists k. split; [exact K|].
    apply (peak_at _ _ _ _ _ AF (strength sc) sc (509 / 616 * sc) u k (strength_quadratic sc H)); try assumption; try lra. intros a b. apply strength_value. exact H.
Qed.
Lemma weight_pos : layers <> [] -> 0 < weight_per_area layers.
Proof.
  intros N. destruct St as (P & _). clear - N P. unfold weight_per_area, rsum. destruct layers as [|l ls]; [congruence|]. clear N. revert l P. induction ls as [|l' ls IH]; intros l P; inversion P as [|? ? [H1 H2] P']; subst; simpl in *.
  - nra.
  - specialize (IH l' P'). simpl in IH. assert (0 < fst l * (1 / 1000000000000) * 9810 * snd l) by (repeat apply Rmult_lt_0_compat; lra). lra.
Qed.
Theorem gives_up_model j m : layers <> [] -> rev li = li -> List.length li = (2 * S j)%nat -> skier_weights li (List.length li) 1 = Ok m -> nth j m 0 = 1 ->
  0 < nth j li 0 -> 0 < cos (phi * PI / 180) ->
  exists s0, 1 <= s0 /\ forall sc, s0 <= sc -> exists M0 w r, peak_of create (env (strength sc)) 0 M0 /\ M0 <= 1 / 4 /\ critical create (env (strength sc)) w /\
    find_minimum_force eig solve brent maxeval (LList layers) phi E t (strength sc) li ki = Ok r /\ f_weight r = 0.
Proof.
  intros Nl Sy Len Em Mj Lj Hc. destruct (layered_some eig "skiers" layers false) as (o & Lo). destruct strength_peaks as (q & Q0 & (be & Pbe & QU) & PE).
  set (p := o_par (set_foundation_properties eig o t E (1 / 4) true)).
  set (a := 1000 * (weight_per_area layers * cos (deg2rad phi))). set (b := 1000 * kn p * (9810 / 1000 / 1000 * cos (phi * PI / 180) / (2 * tent_stiffness p (nth j li 0)))).
  assert (Hc' : 0 < cos (deg2rad phi)) by (replace (deg2rad phi) with (phi * PI / 180) by (unfold deg2rad; field); exact Hc).
  assert (Pa : 0 < a) by (unfold a; pose proof (weight_pos Nl); nra).
  assert (Ad : lam_ok p /\ fnd_ok p /\ stable p).
  { destruct St as (P & HE & Ht & _ & _ & G & _). destruct (model_adm eig solve brent maxeval layers o E t P HE Ht Lo) as (A1 & A2 & _). split; [exact A1|]. split; [exact A2|]. exact (proj1 (G o Lo)). }
  destruct Ad as (Al & Af & As). assert (Kn : 0 < kn p) by (unfold fnd_ok in Af; tauto). assert (KA : 0 < kA55 p) by (unfold lam_ok in Al; tauto).
  assert (Pt : 0 < tent_stiffness p (nth j li 0)).
  { unfold tent_stiffness. apply Rplus_lt_0_compat; [nra|]. unfold stable in As. apply Rdiv_lt_0_compat; [|exact Lj]. apply Rdiv_lt_0_compat; [apply pow_lt; exact KA|lra]. }
  assert (Pb : 0 < b) by (unfold b; apply Rmult_lt_0_compat; [lra|]; apply Rdiv_lt_0_compat; lra).
  assert (QL : forall w, 0 <= w -> a ^ 2 <= q w /\ b ^ 2 * w ^ 2 <= q w).
  { intros w Hw. destruct (stress_model eig solve brent maxeval layers phi E t li ki St j m o w Nl Sy Len Em Mj Lj Hc Lo Hw) as (k & i & x & y & K & Sa & A). fold p a in A.
    destruct (proj2 (PE 1 w (q w / 1 ^ 2) ltac:(lra)) eq_refl) as (k' & K' & _ & U). cbv beta in K, K'. rewrite K in K'. apply Ok_inj in K'. subst k'.
    pose proof (U i x y _ Sa (strength_value 1 x y ltac:(lra))) as V. replace (q w / 1 ^ 2) with (q w) in V by field. replace (x / 1) with x in V by field. pose proof (pow2_ge_0 (y / (509 / 616 * 1))).
    assert (A' : a + b * w <= - x). { apply Rle_trans with (a + 1000 * kn p * (w * 9810 / 1000 / 1000 * cos (phi * PI / 180) / (2 * tent_stiffness p (nth j li 0)))); [|lra]. right. unfold b. field. lra. }
    assert (0 <= b * w) by nra. replace (b ^ 2 * w ^ 2) with ((b * w) ^ 2) by ring. split; nra. }
  destruct (search_gives_up create (fun sc => distances (strength sc)) q (b ^ 2) be (a ^ 2)) as (K1 & P1 & H1).
  - apply pow_lt; exact Pb.
  - exact Pbe.
  - apply pow_lt; exact Pa.
  - intros w Hw. destruct (QL w Hw). auto.
  - intros sc u Hsc. pose proof (strength_quadratic sc Hsc) as Q. destruct (peak_total eig solve brent maxeval layers phi E t li ki St (strength sc) u Q) as (M' & k & K & _).
    destruct (create_lengths _ _ _ _ _ _ _ _ _ _ _ _ _ K) as [L1 L2].
    assert (Kw : known_envelope (e_name (strength sc))) by (unfold known_envelope; simpl; tauto).
    destruct (distances_total (strength sc) k Kw L1) as [[d mn] D]; [intros Z; rewrite Z in L2; simpl in L2; lia|].
    destruct (create_present _ _ _ _ _ _ _ _ _ _ _ _ K) as (_ & X1 & X2). destruct (distances_extreme (strength sc) _ _ _ X1 X2 D) as (dd & M & m' & _ & EM & Em' & IM & Im & Bd). subst d mn.
    pose proof (proj1 (created_distance eig solve brent maxeval layers phi E t li ki (strength sc) u k M (Some m') Q K D)) as PK.
    assert (EQ : M = q u / sc ^ 2) by (apply PE; [exact Hsc|]; exists k; auto).
    exists (mkMf u k (Some M) (Some m')), m'. unfold MCriterion.measure. cbv beta. rewrite K. cbn [bind]. rewrite D. cbn [bind fst snd f_max f_min]. split; [reflexivity|]. split; [congruence|]. split; [reflexivity|].
    destruct (Bd _ IM) as (z & Z1 & Z2). injection Z1 as <-. lra.
  - destruct (square_large (4 * (be * (1 + 0) ^ 2))) as (K2 & P2 & H2). exists (Rmax K1 K2). split; [eapply Rle_trans; [exact P1|apply Rmax_l]|]. intros sc Hsc. pose proof (Rmax_l K1 K2). pose proof (Rmax_r K1 K2).
    assert (Psc : 0 < sc) by lra. specialize (H2 sc ltac:(lra)). pose proof (QU 0 ltac:(lra)) as U0.
    assert (S2 : 0 < sc ^ 2) by (apply pow_lt; exact Psc). assert (M4 : q 0 / sc ^ 2 <= 1 / 4) by (apply quot_le; lra).
    pose proof (proj2 (PE sc 0 _ Psc) eq_refl) as P0.
    destruct (exists_model eig solve brent maxeval layers phi E t li ki St (strength sc) (strength_quadratic sc Psc)) as (w & C).
    + destruct (symmetric_matters eig solve brent maxeval layers phi E t li ki St j m Sy Len Em Mj Hc) as (k0 & k1 & i & x & y & x' & y' & K0 & K1' & S0 & S1 & D).
      exists k0, k1, i, x, y, x', y'. split; [exact K0|]. split; [exact K1'|]. split; [exact S0|]. split; [exact S1|]. left. lra.
    + intros M PM. apply PE in PM; [|exact Psc]. lra.
    + destruct (H1 sc ltac:(lra)) as (r & R1 & R2). exists (q 0 / sc ^ 2), w, r. split; [exact P0|]. split; [exact M4|]. split; [exact C|]. split; [exact R1|exact R2].
Qed.
End S.
