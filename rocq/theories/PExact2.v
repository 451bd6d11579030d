(** Good eigenpairs exist exactly when the discriminant does not vanish. *)
From Coq Require Import Lra Permutation.
Require Import Verif.Py Verif.MTools Verif.MEigen Verif.SAdm Verif.SBeam Verif.SBvp Verif.SEig
  Verif.SExact Verif.PExact.
From Coquelicot Require Import Complex.
Open Scope R_scope.

Lemma chi0_value p : adm p -> chi0 (calc_system_matrix p) = kn p * kt p / K0 p.
Proof.
  intros ((HA & HD & Hk & HK0 & HKn) & _ & _).
  unfold chi0, calc_system_matrix; simpl. unfold Rdiv.
  assert (K0 p <> 0) by lra. assert (kA55 p <> 0) by lra.
  assert (E : A11 p * D11 p = B11 p ^ 2 - K0 p) by lra.
  apply Rmult_eq_reg_r with (K0 p ^ 2 * kA55 p); [|].
  2:{ apply Rmult_integral_contrapositive_currified; [|assumption].
      now apply pow_nonzero. }
  transitivity (kt p * kn p * kA55 p * (B11 p ^ 2 - A11 p * D11 p)); [field; auto|].
  rewrite <- HK0. field. auto.
Qed.

Lemma chi0_neg p : adm p -> chi0 (calc_system_matrix p) < 0.
Proof.
  intros H. rewrite chi0_value by assumption.
  destruct H as ((_ & _ & _ & _ & HK) & (H1 & H2 & _) & _).
  unfold Rdiv. pose proof (Rinv_lt_0_compat _ HK).
  assert (0 < kn p * kt p) by (apply Rmult_lt_0_compat; assumption). nra.
Qed.

Lemma sq_nonzero z : z <> RtoC 0 -> Cmult z z <> RtoC 0.
Proof. intros H. apply Cmult_neq_0; assumption. Qed.

(** The vectors. *)
Lemma exact_shape_nonzero K la : la <> RtoC 0 ->
  let '(u, y, s) := exact_shape K la in u <> RtoC 0 \/ y <> RtoC 0.
Proof.
  intros Hla. pose proof (sq_nonzero la Hla) as Hm. unfold exact_shape. cbv zeta.
  destruct (Ceqb _ _) eqn:Ep; simpl negb; cbv iota.
  - destruct (Reqb _ _) eqn:E6; simpl negb; cbv iota.
    + left. intros E. apply RtoC_inj in E. lra.
    + apply Reqb_false' in E6. right. intros E.
      assert (E' : Cmult (Cmult la la) (RtoC (z_u (row5 K))) = RtoC 0).
      { transitivity (Copp (Copp (Cmult (Cmult la la) (RtoC (z_u (row5 K)))))); [ring|].
        rewrite E. ring. }
      revert E'. apply Cmult_neq_0; [assumption|]. intros E'. apply E6. now apply RtoC_inj.
  - apply Ceqb_false in Ep. right. apply Cmult_neq_0; assumption.
Qed.

Lemma exact_vector_nonzero K la : la <> RtoC 0 ->
  ~ (fst (exact_vector K la) = vzero /\ snd (exact_vector K la) = vzero).
Proof.
  intros Hla [H1 H2]. pose proof (exact_shape_nonzero K la Hla) as H.
  unfold exact_vector in *. destruct (exact_shape K la) as [[u y] s]. simpl in *.
  unfold vzero in *. apply (f_equal (fun v => (z_u v, z_dw v))) in H1, H2. simpl in *.
  apply pair_equal_spec in H1, H2. destruct H1 as [U1 Y1], H2 as [U2 Y2].
  destruct H as [H|H]; apply H; apply injective_projections; assumption.
Qed.

Definition is_real (z : C) : Prop := snd z = 0.
Lemma real_mult a b : is_real a -> is_real b -> is_real (Cmult a b).
Proof. unfold is_real, Cmult; simpl. intros -> ->. ring. Qed.
Lemma real_plus a b : is_real a -> is_real b -> is_real (Cplus a b).
Proof. unfold is_real, Cplus; simpl. intros -> ->. ring. Qed.
Lemma real_opp a : is_real a -> is_real (Copp a).
Proof. unfold is_real, Copp; simpl. intros ->. ring. Qed.
Lemma real_minus a b : is_real a -> is_real b -> is_real (Cminus a b).
Proof. intros. unfold Cminus. apply real_plus; [assumption|now apply real_opp]. Qed.
Lemma real_R r : is_real (RtoC r).
Proof. reflexivity. Qed.
Lemma real_div a b : is_real a -> is_real b -> is_real (Cdiv a b).
Proof.
  intros Ha Hb. unfold Cdiv. apply real_mult; [assumption|].
  unfold is_real, Cinv in *; simpl. rewrite Hb. unfold Rdiv. ring.
Qed.
#[global] Hint Resolve real_mult real_plus real_opp real_minus real_R real_div : realC.

Lemma exact_vector_real K la : snd la = 0 -> snd (exact_vector K la) = vzero.
Proof.
  intros H. change (is_real la) in H.
  assert (Hs : let '(u, y, s) := exact_shape K la in is_real u /\ is_real y /\ is_real s).
  { unfold exact_shape. cbv zeta. destruct (Ceqb _ _); simpl negb; cbv iota;
      [destruct (Reqb _ _); simpl negb; cbv iota|]; auto 10 with realC. }
  unfold exact_vector. destruct (exact_shape K la) as [[u y] s].
  destruct Hs as (Hu & Hy & Hs). cbv zeta.
  change (snd (?a, ?b)) with b. unfold vzero.
  assert (Hlu : is_real (Cmult la u)) by auto with realC.
  assert (Hls : is_real (Cmult la s)) by auto with realC.
  assert (Hw : is_real (Cdiv y la)) by auto with realC.
  unfold is_real in *. rewrite Hu, Hy, Hs, Hlu, Hls, Hw. reflexivity.
Qed.

Lemma good_exact K : beam_shape K -> simple_spectrum K -> chi0 K <> 0 ->
  good_eigenpairs K (exact_eig K).
Proof.
  intros HK Hs H0. destruct (exact_values K Hs H0) as (HL & HN & HP & HZ).
  assert (Hf : map fst (exact_eig K) = exact_eigenvalues K).
  { unfold exact_eig. rewrite map_map. simpl. apply map_id. }
  unfold good_eigenpairs. rewrite Hf. split; [unfold exact_eig; now rewrite map_length|].
  split; [|split; [assumption|split; [exact HP|]]].
  - apply Forall_forall. intros e He. unfold exact_eig in He. apply in_map_iff in He.
    destruct He as (la & <- & Hla). destruct (HZ la Hla) as [Hne Hq].
    apply exact_vector_true; assumption.
  - apply Forall_forall. intros e He. unfold exact_eig in He. apply in_map_iff in He.
    destruct He as (la & <- & Hla). destruct (HZ la Hla) as [Hne Hq].
    change (snd (la, exact_vector K la)) with (exact_vector K la).
    change (fst (la, exact_vector K la)) with la.
    pose proof (exact_vector_nonzero K la Hne) as Hnz.
    split; [exact Hnz|]. intros Him Hv. apply Hnz. split; [exact Hv|].
    now apply exact_vector_real.
Qed.

(** Conversely: an eigenvalue's square is a root. *)
Lemma eigen_root K e : beam_shape K -> chi0 K <> 0 -> true_eigenpair K e ->
  ~ (fst (snd e) = vzero /\ snd (snd e) = vzero) -> chiC K (csq (fst e)) = RtoC 0.
Proof.
  intros HK H0 He Hnz. pose proof (chi_shape K (csq (fst e)) HK) as Hchi.
  destruct HK as (k21 & k24 & k25 & k43 & k61 & k64 & k65 & ->).
  destruct e as [[re im] [[u1 du1 w1 y1 s1 ds1] [u2 du2 w2 y2 s2 ds2]]].
  destruct He as [E1 E2]. unfold matvec, dot6, vadd, vscale in E1, E2. simpl in *.
  injection E1 as A1 A2 A3 A4 A5 A6. injection E2 as B1 B2 B3 B4 B5 B6.
  set (la := (re, im) : C) in *.
  set (u := (u1, u2) : C). set (w := (w1, w2) : C). set (s := (s1, s2) : C).
  set (y := (y1, y2) : C). set (du := (du1, du2) : C). set (ds := (ds1, ds2) : C).
  assert (Cu : du = Cmult la u) by (apply injective_projections; simpl; lra).
  assert (Cw : y = Cmult la w) by (apply injective_projections; simpl; lra).
  assert (Cs : ds = Cmult la s) by (apply injective_projections; simpl; lra).
  assert (C2 : Cplus (Cplus (Cmult (RtoC k21) u) (Cmult (RtoC k24) y)) (Cmult (RtoC k25) s)
               = Cmult la du) by (apply injective_projections; simpl; lra).
  assert (C4 : Cminus (Cmult (RtoC k43) w) ds = Cmult la y)
    by (apply injective_projections; simpl; lra).
  assert (C6 : Cplus (Cplus (Cmult (RtoC k61) u) (Cmult (RtoC k64) y)) (Cmult (RtoC k65) s)
               = Cmult la ds) by (apply injective_projections; simpl; lra).
  assert (Hz : ~ (u = RtoC 0 /\ w = RtoC 0 /\ s = RtoC 0)).
  { intros (Hu & Hw & Hs). apply Hnz.
    rewrite Hu in Cu. rewrite Hw in Cw. rewrite Hs in Cs.
    assert (Z : Cmult la (RtoC 0) = RtoC 0) by ring. rewrite Z in Cu, Cw, Cs.
    unfold u, w, s, y, du, ds, RtoC in *.
    apply pair_equal_spec in Hu, Hw, Hs, Cu, Cw, Cs.
    destruct Hu as [-> ->], Hw as [-> ->], Hs as [-> ->], Cu as [-> ->], Cw as [-> ->],
      Cs as [-> ->]. split; reflexivity. }
  clearbody la u w s y du ds. clear - H0 Hchi Cu Cw Cs C2 C4 C6 Hz. subst du y ds.
  unfold csq in *. set (m := Cmult la la) in *.
  (* the determinant annihilates u, s and w *)
  set (K := mkM _ _ _ _ _ _) in *.
  set (D := chiC K m) in *.
  set (p := Cminus m (RtoC k21)) in *. set (c := Cminus m (RtoC k43)) in *.
  set (e := Cminus m (RtoC k65)) in *.
  assert (R1 : Cminus (Cminus (Cmult p u) (Cmult (RtoC k24) (Cmult la w))) (Cmult (RtoC k25) s)
               = RtoC 0).
  { transitivity (Cminus (Cmult la (Cmult la u)) (Cmult la (Cmult la u))); [|ring].
    rewrite <- C2 at 2. unfold p, m. ring. }
  assert (R2 : Cplus (Cmult c w) (Cmult la s) = RtoC 0).
  { transitivity (Cminus (Cmult la (Cmult la w)) (Cmult la (Cmult la w))); [|ring].
    rewrite <- C4 at 2. unfold c, m. ring. }
  assert (R3 : Cminus (Cminus (Cmult e s) (Cmult (RtoC k61) u)) (Cmult (RtoC k64) (Cmult la w))
               = RtoC 0).
  { transitivity (Cminus (Cmult la (Cmult la s)) (Cmult la (Cmult la s))); [|ring].
    rewrite <- C6 at 2. unfold e, m. ring. }
  assert (Hcomb : forall a b d x, Cplus (Cplus
      (Cmult a (Cminus (Cminus (Cmult p u) (Cmult (RtoC k24) (Cmult la w))) (Cmult (RtoC k25) s)))
      (Cmult b (Cplus (Cmult c w) (Cmult la s))))
      (Cmult d (Cminus (Cminus (Cmult e s) (Cmult (RtoC k61) u)) (Cmult (RtoC k64) (Cmult la w))))
      = Cmult D x -> Cmult D x = RtoC 0).
  { intros a b d x <-. rewrite R1, R2, R3. ring. }
  assert (Du : Cmult D u = RtoC 0).
  { apply (Hcomb (Cplus (Cmult c e) (Cmult m (RtoC k64)))
       (Cmult la (Cplus (Cmult (RtoC k24) e) (Cmult (RtoC k25) (RtoC k64))))
       (Cminus (Cmult (RtoC k25) c) (Cmult (RtoC k24) m))).
    rewrite Hchi. unfold m. ring. }
  assert (Dw : Cmult D w = RtoC 0).
  { apply (Hcomb (Copp (Cmult la (RtoC k61))) (Cminus (Cmult p e) (Cmult (RtoC k25) (RtoC k61)))
       (Copp (Cmult p la))).
    rewrite Hchi. unfold m. ring. }
  assert (Ds : Cmult D s = RtoC 0).
  { apply (Hcomb (Cmult c (RtoC k61))
       (Cmult la (Cplus (Cmult p (RtoC k64)) (Cmult (RtoC k24) (RtoC k61)))) (Cmult p c)).
    rewrite Hchi. unfold m. ring. }
  destruct (Ceq_dec D (RtoC 0)) as [E|E]; [exact E|]. exfalso. apply Hz.
  assert (Hcancel : forall x, Cmult D x = RtoC 0 -> x = RtoC 0).
  { intros x Hx. destruct (Ceq_dec x (RtoC 0)) as [Ex|Ex]; [exact Ex|].
    exfalso. now apply (Cmult_neq_0 D x E Ex). }
  auto.
Qed.

(** Square roots are the listed ones. *)
Lemma roots_real_complete m z : csq z = (m, 0) -> In z (roots_real m).
Proof.
  intros H. assert (Hex : exists s, In s (roots_real m) /\ In (Copp s) (roots_real m)).
  { unfold roots_real. destruct (Rlt_dec 0 m).
    - exists (sqrt m, 0). split; [now left|]. right. left.
      unfold Copp; simpl. now rewrite Ropp_0.
    - exists (0, sqrt (- m)). split; [now left|]. right. left.
      unfold Copp; simpl. now rewrite Ropp_0. }
  destruct Hex as (s & Hs & Hs'). pose proof (roots_real_sq m s Hs) as E.
  assert (F : Cmult (Cminus z s) (Cplus z s) = RtoC 0).
  { transitivity (Cminus (csq z) (csq s)); [unfold csq; ring|]. rewrite H, E. ring. }
  destruct (Ceq_dec (Cminus z s) (RtoC 0)) as [G|G].
  - replace z with s; [assumption|]. transitivity (Cplus (Cminus z s) s); [|ring].
    rewrite G. ring.
  - destruct (Ceq_dec (Cplus z s) (RtoC 0)) as [G'|G'].
    + replace z with (Copp s); [assumption|]. transitivity (Cminus (Cplus z s) s); [|ring].
      rewrite G'. ring.
    + exfalso. now apply (Cmult_neq_0 _ _ G G').
Qed.

Lemma good_simple K ews : beam_shape K -> chi0 K <> 0 -> good_eigenpairs K ews ->
  simple_spectrum K.
Proof.
  intros HK H0 (HL & HT & HN & _ & HV) m Hm Hd.
  set (n := - chi2 K - 2 * m).
  assert (F : forall z, chiC K z = Cmult (Cmult (Cminus z (RtoC m)) (Cminus z (RtoC m)))
                                         (Cminus z (RtoC n))).
  { intros z. assert (E1 : chi1 K = - (3 * m ^ 2 + 2 * chi2 K * m)) by lra.
    assert (E0 : chi0 K = - (m ^ 3 + chi2 K * m ^ 2 + chi1 K * m)) by lra.
    unfold chiC. rewrite E0, E1. unfold n. unfold Rminus. simpl.
    repeat rewrite ?RtoC_plus, ?RtoC_mult, ?RtoC_opp.
    replace (RtoC 3) with (Cplus (RtoC 1) (Cplus (RtoC 1) (RtoC 1)))
      by (unfold Cplus, RtoC; simpl; f_equal; ring).
    replace (RtoC 2) with (Cplus (RtoC 1) (RtoC 1))
      by (unfold Cplus, RtoC; simpl; f_equal; ring). ring. }
  assert (HI : incl (map fst ews) (roots_real m ++ roots_real n)).
  { intros z Hz. apply in_map_iff in Hz. destruct Hz as (e & <- & He).
    rewrite Forall_forall in HT, HV.
    pose proof (eigen_root K e HK H0 (HT e He) (proj1 (HV e He))) as Hc.
    rewrite F in Hc. apply in_app_iff.
    destruct (Ceq_dec (Cminus (csq (fst e)) (RtoC m)) (RtoC 0)) as [G|G].
    - left. apply roots_real_complete.
      transitivity (Cplus (Cminus (csq (fst e)) (RtoC m)) (RtoC m)); [ring|].
      rewrite G. unfold Cplus, RtoC; simpl. f_equal; ring.
    - destruct (Ceq_dec (Cminus (csq (fst e)) (RtoC n)) (RtoC 0)) as [G'|G'].
      + right. apply roots_real_complete.
        transitivity (Cplus (Cminus (csq (fst e)) (RtoC n)) (RtoC n)); [ring|].
        rewrite G'. unfold Cplus, RtoC; simpl. f_equal; ring.
      + exfalso. apply (Cmult_neq_0 _ _ (Cmult_neq_0 _ _ G G) G'). exact Hc. }
  pose proof (NoDup_incl_length HN HI) as Hlen.
  rewrite app_length, !roots_real_length in Hlen.
  assert (H6 : List.length (map fst ews) = 6%nat) by (rewrite map_length; exact HL).
  assert (6 <= 4)%nat; [|lia]. rewrite <- H6 at 1. exact Hlen.
Qed.

(** The discriminant. *)
Lemma simple_disc K : simple_spectrum K <-> chi_disc K <> 0.
Proof.
  split.
  - intros Hs E.
    pose proof (cubic_root_eq (chi2 K) (chi1 K) (chi0 K)) as Hr. cbv zeta in Hr.
    set (r := cubic_root (chi2 K) (chi1 K) (chi0 K)) in *. clearbody r.
    set (b := chi2 K + r). set (c := chi1 K + r * b).
    assert (E0 : chi0 K = - (r * c)) by (unfold c, b; lra).
    assert (E2 : chi2 K = b - r) by (unfold b; lra).
    assert (E1 : chi1 K = c - r * b) by (unfold c; lra).
    assert (Hfac : (b ^ 2 - 4 * c) * (r ^ 2 + b * r + c) ^ 2 = 0).
    { rewrite <- E. unfold chi_disc. rewrite E0, E1, E2. ring. }
    clearbody b c. apply Rmult_integral in Hfac. destruct Hfac as [G|G].
    + apply (Hs (- b / 2)).
      * rewrite E0, E1, E2. replace c with (b ^ 2 / 4) by lra. field.
      * rewrite E1, E2. replace c with (b ^ 2 / 4) by lra. field.
    + assert (G' : r ^ 2 + b * r + c = 0).
      { replace ((r ^ 2 + b * r + c) ^ 2) with ((r ^ 2 + b * r + c) * (r ^ 2 + b * r + c)) in G
          by ring. apply Rmult_integral in G. now destruct G. }
      apply (Hs r Hr). rewrite E1, E2.
      transitivity (r ^ 2 + b * r + c); [ring|exact G'].
  - intros E m Hm Hd. apply E. unfold chi_disc.
    replace (chi1 K) with (- (3 * m ^ 2 + 2 * chi2 K * m)) in * by lra.
    replace (chi0 K) with (2 * m ^ 3 + chi2 K * m ^ 2) in * by lra. ring.
Qed.
