(** A lower bound of the stress under the skier (C121). *)
From Coquelicot Require Import Coquelicot.
Require Import Verif.Py Verif.MTools Verif.MEigen Verif.MFields Verif.SAdm Verif.SSlab Verif.MRaster
  Verif.MSolution Verif.MAnalysis Verif.SBeam Verif.SBvp Verif.SEig Verif.SMirror Verif.SSegment Verif.MEnvelope Verif.MCriterion Verif.SCritical Verif.PSetup Verif.PBeam Verif.PBvp Verif.PBvp2 Verif.PBalance Verif.PWell Verif.PWell2 Verif.PMirror
  Verif.PCreate2 Verif.PCritical Verif.PCritical2 Verif.PCritical3 Verif.PCritical5 Verif.PCritical6 Verif.PCritical7.
Open Scope R_scope.

Section T.
Variable p : params.
Hypothesis Hl : lam_ok p.
Hypothesis Hf : fnd_ok p.
Hypothesis Hs : stable p.
Let c := kA55 p - kt p * wt p ^ 2 / 16.
Lemma c_pos : 0 < c. Proof. unfold c. unfold stable in Hs. lra. Qed.
Lemma density_low z : kn p * z_w z ^ 2 + c * gam z ^ 2 <= density p true z.
Proof.
  destruct Hl as (HA & HD & HS & HK & HK0). destruct Hf as (Hn & Ht & Hw). unfold density.
  destruct (quad_pos (A11 p) (B11 p) (D11 p) (z_du z) (z_dpsi z) HA ltac:(lra)) as [Q1 _].
  assert (Q2 : 0 <= kt p * (slip p z + wt p / 4 * gam z) ^ 2) by (apply Rmult_le_pos; [lra|apply pow2_ge_0]). unfold c. nra.
Qed.
(** Comparison with the deflection [a + b x] of one supported segment. *)
Lemma trial_segment z l a b : 0 <= l -> (forall x, 0 <= x <= l -> balance p no_loads true 0 z x) ->
  work p (z 0) - 2 * (sV p (z 0) * a) <=
  work p (z l) - 2 * (sV p (z l) * (a + b * l)) + (kn p * (a ^ 2 * l + a * b * l ^ 2 + b ^ 2 * l ^ 3 / 3) + kA55 p ^ 2 / c * b ^ 2 * l).
Proof.
  intros L HB. pose proof c_pos as C.
  pose proof (derive_nonneg_incr (fun x => work p (z x) - 2 * (sV p (z x) * (a + b * x)) + (kn p * (a ^ 2 * x + a * b * x ^ 2 + b ^ 2 * x ^ 3 / 3) + kA55 p ^ 2 / c * b ^ 2 * x))
    (fun x => density p true (z x) - 2 * (kn p * z_w (z x) * (a + b * x) + sV p (z x) * b) + (kn p * (a + b * x) ^ 2 + kA55 p ^ 2 / c * b ^ 2)) 0 l L) as H.
  cbv beta in H. match type of H with ?A -> ?B -> _ => assert (H1 : A); [|assert (H2 : B)] end.
  - intros x Hx. pose proof (work_derive p true z x (HB x Hx)) as W. destruct (HB x Hx) as (_ & _ & _ & _ & V & _). cbn [no_loads qn qt pn pt s_sig] in V.
    assert (D : is_derive (fun x => a + b * x) x b) by (auto_derive; [exact Logic.I|ring]).
    pose proof (is_derive_mult (fun s => sV p (z s)) (fun s => a + b * s) x _ _ V D Rmult_comm) as P.
    pose proof (is_derive_scal _ x 2 _ P) as P2.
    assert (A : is_derive (fun x => kn p * (a ^ 2 * x + a * b * x ^ 2 + b ^ 2 * x ^ 3 / 3) + kA55 p ^ 2 / c * b ^ 2 * x) x (kn p * (a + b * x) ^ 2 + kA55 p ^ 2 / c * b ^ 2)).
    { auto_derive; [exact Logic.I|]. field. lra. }
    pose proof (is_derive_plus _ _ x _ _ (is_derive_minus _ _ x _ _ W P2) A) as Q.
    refine (eq_ind _ (fun d => is_derive _ x d) Q _ _). unfold plus, minus, opp, scal, mult. simpl. unfold plus, opp, mult. simpl. ring.
  - intros x Hx. pose proof (density_low (z x)) as D. unfold sV. fold (gam (z x)). set (w := z_w (z x)) in *. set (g := gam (z x)) in *. set (f := a + b * x).
    assert (N : 0 < kn p) by (destruct Hf; assumption).
    assert (Q1 : 0 <= kn p * (w - f) ^ 2) by (apply Rmult_le_pos; [lra|apply pow2_ge_0]). assert (Q2 : 0 <= c * (g - kA55 p / c * b) ^ 2) by (apply Rmult_le_pos; [lra|apply pow2_ge_0]).
    replace (c * (g - kA55 p / c * b) ^ 2) with (c * g ^ 2 - 2 * (kA55 p * g * b) + kA55 p ^ 2 / c * b ^ 2) in Q2 by (field; lra). nra.
  - specialize (H H1 H2). eapply Rle_trans; [|eapply Rle_trans; [exact H|]]; right; field; lra.
Qed.

(** One point load between two equal supported segments of a symmetric model. *)
Lemma tent_deflection n l F k a z j : difference p n l F k a z -> (forall i, (i <= n)%nat -> 0 <= l i) -> n = (2 * j + 1)%nat ->
  (forall i, (i <= n)%nat -> l (n - i)%nat = l i) -> (forall i, (i <= n)%nat -> k (n - i)%nat = k i) ->
  k j = true -> 0 < l j -> 0 < F j * cos a -> (forall i, i <> j -> F i = 0) -> F j * cos a / (2 * tent_stiffness p (l j)) <= z_w (z j (l j)).
Proof.
  intros (D0 & Dn & HB & T) Hp En Sl Sk Kj Lj Fj Fi.
  set (y := fun i s => combo 1 (z i s) 1 (mirror (z (n - i)%nat (l i - s)))).
  assert (J : forall i, (i < n)%nat -> z_u (y i (l i)) = z_u (y (S i) 0) /\ z_w (y i (l i)) = z_w (y (S i) 0) /\ z_psi (y i (l i)) = z_psi (y (S i) 0) /\
    sN p (y i (l i)) - sN p (y (S i) 0) = - (F i * sin a) + F (n - S i)%nat * sin a /\
    sM p (y i (l i)) - sM p (y (S i) 0) = - (hh p / 2 * - (F i * sin a)) + hh p / 2 * - (F (n - S i)%nat * sin a) /\
    sV p (y i (l i)) - sV p (y (S i) 0) = F i * cos a + F (n - S i)%nat * cos a).
  { intros i Hi. destruct (T i Hi) as (T1 & T2 & T3 & T4 & T5 & T6). destruct (T (n - S i)%nat ltac:(lia)) as (U1 & U2 & U3 & U4 & U5 & U6).
    replace (S (n - S i)) with (n - i)%nat in * by lia. rewrite (Sl (S i)) in U1, U2, U3, U4, U5, U6 by lia.
    unfold y. replace (l i - l i) with 0 by ring. replace (l (S i) - 0) with (l (S i)) by ring.
    rewrite !combo_N, !combo_M, !combo_V, !mirror_N, !mirror_M, !mirror_V. unfold combo, mirror. cbn [z_u z_w z_psi]. repeat split; lra. }
  assert (Ej : (n - S j = j)%nat) by lia.
  assert (BY : forall i x, (i <= n)%nat -> 0 <= x <= l i -> balance p no_loads (k i) 0 (y i) x).
  { intros i x Hi Hx. pose proof (HB (n - i)%nat (l i - x) ltac:(lia) ltac:(rewrite Sl by exact Hi; lra)) as B2. apply balance_mirror in B2. rewrite Sk in B2 by exact Hi.
    pose proof (balance_combo _ _ _ _ _ _ _ _ 1 1 _ (HB i x Hi Hx) B2) as H.
    replace (mkLd _ _ _ _) with no_loads in H by (unfold no_loads, flip; cbn [qn qt pn pt]; f_equal; ring).
    match type of H with balance _ _ _ ?e _ _ => replace e with 0 in H by ring end. exact H. }
  destruct (J j ltac:(lia)) as (J1 & J2 & J3 & J4 & J5 & J6). rewrite Ej in J4, J5, J6.
  assert (SJ : forall i, (i < n)%nat -> i <> j -> same6 p (y i (l i)) (y (S i) 0)).
  { intros i Hi Nij. destruct (J i Hi) as (U1 & U2 & U3 & U4 & U5 & U6). rewrite (Fi i Nij) in U4, U5, U6. rewrite (Fi (n - S i)%nat) in U4, U5, U6 by lia. unfold same6. repeat split; try assumption; lra. }
  assert (W0 : work p (y 0%nat 0) = 0).
  { unfold work, y. replace (n - 0)%nat with n by lia. rewrite <- (Sl 0%nat) by lia. replace (n - 0)%nat with n by lia. replace (l n - 0) with (l n) by ring.
    unfold combo, mirror. cbn [z_u z_w z_psi]. destruct D0 as (-> & -> & ->). destruct Dn as (-> & -> & ->). ring. }
  assert (Wn : work p (y n (l n)) = 0).
  { unfold work, y. replace (n - n)%nat with 0%nat by lia. replace (l n - l n) with 0 by ring.
    unfold combo, mirror. cbn [z_u z_w z_psi]. destruct D0 as (-> & -> & ->). destruct Dn as (-> & -> & ->). ring. }
  assert (WS : forall i, (i <= n)%nat -> work p (y i 0) <= work p (y i (l i))).
  { intros i Hi. pose proof (Hp i Hi). apply (work_incr p Hl Hf Hs (k i) (y i) (l i) (fun x Hx => BY i x Hi Hx)); lra. }
  assert (A : 0 <= work p (y j 0)).
  { destruct j as [|j']; [lra|]. rewrite <- (same6_work p _ _ (SJ j' ltac:(lia) ltac:(lia))).
    pose proof (chain_work p Hl Hf Hs j' l k y ltac:(intros; apply Hp; lia) ltac:(intros; apply BY; [lia|assumption]) ltac:(intros; apply SJ; lia)). lra. }
  assert (B : work p (y (S j) (l (S j))) <= 0).
  { destruct (Nat.eq_dec (S j) n) as [<-|Nn]; [lra|]. rewrite (same6_work p _ _ (SJ (S j) ltac:(lia) ltac:(lia))).
    set (y' := fun i => y (S (S j) + i)%nat). set (l' := fun i => l (S (S j) + i)%nat). set (k' := fun i => k (S (S j) + i)%nat).
    pose proof (chain_work p Hl Hf Hs (n - S (S j)) l' k' y') as C.
    unfold y', l', k' in C. rewrite Nat.add_0_r in C. replace (S (S j) + (n - S (S j)))%nat with n in C by lia. rewrite Wn in C. apply C.
    - intros; apply Hp; lia.
    - intros; apply BY; [lia|assumption].
    - intros i Hi. replace (S (S j) + S i)%nat with (S (S (S j) + i)) by lia. apply SJ; lia. }
  assert (W : z_w (y j (l j)) = 2 * z_w (z j (l j))).
  { unfold y, combo, mirror. cbn [z_w]. replace (l j - l j) with 0 by ring. replace (n - j)%nat with (S j) by lia. destruct (T j ltac:(lia)) as (_ & T2 & _). rewrite <- T2. ring. }
  assert (Lj' : l (S j) = l j) by (rewrite <- (Sl j) by lia; f_equal; lia). assert (Kj' : k (S j) = true) by (rewrite <- Kj, <- (Sk j) by lia; f_equal; lia).
  set (f := F j * cos a) in *. pose proof c_pos as C. assert (N : 0 < kn p) by (destruct Hf; assumption). assert (KA : 0 < kA55 p) by (unfold lam_ok in Hl; tauto).
  assert (St : 0 < tent_stiffness p (l j)).
  { unfold tent_stiffness. fold c. apply Rplus_lt_0_compat; [nra|]. apply Rdiv_lt_0_compat; [|exact Lj]. apply Rdiv_lt_0_compat; [apply pow_lt; exact KA|exact C]. }
  set (s := tent_stiffness p (l j)) in *. set (la := f / s).
  assert (Y1 : forall x, 0 <= x <= l j -> balance p no_loads true 0 (y j) x) by (intros x Hx; rewrite <- Kj; apply BY; [lia|exact Hx]).
  assert (Y2 : forall x, 0 <= x <= l j -> balance p no_loads true 0 (y (S j)) x) by (intros x Hx; rewrite <- Kj'; apply BY; [lia|rewrite Lj'; exact Hx]).
  pose proof (trial_segment (y j) (l j) 0 (la / l j) ltac:(lra) Y1) as E1. pose proof (trial_segment (y (S j)) (l j) la (- (la / l j)) ltac:(lra) Y2) as E2.
  rewrite Lj' in B.
  replace (0 + la / l j * l j) with la in E1 by (field; lra). replace (la + - (la / l j) * l j) with 0 in E2 by (field; lra).
  replace (kn p * (0 ^ 2 * l j + 0 * (la / l j) * l j ^ 2 + (la / l j) ^ 2 * l j ^ 3 / 3) + kA55 p ^ 2 / c * (la / l j) ^ 2 * l j) with (la ^ 2 * s) in E1 by (unfold s, tent_stiffness; fold c; field; lra).
  replace (kn p * (la ^ 2 * l j + la * - (la / l j) * l j ^ 2 + (- (la / l j)) ^ 2 * l j ^ 3 / 3) + kA55 p ^ 2 / c * (- (la / l j)) ^ 2 * l j) with (la ^ 2 * s) in E2 by (unfold s, tent_stiffness; fold c; field; lra).
  assert (WJ : work p (y j (l j)) - work p (y (S j) 0) = 2 * f * z_w (y j (l j))).
  { unfold work. rewrite <- J1, <- J2, <- J3. replace (sN p (y (S j) 0)) with (sN p (y j (l j))) by lra. replace (sM p (y (S j) 0)) with (sM p (y j (l j))) by lra. fold f in J6.
    replace (sV p (y (S j) 0)) with (sV p (y j (l j)) - 2 * f) by lra. ring. }
  fold f in J6. assert (E : 0 <= 2 * f * z_w (y j (l j)) - 2 * la * (2 * f) + 2 * (la ^ 2 * s)).
  { replace (sV p (y (S j) 0)) with (sV p (y j (l j)) - 2 * f) in E2 by lra. lra. }
  rewrite W in E. replace (la ^ 2 * s) with (f * f / s) in E by (unfold la; field; lra). replace (2 * la * (2 * f)) with (4 * (f * f / s)) in E by (unfold la; field; lra).
  apply (Rmult_le_reg_l (4 * f)); [lra|]. replace (4 * f * (f / (2 * s))) with (2 * (f * f / s)) by (field; lra). lra.
Qed.
End T.

Section S.
Variable eig : mat6 -> list eigpair.
Variable solve : nat -> matrix -> vector -> res vector.
Variable brent : R -> R -> list (R * R) -> bstep.
Variable maxeval : nat.
Variables (layers : list layer) (phi E t : R) (li : list R) (ki : list bool).
Hypothesis St : setting eig solve layers li ki E t.
Notation create := (fun w => create_skier_object eig solve brent maxeval (LList layers) w phi li ki false E t).
Theorem stress_model j m o w : layers <> [] -> rev li = li -> List.length li = (2 * S j)%nat -> skier_weights li (List.length li) 1 = Ok m -> nth j m 0 = 1 ->
  0 < nth j li 0 -> 0 < cos (phi * PI / 180) -> Layered eig "skiers" (LList layers) false = Ok o -> 0 <= w ->
  let p := o_par (set_foundation_properties eig o t E (1 / 4) true) in
  exists k i a b, create w = Ok k /\ sample k i a b /\
    a <= - (1000 * (weight_per_area layers * cos (deg2rad phi))) - 1000 * kn p * (w * 9810 / 1000 / 1000 * cos (phi * PI / 180) / (2 * tent_stiffness p (nth j li 0))).
Proof.
  intros Nl Sy Len Em Mj Lj Hc Lo Hw p.
  destruct (symmetric_sample eig solve brent maxeval layers phi E t li ki St j m Sy Len Em Mj) as (o' & o0 & F & z & k0 & k1 & i & a & b & a' & b' & (Hl & Hf & _) & Sb & Lo' & Ep & D & Fj & Fi & Kt & Sl & K0 & K1 & S0 & S1 & Ea).
  rewrite Lo in Lo'. apply Ok_inj in Lo'. subst o0. unfold model_obj in Ep. fold p in Ep. rewrite Ep in *.
  destruct (rest_samples eig solve brent maxeval layers phi E t li ki St k0 i a b Nl K0 S0) as [Ra _].
  destruct (setting_affine eig solve brent maxeval layers phi E t li ki St) as (s0 & s1 & t0 & t1 & AF & N).
  destruct (sample_affine _ _ _ _ _ AF _ _ _ _ _ K0 S0) as (a0 & a1 & b0 & b1 & N1 & N2 & N3 & N4 & E1 & E2).
  destruct (sample_affine _ _ _ _ _ AF _ _ _ _ _ K1 S1) as (a2 & a3 & b2 & b3 & M1 & M2 & M3 & M4 & E3 & E4).
  rewrite N1 in M1. injection M1 as <-. rewrite N2 in M2. injection M2 as <-.
  destruct (affine_model eig solve brent maxeval layers phi E t li ki St) as (x0 & x1 & x2 & x3 & _ & _ & _ & _ & Tot). destruct (Tot w) as (k & K & _).
  exists k, i, (a0 + w * a1), (b0 + w * b1). split; [exact K|]. split; [exact (affine_sample _ _ _ _ _ AF _ _ _ _ _ _ _ K N1 N2 N3 N4)|].
  assert (WD : 9810 / 1000 / 1000 * cos (phi * PI / 180) / (2 * tent_stiffness p (nth j li 0)) <= z_w (z j (nth j li 0))).
  { rewrite <- Fj. destruct St as (_ & _ & _ & _ & _ & _ & N2' & Lk & Nn & _).
    apply (tent_deflection p Hl Hf Sb (List.length li - 1) (fun i => nth i li 0) F (fun i => nth i (map (fun _ => true) ki) false) (phi * PI / 180) z j); try assumption.
    - intros i' Hi. apply Nn. apply nth_In. lia.
    - lia.
    - intros i' Hi. rewrite !Kt by lia. reflexivity.
    - apply Kt. lia.
    - rewrite Fj. apply Rmult_lt_0_compat; [lra|exact Hc]. }
  assert (Kn : 0 < kn p) by (unfold fnd_ok in Hf; tauto). rewrite <- Ra.
  replace (w * 9810 / 1000 / 1000 * cos (phi * PI / 180) / (2 * tent_stiffness p (nth j li 0))) with (w * (9810 / 1000 / 1000 * cos (phi * PI / 180) / (2 * tent_stiffness p (nth j li 0)))) by (unfold Rdiv; ring).
  set (d := 9810 / 1000 / 1000 * cos (phi * PI / 180) / (2 * tent_stiffness p (nth j li 0))) in *. set (zz := z_w (z j (nth j li 0))) in *.
  assert (A1 : a1 = - (1000 * kn p * zz)) by lra. rewrite A1, E1. assert (w * (kn p * d) <= w * (kn p * zz)) by (apply Rmult_le_compat_l; [exact Hw|apply Rmult_le_compat_l; lra]). nra.
Qed.
End S.
