(** Well-posedness of the beam problem: energy argument. *)
From Coquelicot Require Import Coquelicot.
Require Import Verif.Py Verif.MTools Verif.MEigen Verif.MFields Verif.SAdm Verif.MRaster
  Verif.MSolution Verif.SBeam Verif.SBvp Verif.SEig Verif.PBeam Verif.PBeam2 Verif.PBvp Verif.PBvp2
  Verif.PBalance.

(** Work of the section forces. *)
Definition work (p : params) (z : vec6) : R :=
  sN p z * z_u z + sM p z * z_psi z + sV p z * z_w z.
(** Stored energy density of slab and weak layer as the beam equations see it. *)
Definition gam (z : vec6) : R := z_dw z + z_psi z.
Definition slip (p : params) (z : vec6) : R := z_u z + hh p / 2 * z_psi z - wt p / 2 * z_dw z.
Definition density (p : params) (k : bool) (z : vec6) : R :=
  A11 p * z_du z ^ 2 + 2 * B11 p * z_du z * z_dpsi z + D11 p * z_dpsi z ^ 2
  + (kA55 p * gam z ^ 2
     + if k then kn p * z_w z ^ 2 + kt p * slip p z * (slip p z + wt p / 2 * gam z) else 0).

Lemma work_derive p k z x : balance p no_loads k 0 z x ->
  is_derive (fun s => work p (z s)) x (density p k (z x)).
Proof.
  intros (H1 & H2 & H3 & H4 & H5 & H6). cbn [no_loads qn qt pn pt] in *. unfold work.
  pose proof (is_derive_mult (fun s => sN p (z s)) (fun s => z_u (z s)) x _ _ H4 H1 Rmult_comm) as P1.
  pose proof (is_derive_mult (fun s => sM p (z s)) (fun s => z_psi (z s)) x _ _ H6 H3 Rmult_comm) as P2.
  pose proof (is_derive_mult (fun s => sV p (z s)) (fun s => z_w (z s)) x _ _ H5 H2 Rmult_comm) as P3.
  eapply is_derive_eq.
  - apply (is_derive_plusR _ _ _ _ _ (is_derive_plusR _ _ _ _ _ P1 P2) P3).
  - unfold plus, mult; simpl. unfold density, gam, slip, sN, sM, sV, s_tau, s_sig. destruct k; simpl; field.
Qed.

Lemma quad_pos (a b d x y : R) : 0 < a -> b ^ 2 - a * d < 0 ->
  0 <= a * x ^ 2 + 2 * b * x * y + d * y ^ 2 /\
  (a * x ^ 2 + 2 * b * x * y + d * y ^ 2 = 0 -> x = 0 /\ y = 0).
Proof.
  intros Ha Hd.
  assert (E : a * (a * x ^ 2 + 2 * b * x * y + d * y ^ 2) = (a * x + b * y) ^ 2 + (a * d - b ^ 2) * y ^ 2) by ring.
  assert (P1 : 0 <= (a * x + b * y) ^ 2) by apply pow2_ge_0.
  assert (P2 : 0 <= (a * d - b ^ 2) * y ^ 2) by (apply Rmult_le_pos; [lra|apply pow2_ge_0]).
  split.
  - apply Rmult_le_reg_l with a; [exact Ha|]. rewrite Rmult_0_r, E. lra.
  - intros Z. rewrite Z, Rmult_0_r in E.
    assert (Ey : (a * d - b ^ 2) * y ^ 2 = 0) by lra.
    apply Rmult_integral in Ey. destruct Ey as [Ey|Ey]; [lra|].
    assert (y = 0).
    { destruct (Req_EM_T y 0) as [|N]; [assumption|]. exfalso. apply (pow_nonzero y 2 N). exact Ey. }
    subst y. split; [|reflexivity].
    assert (Ex : (a * x + b * 0) ^ 2 = 0) by lra.
    destruct (Req_EM_T x 0) as [|N]; [assumption|]. exfalso.
    apply (pow_nonzero (a * x + b * 0) 2); [|exact Ex].
    rewrite Rmult_0_r, Rplus_0_r. apply Rmult_integral_contrapositive. split; lra.
Qed.

Lemma density_nonneg p k z : lam_ok p -> fnd_ok p -> stable p ->
  0 <= density p k z /\
  (density p k z = 0 -> z_du z = 0 /\ z_dpsi z = 0 /\ gam z = 0 /\
     (k = true -> z_w z = 0 /\ slip p z = 0)).
Proof.
  intros (HA & HD & HS & HK & HK0) (Hn & Ht & Hw) Hst. unfold density.
  destruct (quad_pos (A11 p) (B11 p) (D11 p) (z_du z) (z_dpsi z) HA ltac:(lra)) as [Q1 Q2].
  set (q := A11 p * z_du z ^ 2 + 2 * B11 p * z_du z * z_dpsi z + D11 p * z_dpsi z ^ 2) in *.
  destruct k.
  - destruct (quad_pos (kt p) (kt p * wt p / 4) (kA55 p) (slip p z) (gam z) Ht) as [S1 S2].
    { unfold stable in Hst. assert (0 < kt p * (16 * kA55 p - kt p * wt p ^ 2)) as P.
      { apply Rmult_lt_0_compat; lra. }
      simpl. simpl in P. lra. }
    assert (E : kt p * slip p z ^ 2 + 2 * (kt p * wt p / 4) * slip p z * gam z + kA55 p * gam z ^ 2
      = kA55 p * gam z ^ 2 + kt p * slip p z * (slip p z + wt p / 2 * gam z)) by field.
    rewrite E in S1, S2.
    assert (W : 0 <= kn p * z_w z ^ 2) by (apply Rmult_le_pos; [lra|apply pow2_ge_0]).
    split; [lra|]. intros Z.
    destruct Q2 as [Q2 Q3]; [lra|]. destruct S2 as [S2 S3]; [lra|].
    repeat split; try assumption.
    assert (W0 : kn p * z_w z ^ 2 = 0) by lra.
    apply Rmult_integral in W0. destruct W0 as [W0|W0]; [lra|].
    destruct (Req_EM_T (z_w z) 0) as [|N]; [assumption|]. exfalso. apply (pow_nonzero (z_w z) 2 N). exact W0.
  - assert (G : 0 <= kA55 p * gam z ^ 2) by (apply Rmult_le_pos; [lra|apply pow2_ge_0]).
    split; [lra|]. intros Z. destruct Q2 as [Q2 Q3]; [lra|].
    assert (G0 : kA55 p * gam z ^ 2 = 0) by lra.
    apply Rmult_integral in G0. destruct G0 as [G0|G0]; [lra|].
    repeat split; try assumption; try discriminate.
    destruct (Req_EM_T (gam z) 0) as [|N]; [assumption|]. exfalso. apply (pow_nonzero (gam z) 2 N). exact G0.
Qed.

(** ** Calculus *)
Lemma derive_nonneg_incr (f df : R -> R) a b :
  a <= b -> (forall x, a <= x <= b -> is_derive f x (df x)) -> (forall x, a <= x <= b -> 0 <= df x) ->
  f a <= f b.
Proof.
  intros Hab Hd Hp.
  destruct (MVT_gen f a b df) as (c & Hc & E).
  - intros x Hx. rewrite Rmin_left, Rmax_right in Hx by lra. apply Hd; lra.
  - intros x Hx. rewrite Rmin_left, Rmax_right in Hx by lra.
    apply continuity_pt_filterlim. apply (cont_of_derive f x (df x)). apply Hd; lra.
  - rewrite Rmin_left, Rmax_right in Hc by lra.
    specialize (Hp c Hc). assert (0 <= df c * (b - a)) by (apply Rmult_le_pos; lra). lra.
Qed.

Lemma derive_of_const (f : R -> R) (a b x d c : R) : a < x < b ->
  (forall y, a <= y <= b -> f y = c) -> is_derive f x d -> d = 0.
Proof.
  intros Hx Hc Hd.
  assert (H0 : is_derive f x 0).
  { apply (is_derive_ext_loc (fun _ => c)).
    - assert (He : 0 < Rmin (x - a) (b - x)) by (apply Rmin_pos; lra).
      exists (mkposreal _ He). intros y Hy. symmetry. apply Hc.
      unfold ball in Hy; simpl in Hy; unfold AbsRing_ball, abs, minus, plus, opp in Hy; simpl in Hy.
      apply Rabs_def2 in Hy.
      pose proof (Rmin_l (x - a) (b - x)). pose proof (Rmin_r (x - a) (b - x)). lra.
    - exact (is_derive_const (K := R_AbsRing) (V := R_NormedModule) c x). }
  eapply is_derive_uniq; eassumption.
Qed.

(** A function that vanishes inside an interval vanishes at its ends. *)
Lemma zero_extends (f : R -> R) a b : a < b -> (forall x, a <= x <= b -> continuous f x) ->
  (forall x, a < x < b -> f x = 0) -> forall x, a <= x <= b -> f x = 0.
Proof.
  intros Hab Hc Hz x Hx.
  destruct (Req_EM_T (f x) 0) as [|N]; [assumption|]. exfalso.
  pose proof (Hc x Hx) as C.
  assert (Hp : 0 < Rabs (f x)) by (apply Rabs_pos_lt; exact N).
  destruct (proj1 (filterlim_locally f (f x)) C (mkposreal _ Hp)) as [e He].
  assert (Ex : exists y, a < y < b /\ Rabs (y - x) < e).
  { destruct e as [e e0]; simpl.
    destruct (Rle_dec x ((a + b) / 2)).
    - exists (x + Rmin (e / 2) ((b - a) / 4)).
      assert (0 < Rmin (e / 2) ((b - a) / 4)) by (apply Rmin_pos; lra).
      pose proof (Rmin_l (e / 2) ((b - a) / 4)). pose proof (Rmin_r (e / 2) ((b - a) / 4)).
      split; [lra|]. replace (x + Rmin (e / 2) ((b - a) / 4) - x) with (Rmin (e / 2) ((b - a) / 4)) by ring.
      rewrite Rabs_right by lra. lra.
    - exists (x - Rmin (e / 2) ((b - a) / 4)).
      assert (0 < Rmin (e / 2) ((b - a) / 4)) by (apply Rmin_pos; lra).
      pose proof (Rmin_l (e / 2) ((b - a) / 4)). pose proof (Rmin_r (e / 2) ((b - a) / 4)).
      split; [lra|]. replace (x - Rmin (e / 2) ((b - a) / 4) - x) with (- Rmin (e / 2) ((b - a) / 4)) by ring.
      rewrite Rabs_Ropp, Rabs_right by lra. lra. }
  destruct Ex as (y & Hy & Hyx). specialize (He y).
  assert (B : ball x e y).
  { unfold ball; simpl; unfold AbsRing_ball, abs, minus, plus, opp; simpl. exact Hyx. }
  specialize (He B). unfold ball in He; simpl in He; unfold AbsRing_ball, abs, minus, plus, opp in He; simpl in He.
  rewrite (Hz y Hy) in He.
  replace (0 + - f x) with (- f x) in He by ring.
  rewrite Rabs_Ropp in He. lra.
Qed.

Lemma derive_zero_const (f df : R -> R) a b : a <= b ->
  (forall x, a <= x <= b -> is_derive f x (df x)) -> (forall x, a < x < b -> df x = 0) ->
  f a = f b.
Proof.
  intros Hab Hd Hz. destruct (Req_EM_T a b) as [->|Hne]; [reflexivity|].
  destruct (MVT_cor2 f df a b) as (c & E & Hc).
  - lra.
  - intros c Hc. apply is_derive_Reals. apply Hd. exact Hc.
  - rewrite Hz in E by exact Hc. lra.
Qed.

(** ** One segment *)
(** All components of a homogeneous field are continuous. *)
Lemma comps_continuous p ld k em (z : R -> vec6) (x : R) : lam_ok p -> balance p ld k em z x ->
  continuous (fun s => z_u (z s)) x /\ continuous (fun s => z_du (z s)) x /\
  continuous (fun s => z_w (z s)) x /\ continuous (fun s => z_dw (z s)) x /\
  continuous (fun s => z_psi (z s)) x /\ continuous (fun s => z_dpsi (z s)) x.
Proof.
  intros (HA & HD & HS & HK & HK0) (H1 & H2 & H3 & H4 & H5 & H6).
  apply cont_of_derive in H1. apply cont_of_derive in H2. apply cont_of_derive in H3.
  apply cont_of_derive in H4. apply cont_of_derive in H5. apply cont_of_derive in H6.
  assert (Kn : B11 p ^ 2 - A11 p * D11 p <> 0) by lra.
  split6.
  - exact H1.
  - apply (continuous_extR (fun s => (- D11 p / K0 p) * sN p (z s) + (B11 p / K0 p) * sM p (z s) + 0 * sM p (z s) + 0)).
    + intros s. unfold sN, sM. rewrite HK. field. exact Kn.
    + apply (continuous_lin (fun s => sN p (z s)) (fun s => sM p (z s)) (fun s => sM p (z s))); assumption.
  - exact H2.
  - apply (dw_continuous p z x HS H5 H3).
  - exact H3.
  - apply (continuous_extR (fun s => (B11 p / K0 p) * sN p (z s) + (- A11 p / K0 p) * sM p (z s) + 0 * sM p (z s) + 0)).
    + intros s. unfold sN, sM. rewrite HK. field. exact Kn.
    + apply (continuous_lin (fun s => sN p (z s)) (fun s => sM p (z s)) (fun s => sM p (z s))); assumption.
Qed.

(** The six transmitted quantities determine the state. *)
Lemma state_zero p z : lam_ok p ->
  z_u z = 0 -> z_w z = 0 -> z_psi z = 0 -> sN p z = 0 -> sM p z = 0 -> sV p z = 0 -> z = vzero.
Proof.
  intros (HA & HD & HS & HK & HK0) H1 H2 H3 H4 H5 H6. unfold sN, sM, sV in *.
  assert (E1 : (B11 p ^ 2 - A11 p * D11 p) * z_du z = 0).
  { replace ((B11 p ^ 2 - A11 p * D11 p) * z_du z)
      with (B11 p * (B11 p * z_du z + D11 p * z_dpsi z) - D11 p * (A11 p * z_du z + B11 p * z_dpsi z)) by ring.
    rewrite H4, H5; ring. }
  assert (E2 : (B11 p ^ 2 - A11 p * D11 p) * z_dpsi z = 0).
  { replace ((B11 p ^ 2 - A11 p * D11 p) * z_dpsi z)
      with (B11 p * (A11 p * z_du z + B11 p * z_dpsi z) - A11 p * (B11 p * z_du z + D11 p * z_dpsi z)) by ring.
    rewrite H4, H5; ring. }
  apply Rmult_integral in E1. apply Rmult_integral in E2. apply Rmult_integral in H6.
  apply vec6_eq; simpl; lra.
Qed.

Section Segment.
Variable p : params.
Hypothesis Hl : lam_ok p.
Hypothesis Hf : fnd_ok p.
Hypothesis Hs : stable p.
Variable k : bool.
Variable z : R -> vec6.
Variable l : R.
Hypothesis Hl0 : 0 <= l.
Hypothesis HB : forall x, 0 <= x <= l -> balance p no_loads k 0 z x.

Lemma work_incr a b : 0 <= a -> a <= b -> b <= l -> work p (z a) <= work p (z b).
Proof.
  intros Ha Hab Hb.
  apply (derive_nonneg_incr (fun s => work p (z s)) (fun s => density p k (z s)) a b Hab).
  - intros x Hx. apply work_derive. apply HB. lra.
  - intros x Hx. apply density_nonneg; assumption.
Qed.

(** No work done: no deformation. *)
Lemma no_work x : work p (z 0) = work p (z l) -> 0 < x < l -> density p k (z x) = 0.
Proof.
  intros E Hx.
  apply (derive_of_const (fun s => work p (z s)) 0 l x _ (work p (z 0)) Hx).
  - intros y Hy. pose proof (work_incr 0 y ltac:(lra) ltac:(lra) ltac:(lra)).
    pose proof (work_incr y l ltac:(lra) ltac:(lra) ltac:(lra)). lra.
  - apply work_derive. apply HB. lra.
Qed.

Hypothesis Hnw : work p (z 0) = work p (z l).

Lemma supported_zero : k = true -> 0 < l -> forall x, 0 <= x <= l -> z x = vzero.
Proof.
  intros Hk Hlp.
  assert (I : forall x, 0 < x < l -> z_du (z x) = 0 /\ z_dpsi (z x) = 0 /\ gam (z x) = 0 /\
     z_w (z x) = 0 /\ slip p (z x) = 0).
  { intros x Hx. destruct (density_nonneg p k (z x) Hl Hf Hs) as [_ D].
    destruct (D (no_work x Hnw Hx)) as (D1 & D2 & D3 & D4). destruct (D4 Hk). auto. }
  assert (CC : forall x, 0 <= x <= l -> _) by (exact (fun x Hx => comps_continuous p _ _ _ z x Hl (HB x Hx))).
  assert (W : forall x, 0 <= x <= l -> z_w (z x) = 0).
  { apply (zero_extends (fun s => z_w (z s)) 0 l Hlp); [intros x Hx; apply CC; exact Hx|].
    intros x Hx. apply I; exact Hx. }
  assert (DW : forall x, 0 < x < l -> z_dw (z x) = 0).
  { intros x Hx. destruct (HB x ltac:(lra)) as (_ & H2 & _).
    apply (derive_of_const (fun s => z_w (z s)) 0 l x _ 0 Hx W H2). }
  assert (Z : forall x, 0 < x < l -> z x = vzero).
  { intros x Hx. destruct (I x Hx) as (D1 & D2 & D3 & D4 & D5). specialize (DW x Hx).
    unfold gam, slip in *.
    assert (z_psi (z x) = 0) by lra. assert (z_u (z x) = 0) by (rewrite H, DW in D5; lra).
    apply vec6_eq; simpl; assumption. }
  intros x Hx.
  assert (E : forall f : vec6 -> R, f vzero = 0 ->
     (forall y, 0 <= y <= l -> continuous (fun s => f (z s)) y) -> f (z x) = 0).
  { intros f F0 Fc. apply (zero_extends (fun s => f (z s)) 0 l Hlp Fc); [|exact Hx].
    intros y Hy. rewrite (Z y Hy). exact F0. }
  apply vec6_eq; apply E; try reflexivity; intros y Hy; apply CC; exact Hy.
Qed.

(** Zero at one point: zero everywhere. *)
Lemma const_inside (f df : R -> R) : (forall x, 0 <= x <= l -> is_derive f x (df x)) ->
  (forall x, 0 < x < l -> df x = 0) -> forall x y, 0 <= x <= l -> 0 <= y <= l -> f x = f y.
Proof.
  intros Hd Hz x y Hx Hy. destruct (Rle_dec x y).
  - apply (derive_zero_const f df); [lra|intros; apply Hd; lra|intros; apply Hz; lra].
  - symmetry. apply (derive_zero_const f df); [lra|intros; apply Hd; lra|intros; apply Hz; lra].
Qed.

Lemma zero_spreads y : 0 <= y <= l -> z y = vzero ->
  forall x, 0 <= x <= l -> z x = vzero.
Proof.
  intros Hy Zy x Hx. destruct (Req_EM_T l 0) as [El|El].
  { replace x with y by lra. exact Zy. }
  assert (I : forall x, 0 < x < l -> z_du (z x) = 0 /\ z_dpsi (z x) = 0 /\ gam (z x) = 0).
  { intros s Hx'. destruct (density_nonneg p k (z s) Hl Hf Hs) as [_ D].
    destruct (D (no_work s Hnw Hx')) as (D1 & D2 & D3 & _). auto. }
  assert (CC : forall x, 0 <= x <= l -> _) by (exact (fun x Hx => comps_continuous p _ _ _ z x Hl (HB x Hx))).
  assert (U : forall s, 0 <= s <= l -> z_u (z s) = 0).
  { intros s H. rewrite (const_inside (fun s => z_u (z s)) (fun s => z_du (z s))) with (y := y); try assumption.
    - rewrite Zy. reflexivity.
    - intros s' Hs'. apply (HB s' Hs').
    - intros s' Hs'. apply (I s' Hs'). }
  assert (P : forall s, 0 <= s <= l -> z_psi (z s) = 0).
  { intros s H. rewrite (const_inside (fun s => z_psi (z s)) (fun s => z_dpsi (z s))) with (y := y); try assumption.
    - rewrite Zy. reflexivity.
    - intros s' Hs'. apply (HB s' Hs').
    - intros s' Hs'. apply (I s' Hs'). }
  assert (DW : forall s, 0 < s < l -> z_dw (z s) = 0).
  { intros s H. destruct (I s H) as (_ & _ & G). unfold gam in G. rewrite P in G by lra. lra. }
  assert (W : forall s, 0 <= s <= l -> z_w (z s) = 0).
  { intros s H. rewrite (const_inside (fun s => z_w (z s)) (fun s => z_dw (z s))) with (y := y); try assumption.
    - rewrite Zy. reflexivity.
    - intros s' Hs'. apply (HB s' Hs'). }
  assert (Hlp : 0 < l) by lra.
  apply vec6_eq; simpl.
  - apply U; exact Hx.
  - apply (zero_extends (fun s => z_du (z s)) 0 l Hlp); [intros s H; apply CC; exact H|intros s H; apply I; exact H|exact Hx].
  - apply W; exact Hx.
  - apply (zero_extends (fun s => z_dw (z s)) 0 l Hlp); [intros s H; apply CC; exact H|exact DW|exact Hx].
  - apply P; exact Hx.
  - apply (zero_extends (fun s => z_dpsi (z s)) 0 l Hlp); [intros s H; apply CC; exact H|intros s H; apply I; exact H|exact Hx].
Qed.
End Segment.

(** ** All segments *)
Definition same6 (p : params) (a b : vec6) : Prop :=
  z_u a = z_u b /\ z_w a = z_w b /\ z_psi a = z_psi b /\
  sN p a = sN p b /\ sM p a = sM p b /\ sV p a = sV p b.

Lemma same6_work p a b : same6 p a b -> work p a = work p b.
Proof. intros (H1 & H2 & H3 & H4 & H5 & H6). unfold work. congruence. Qed.
Lemma same6_zero p a b : lam_ok p -> same6 p a b -> (a = vzero <-> b = vzero).
Proof.
  intros Hl (H1 & H2 & H3 & H4 & H5 & H6).
  assert (Z : sN p vzero = 0 /\ sM p vzero = 0 /\ sV p vzero = 0).
  { unfold sN, sM, sV; simpl. repeat split; ring. }
  destruct Z as (Z1 & Z2 & Z3).
  split; intros E; subst; apply (state_zero p); try exact Hl; simpl in *; congruence.
Qed.

Lemma sumn_nonneg_zero n f : (forall i, (i < n)%nat -> 0 <= f i) -> sumn n f <= 0 ->
  forall i, (i < n)%nat -> f i = 0.
Proof.
  induction n as [|n IH]; intros Hp Hs i Hi; [lia|]. simpl in Hs.
  assert (P : 0 <= sumn n f).
  { clear -Hp. induction n as [|n IH]; simpl; [lra|].
    assert (0 <= sumn n f) by (apply IH; intros; apply Hp; lia). specialize (Hp n ltac:(lia)). lra. }
  pose proof (Hp n ltac:(lia)).
  destruct (Nat.eq_dec i n) as [->|]; [lra|]. apply IH; [intros; apply Hp; lia|lra|lia].
Qed.

Lemma homogeneous_unique p n (l : nat -> R) (k : nat -> bool) (z : nat -> R -> vec6) i0 :
  lam_ok p -> fnd_ok p -> stable p ->
  (forall i, (i <= n)%nat -> 0 <= l i) ->
  (forall i x, (i <= n)%nat -> 0 <= x <= l i -> balance p no_loads (k i) 0 (z i) x) ->
  (forall i, (i < n)%nat -> same6 p (z i (l i)) (z (S i) 0)) ->
  0 <= work p (z 0%nat 0) -> work p (z n (l n)) <= 0 ->
  (i0 <= n)%nat -> k i0 = true -> 0 < l i0 ->
  forall i x, (i <= n)%nat -> 0 <= x <= l i -> z i x = vzero.
Proof.
  intros Hl Hf Hs Hpos HB HT HW0 HWn Hi0 Hk0 Hl0.
  assert (Hinc : forall i, (i < S n)%nat -> 0 <= work p (z i (l i)) - work p (z i 0)).
  { intros i Hi. assert (0 <= l i) by (apply Hpos; lia).
    pose proof (work_incr p Hl Hf Hs (k i) (z i) (l i) (fun x Hx => HB i x ltac:(lia) Hx)
      0 (l i) ltac:(lra) ltac:(lra) ltac:(lra)). lra. }
  assert (Hsum : sumn (S n) (fun i => work p (z i (l i)) - work p (z i 0)) <= 0).
  { rewrite (telescope (fun i => work p (z i 0)) (fun i => work p (z i (l i))) (fun _ => 0) n).
    - rewrite (sumn_zero n (fun _ => 0)) by reflexivity. lra.
    - intros i Hi. rewrite (same6_work p _ _ (HT i Hi)). ring. }
  assert (Hnw : forall i, (i <= n)%nat -> work p (z i 0) = work p (z i (l i))).
  { intros i Hi. pose proof (sumn_nonneg_zero (S n) _ Hinc Hsum i ltac:(lia)). simpl in H. lra. }
  assert (Hspread : forall i y, (i <= n)%nat -> 0 <= y <= l i -> z i y = vzero ->
    forall x, 0 <= x <= l i -> z i x = vzero).
  { intros i y Hi Hy Zy x Hx.
    apply (zero_spreads p Hl Hf Hs (k i) (z i) (l i) (Hpos i Hi) (fun s H => HB i s Hi H) (Hnw i Hi) y Hy Zy x Hx). }
  assert (H0 : forall x, 0 <= x <= l i0 -> z i0 x = vzero).
  { intros x Hx. apply (supported_zero p Hl Hf Hs (k i0) (z i0) (l i0)
      (fun s H => HB i0 s Hi0 H) (Hnw i0 Hi0) Hk0 Hl0 x Hx). }
  assert (Up : forall d, (i0 + d <= n)%nat -> forall x, 0 <= x <= l (i0 + d)%nat -> z (i0 + d)%nat x = vzero).
  { induction d as [|d IH]; intros Hd.
    - rewrite Nat.add_0_r. exact H0.
    - replace (i0 + S d)%nat with (S (i0 + d)) in * by lia.
      assert (P0 : 0 <= l (i0 + d)%nat) by (apply Hpos; lia).
      assert (P1 : 0 <= l (S (i0 + d))) by (apply Hpos; lia).
      apply (Hspread (S (i0 + d)) 0); [lia|lra|].
      apply (same6_zero p _ _ Hl (HT (i0 + d)%nat ltac:(lia))). apply IH; [lia|lra]. }
  assert (Dn : forall d, (d <= i0)%nat -> forall x, 0 <= x <= l (i0 - d)%nat -> z (i0 - d)%nat x = vzero).
  { induction d as [|d IH]; intros Hd.
    - rewrite Nat.sub_0_r. exact H0.
    - assert (P0 : 0 <= l (i0 - d)%nat) by (apply Hpos; lia).
      assert (P1 : 0 <= l (i0 - S d)%nat) by (apply Hpos; lia).
      apply (Hspread (i0 - S d)%nat (l (i0 - S d)%nat)); [lia|lra|].
      apply (same6_zero p _ _ Hl (HT (i0 - S d)%nat ltac:(lia))).
      replace (S (i0 - S d)) with (i0 - d)%nat by lia. apply IH; [lia|lra]. }
  intros i x Hi Hx. destruct (Nat.le_ge_cases i0 i) as [H|H].
  - replace i with (i0 + (i - i0))%nat in * by lia. apply Up; [lia|exact Hx].
  - replace i with (i0 - (i0 - i))%nat in * by lia. apply Dn; [lia|exact Hx].
Qed.
