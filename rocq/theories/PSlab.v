From Coquelicot Require Import Coquelicot.
Require Import Verif.Py Verif.MTools Verif.MEigen Verif.SSlab.

(** * Integrals of piecewise constant stacks *)

Lemma thickness_nonneg ls : pos_thick ls -> 0 <= thickness ls.
Proof.
  induction ls as [|[c h] r IH]; simpl; intros H; [lra|].
  inversion H; subst; simpl in *; specialize (IH H3); lra.
Qed.

Lemma thickness_pos ls : ls <> [] -> pos_thick ls -> 0 < thickness ls.
Proof.
  destruct ls as [|[c h] r]; simpl; intros Hn H; [congruence|].
  inversion H; subst; simpl in *. pose proof (thickness_nonneg r H3). lra.
Qed.

Lemma pos_layers_thick ls : pos_layers ls -> pos_thick ls.
Proof. apply Forall_impl; intros a [_ H]; exact H. Qed.

(** Piecewise integral. *)
Fixpoint pint (F : R -> R) (z0 : R) (ls : list (R * R)) : R :=
  match ls with
  | [] => 0
  | (c, h) :: r => c * (F (z0 + h) - F z0) + pint F (z0 + h) r
  end.

Lemma val_at_integral f F z0 ls :
  pos_thick ls ->
  (forall z, is_derive F z (f z)) -> (forall z, continuous f z) ->
  is_RInt (fun z => val_at z0 ls z * f z) z0 (z0 + thickness ls) (pint F z0 ls).
Proof.
  intros Hp HF Hf; revert z0; induction ls as [|[c h] r IH]; intros z0; simpl.
  - replace (z0 + 0) with z0 by ring. exact (is_RInt_point _ z0).
  - inversion Hp; subst; simpl in *.
    apply (is_RInt_Chasles (V := R_NormedModule) _ z0 (z0 + h)).
    + apply (is_RInt_ext (V := R_NormedModule) (fun z => scal c (f z))).
      * intros z Hz. rewrite Rmin_left, Rmax_right in Hz by lra.
        destruct (Rlt_dec z (z0 + h)); [reflexivity|lra].
      * apply (is_RInt_scal (V := R_NormedModule)).
        apply (is_RInt_derive (V := R_CompleteNormedModule)); intros; [apply HF|apply Hf].
    + replace (z0 + (h + thickness r)) with (z0 + h + thickness r) by ring.
      apply (is_RInt_ext (V := R_NormedModule)
               (fun z => val_at (z0 + h) r z * f z)); [|apply IH; assumption].
      intros z Hz. pose proof (thickness_nonneg r H2).
      rewrite Rmin_left, Rmax_right in Hz by lra.
      destruct (Rlt_dec z (z0 + h)); [lra|reflexivity].
Qed.

Lemma depth_integral_pint f F ls :
  pos_thick ls ->
  (forall z, is_derive F z (f z)) -> (forall z, continuous f z) ->
  depth_integral ls f = pint F (- thickness ls / 2) ls.
Proof.
  intros Hp HF Hf. unfold depth_integral.
  apply is_RInt_unique.
  pose proof (val_at_integral f F (- thickness ls / 2) ls Hp HF Hf) as H.
  replace (- thickness ls / 2 + thickness ls) with (thickness ls / 2) in H by field.
  exact H.
Qed.

(** Antiderivatives used below. *)
Definition F0 (z : R) := z.
Definition F1 (z : R) := z ^ 2 / 2.
Definition F2 (z : R) := z ^ 3 / 3.

Lemma depth0 ls : pos_thick ls ->
  depth_integral ls (fun _ => 1) = pint F0 (- thickness ls / 2) ls.
Proof.
  intros H; apply depth_integral_pint; trivial; intros z.
  - unfold F0; apply (is_derive_id (K := R_AbsRing)).
  - apply continuous_const.
Qed.
Lemma depth1 ls : pos_thick ls ->
  depth_integral ls (fun z => z) = pint F1 (- thickness ls / 2) ls.
Proof.
  intros H; apply depth_integral_pint; trivial; intros z.
  - unfold F1; auto_derive; [trivial|field].
  - apply continuous_id.
Qed.
Lemma depth2 ls : pos_thick ls ->
  depth_integral ls (fun z => z ^ 2) = pint F2 (- thickness ls / 2) ls.
Proof.
  intros H; apply depth_integral_pint; trivial; intros z.
  - unfold F2; auto_derive; [trivial|field].
  - apply (ex_derive_continuous (K := R_AbsRing)); auto_derive; trivial.
Qed.

(** Basic algebra of [pint]. *)
Lemma thickness_app a b : thickness (a ++ b) = thickness a + thickness b.
Proof. induction a as [|[c h] r IH]; simpl; [|rewrite IH]; ring. Qed.

Lemma pint_app F z0 a b :
  pint F z0 (a ++ b) = pint F z0 a + pint F (z0 + thickness a) b.
Proof.
  revert z0; induction a as [|[c h] r IH]; intros z0; simpl.
  - replace (z0 + 0) with z0 by ring; ring.
  - rewrite IH. replace (z0 + h + thickness r) with (z0 + (h + thickness r)) by ring.
    ring.
Qed.

Lemma thickness_rev a : thickness (rev a) = thickness a.
Proof.
  induction a as [|[c h] r IH]; simpl; [reflexivity|].
  rewrite thickness_app, IH; simpl; ring.
Qed.

(** Reversal: integral of an even/odd antiderivative. *)
Lemma pint_rev_odd F s ls z0 :
  s * s = 1 -> (forall z, F (- z) = s * F z) ->
  pint F z0 (rev ls) = - s * pint F (- z0 - thickness ls) ls.
Proof.
  intros H1 Hs; revert z0; induction ls as [|[c h] r IH]; intros z0; simpl; [ring|].
  rewrite pint_app, IH, thickness_rev; simpl.
  replace (- z0 - (h + thickness r) + h) with (- z0 - thickness r) by ring.
  replace (- z0 - (h + thickness r)) with (- (z0 + thickness r + h)) by ring.
  replace (- z0 - thickness r) with (- (z0 + thickness r)) by ring.
  rewrite !Hs.
  set (a := F (z0 + thickness r + h)). set (b := F (z0 + thickness r)).
  transitivity (- s * pint F (- (z0 + thickness r)) r + (s * s) * (c * (a - b)));
    [rewrite H1|]; ring.
Qed.

(** Scaling of values. *)
Definition sc (k : R) (ls : list (R * R)) : list (R * R) :=
  map (fun l => (k * fst l, snd l)) ls.
Lemma thickness_sc k ls : thickness (sc k ls) = thickness ls.
Proof. induction ls as [|[c h] r IH]; simpl; congruence. Qed.
Lemma pint_sc k F z0 ls : pint F z0 (sc k ls) = k * pint F z0 ls.
Proof.
  revert z0; induction ls as [|[c h] r IH]; intros z0; simpl; [ring|].
  rewrite IH; ring.
Qed.

(** Positivity. *)
Lemma pint_F0_pos ls z0 : pos_layers ls -> ls <> [] -> 0 < pint F0 z0 ls.
Proof.
  revert z0; induction ls as [|[c h] r IH]; intros z0 Hp Hn; [congruence|].
  inversion Hp; subst; simpl in *. unfold F0 at 1 2.
  assert (0 < c * (z0 + h - z0)) by (apply Rmult_lt_0_compat; lra).
  destruct r as [|l r']; [simpl; lra|].
  specialize (IH (z0 + h) H2 ltac:(discriminate)). lra.
Qed.

(** Centroid between bottom and top. *)
Lemma pint_F1_bounds ls z0 : pos_layers ls -> ls <> [] ->
  z0 * pint F0 z0 ls < pint F1 z0 ls < (z0 + thickness ls) * pint F0 z0 ls.
Proof.
  revert z0; induction ls as [|[c h] r IH]; intros z0 Hp Hn; [congruence|].
  inversion Hp; subst; simpl in *. destruct H1 as [Hc Hh].
  assert (Hch : 0 < c * h) by (apply Rmult_lt_0_compat; lra).
  assert (Hchh : 0 < c * h * h) by (apply Rmult_lt_0_compat; lra).
  assert (E : c * (F1 (z0 + h) - F1 z0) = c * h * z0 + c * h * h / 2)
    by (unfold F1; field).
  assert (E0 : c * (F0 (z0 + h) - F0 z0) = c * h) by (unfold F0; ring).
  rewrite E, E0.
  destruct r as [|l r']; [simpl; split; nra|].
  specialize (IH (z0 + h) H2 ltac:(discriminate)).
  pose proof (pint_F0_pos (l :: r') (z0 + h) H2 ltac:(discriminate)) as P0.
  pose proof (thickness_pos (l :: r') ltac:(discriminate)
                (pos_layers_thick _ H2)) as PT.
  assert (0 < h * pint F0 (z0 + h) (l :: r')) by (apply Rmult_lt_0_compat; lra).
  assert (0 < c * h * thickness (l :: r')) by (apply Rmult_lt_0_compat; lra).
  set (Q := pint F0 (z0 + h) (l :: r')) in *.
  set (T := thickness (l :: r')) in *.
  split; nra.
Qed.
