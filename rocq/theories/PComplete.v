(** Proofs: the supported solution formula with six constants is the general solution. *)
From Coquelicot Require Import Coquelicot.
Require Import Verif.Py Verif.MTools Verif.MEigen Verif.MFields
  Verif.MSolution Verif.SBeam Verif.SBvp Verif.SEig Verif.PSetup Verif.PBeam Verif.PBeam2
  Verif.PBvp Verif.PBalance Verif.PLinAlg Verif.PWell Verif.PIndep Verif.PWell2.

(** * Zero start, zero solution *)
Definition norm2 (v : vec6) : R := dot6 v v.
Definition rownorm (v : vec6) : R :=
  Rabs (z_u v) + Rabs (z_du v) + Rabs (z_w v) + Rabs (z_dw v) + Rabs (z_psi v) + Rabs (z_dpsi v).
Definition matnorm (K : mat6) : R :=
  rownorm (row0 K) + rownorm (row1 K) + rownorm (row2 K) + rownorm (row3 K) + rownorm (row4 K) + rownorm (row5 K).
Lemma norm2_zero v : norm2 v <= 0 -> v = vzero.
Proof.
  unfold norm2, dot6. intros H. destruct v as [a b c d e f]; simpl in *.
  assert (a = 0) by nra. assert (b = 0) by nra. assert (c = 0) by nra. assert (d = 0) by nra.
  assert (e = 0) by nra. assert (f = 0) by nra. subst. reflexivity.
Qed.
Lemma term_bound k a b E : a ^ 2 <= E -> b ^ 2 <= E -> Rabs (a * (k * b)) <= Rabs k * E.
Proof.
  intros Ha Hb. replace (a * (k * b)) with (k * (a * b)) by ring. rewrite Rabs_mult.
  apply Rmult_le_compat_l; [apply Rabs_pos|]. apply Rabs_le. split; nra.
Qed.
Lemma row_bound r a v : a ^ 2 <= norm2 v -> Rabs (a * dot6 r v) <= rownorm r * norm2 v.
Proof.
  intros Ha. set (E := norm2 v) in *.
  assert (HE : z_u v ^ 2 <= E /\ z_du v ^ 2 <= E /\ z_w v ^ 2 <= E /\ z_dw v ^ 2 <= E /\ z_psi v ^ 2 <= E /\ z_dpsi v ^ 2 <= E).
  { unfold E, norm2, dot6. repeat split; nra. }
  destruct HE as (H1 & H2 & H3 & H4 & H5 & H6). unfold dot6, rownorm.
  pose proof (term_bound (z_u r) a _ E Ha H1) as T1. pose proof (term_bound (z_du r) a _ E Ha H2) as T2.
  pose proof (term_bound (z_w r) a _ E Ha H3) as T3. pose proof (term_bound (z_dw r) a _ E Ha H4) as T4.
  pose proof (term_bound (z_psi r) a _ E Ha H5) as T5. pose proof (term_bound (z_dpsi r) a _ E Ha H6) as T6.
  clearbody E. rewrite !Rmult_plus_distr_l, !Rmult_plus_distr_r.
  repeat (eapply Rle_trans; [apply Rabs_triang|apply Rplus_le_compat]; [|assumption]). assumption.
Qed.
Lemma mat_bound K v : Rabs (dot6 v (matvec K v)) <= matnorm K * norm2 v.
Proof.
  assert (HE : z_u v ^ 2 <= norm2 v /\ z_du v ^ 2 <= norm2 v /\ z_w v ^ 2 <= norm2 v /\ z_dw v ^ 2 <= norm2 v /\
               z_psi v ^ 2 <= norm2 v /\ z_dpsi v ^ 2 <= norm2 v).
  { unfold norm2, dot6. repeat split; nra. }
  destruct HE as (H1 & H2 & H3 & H4 & H5 & H6).
  pose proof (row_bound (row0 K) _ v H1) as T1. pose proof (row_bound (row1 K) _ v H2) as T2.
  pose proof (row_bound (row2 K) _ v H3) as T3. pose proof (row_bound (row3 K) _ v H4) as T4.
  pose proof (row_bound (row4 K) _ v H5) as T5. pose proof (row_bound (row5 K) _ v H6) as T6.
  unfold dot6 at 1, matvec, matnorm. cbn [z_u z_du z_w z_dw z_psi z_dpsi]. rewrite !Rmult_plus_distr_r.
  repeat (eapply Rle_trans; [apply Rabs_triang|apply Rplus_le_compat]; [|assumption]). assumption.
Qed.
Lemma norm2_derive z x d : is_deriv6 z x d -> is_derive (fun s => norm2 (z s)) x (2 * dot6 (z x) d).
Proof.
  intros (H1 & H2 & H3 & H4 & H5 & H6). unfold norm2, dot6.
  assert (G : forall (f : R -> R) e, is_derive f x e -> is_derive (fun s => f s * f s) x (2 * (f x * e))).
  { intros f e H. replace (2 * (f x * e)) with (e * f x + f x * e) by ring. apply (is_derive_mult f f x e e H H). intros; apply Rmult_comm. }
  apply (fun H => G (fun s => z_u (z s)) _ H) in H1. apply (fun H => G (fun s => z_du (z s)) _ H) in H2.
  apply (fun H => G (fun s => z_w (z s)) _ H) in H3. apply (fun H => G (fun s => z_dw (z s)) _ H) in H4.
  apply (fun H => G (fun s => z_psi (z s)) _ H) in H5. apply (fun H => G (fun s => z_dpsi (z s)) _ H) in H6.
  pose proof (is_derive_plus _ _ _ _ _ (is_derive_plus _ _ _ _ _ (is_derive_plus _ _ _ _ _ (is_derive_plus _ _ _ _ _
    (is_derive_plus _ _ _ _ _ H1 H2) H3) H4) H5) H6) as T. unfold plus in T. simpl in T.
  match type of T with is_derive _ _ ?v => replace (2 * _) with v by ring end. exact T.
Qed.

Lemma zero_forward K z L : (forall x, 0 <= x <= L -> is_deriv6 z x (matvec K (z x))) -> z 0 = vzero ->
  forall x, 0 <= x <= L -> z x = vzero.
Proof.
  intros HD H0 x Hx. apply norm2_zero. set (k := matnorm K).
  set (F := fun s => - (norm2 (z s) * exp (- 2 * k * s))).
  set (dF := fun s => - ((2 * dot6 (z s) (matvec K (z s))) * exp (- 2 * k * s) + norm2 (z s) * (- 2 * k * exp (- 2 * k * s)))).
  assert (HF : F 0 <= F x).
  { apply (derive_nonneg_incr F dF); [apply Hx| |].
    - intros s Hs. unfold F, dF. apply (is_derive_opp (fun s => norm2 (z s) * exp (- 2 * k * s))).
      apply (is_derive_mult (fun s => norm2 (z s)) (fun s => exp (- 2 * k * s))); [apply norm2_derive, HD; lra| |intros; apply Rmult_comm].
      auto_derive; [trivial|ring].
    - intros s Hs. unfold dF. pose proof (mat_bound K (z s)) as B. fold k in B. apply Rabs_le_between in B.
      pose proof (exp_pos (- 2 * k * s)). nra. }
  unfold F in HF. rewrite H0 in HF. unfold norm2 at 1 in HF. unfold dot6, vzero in HF. simpl in HF.
  pose proof (exp_pos (- 2 * k * x)). nra.
Qed.
(** * Any state at x = 0 *)
Definition comp (r : nat) : vec6 :=
  match r with
  | 0%nat => mkV 1 0 0 0 0 0 | 1%nat => mkV 0 1 0 0 0 0 | 2%nat => mkV 0 0 1 0 0 0
  | 3%nat => mkV 0 0 0 1 0 0 | 4%nat => mkV 0 0 0 0 1 0 | _ => mkV 0 0 0 0 0 1
  end.
Lemma comp_eq a b : (forall r, (r < 6)%nat -> dot6 (comp r) a = dot6 (comp r) b) -> a = b.
Proof.
  intros H. pose proof (H 0%nat ltac:(lia)) as H1. pose proof (H 1%nat ltac:(lia)) as H2. pose proof (H 2%nat ltac:(lia)) as H3.
  pose proof (H 3%nat ltac:(lia)) as H4. pose proof (H 4%nat ltac:(lia)) as H5. pose proof (H 5%nat ltac:(lia)) as H6.
  unfold dot6, comp in *. simpl in *. apply vec6_eq; lra.
Qed.
Lemma span6 (cols : list vec6) v : List.length cols = 6%nat ->
  (forall C, List.length C = 6%nat -> lincomb cols C = vzero -> Forall (fun c => c = 0) C) ->
  exists C, List.length C = 6%nat /\ lincomb cols C = v.
Proof.
  intros L H. destruct cols as [|c0 [|c1 [|c2 [|c3 [|c4 [|c5 [|]]]]]]]; try discriminate L.
  set (cols := [c0; c1; c2; c3; c4; c5]) in *.
  set (A := fun r c => dot6 (comp r) (nth c cols vzero)).
  assert (SA : forall x r, sumn 6 (fun c => A r c * x c) = dot6 (comp r) (lincomb cols (block x 0))).
  { intros x r. unfold block. cbn [seq map]. unfold A, cols. rewrite lincomb6. cbn [sumn nth Nat.mul Nat.add]. ring. }
  destruct (kernel_solvable 6 A) with (b := fun r => dot6 (comp r) v) as [x Hx].
  - intros x Hx c Hc. assert (Z : lincomb cols (block x 0) = vzero).
    { apply comp_eq. intros r Hr. rewrite <- SA, (Hx r Hr). symmetry. apply dot_zero. }
    pose proof (Forall_block x 0 (H (block x 0) eq_refl Z)) as F. exact (F c Hc).
  - exists (block x 0). split; [reflexivity|]. apply comp_eq. intros r Hr. rewrite <- SA. apply Hx; exact Hr.
Qed.
Lemma vadd_minus a b : vadd (vadd a (vscale (-1) b)) b = a.
Proof. apply vec6_eq; simpl; ring. Qed.

Lemma supported_state o ld l z0 : ready o ->
  exists C, List.length C = 6%nat /\ zsol (o_par o) (o_eig o) ld 0 C l true = z0.
Proof.
  intros Hr. pose proof (ready_six o Hr 0 l) as H6. destruct Hr as (Hl & Hf & ews & He & (_ & HT & HD & _ & HV)).
  destruct (span6 (zh_bedded (o_eig o) 0 l) (vadd z0 (vscale (-1) (zp (o_par o) ld 0 true))) H6) as (C & LC & E).
  - intros C LC Z. rewrite He in *. apply (columns_independent _ ews l C HT HD HV); [rewrite LC; symmetry; exact H6|exact Z].
  - exists C. split; [exact LC|]. unfold zsol, zh. rewrite E. apply vadd_minus.
Qed.
Lemma supported_general o ld l L z : ready o -> (forall x, 0 <= x <= L -> equilibrium (o_par o) ld true z x) ->
  exists C, List.length C = 6%nat /\ forall x, 0 <= x <= L -> z x = zsol (o_par o) (o_eig o) ld x C l true.
Proof.
  intros Hr HE. destruct (supported_state o ld l (z 0) Hr) as (C & LC & E). exists C. split; [exact LC|].
  destruct Hr as (Hl & Hf & ews & He & (_ & HT & _)). set (p := o_par o) in *. rewrite He in *.
  set (y := fun s => zsol p (calc_eigensystem ews) ld s C l true) in *.
  set (d := fun s => vadd (z s) (vscale (-1) (y s))).
  assert (HZ : forall x, 0 <= x <= L -> d x = vzero).
  { apply (zero_forward (calc_system_matrix p)).
    - intros x Hx. eapply is_deriv6_eq.
      + apply is_deriv6_add; [apply (proj2 (ode_iff_equilibrium p ld true z x Hl)), HE, Hx|].
        apply is_deriv6_scale. apply (proj2 (ode_iff_equilibrium p ld true y x Hl)).
        apply (supported_solution p ews ld C l x Hl Hf HT).
      + unfold d. apply vec6_eq; unfold matvec, dot6, vadd, vscale; simpl; ring.
    - unfold d, y. rewrite E. apply vec6_eq; simpl; ring. }
  intros x Hx. specialize (HZ x Hx). unfold d in HZ. fold (y x).
  assert (G := f_equal (fun v => vadd v (y x)) HZ). cbn beta in G. rewrite vadd_minus in G. rewrite G. apply vec6_eq; simpl; ring.
Qed.
Lemma lincomb_diff cols C C' : List.length C = List.length C' ->
  lincomb cols (map2 (fun a b => a - b) C C') = vadd (lincomb cols C) (vscale (-1) (lincomb cols C')).
Proof.
  revert C C'. induction cols as [|c cols IH]; intros [|a C] [|b C'] E; try discriminate E; try (apply vec6_eq; simpl; ring).
  simpl. rewrite IH by (simpl in E; congruence). apply vec6_eq; simpl; ring.
Qed.
Lemma map2_diff_zero (C C' : list R) : List.length C = List.length C' -> Forall (fun c => c = 0) (map2 (fun a b => a - b) C C') -> C = C'.
Proof.
  revert C'. induction C as [|a C IH]; intros [|b C'] E H; try discriminate E; [reflexivity|]. simpl in H. inversion H; subst.
  f_equal; [lra|apply IH; [simpl in E; congruence|assumption]].
Qed.
Lemma supported_unique o ld l C C' : ready o -> List.length C = 6%nat -> List.length C' = 6%nat ->
  zsol (o_par o) (o_eig o) ld 0 C l true = zsol (o_par o) (o_eig o) ld 0 C' l true -> C = C'.
Proof.
  intros Hr L L' E. pose proof (ready_six o Hr 0 l) as H6. destruct Hr as (Hl & Hf & ews & He & (_ & HT & HD & _ & HV)).
  apply map2_diff_zero; [congruence|]. rewrite He in *.
  apply (columns_independent _ ews l _ HT HD HV).
  - rewrite map2_length by congruence. rewrite L. symmetry. exact H6.
  - rewrite lincomb_diff by congruence. unfold zsol, zh in E.
    assert (G : lincomb (zh_bedded (calc_eigensystem ews) 0 l) C = lincomb (zh_bedded (calc_eigensystem ews) 0 l) C').
    { set (u := zp (o_par o) ld 0 true) in E. clearbody u. revert E. generalize (lincomb (zh_bedded (calc_eigensystem ews) 0 l) C) (lincomb (zh_bedded (calc_eigensystem ews) 0 l) C').
      intros [a1 a2 a3 a4 a5 a6] [b1 b2 b3 b4 b5 b6] E. unfold vadd in E. simpl in E. injection E; intros. f_equal; lra. }
    rewrite G. apply vec6_eq; simpl; ring.
Qed.
