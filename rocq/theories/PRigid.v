(** Bounds of the substitute stiffness by that of a rigid slab (C107). *)
From Coq Require Import Lra.
From Coquelicot Require Import Coquelicot.
Require Import Verif.Py Verif.MTools Verif.MEigen Verif.MFields Verif.SAdm Verif.MRaster
  Verif.MSolution Verif.SBeam Verif.SBvp Verif.SEig Verif.SContact Verif.PSetup Verif.PBeam Verif.PBeam2
  Verif.PBalance Verif.PWell Verif.PSub.
Open Scope R_scope.

Lemma density_w p z : lam_ok p -> fnd_ok p -> stable p -> kn p * z_w z ^ 2 <= density p true z.
Proof.
  intros (HA & HD & HS & HK & HK0) (Hn & Ht & Hw) Hst. unfold density.
  destruct (quad_pos (A11 p) (B11 p) (D11 p) (z_du z) (z_dpsi z) HA ltac:(lra)) as [Q1 _].
  destruct (quad_pos (kt p) (kt p * wt p / 4) (kA55 p) (slip p z) (gam z) Ht) as [S1 _].
  { unfold stable in Hst. assert (0 < kt p * (16 * kA55 p - kt p * wt p ^ 2)) as P.
    { apply Rmult_lt_0_compat; lra. }
    simpl. simpl in P. lra. }
  assert (E : kt p * slip p z ^ 2 + 2 * (kt p * wt p / 4) * slip p z * gam z + kA55 p * gam z ^ 2
    = kA55 p * gam z ^ 2 + kt p * slip p z * (slip p z + wt p / 2 * gam z)) by field.
  rewrite E in S1. lra.
Qed.

(** Work against every rigid motion with deflection e + c x. *)
Lemma rigid_trial p l M0 V0 z e c : lam_ok p -> fnd_ok p -> stable p -> 0 <= l -> end_loaded_beam p l M0 V0 z ->
  M0 * z_psi (z 0) + V0 * z_w (z 0) <= 2 * (V0 * e - c * M0) + kn p * (e ^ 2 * l + e * c * l ^ 2 + c ^ 2 * l ^ 3 / 3).
Proof.
  intros Hl Hf Hs Hlen (B & (E1 & E2 & E3) & (E4 & E5 & E6)).
  set (F := fun x => work p (z x) - 2 * (sV p (z x) * (e + c * x) - c * (sM p (z x) - (hh p + wt p) / 2 * sN p (z x)))
                     + kn p * (e ^ 2 * x + e * c * x ^ 2 + c ^ 2 * x ^ 3 / 3)).
  set (dF := fun x => density p true (z x) - 2 * (kn p * z_w (z x) * (e + c * x)) + kn p * (e + c * x) ^ 2).
  assert (D : forall x, 0 <= x <= l -> is_derive F x (dF x)).
  { intros x Hx. pose proof (work_derive p true z x (equilibrium_balance _ _ _ _ _ (B x Hx))) as W.
    destruct (B x Hx) as (_ & _ & _ & H4 & H5 & H6). cbn [no_loads qn qt pn pt] in *.
    assert (Hd : is_derive (fun s => e + c * s) x c) by (auto_derive; [trivial|ring]).
    pose proof (is_derive_mult (fun s => sV p (z s)) (fun s => e + c * s) x _ _ H5 Hd Rmult_comm) as P1.
    pose proof (is_derive_scal (fun s => sN p (z s)) x ((hh p + wt p) / 2) _ H4) as P2.
    pose proof (is_derive_minus (fun s => sM p (z s)) (fun s => (hh p + wt p) / 2 * sN p (z s)) x _ _ H6 P2) as P3.
    pose proof (is_derive_scal (fun s => sM p (z s) - (hh p + wt p) / 2 * sN p (z s)) x c _ P3) as P4.
    pose proof (is_derive_minus _ _ x _ _ P1 P4) as P5.
    pose proof (is_derive_scal _ x 2 _ P5) as P6.
    pose proof (is_derive_minus _ _ x _ _ W P6) as P7.
    assert (P8 : is_derive (fun s => kn p * (e ^ 2 * s + e * c * s ^ 2 + c ^ 2 * s ^ 3 / 3)) x (kn p * (e + c * x) ^ 2))
      by (auto_derive; [trivial|simpl; field]).
    pose proof (is_derive_plus _ _ x _ _ P7 P8) as P9.
    eapply is_derive_eq; [exact P9|]. unfold dF, plus, minus, opp, mult, scal; simpl. unfold mult, plus, opp; simpl.
    unfold s_sig. ring. }
  assert (N : forall x, 0 <= x <= l -> 0 <= dF x).
  { intros x _. unfold dF. pose proof (density_w p (z x) Hl Hf Hs) as Q.
    assert (0 <= kn p * (z_w (z x) - (e + c * x)) ^ 2) by (apply Rmult_le_pos; [destruct Hf; lra|apply pow2_ge_0]). lra. }
  pose proof (derive_nonneg_incr F dF 0 l Hlen D N) as M. unfold F, work in M.
  rewrite E1, E2, E3, E4, E5, E6 in M. lra.
Qed.

Lemma rigid_rot p l z : lam_ok p -> fnd_ok p -> stable p -> 0 < l -> end_loaded_beam p l 1 0 z ->
  12 / (kn p * l ^ 3) <= - z_psi (z 0).
Proof.
  intros Hl Hf Hs Hlen B. pose proof Hf as (Hn & _).
  pose proof (rigid_trial p l 1 0 z (- 6 / (kn p * l ^ 2)) (12 / (kn p * l ^ 3)) Hl Hf Hs (Rlt_le _ _ Hlen) B) as M.
  assert (E : 2 * (0 * (- 6 / (kn p * l ^ 2)) - 12 / (kn p * l ^ 3) * 1)
    + kn p * ((- 6 / (kn p * l ^ 2)) ^ 2 * l + - 6 / (kn p * l ^ 2) * (12 / (kn p * l ^ 3)) * l ^ 2 + (12 / (kn p * l ^ 3)) ^ 2 * l ^ 3 / 3)
    = - (12 / (kn p * l ^ 3))) by (field; lra).
  rewrite E in M. lra.
Qed.
Lemma rigid_trans p l z : lam_ok p -> fnd_ok p -> stable p -> 0 < l -> end_loaded_beam p l 0 1 z ->
  4 / (kn p * l) <= - z_w (z 0).
Proof.
  intros Hl Hf Hs Hlen B. pose proof Hf as (Hn & _).
  pose proof (rigid_trial p l 0 1 z (- 4 / (kn p * l)) (6 / (kn p * l ^ 2)) Hl Hf Hs (Rlt_le _ _ Hlen) B) as M.
  assert (E : 2 * (1 * (- 4 / (kn p * l)) - 6 / (kn p * l ^ 2) * 0)
    + kn p * ((- 4 / (kn p * l)) ^ 2 * l + - 4 / (kn p * l) * (6 / (kn p * l ^ 2)) * l ^ 2 + (6 / (kn p * l ^ 2)) ^ 2 * l ^ 3 / 3)
    = - (4 / (kn p * l))) by (field; lra).
  rewrite E in M. lra.
Qed.

(** ** Upper bounds of the compliance *)
Definition bend (p : params) : R := D11 p - B11 p ^ 2 / A11 p.
Definition shear_left (p : params) : R := kA55 p - kt p * wt p ^ 2 / 16.
Lemma bend_pos p : lam_ok p -> 0 < bend p.
Proof.
  intros (HA & HD & HS & HK & HK0). unfold bend.
  replace (D11 p - B11 p ^ 2 / A11 p) with ((A11 p * D11 p - B11 p ^ 2) / A11 p) by (field; lra).
  apply Rdiv_lt_0_compat; lra.
Qed.
Lemma density_parts p z : lam_ok p -> fnd_ok p ->
  bend p * z_dpsi z ^ 2 + shear_left p * gam z ^ 2 + kn p * z_w z ^ 2 <= density p true z.
Proof.
  intros (HA & HD & HS & HK & HK0) (Hn & Ht & Hw). unfold density, bend, shear_left.
  assert (Q1 : A11 p * z_du z ^ 2 + 2 * B11 p * z_du z * z_dpsi z + D11 p * z_dpsi z ^ 2 - (D11 p - B11 p ^ 2 / A11 p) * z_dpsi z ^ 2
    = A11 p * (z_du z + B11 p / A11 p * z_dpsi z) ^ 2) by (field; lra).
  assert (Q2 : kA55 p * gam z ^ 2 + kt p * slip p z * (slip p z + wt p / 2 * gam z) - (kA55 p - kt p * wt p ^ 2 / 16) * gam z ^ 2
    = kt p * (slip p z + wt p / 4 * gam z) ^ 2) by field.
  assert (0 <= A11 p * (z_du z + B11 p / A11 p * z_dpsi z) ^ 2) by (apply Rmult_le_pos; [lra|apply pow2_ge_0]).
  assert (0 <= kt p * (slip p z + wt p / 4 * gam z) ^ 2) by (apply Rmult_le_pos; [lra|apply pow2_ge_0]).
  lra.
Qed.

(** Work of a self-equilibrated reaction that acts on the part [0, s] only. *)
Lemma stress_trial p l s M0 V0 z (Mt Vt d S2 : R -> R) : lam_ok p -> fnd_ok p -> stable p -> 0 <= s <= l -> end_loaded_beam p l M0 V0 z ->
  (forall x, is_derive Vt x (kn p * d x)) -> (forall x, is_derive Mt x (Vt x)) ->
  (forall x, is_derive S2 x (Mt x ^ 2 / bend p + Vt x ^ 2 / shear_left p + kn p * d x ^ 2)) ->
  Mt 0 = M0 -> Vt 0 = V0 -> Mt s = 0 -> Vt s = 0 ->
  - (M0 * z_psi (z 0) + V0 * z_w (z 0)) <= S2 s - S2 0.
Proof.
  intros Hl Hf Hs Hlen (B & (E1 & E2 & E3) & (E4 & E5 & E6)) DV DM DS I1 I2 I3 I4.
  pose proof (bend_pos p Hl) as Hb. assert (Hsh : 0 < shear_left p) by (unfold shear_left; unfold stable in Hs; lra).
  set (F := fun x => work p (z x) - 2 * (Mt x * z_psi (z x) + Vt x * z_w (z x)) + S2 x).
  set (dF := fun x => density p true (z x) - 2 * (Mt x * z_dpsi (z x) + Vt x * gam (z x) + kn p * d x * z_w (z x))
                      + (Mt x ^ 2 / bend p + Vt x ^ 2 / shear_left p + kn p * d x ^ 2)).
  assert (DW : forall x, 0 <= x <= l -> is_derive (fun x => work p (z x)) x (density p true (z x)))
    by (intros x Hx; exact (work_derive p true z x (equilibrium_balance _ _ _ _ _ (B x Hx)))).
  assert (D : forall x, 0 <= x <= s -> is_derive F x (dF x)).
  { intros x Hx. assert (Hx' : 0 <= x <= l) by lra. pose proof (DW x Hx') as W.
    destruct (B x Hx') as (_ & H2 & H3 & _).
    pose proof (is_derive_mult Mt (fun s => z_psi (z s)) x _ _ (DM x) H3 Rmult_comm) as P1.
    pose proof (is_derive_mult Vt (fun s => z_w (z s)) x _ _ (DV x) H2 Rmult_comm) as P2.
    pose proof (is_derive_plus _ _ x _ _ P1 P2) as P3.
    pose proof (is_derive_scal _ x 2 _ P3) as P4.
    pose proof (is_derive_minus _ _ x _ _ W P4) as P5.
    pose proof (is_derive_plus _ _ x _ _ P5 (DS x)) as P6.
    eapply is_derive_eq; [exact P6|]. unfold dF, plus, minus, opp, mult, scal; simpl. unfold mult, plus, opp, gam; simpl. ring. }
  assert (N : forall x, 0 <= x <= s -> 0 <= dF x).
  { intros x _. unfold dF. pose proof (density_parts p (z x) Hl Hf) as Q. destruct Hf as (Hn & _).
    assert (Q1 : 0 <= bend p * (z_dpsi (z x) - Mt x / bend p) ^ 2) by (apply Rmult_le_pos; [lra|apply pow2_ge_0]).
    assert (Q2 : 0 <= shear_left p * (gam (z x) - Vt x / shear_left p) ^ 2) by (apply Rmult_le_pos; [lra|apply pow2_ge_0]).
    assert (Q3 : 0 <= kn p * (z_w (z x) - d x) ^ 2) by (apply Rmult_le_pos; [lra|apply pow2_ge_0]).
    replace (bend p * (z_dpsi (z x) - Mt x / bend p) ^ 2) with
      (bend p * z_dpsi (z x) ^ 2 - 2 * (Mt x * z_dpsi (z x)) + Mt x ^ 2 / bend p) in Q1 by (field; lra).
    replace (shear_left p * (gam (z x) - Vt x / shear_left p) ^ 2) with
      (shear_left p * gam (z x) ^ 2 - 2 * (Vt x * gam (z x)) + Vt x ^ 2 / shear_left p) in Q2 by (field; lra).
    lra. }
  pose proof (derive_nonneg_incr F dF 0 s (proj1 Hlen) D N) as M.
  pose proof (derive_nonneg_incr (fun x => work p (z x)) (fun x => density p true (z x)) s l (proj2 Hlen)
    (fun x Hx => DW x ltac:(lra)) (fun x _ => proj1 (density_nonneg p true (z x) Hl Hf Hs))) as W.
  cbv beta in W. unfold work at 2 in W. rewrite E4, E5, E6 in W.
  unfold F in M. rewrite I1, I2, I3, I4 in M. unfold work at 1 in M. rewrite E1, E2, E3 in M. lra.
Qed.

Lemma soft_rot p l s z : lam_ok p -> fnd_ok p -> stable p -> 0 < s <= l -> end_loaded_beam p l 1 0 z ->
  - z_psi (z 0) <= 12 / (kn p * s ^ 3) + 13 * s / (35 * bend p) + 6 / (5 * s * shear_left p).
Proof.
  intros Hl Hf Hs Hlen B. pose proof (bend_pos p Hl) as Hb. assert (Hsh : 0 < shear_left p) by (unfold shear_left; unfold stable in Hs; lra).
  pose proof Hf as (Hn & _).
  pose proof (stress_trial p l s 1 0 z
    (fun x => 1 + 2 * x ^ 3 / s ^ 3 - 3 * x ^ 2 / s ^ 2) (fun x => 6 * x ^ 2 / s ^ 3 - 6 * x / s ^ 2)
    (fun x => (12 * x / s ^ 3 - 6 / s ^ 2) / kn p)
    (fun x => (x + 4 * x ^ 7 / (7 * s ^ 6) + 9 * x ^ 5 / (5 * s ^ 4) + x ^ 4 / s ^ 3 - 2 * x ^ 3 / s ^ 2 - 2 * x ^ 6 / s ^ 5) / bend p
              + (36 * x ^ 5 / (5 * s ^ 6) - 18 * x ^ 4 / s ^ 5 + 12 * x ^ 3 / s ^ 4) / shear_left p
              + (48 * x ^ 3 / s ^ 6 - 72 * x ^ 2 / s ^ 5 + 36 * x / s ^ 4) / kn p)
    Hl Hf Hs ltac:(lra) B) as M.
  assert (E : forall t, 1 * z_psi (z 0) + 0 * t = z_psi (z 0)) by (intros; ring). rewrite E in M.
  eapply Rle_trans; [apply M|]; clear M E.
  - intros x. auto_derive; [trivial|]. simpl. field. repeat split; lra.
  - intros x. auto_derive; [trivial|]. simpl. field. repeat split; lra.
  - intros x. auto_derive; [trivial|]. simpl. field. repeat split; lra.
  - field. lra.
  - field. lra.
  - field. lra.
  - field. lra.
  - right. field. repeat split; lra.
Qed.
Lemma soft_trans p l s z : lam_ok p -> fnd_ok p -> stable p -> 0 < s <= l -> end_loaded_beam p l 0 1 z ->
  - z_w (z 0) <= 4 / (kn p * s) + s ^ 3 / (105 * bend p) + 2 * s / (15 * shear_left p).
Proof.
  intros Hl Hf Hs Hlen B. pose proof (bend_pos p Hl) as Hb. assert (Hsh : 0 < shear_left p) by (unfold shear_left; unfold stable in Hs; lra).
  pose proof Hf as (Hn & _).
  pose proof (stress_trial p l s 0 1 z
    (fun x => x - 2 * x ^ 2 / s + x ^ 3 / s ^ 2) (fun x => 1 - 4 * x / s + 3 * x ^ 2 / s ^ 2)
    (fun x => (6 * x / s ^ 2 - 4 / s) / kn p)
    (fun x => (x ^ 3 / 3 + 6 * x ^ 5 / (5 * s ^ 2) + x ^ 7 / (7 * s ^ 4) - x ^ 4 / s - 2 * x ^ 6 / (3 * s ^ 3)) / bend p
              + (x + 22 * x ^ 3 / (3 * s ^ 2) + 9 * x ^ 5 / (5 * s ^ 4) - 4 * x ^ 2 / s - 6 * x ^ 4 / s ^ 3) / shear_left p
              + (12 * x ^ 3 / s ^ 4 - 24 * x ^ 2 / s ^ 3 + 16 * x / s ^ 2) / kn p)
    Hl Hf Hs ltac:(lra) B) as M.
  assert (E : forall t, 0 * t + 1 * z_w (z 0) = z_w (z 0)) by (intros; ring). rewrite E in M.
  eapply Rle_trans; [apply M|]; clear M E.
  - intros x. auto_derive; [trivial|]. simpl. field. repeat split; lra.
  - intros x. auto_derive; [trivial|]. simpl. field. repeat split; lra.
  - intros x. auto_derive; [trivial|]. simpl. field. repeat split; lra.
  - field. lra.
  - field. lra.
  - field. lra.
  - field. lra.
  - right. field. repeat split; lra.
Qed.
