(** Touchdown polynomials (C28, C29, C30). *)
From Coquelicot Require Import Coquelicot.
Require Import Verif.Py Verif.MTools Verif.MEigen Verif.MFields Verif.SAdm Verif.MRaster
  Verif.MSolution Verif.SBeam Verif.SBvp Verif.SEig Verif.SContact Verif.PSetup Verif.PBeam Verif.PBeam2
  Verif.PBvp Verif.PBvp2 Verif.PBalance Verif.PWell.

Lemma same_derive (f g df : R -> R) l : 0 <= l ->
  (forall x, 0 <= x <= l -> is_derive f x (df x)) ->
  (forall x, 0 <= x <= l -> is_derive g x (df x)) -> f 0 = g 0 ->
  forall x, 0 <= x <= l -> f x = g x.
Proof.
  intros Hl Hf Hg E x Hx.
  assert (D : f 0 - g 0 = f x - g x).
  { apply (derive_zero_const (fun s => f s - g s) (fun _ => 0) 0 x); [lra| |reflexivity].
    intros y Hy'. assert (Hy : 0 <= y <= l) by lra. eapply is_derive_eq.
    - exact (is_derive_minus f g y _ _ (Hf y Hy) (Hg y Hy)).
    - unfold minus, plus, opp; simpl; ring. }
  lra.
Qed.

Section Beam.
Variable p : params.
Hypothesis Hl : lam_ok p.
Variables q kR kN l : R.
Hypothesis HkR : 0 < kR.
Hypothesis HkN : 0 < kN.
Hypothesis Hl0 : 0 <= l.
Let bs := bs_of p.
Let ss := kA55 p.
Lemma bs_pos : 0 < bs.
Proof.
  destruct Hl as (HA & HD & HS & HK & HK0). unfold bs, bs_of.
  replace (- (B11 p ^ 2 / A11 p - D11 p)) with (- (B11 p ^ 2 - A11 p * D11 p) / A11 p) by (field; lra).
  apply Rdiv_lt_0_compat; lra.
Qed.
Lemma ss_pos : 0 < ss.
Proof. unfold ss. destruct Hl as (_ & _ & HS & _). exact HS. Qed.

Variable z : R -> vec6.
Hypothesis HB : hanging_beam p q kR kN l z.
Let V0 := sV p (z 0).
Let M0 := sM p (z 0).
Let p0 := z_psi (z 0).

Lemma beam_N x : 0 <= x <= l -> sN p (z x) = 0.
Proof.
  intros Hx. destruct HB as (E & EN & _).
  apply (same_derive (fun s => sN p (z s)) (fun _ => 0) (fun _ => 0) l Hl0); try assumption.
  - intros y Hy. destruct (E y Hy) as (_ & _ & _ & H & _). eapply is_derive_eq; [exact H|]. simpl; ring.
  - intros y _. apply (is_derive_const (K := R_AbsRing) (V := R_NormedModule)).
Qed.
Lemma beam_V x : 0 <= x <= l -> sV p (z x) = V0 - q * x.
Proof.
  intros Hx. destruct HB as (E & _).
  apply (same_derive (fun s => sV p (z s)) (fun s => V0 - q * s) (fun _ => - q) l Hl0); try assumption.
  - intros y Hy. destruct (E y Hy) as (_ & _ & _ & _ & H & _). eapply is_derive_eq; [exact H|]. simpl; ring.
  - intros y _. auto_derive; [trivial|ring].
  - unfold V0. ring.
Qed.
Lemma beam_M x : 0 <= x <= l -> sM p (z x) = M0 + V0 * x - q * x ^ 2 / 2.
Proof.
  intros Hx. pose proof HB as (E & _).
  apply (same_derive (fun s => sM p (z s)) (fun s => M0 + V0 * s - q * s ^ 2 / 2) (fun s => V0 - q * s) l Hl0); try assumption.
  - intros y Hy. destruct (E y Hy) as (_ & _ & _ & _ & _ & H). eapply is_derive_eq; [exact H|].
    rewrite (beam_V y Hy). simpl; ring.
  - intros y _. auto_derive; [trivial|field].
  - unfold M0. simpl. lra.
Qed.
Lemma beam_dpsi x : 0 <= x <= l -> z_dpsi (z x) = sM p (z x) / bs.
Proof.
  intros Hx. pose proof (beam_N x Hx) as EN. pose proof bs_pos as Hb. unfold sN in EN. unfold sM.
  destruct Hl as (HA & _).
  assert (U : z_du (z x) = - B11 p / A11 p * z_dpsi (z x)).
  { apply (Rmult_eq_reg_l (A11 p)); [|lra]. replace (A11 p * (- B11 p / A11 p * z_dpsi (z x))) with (- B11 p * z_dpsi (z x)) by (field; lra). lra. }
  apply (Rmult_eq_reg_l bs); [|lra]. replace (bs * ((B11 p * z_du (z x) + D11 p * z_dpsi (z x)) / bs)) with (B11 p * z_du (z x) + D11 p * z_dpsi (z x)) by (field; lra).
  rewrite U. unfold bs, bs_of. field. lra.
Qed.
Lemma beam_psi x : 0 <= x <= l -> z_psi (z x) = p0 + (M0 * x + V0 * x ^ 2 / 2 - q * x ^ 3 / 6) / bs.
Proof.
  intros Hx. pose proof HB as (E & _). pose proof bs_pos as Hb.
  apply (same_derive (fun s => z_psi (z s)) (fun s => p0 + (M0 * s + V0 * s ^ 2 / 2 - q * s ^ 3 / 6) / bs)
    (fun s => (M0 + V0 * s - q * s ^ 2 / 2) / bs) l Hl0); try assumption.
  - intros y Hy. destruct (E y Hy) as (_ & _ & H & _). eapply is_derive_eq; [exact H|].
    rewrite (beam_dpsi y Hy), (beam_M y Hy). reflexivity.
  - intros y _. auto_derive; [trivial|field; lra].
  - unfold p0. simpl. field. lra.
Qed.
Lemma beam_dw x : 0 <= x <= l -> z_dw (z x) = (V0 - q * x) / ss - z_psi (z x).
Proof.
  intros Hx. pose proof (beam_V x Hx) as E. pose proof ss_pos as Hs. unfold sV in E. fold ss in E.
  rewrite <- E. field. lra.
Qed.
Lemma beam_w x : 0 <= x <= l -> z_w (z x) = V0 / kN + (V0 * x - q * x ^ 2 / 2) / ss - p0 * x
   - (M0 * x ^ 2 / 2 + V0 * x ^ 3 / 6 - q * x ^ 4 / 24) / bs.
Proof.
  intros Hx. pose proof HB as (E & _ & _ & EV). pose proof bs_pos as Hb. pose proof ss_pos as Hs.
  apply (same_derive (fun s => z_w (z s)) (fun s => V0 / kN + (V0 * s - q * s ^ 2 / 2) / ss - p0 * s
   - (M0 * s ^ 2 / 2 + V0 * s ^ 3 / 6 - q * s ^ 4 / 24) / bs)
    (fun s => (V0 - q * s) / ss - (p0 + (M0 * s + V0 * s ^ 2 / 2 - q * s ^ 3 / 6) / bs)) l Hl0); try assumption.
  - intros y Hy. destruct (E y Hy) as (_ & H & _). eapply is_derive_eq; [exact H|].
    rewrite (beam_dw y Hy), (beam_psi y Hy). reflexivity.
  - intros y _. auto_derive; [trivial|field; lra].
  - fold V0 in EV. simpl. rewrite EV. field. lra.
Qed.
Lemma M0_eq : M0 = kR * p0.
Proof. destruct HB as (_ & _ & E & _). exact E. Qed.

(** ** C28 *)
Lemma free_tip_deflection : free_tip p l z ->
  z_w (z l) = q * (l ^ 4 / (8 * bs) + l ^ 3 / (2 * kR) + l ^ 2 / (2 * ss) + l / kN).
Proof.
  intros [T1 T2]. pose proof bs_pos as Hb. pose proof ss_pos as Hs.
  assert (Hx : 0 <= l <= l) by lra.
  rewrite (beam_V l Hx) in T2. rewrite (beam_M l Hx) in T1.
  assert (EV : V0 = q * l) by lra.
  assert (EM : M0 = - q * l ^ 2 / 2) by (rewrite EV in T1; simpl in *; lra).
  assert (EP : p0 = - q * l ^ 2 / (2 * kR)).
  { apply (Rmult_eq_reg_l kR); [|lra]. rewrite <- M0_eq, EM. field. lra. }
  rewrite (beam_w l Hx), EV, EM, EP. field. repeat split; lra.
Qed.
Lemma poly_a1_meaning tc : q <> 0 -> free_tip p l z ->
  q * poly_a1 bs ss q tc kR kN l = z_w (z l) - tc.
Proof.
  intros Hq HT. rewrite (free_tip_deflection HT). pose proof bs_pos as Hb. pose proof ss_pos as Hs.
  unfold poly_a1. field. repeat split; lra.
Qed.

(** ** C29 *)
Definition contact_den (kT : R) : R :=
  (kR + kT * (1 + kR * l / bs)) * (1 / kN + l / ss - l ^ 3 / (6 * bs))
  + (l + kT * l ^ 2 / (2 * bs)) * (l + kR * l ^ 2 / (2 * bs)).
Lemma contact_den_pos kT : 0 <= kT -> 0 < contact_den kT.
Proof.
  intros HT. pose proof bs_pos as Hb. pose proof ss_pos as Hs. unfold contact_den.
  replace ((kR + kT * (1 + kR * l / bs)) * (1 / kN + l / ss - l ^ 3 / (6 * bs))
    + (l + kT * l ^ 2 / (2 * bs)) * (l + kR * l ^ 2 / (2 * bs)))
  with (kR / kN + (kT * (1 + kR * l / bs) / kN + (kR + kT * (1 + kR * l / bs)) * l / ss + l ^ 2
        + (kR + kT) * l ^ 3 / (3 * bs) + kT * kR * l ^ 4 / (12 * bs ^ 2))) by (field; repeat split; lra).
  assert (P1 : 0 < kR / kN) by (apply Rdiv_lt_0_compat; lra).
  assert (P2 : 0 <= kR * l / bs) by (apply Rdiv_le_0_compat; [apply Rmult_le_pos; lra|lra]).
  assert (P3 : 0 <= kT * (1 + kR * l / bs)) by (apply Rmult_le_pos; lra).
  assert (P4 : 0 <= kT * (1 + kR * l / bs) / kN) by (apply Rdiv_le_0_compat; lra).
  assert (P5 : 0 <= (kR + kT * (1 + kR * l / bs)) * l / ss) by (apply Rdiv_le_0_compat; [apply Rmult_le_pos; lra|lra]).
  assert (P6 : 0 <= l ^ 2) by (apply pow_le; lra).
  assert (P7 : 0 <= (kR + kT) * l ^ 3 / (3 * bs)).
  { apply Rdiv_le_0_compat; [apply Rmult_le_pos; [lra|apply pow_le; lra]|lra]. }
  assert (P8 : 0 <= kT * kR * l ^ 4 / (12 * bs ^ 2)).
  { apply Rdiv_le_0_compat; [apply Rmult_le_pos; [apply Rmult_le_pos; lra|apply pow_le; lra]|].
    apply Rmult_lt_0_compat; [lra|apply pow_lt; lra]. }
  lra.
Qed.
Lemma poly_lC_meaning kT tc : 0 <= kT -> contact_tip p kT tc l z ->
  poly_lC bs ss q tc kR kN kT l
  = - 144 * bs ^ 2 * ss ^ 2 * kN * contact_den kT * z_dw (z l).
Proof.
  intros HT [T1 T2]. pose proof bs_pos as Hb. pose proof ss_pos as Hs.
  assert (Hx : 0 <= l <= l) by lra.
  rewrite (beam_M l Hx), (beam_psi l Hx), M0_eq in T1. rewrite (beam_w l Hx), M0_eq in T2.
  rewrite (beam_dw l Hx), (beam_psi l Hx), M0_eq. unfold poly_lC.
  set (a1 := kR + kT * (1 + kR * l / bs)). set (b1 := l + kT * l ^ 2 / (2 * bs)).
  set (c1 := q * (l ^ 2 / 2 + kT * l ^ 3 / (6 * bs))).
  set (a2 := - (l + kR * l ^ 2 / (2 * bs))). set (b2 := 1 / kN + l / ss - l ^ 3 / (6 * bs)).
  set (c2 := tc + q * l ^ 2 / (2 * ss) - q * l ^ 4 / (24 * bs)).
  assert (E1 : a1 * p0 + b1 * V0 = c1).
  { unfold a1, b1, c1.
    assert (G : kR * p0 + V0 * l - q * l ^ 2 / 2
      + kT * (p0 + (kR * p0 * l + V0 * l ^ 2 / 2 - q * l ^ 3 / 6) / bs) = 0) by lra.
    apply Rminus_diag_uniq. rewrite <- G. field. repeat split; lra. }
  assert (E2 : a2 * p0 + b2 * V0 = c2).
  { unfold a2, b2, c2. apply Rminus_diag_uniq. rewrite <- T2. field. repeat split; lra. }
  assert (Dn : contact_den kT = a1 * b2 - b1 * a2).
  { unfold contact_den, a1, a2, b1, b2. ring. }
  assert (EV : contact_den kT * V0 = a1 * c2 - a2 * c1) by (rewrite Dn, <- E1, <- E2; ring).
  assert (EP : contact_den kT * p0 = c1 * b2 - b1 * c2) by (rewrite Dn, <- E1, <- E2; ring).
  replace (- 144 * bs ^ 2 * ss ^ 2 * kN * contact_den kT *
    ((V0 - q * l) / ss - (p0 + (kR * p0 * l + V0 * l ^ 2 / 2 - q * l ^ 3 / 6) / bs)))
  with (- 144 * bs ^ 2 * ss ^ 2 * kN *
    ((contact_den kT * V0 - contact_den kT * (q * l)) / ss - (contact_den kT * p0 + (kR * (contact_den kT * p0) * l + contact_den kT * V0 * l ^ 2 / 2 - contact_den kT * (q * l ^ 3 / 6)) / bs)))
    by (field; repeat split; lra).
  rewrite EV, EP, Dn. unfold a1, a2, b1, b2, c1, c2. field. repeat split; lra.
Qed.
Lemma poly_a2_is_lC tc x : poly_a2 bs ss q tc kR kN x = poly_lC bs ss q tc kR kN 0 x.
Proof. unfold poly_a2, poly_lC. ring. Qed.
End Beam.
