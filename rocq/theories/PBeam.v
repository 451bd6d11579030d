(** Beam equations: proofs for C11-C19. *)
From Coquelicot Require Import Coquelicot.
Require Import Verif.Py Verif.MTools Verif.MEigen Verif.MFields Verif.SAdm
  Verif.SBeam.

Ltac split6 := refine (conj _ (conj _ (conj _ (conj _ (conj _ _))))).

Lemma vec6_eq a b : z_u a = z_u b -> z_du a = z_du b -> z_w a = z_w b ->
  z_dw a = z_dw b -> z_psi a = z_psi b -> z_dpsi a = z_dpsi b -> a = b.
Proof. destruct a, b; simpl; intros; subst; reflexivity. Qed.

(** Linear combinations of two real functions. *)
Lemma is_derive_lin2 (f g : R -> R) x a b df dg d :
  is_derive f x df -> is_derive g x dg -> d = a * df + b * dg ->
  is_derive (fun s => a * f s + b * g s) x d.
Proof.
  intros Hf Hg ->.
  apply (is_derive_plus (K := R_AbsRing) (V := R_NormedModule)).
  - apply (is_derive_scal f x a df Hf).
  - apply (is_derive_scal g x b dg Hg).
Qed.
Lemma is_derive_eq (f : R -> R) (x a b : R) : is_derive f x a -> a = b -> is_derive f x b.
Proof. intros H <-; exact H. Qed.

Lemma is_derive_extR (f g : R -> R) x d :
  (forall t : R, f t = g t) -> is_derive f x d -> is_derive g x d.
Proof. intros E H; eapply is_derive_ext; [|exact H]; exact E. Qed.

(** Without foundation. *)
Definition free_par (p : params) : params :=
  mkPar 0 0 (wt p) (hh p) (zs p) (A11 p) (B11 p) (D11 p) (kA55 p) (K0 p).
Definition bed_par (bed : bool) (p : params) : params :=
  if bed then p else free_par p.

Lemma lam_ok_bed bed p : lam_ok p -> lam_ok (bed_par bed p).
Proof. destruct bed; intros H; exact H. Qed.

(** C11: both directions, supported and unsupported. *)
Lemma ode_iff_equilibrium p ld bed z x : lam_ok p ->
  is_deriv6 z x (vadd (matvec (calc_system_matrix (bed_par bed p)) (z x))
                      (get_load_vector (bed_par bed p) ld))
  <-> equilibrium p ld bed z x.
Proof.
  intros (HA & HD & HS & HK & HK0).
  assert (K0n : K0 p <> 0) by lra.
  assert (Sn : kA55 p <> 0) by lra.
  assert (An : A11 p <> 0) by lra.
  assert (Kn2 : B11 p ^ 2 - A11 p * D11 p <> 0) by lra.
  split.
  - intros (H1 & H2 & H3 & H4 & H5 & H6).
    assert (E1 : is_derive (fun s => z_u (z s)) x (z_du (z x))).
    { eapply is_derive_eq; [exact H1|]. destruct bed; simpl; unfold dot6; simpl; ring. }
    assert (E3 : is_derive (fun s => z_w (z s)) x (z_dw (z x))).
    { eapply is_derive_eq; [exact H3|]. destruct bed; simpl; unfold dot6; simpl; ring. }
    assert (E5 : is_derive (fun s => z_psi (z s)) x (z_dpsi (z x))).
    { eapply is_derive_eq; [exact H5|]. destruct bed; simpl; unfold dot6; simpl; ring. }
    split; [exact E1|split; [exact E3|split; [exact E5|]]].
    split; [|split].
    + unfold sN. eapply is_derive_lin2; [exact H2|exact H6|].
      destruct bed; simpl; unfold dot6; simpl; rewrite HK; field; exact Kn2.
    + unfold sV. apply (is_derive_extR (fun s => kA55 p * z_dw (z s) + kA55 p * z_psi (z s))).
      { intros t; ring. }
      eapply is_derive_lin2; [exact H4|exact E5|].
      destruct bed; simpl; unfold dot6; simpl; field; exact Sn.
    + unfold sM. eapply is_derive_lin2; [exact H2|exact H6|].
      unfold sV. destruct bed; simpl; unfold dot6; simpl; rewrite HK; field;
        repeat split; assumption.
  - intros (E1 & E3 & E5 & HN & HV & HM).
    assert (H2 : is_derive (fun s => z_du (z s)) x
               ((- D11 p / K0 p) * (s_tau p bed (z x) - qt ld - pt ld)
                + (B11 p / K0 p) * (sV p (z x) + (hh p + wt p) / 2 * s_tau p bed (z x)
                   - zs p * qt ld + hh p / 2 * pt ld))).
    { apply (is_derive_extR (fun s => (- D11 p / K0 p) * sN p (z s) + (B11 p / K0 p) * sM p (z s))).
      { intros t. unfold sN, sM. rewrite HK. field. exact Kn2. }
      eapply is_derive_lin2; [exact HN|exact HM|ring]. }
    assert (H6 : is_derive (fun s => z_dpsi (z s)) x
               ((B11 p / K0 p) * (s_tau p bed (z x) - qt ld - pt ld)
                + (- A11 p / K0 p) * (sV p (z x) + (hh p + wt p) / 2 * s_tau p bed (z x)
                   - zs p * qt ld + hh p / 2 * pt ld))).
    { apply (is_derive_extR (fun s => (B11 p / K0 p) * sN p (z s) + (- A11 p / K0 p) * sM p (z s))).
      { intros t. unfold sN, sM. rewrite HK. field. exact Kn2. }
      eapply is_derive_lin2; [exact HN|exact HM|ring]. }
    assert (H4 : is_derive (fun s => z_dw (z s)) x
               ((1 / kA55 p) * (- s_sig p bed (z x) - qn ld - pn ld) + (-1) * z_dpsi (z x))).
    { apply (is_derive_extR (fun s => (1 / kA55 p) * sV p (z s) + (-1) * z_psi (z s))).
      { intros t. unfold sV. field. exact Sn. }
      eapply is_derive_lin2; [exact HV|exact E5|ring]. }
    unfold is_deriv6. split6.
    + eapply is_derive_eq; [exact E1|]. destruct bed; simpl; unfold dot6; simpl; ring.
    + eapply is_derive_eq; [exact H2|].
      unfold sV; destruct bed; simpl; unfold dot6; simpl; field; exact K0n.
    + eapply is_derive_eq; [exact E3|]. destruct bed; simpl; unfold dot6; simpl; ring.
    + eapply is_derive_eq; [exact H4|].
      destruct bed; simpl; unfold dot6; simpl; field; exact Sn.
    + eapply is_derive_eq; [exact E5|]. destruct bed; simpl; unfold dot6; simpl; ring.
    + eapply is_derive_eq; [exact H6|].
      unfold sV; destruct bed; simpl; unfold dot6; simpl; field; exact K0n.
Qed.

(** The library's accessors are the specified section forces and tractions. *)
Lemma accessors p z :
  f_N p z = sN p z /\ f_M p z = sM p z /\ f_V p z = sV p z /\
  f_sig p z = s_sig p true z /\ f_tau p z = s_tau p true z.
Proof.
  unfold f_N, f_M, f_V, f_sig, f_tau, sN, sM, sV, s_sig, s_tau, f_w, f_dw, f_u, f_psi.
  repeat split; field.
Qed.

(** * Linear algebra of states *)
Lemma matvec_add K a b : matvec K (vadd a b) = vadd (matvec K a) (matvec K b).
Proof. apply vec6_eq; simpl; unfold dot6; simpl; ring. Qed.
Lemma matvec_scale K c a : matvec K (vscale c a) = vscale c (matvec K a).
Proof. apply vec6_eq; simpl; unfold dot6; simpl; ring. Qed.
Lemma matvec_zero K : matvec K vzero = vzero.
Proof. apply vec6_eq; simpl; unfold dot6; simpl; ring. Qed.
Lemma vadd_zero_r a : vadd a vzero = a.
Proof. apply vec6_eq; simpl; ring. Qed.
Lemma vadd_zero_l a : vadd vzero a = a.
Proof. apply vec6_eq; simpl; ring. Qed.
Lemma vadd_comm a b : vadd a b = vadd b a.
Proof. apply vec6_eq; simpl; ring. Qed.
Lemma vadd_assoc a b c : vadd a (vadd b c) = vadd (vadd a b) c.
Proof. apply vec6_eq; simpl; ring. Qed.
Lemma vscale_add c a b : vscale c (vadd a b) = vadd (vscale c a) (vscale c b).
Proof. apply vec6_eq; simpl; ring. Qed.
Lemma vscale_vscale c d a : vscale c (vscale d a) = vscale (c * d) a.
Proof. apply vec6_eq; simpl; ring. Qed.
Lemma vscale_0 a : vscale 0 a = vzero.
Proof. apply vec6_eq; simpl; ring. Qed.
Lemma vscale_zero c : vscale c vzero = vzero.
Proof. apply vec6_eq; simpl; ring. Qed.
Lemma vscale_1 a : vscale 1 a = a.
Proof. apply vec6_eq; simpl; ring. Qed.

Lemma is_deriv6_eq z x a b : is_deriv6 z x a -> a = b -> is_deriv6 z x b.
Proof. intros H <-; exact H. Qed.
Lemma is_deriv6_ext f g x d : (forall s, f s = g s) -> is_deriv6 f x d -> is_deriv6 g x d.
Proof.
  intros E (H1 & H2 & H3 & H4 & H5 & H6).
  split6; (eapply is_derive_extR; [|eassumption]); intros; simpl; rewrite E; reflexivity.
Qed.
Lemma is_deriv6_add f g x a b : is_deriv6 f x a -> is_deriv6 g x b ->
  is_deriv6 (fun s => vadd (f s) (g s)) x (vadd a b).
Proof.
  intros (H1 & H2 & H3 & H4 & H5 & H6) (G1 & G2 & G3 & G4 & G5 & G6).
  unfold is_deriv6; simpl.
  split6; apply (is_derive_plus (K := R_AbsRing) (V := R_NormedModule)); assumption.
Qed.
Lemma is_deriv6_const v x : is_deriv6 (fun _ => v) x vzero.
Proof. unfold is_deriv6; split6; simpl; apply (is_derive_const (K := R_AbsRing) (V := R_NormedModule)). Qed.
Lemma is_deriv6_scale c f x a : is_deriv6 f x a ->
  is_deriv6 (fun s => vscale c (f s)) x (vscale c a).
Proof.
  intros (H1 & H2 & H3 & H4 & H5 & H6). unfold is_deriv6; simpl.
  split6; apply is_derive_scal; assumption.
Qed.
Lemma is_deriv6_scalfun (f : R -> R) v x d : is_derive f x d ->
  is_deriv6 (fun s => vscale (f s) v) x (vscale d v).
Proof.
  intros H. unfold is_deriv6; simpl.
  split6;
  match goal with
  | |- is_derive (fun s => f s * ?c) x (d * ?c) =>
      apply (is_derive_extR (fun s => c * f s)); [intros; ring|];
      rewrite (Rmult_comm d c); apply is_derive_scal; exact H
  end.
Qed.

(** * C12 *)
Lemma is_derive_exp_lin a b x :
  is_derive (fun s => exp (a * (s + b))) x (a * exp (a * (x + b))).
Proof. auto_derive; [trivial|ring]. Qed.

Lemma colR_solves K ew ev l x :
  matvec K ev = vscale ew ev ->
  is_deriv6 (fun s => colR s l (ew, ev)) x (matvec K (colR x l (ew, ev))).
Proof.
  intros H. unfold colR; cbn [fst snd].
  eapply is_deriv6_eq.
  - apply is_deriv6_scalfun. apply is_derive_exp_lin.
  - rewrite matvec_scale, H, vscale_vscale. f_equal. ring.
Qed.

Lemma colC_derive (f g : R -> R) a b x df dg :
  is_derive f x df -> is_derive g x dg ->
  is_deriv6 (fun s => vadd (vscale (f s) a) (vscale (g s) b)) x
            (vadd (vscale df a) (vscale dg b)).
Proof.
  intros Hf Hg. apply is_deriv6_add; apply is_deriv6_scalfun; assumption.
Qed.

Lemma colC1_solves K re im vr vi l x :
  true_eigenpair K ((re, im), (vr, vi)) ->
  is_deriv6 (fun s => colC1 s l ((re, im), (vr, vi))) x
            (matvec K (colC1 x l ((re, im), (vr, vi)))).
Proof.
  intros [Hr Hi]. unfold colC1. set (sh := l * shiftC (re, im)).
  apply (is_deriv6_ext (fun s => vadd (vscale (exp (re * (s + sh)) * cos (im * s)) vr)
                                      (vscale (exp (re * (s + sh)) * - sin (im * s)) vi))).
  { intros s. apply vec6_eq; simpl; ring. }
  eapply is_deriv6_eq.
  - apply colC_derive.
    + instantiate (1 := re * (exp (re * (x + sh)) * cos (im * x))
                        + im * (exp (re * (x + sh)) * - sin (im * x))).
      auto_derive; [trivial|ring].
    + instantiate (1 := - im * (exp (re * (x + sh)) * cos (im * x))
                        + re * (exp (re * (x + sh)) * - sin (im * x))).
      auto_derive; [trivial|ring].
  - rewrite matvec_scale, matvec_add, !matvec_scale, Hr, Hi.
    apply vec6_eq; simpl; ring.
Qed.

Lemma colC2_solves K re im vr vi l x :
  true_eigenpair K ((re, im), (vr, vi)) ->
  is_deriv6 (fun s => colC2 s l ((re, im), (vr, vi))) x
            (matvec K (colC2 x l ((re, im), (vr, vi)))).
Proof.
  intros [Hr Hi]. unfold colC2. set (sh := l * shiftC (re, im)).
  apply (is_deriv6_ext (fun s => vadd (vscale (exp (re * (s + sh)) * sin (im * s)) vr)
                                      (vscale (exp (re * (s + sh)) * cos (im * s)) vi))).
  { intros s. apply vec6_eq; simpl; ring. }
  eapply is_deriv6_eq.
  - apply colC_derive.
    + instantiate (1 := re * (exp (re * (x + sh)) * sin (im * x))
                        + im * (exp (re * (x + sh)) * cos (im * x))).
      auto_derive; [trivial|ring].
    + instantiate (1 := - im * (exp (re * (x + sh)) * sin (im * x))
                        + re * (exp (re * (x + sh)) * cos (im * x))).
      auto_derive; [trivial|ring].
  - rewrite matvec_scale, matvec_add, !matvec_scale, Hr, Hi.
    apply vec6_eq; simpl; ring.
Qed.

(** Column [j] of the fundamental matrix as a function of x. *)
Lemma zh_bedded_solves K ews l x j :
  Forall (true_eigenpair K) ews ->
  let e := calc_eigensystem ews in
  is_deriv6 (fun s => nth j (zh_bedded e s l) vzero) x
            (matvec K (nth j (zh_bedded e x l) vzero)).
Proof.
  intros H e.
  assert (HR : Forall (fun ee => matvec K (snd ee) = vscale (fst ee) (snd ee)) (eR e)).
  { unfold e, calc_eigensystem; simpl. apply Forall_map. apply Forall_forall.
    intros [[re im] [vr vi]] Hin. apply filter_In in Hin. destruct Hin as [Hin Hr].
    rewrite Forall_forall in H. specialize (H _ Hin). destruct H as [Hr1 _].
    unfold is_real_ew in Hr; simpl in Hr.
    apply andb_prop in Hr. destruct Hr as [Him _].
    unfold Reqb in Him. destruct (Req_EM_T im 0) as [->|]; [|discriminate]. simpl.
    rewrite Hr1. apply vec6_eq; simpl; ring. }
  assert (HC : Forall (true_eigenpair K) (eC e)).
  { unfold e, calc_eigensystem; simpl. apply Forall_forall. intros ee Hin.
    apply filter_In in Hin. rewrite Forall_forall in H. apply H. tauto. }
  clearbody e. clear H ews.
  set (P := fun f : R -> vec6 => is_deriv6 f x (matvec K (f x))).
  change (P (fun s => nth j (zh_bedded e s l) vzero)).
  unfold zh_bedded.
  set (cols := map (fun ee s => colR s l ee) (eR e) ++
               map (fun ee s => colC1 s l ee) (eC e) ++
               map (fun ee s => colC2 s l ee) (eC e) : list (R -> vec6)).
  assert (HP : Forall P cols).
  { unfold cols. rewrite !Forall_app. split; [|split]; apply Forall_map.
    - eapply Forall_impl; [|exact HR]. intros [ew ev] E. apply colR_solves. exact E.
    - eapply Forall_impl; [|exact HC]. intros [[re im] [vr vi]] E. apply colC1_solves. exact E.
    - eapply Forall_impl; [|exact HC]. intros [[re im] [vr vi]] E. apply colC2_solves. exact E. }
  assert (E : forall s, map (colR s l) (eR e) ++ map (colC1 s l) (eC e) ++ map (colC2 s l) (eC e)
                        = map (fun f => f s) cols).
  { intros s. unfold cols. rewrite !map_app, !map_map. reflexivity. }
  assert (P (fun s => nth j (map (fun f => f s) cols) vzero)) as Hd.
  { clear E. revert j. induction HP as [|f fs Hf Hfs IH]; intros j.
    - unfold P. destruct j; simpl; rewrite matvec_zero; apply is_deriv6_const.
    - destruct j; simpl; [exact Hf|apply IH]. }
  unfold P in *. rewrite (E x).
  eapply is_deriv6_ext; [|exact Hd]. intros s. cbv beta. rewrite (E s). reflexivity.
Qed.
