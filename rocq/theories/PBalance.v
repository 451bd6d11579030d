(** Balance equations on a segment and global force balance (C23). *)
From Coquelicot Require Import Coquelicot.
Require Import Verif.Py Verif.MTools Verif.MEigen Verif.MFields Verif.SAdm Verif.MRaster
  Verif.MSolution Verif.SBeam Verif.SBvp Verif.PBeam Verif.PBeam2 Verif.PBvp Verif.PBvp2.

(** Balance equations; [em] is an additional distributed moment. *)
Definition balance (p : params) (ld : loads) (bed : bool) (em : R)
    (z : R -> vec6) (x : R) : Prop :=
  is_derive (fun s => z_u (z s)) x (z_du (z x)) /\
  is_derive (fun s => z_w (z s)) x (z_dw (z x)) /\
  is_derive (fun s => z_psi (z s)) x (z_dpsi (z x)) /\
  is_derive (fun s => sN p (z s)) x (s_tau p bed (z x) - qt ld - pt ld) /\
  is_derive (fun s => sV p (z s)) x (- s_sig p bed (z x) - qn ld - pn ld) /\
  is_derive (fun s => sM p (z s)) x
    (sV p (z x) + (hh p + wt p) / 2 * s_tau p bed (z x)
     - zs p * qt ld + hh p / 2 * pt ld + em).

Lemma equilibrium_balance p ld bed z x : equilibrium p ld bed z x -> balance p ld bed 0 z x.
Proof.
  intros (H1 & H2 & H3 & H4 & H5 & H6). unfold balance.
  split; [exact H1|split; [exact H2|split; [exact H3|split; [exact H4|split; [exact H5|]]]]].
  eapply is_derive_eq; [exact H6|ring].
Qed.

Lemma is_derive_plusR (f g : R -> R) x a b : is_derive f x a -> is_derive g x b ->
  is_derive (fun s => f s + g s) x (a + b).
Proof. intros Hf Hg. apply (is_derive_plus (K := R_AbsRing) (V := R_NormedModule)); assumption. Qed.

Lemma balance_add p l1 l2 bed e1 e2 f g x :
  balance p l1 bed e1 f x -> balance p l2 bed e2 g x ->
  balance p (mkLd (qn l1 + qn l2) (qt l1 + qt l2) (pn l1 + pn l2) (pt l1 + pt l2)) bed (e1 + e2)
    (fun s => vadd (f s) (g s)) x.
Proof.
  intros (H1 & H2 & H3 & H4 & H5 & H6) (G1 & G2 & G3 & G4 & G5 & G6). unfold balance.
  split6.
  - apply is_derive_plusR; assumption.
  - apply is_derive_plusR; assumption.
  - apply is_derive_plusR; assumption.
  - eapply is_derive_eq.
    + eapply is_derive_extR; [|apply (is_derive_plusR _ _ _ _ _ H4 G4)].
      intros t. unfold sN; simpl; ring.
    + destruct bed; simpl; ring.
  - eapply is_derive_eq.
    + eapply is_derive_extR; [|apply (is_derive_plusR _ _ _ _ _ H5 G5)].
      intros t. unfold sV; simpl; ring.
    + destruct bed; simpl; ring.
  - eapply is_derive_eq.
    + eapply is_derive_extR; [|apply (is_derive_plusR _ _ _ _ _ H6 G6)].
      intros t. unfold sM; simpl; ring.
    + unfold sV. destruct bed; simpl; ring.
Qed.

(** The free particular integral balances everything but a moment B11/A11 pt. *)
Lemma zp_free_balance p ld x : lam_ok p ->
  balance p ld false (- (B11 p / A11 p * pt ld)) (fun s => zp p ld s false) x.
Proof.
  intros (HA & HD & HS & HK & HK0).
  assert (A11 p <> 0) by lra. assert (kA55 p <> 0) by lra. assert (K0 p <> 0) by lra.
  assert (B11 p ^ 2 - A11 p * D11 p <> 0) by lra.
  unfold balance, sN, sV, sM, s_tau, s_sig; simpl.
  split6; polyd; rewrite ?HK; field; repeat split; assumption.
Qed.

(** The object's eigensystem consists of true eigenpairs of its system matrix. *)
Definition eig_ok (o : obj) : Prop := exists ews,
  o_eig o = calc_eigensystem ews /\
  Forall (true_eigenpair (calc_system_matrix (o_par o))) ews.

Definition extra_moment (p : params) (ld : loads) (k : bool) : R :=
  if k then 0 else - (B11 p / A11 p * pt ld).

Lemma field_balance o phi l k C x : lam_ok (o_par o) -> fnd_ok (o_par o) -> eig_ok o ->
  balance (o_par o) (loads_of o phi) k (extra_moment (o_par o) (loads_of o phi) k)
    (field o phi l k C) x.
Proof.
  intros Hl Hf (ews & He & HT). destruct k; unfold extra_moment.
  - apply equilibrium_balance. unfold field. rewrite He.
    apply (supported_solution (o_par o) ews (loads_of o phi) C l x Hl Hf HT).
  - set (ld := loads_of o phi).
    pose proof (zh_free_equilibrium (o_par o) Hl (o_eig o) l C x) as H0.
    apply equilibrium_balance in H0.
    pose proof (zp_free_balance (o_par o) ld x Hl) as H1.
    pose proof (balance_add _ _ _ _ _ _ _ _ _ H0 H1) as H. cbn [no_loads qn qt pn pt] in H.
    rewrite !Rplus_0_l in H.
    assert (eta : mkLd (qn ld) (qt ld) (pn ld) (pt ld) = ld) by (destruct ld; reflexivity).
    rewrite eta in H. exact H.
Qed.

(** * Integrals over a segment *)
Lemma ftc (f df : R -> R) a b :
  (forall x, is_derive f x (df x)) -> (forall x, continuous df x) ->
  is_RInt df a b (f b - f a).
Proof. intros Hd Hc. apply (is_RInt_derive (V := R_CompleteNormedModule) f df a b); intros; auto. Qed.

Lemma cont_of_derive (f : R -> R) x d : is_derive f x d -> continuous f x.
Proof. intros H. apply (ex_derive_continuous f). exists d. exact H. Qed.

Lemma continuous_lin (f g h : R -> R) a b c d x :
  continuous f x -> continuous g x -> continuous h x ->
  continuous (fun s => a * f s + b * g s + c * h s + d) x.
Proof.
  intros Hf Hg Hh. pose (K := R_AbsRing). pose (V := R_NormedModule).
  pose proof (continuous_scal_r (V := V) a f x Hf) as Ca. pose proof (continuous_scal_r (V := V) b g x Hg) as Cb.
  pose proof (continuous_scal_r (V := V) c h x Hh) as Cc.
  exact (continuous_plus (K := K) (V := V) (fun s => a * f s + b * g s + c * h s) (fun _ => d) x
    (continuous_plus (K := K) (V := V) (fun s => a * f s + b * g s) (fun s => c * h s) x
      (continuous_plus (K := K) (V := V) (fun s => a * f s) (fun s => b * g s) x Ca Cb) Cc)
    (continuous_const (U := R_UniformSpace) (V := V) d x)).
Qed.

Lemma continuous_extR (f g : R -> R) x :
  (forall s : R, f s = g s) -> continuous f x -> continuous g x.
Proof. intros E H; eapply continuous_ext; [|exact H]; exact E. Qed.

(** w' is continuous: it is V/kA55 - psi. *)
Lemma dw_continuous p (z : R -> vec6) (x : R) : 0 < kA55 p ->
  continuous (fun s => sV p (z s)) x -> continuous (fun s => z_psi (z s)) x ->
  continuous (fun s => z_dw (z s)) x.
Proof.
  intros HS Hv Hp.
  apply (continuous_extR (fun s => / kA55 p * sV p (z s) + (-1) * z_psi (z s) + 0 * z_psi (z s) + 0)).
  - intros s. unfold sV. field. lra.
  - apply (continuous_lin (fun s => sV p (z s)) (fun s => z_psi (z s)) (fun s => z_psi (z s))); assumption.
Qed.

Lemma traction_continuous p ld k em (z : R -> vec6) (x : R) : 0 < kA55 p -> balance p ld k em z x ->
  continuous (fun s => s_sig p k (z s)) x /\ continuous (fun s => s_tau p k (z s)) x.
Proof.
  intros HS (H1 & H2 & H3 & H4 & H5 & H6).
  apply cont_of_derive in H1. apply cont_of_derive in H2. apply cont_of_derive in H3.
  apply cont_of_derive in H5.
  destruct k; simpl.
  - split.
    + apply (continuous_extR (fun s => (- kn p) * z_w (z s) + 0 * z_w (z s) + 0 * z_w (z s) + 0)).
      { intros s; ring. }
      apply (continuous_lin (fun s => z_w (z s)) (fun s => z_w (z s)) (fun s => z_w (z s))); assumption.
    + pose proof (dw_continuous p z x HS H5 H3) as Hdw.
      apply (continuous_extR (fun s => kt p * z_u (z s) + (kt p * (hh p / 2)) * z_psi (z s)
        + (- (kt p * (wt p / 2))) * z_dw (z s) + 0)).
      { intros s; ring. }
      apply (continuous_lin (fun s => z_u (z s)) (fun s => z_psi (z s)) (fun s => z_dw (z s))); assumption.
  - split; apply continuous_const.
Qed.

Lemma segment_force_balance p ld k em z l : 0 < kA55 p ->
  (forall x, balance p ld k em z x) ->
  RInt (fun s => - s_sig p k (z s)) 0 l
    = sV p (z l) - sV p (z 0) + (qn ld + pn ld) * l /\
  RInt (fun s => s_tau p k (z s)) 0 l
    = sN p (z l) - sN p (z 0) + (qt ld + pt ld) * l.
Proof.
  intros HS HB. split.
  - apply is_RInt_unique.
    pose proof (ftc (fun s => sV p (z s) + (qn ld + pn ld) * s) (fun s => - s_sig p k (z s)) 0 l) as F.
    replace (sV p (z l) - sV p (z 0) + (qn ld + pn ld) * l)
      with (sV p (z l) + (qn ld + pn ld) * l - (sV p (z 0) + (qn ld + pn ld) * 0)) by ring.
    apply F.
    + intros x. destruct (HB x) as (_ & _ & _ & _ & H5 & _).
      eapply is_derive_eq; [apply is_derive_plusR; [exact H5|]|].
      * eapply is_derive_eq; [auto_derive; [trivial|reflexivity]|]. reflexivity.
      * ring.
    + intros x. apply (continuous_opp (V := R_NormedModule)).
      apply (traction_continuous p ld k em z x HS (HB x)).
  - apply is_RInt_unique.
    pose proof (ftc (fun s => sN p (z s) + (qt ld + pt ld) * s) (fun s => s_tau p k (z s)) 0 l) as F.
    replace (sN p (z l) - sN p (z 0) + (qt ld + pt ld) * l)
      with (sN p (z l) + (qt ld + pt ld) * l - (sN p (z 0) + (qt ld + pt ld) * 0)) by ring.
    apply F.
    + intros x. destruct (HB x) as (_ & _ & _ & H4 & _ & _).
      eapply is_derive_eq; [apply is_derive_plusR; [exact H4|]|].
      * eapply is_derive_eq; [auto_derive; [trivial|reflexivity]|]. reflexivity.
      * ring.
    + intros x. apply (traction_continuous p ld k em z x HS (HB x)).
Qed.

(** * All segments *)
Lemma telescope (a b j : nat -> R) n :
  (forall i, (i < n)%nat -> b i - a (S i) = j i) ->
  sumn (S n) (fun i => b i - a i) = b n - a 0%nat + sumn n j.
Proof.
  induction n as [|n IH]; intros H; [simpl; ring|].
  rewrite sumn_S, IH by (intros; apply H; lia). rewrite (sumn_S n j), <- (H n) by lia. ring.
Qed.
Lemma sumn_plus n f g : sumn n (fun i => f i + g i) = sumn n f + sumn n g.
Proof. induction n as [|n IH]; simpl; [ring|]. rewrite IH; ring. Qed.
Lemma sumn_scal n c f : sumn n (fun i => c * f i) = c * sumn n f.
Proof. induction n as [|n IH]; simpl; [ring|]. rewrite IH; ring. Qed.

Lemma global_balance o kR phi li mi ki Cs : lam_ok (o_par o) -> fnd_ok (o_par o) -> eig_ok o ->
  (1 <= List.length li)%nat ->
  bvp o kR phi li mi ki Cs ->
  let p := o_par o in let ld := loads_of o phi in let N := List.length li in
  let z i := field o phi (nth i li 0) (nth i ki false) (nth i Cs []) in
  let zl := z 0%nat 0 in
  let zr := z (N - 1)%nat (nth (N - 1) li 0) in
  sumn N (fun i => RInt (fun s => - s_sig p (nth i ki false) (z i s)) 0 (nth i li 0))
    = (qn ld + pn ld) * sumn N (fun i => nth i li 0)
      + sumn (N - 1) (fun i => point_Fn o phi (nth i mi 0)) + (sV p zr - sV p zl) /\
  sumn N (fun i => RInt (fun s => s_tau p (nth i ki false) (z i s)) 0 (nth i li 0))
    = (qt ld + pt ld) * sumn N (fun i => nth i li 0)
      + sumn (N - 1) (fun i => point_Ft o phi (nth i mi 0)) + (sN p zr - sN p zl).
Proof.
  intros Hl Hf He HN (_ & _ & HT) p ld N z zl zr.
  assert (HB : forall i x, balance p ld (nth i ki false) (extra_moment p ld (nth i ki false)) (z i) x).
  { intros i x. apply field_balance; assumption. }
  assert (HS : 0 < kA55 p) by apply Hl.
  fold N in HN, HT. destruct N as [|n] eqn:EN; [lia|].
  replace (S n - 1)%nat with n in * by lia.
  split.
  - rewrite (sumn_ext (S n) _ (fun i => (sV p (z i (nth i li 0)) - sV p (z i 0)) + (qn ld + pn ld) * nth i li 0)).
    2:{ intros i _. exact (proj1 (segment_force_balance p ld (nth i ki false) (extra_moment p ld (nth i ki false)) (z i) (nth i li 0) HS (HB i))). }
    rewrite sumn_plus, sumn_scal.
    rewrite (telescope (fun i => sV p (z i 0)) (fun i => sV p (z i (nth i li 0)))
      (fun i => point_Fn o phi (nth i mi 0)) n).
    + unfold zr, zl. replace (S n - 1)%nat with n by lia. ring.
    + intros i Hi. specialize (HT i ltac:(lia)). unfold transition in HT. cbv zeta in HT.
      destruct HT as (_ & _ & _ & _ & _ & HV). cbv beta. unfold z, p. rewrite HV. unfold point_Fn.
      destruct (kind_of (o_system o)) as [[| | | |]|]; ring.
  - rewrite (sumn_ext (S n) _ (fun i => (sN p (z i (nth i li 0)) - sN p (z i 0)) + (qt ld + pt ld) * nth i li 0)).
    2:{ intros i _. exact (proj2 (segment_force_balance p ld (nth i ki false) (extra_moment p ld (nth i ki false)) (z i) (nth i li 0) HS (HB i))). }
    rewrite sumn_plus, sumn_scal.
    rewrite (telescope (fun i => sN p (z i 0)) (fun i => sN p (z i (nth i li 0)))
      (fun i => point_Ft o phi (nth i mi 0)) n).
    + unfold zr, zl. replace (S n - 1)%nat with n by lia. ring.
    + intros i Hi. specialize (HT i ltac:(lia)). unfold transition in HT. cbv zeta in HT.
      destruct HT as (_ & _ & _ & HV & _ & _). cbv beta. unfold z, p. rewrite HV. unfold point_Ft.
      destruct (kind_of (o_system o)) as [[| | | |]|]; ring.
Qed.
