(** Beam solutions: proofs for C12-C19. *)
From Coquelicot Require Import Coquelicot.
From Coq Require Import Permutation.
Require Import Verif.Py Verif.MTools Verif.MEigen Verif.MFields Verif.SAdm
  Verif.SBeam Verif.PBeam.

Definition Ksys (bed : bool) (p : params) : mat6 := calc_system_matrix (bed_par bed p).
Definition qsys (bed : bool) (p : params) (ld : loads) : vec6 :=
  get_load_vector (bed_par bed p) ld.

Lemma load_vector_zero p : get_load_vector p no_loads = vzero.
Proof. apply vec6_eq; simpl; unfold Rdiv; ring. Qed.

(** Columns of the fundamental matrix as functions. *)
Lemma zh_bedded_funs K ews l :
  Forall (true_eigenpair K) ews ->
  exists cols : list (R -> vec6),
    (forall s, zh_bedded (calc_eigensystem ews) s l = map (fun f => f s) cols) /\
    Forall (fun f => forall x, is_deriv6 f x (matvec K (f x))) cols.
Proof.
  intros H. set (e := calc_eigensystem ews).
  assert (HR : Forall (fun ee => matvec K (snd ee) = vscale (fst ee) (snd ee)) (eR e)).
  { unfold e, calc_eigensystem; simpl. apply Forall_map. apply Forall_forall.
    intros [[re im] [vr vi]] Hin. apply filter_In in Hin. destruct Hin as [Hin Hr].
    rewrite Forall_forall in H. specialize (H _ Hin). destruct H as [Hr1 _].
    unfold is_real_ew in Hr; simpl in Hr.
    apply andb_prop in Hr. destruct Hr as [Him _].
    unfold Reqb in Him. destruct (Req_EM_T im 0) as [->|]; [|discriminate]. simpl.
    rewrite Hr1. apply vec6_eq; simpl; ring. }
  assert (HC : Forall (true_eigenpair K) (eC e)).
  { unfold e, calc_eigensystem; simpl. apply Forall_forall. intros ee Hin.
    apply filter_In in Hin. rewrite Forall_forall in H. apply H. tauto. }
  exists (map (fun ee s => colR s l ee) (eR e) ++
          map (fun ee s => colC1 s l ee) (eC e) ++
          map (fun ee s => colC2 s l ee) (eC e)).
  split.
  - intros s. unfold zh_bedded. rewrite !map_app, !map_map. reflexivity.
  - rewrite !Forall_app. split; [|split]; apply Forall_map.
    + eapply Forall_impl; [|exact HR]. intros [ew ev] E x. apply colR_solves. exact E.
    + eapply Forall_impl; [|exact HC]. intros [[re im] [vr vi]] E x. apply colC1_solves. exact E.
    + eapply Forall_impl; [|exact HC]. intros [[re im] [vr vi]] E x. apply colC2_solves. exact E.
Qed.

Ltac polyd := eapply is_derive_eq; [auto_derive; [trivial|reflexivity]|].

Lemma zh_free_funs p : lam_ok p ->
  exists cols : list (R -> vec6),
    (forall s, zh_free p s = map (fun f => f s) cols) /\
    Forall (fun f => forall x, is_deriv6 f x (matvec (Ksys false p) (f x))) cols.
Proof.
  intros (HA & HD & HS & HK & HK0).
  exists [ (fun _ => mkV 0 0 1 0 0 0);
    (fun x => mkV 0 0 x 1 (-1) 0);
    (fun x => mkV 0 0 (x ^ 2) (2 * x) (- 2 * x) (-2));
    (fun x => mkV (3 * B11 p / A11 p * x ^ 2) (6 * B11 p / A11 p * x) (x ^ 3) (3 * x ^ 2)
             (- 3 * x ^ 2 + 6 * K0 p / (A11 p * kA55 p)) (- 6 * x));
    (fun _ => mkV 1 0 0 0 0 0);
    (fun x => mkV x 1 0 0 0 0) ].
  split; [intros s; reflexivity|].
  assert (A11 p <> 0) by lra. assert (kA55 p <> 0) by lra. assert (K0 p <> 0) by lra.
  do 6 (apply Forall_cons; [intros x; unfold is_deriv6; simpl; unfold dot6; simpl;
    split6; (polyd; field; repeat split; assumption)|]).
  apply Forall_nil.
Qed.

Lemma lincomb_solves K cols x C :
  Forall (fun f : R -> vec6 => forall x, is_deriv6 f x (matvec K (f x))) cols ->
  is_deriv6 (fun s => lincomb (map (fun f => f s) cols) C) x
            (matvec K (lincomb (map (fun f => f x) cols) C)).
Proof.
  intros H; revert C; induction H as [|f fs Hf Hfs IH]; intros C; simpl.
  - rewrite matvec_zero. apply is_deriv6_const.
  - destruct C as [|c C]; [rewrite matvec_zero; apply is_deriv6_const|].
    rewrite matvec_add, matvec_scale.
    apply is_deriv6_add; [apply is_deriv6_scale, Hf|apply IH].
Qed.

(** Complementary solution of either kind solves the homogeneous problem. *)
Lemma zh_lincomb_solves p ews l bed C x : lam_ok p ->
  Forall (true_eigenpair (calc_system_matrix p)) ews ->
  let e := calc_eigensystem ews in
  is_deriv6 (fun s => lincomb (zh p e s l bed) C) x
            (matvec (Ksys bed p) (lincomb (zh p e x l bed) C)).
Proof.
  intros Hl He e.
  assert (HX : exists cols : list (R -> vec6),
    (forall s, zh p e s l bed = map (fun f => f s) cols) /\
    Forall (fun f => forall x, is_deriv6 f x (matvec (Ksys bed p) (f x))) cols).
  { destruct bed; simpl; [apply zh_bedded_funs; exact He|apply zh_free_funs; exact Hl]. }
  destruct HX as (cols & E & H).
  rewrite (E x). eapply is_deriv6_ext; [|apply lincomb_solves; exact H].
  intros s. cbv beta. rewrite E. reflexivity.
Qed.

Lemma zh_equilibrium p ews l bed C x : lam_ok p ->
  Forall (true_eigenpair (calc_system_matrix p)) ews ->
  let e := calc_eigensystem ews in
  equilibrium p no_loads bed (fun s => lincomb (zh p e s l bed) C) x.
Proof.
  intros Hl He e. apply ode_iff_equilibrium; [exact Hl|].
  rewrite load_vector_zero, vadd_zero_r. apply zh_lincomb_solves; assumption.
Qed.

(** * C13 *)
Lemma zp_bedded_state p ld x : lam_ok p -> fnd_ok p ->
  vadd (matvec (calc_system_matrix p) (zp p ld x true)) (get_load_vector p ld) = vzero.
Proof.
  intros (HA & HD & HS & HK & HK0) (Hn & Ht & Hw).
  assert (K0 p <> 0) by lra. assert (kA55 p <> 0) by lra.
  assert (kt p <> 0) by lra. assert (kn p <> 0) by lra.
  apply vec6_eq; simpl; unfold dot6; simpl; field; repeat split; assumption.
Qed.
Lemma zp_bedded_const p ld x y : zp p ld x true = zp p ld y true.
Proof. reflexivity. Qed.
Lemma zp_bedded_equilibrium p ld x : lam_ok p -> fnd_ok p ->
  equilibrium p ld true (fun s => zp p ld s true) x.
Proof.
  intros Hl Hf. apply ode_iff_equilibrium; [exact Hl|]. simpl bed_par.
  rewrite zp_bedded_state by assumption.
  apply (is_deriv6_ext (fun _ => zp p ld x true)); [intros; reflexivity|].
  apply is_deriv6_const.
Qed.

(** * C15 *)
Lemma zp_free_deriv p ld x : lam_ok p ->
  is_deriv6 (fun s => zp p ld s false) x
    (vadd (vadd (matvec (Ksys false p) (zp p ld x false)) (qsys false p ld))
          (mkV 0 (- (B11 p ^ 2 * pt ld) / (A11 p * K0 p)) 0 0 0
               (B11 p * pt ld / K0 p))).
Proof.
  intros (HA & HD & HS & HK & HK0).
  assert (A11 p <> 0) by lra. assert (kA55 p <> 0) by lra. assert (K0 p <> 0) by lra.
  assert (B11 p ^ 2 - A11 p * D11 p <> 0) by lra.
  unfold is_deriv6; simpl; unfold dot6; simpl.
  split6; polyd; rewrite ?HK; field; repeat split; assumption.
Qed.

Lemma is_derive_uniq (f : R -> R) x a b : is_derive f x a -> is_derive f x b -> a = b.
Proof.
  intros H1 H2. apply is_derive_unique in H1. apply is_derive_unique in H2. congruence.
Qed.
Lemma is_deriv6_uniq f x a b : is_deriv6 f x a -> is_deriv6 f x b -> a = b.
Proof.
  intros (H1 & H2 & H3 & H4 & H5 & H6) (G1 & G2 & G3 & G4 & G5 & G6).
  apply vec6_eq; eapply is_derive_uniq; eassumption.
Qed.

Lemma zp_free_iff p ld x : lam_ok p ->
  equilibrium p ld false (fun s => zp p ld s false) x <-> B11 p * pt ld = 0.
Proof.
  intros Hl. pose proof (zp_free_deriv p ld x Hl) as Hd.
  pose proof Hl as (HA & HD & HS & HK & HK0).
  assert (A11 p <> 0) by lra. assert (K0 p <> 0) by lra.
  rewrite <- ode_iff_equilibrium by exact Hl. fold (Ksys false p). fold (qsys false p ld).
  split.
  - intros He. pose proof (is_deriv6_uniq _ _ _ _ Hd He) as E.
    apply (f_equal z_dpsi) in E. cbn [z_dpsi vadd] in E.
    assert (E2 : B11 p * pt ld / K0 p = 0) by lra.
    replace (B11 p * pt ld) with (B11 p * pt ld / K0 p * K0 p) by (field; assumption).
    rewrite E2; ring.
  - intros E. eapply is_deriv6_eq; [exact Hd|].
    apply vec6_eq; simpl; try ring.
    + replace (- (B11 p * (B11 p * 1) * pt ld) / (A11 p * K0 p))
        with (- B11 p * (B11 p * pt ld) / (A11 p * K0 p)) by (unfold Rdiv; ring).
      rewrite E. unfold Rdiv; ring.
    + rewrite E. unfold Rdiv; ring.
Qed.

(** * Full solution on one segment (C12+C13, C18) *)
Lemma zsol_deriv p ews ld C l x : lam_ok p -> fnd_ok p ->
  Forall (true_eigenpair (calc_system_matrix p)) ews ->
  let e := calc_eigensystem ews in
  is_deriv6 (fun s => zsol p e ld s C l true) x (dz_dx p ld (zsol p e ld x C l true)).
Proof.
  intros Hl Hf He e. unfold dz_dx, zsol.
  rewrite matvec_add.
  eapply is_deriv6_eq.
  - apply is_deriv6_add.
    + apply (zh_lincomb_solves p ews l true C x Hl He).
    + apply (is_deriv6_ext (fun _ => zp p ld x true)); [intros; reflexivity|].
      apply is_deriv6_const.
  - rewrite vadd_zero_r. rewrite <- vadd_assoc, zp_bedded_state by assumption.
    rewrite vadd_zero_r. reflexivity.
Qed.

Lemma zsol_deriv2 p ews ld C l x : lam_ok p -> fnd_ok p ->
  Forall (true_eigenpair (calc_system_matrix p)) ews ->
  let e := calc_eigensystem ews in
  is_deriv6 (fun s => dz_dx p ld (zsol p e ld s C l true)) x
            (dz_dxdx p ld (zsol p e ld x C l true)).
Proof.
  intros Hl Hf He e. unfold dz_dxdx.
  assert (E : forall s, dz_dx p ld (zsol p e ld s C l true)
              = matvec (calc_system_matrix p) (lincomb (zh p e s l true) C)).
  { intros s. unfold dz_dx, zsol. rewrite matvec_add, <- vadd_assoc, zp_bedded_state by assumption.
    apply vadd_zero_r. }
  rewrite E. eapply is_deriv6_ext; [intros s; symmetry; apply E|].
  (* derivative of K applied to the complementary solution *)
  pose proof (zh_lincomb_solves p ews l true C x Hl He) as (H1 & H2 & H3 & H4 & H5 & H6).
  cbv zeta in *. fold e in H1, H2, H3, H4, H5, H6.
  change (Ksys true p) with (calc_system_matrix p) in *.
  set (K := calc_system_matrix p) in *.
  set (f := fun s => lincomb (zh p e s l true) C) in *.
  set (d := matvec K (lincomb (zh p e x l true) C)) in *.
  assert (G : forall r, is_derive (fun s => dot6 r (f s)) x (dot6 r d)).
  { intros r. unfold dot6.
    repeat apply (is_derive_plus (K := R_AbsRing) (V := R_NormedModule));
      apply is_derive_scal; assumption. }
  unfold is_deriv6; simpl. split6; apply G.
Qed.

(** * C14: completeness of the free fundamental system *)
Section Free.
Variable p : params.
Hypothesis Hl : lam_ok p.

Definition fc4 (z : vec6) := A11 p * kA55 p * (z_dw z + z_psi z) / (6 * K0 p).
Definition fc3 (x : R) (z : vec6) := - (z_dpsi z + 6 * x * fc4 z) / 2.
Definition fc2 (x : R) (z : vec6) := z_dw z - 2 * x * fc3 x z - 3 * x ^ 2 * fc4 z.
Definition fc1 (x : R) (z : vec6) :=
  z_w z - x * fc2 x z - x ^ 2 * fc3 x z - x ^ 3 * fc4 z.
Definition fc6 (x : R) (z : vec6) := z_du z - 6 * B11 p / A11 p * x * fc4 z.
Definition fc5 (x : R) (z : vec6) :=
  z_u z - 3 * B11 p / A11 p * x ^ 2 * fc4 z - x * fc6 x z.
Definition fcs (x : R) (z : vec6) : list R :=
  [fc1 x z; fc2 x z; fc3 x z; fc4 z; fc5 x z; fc6 x z].

Lemma fcs_inverse x z : lincomb (zh_free p x) (fcs x z) = z.
Proof.
  destruct Hl as (HA & HD & HS & HK & HK0).
  assert (A11 p <> 0) by lra. assert (kA55 p <> 0) by lra. assert (K0 p <> 0) by lra.
  unfold fcs, fc5, fc6, fc1, fc2, fc3, fc4.
  apply vec6_eq; simpl; field; repeat split; assumption.
Qed.

Lemma fcs_unique x c1 c2 c3 c4 c5 c6 :
  fcs x (lincomb (zh_free p x) [c1; c2; c3; c4; c5; c6]) = [c1; c2; c3; c4; c5; c6].
Proof.
  destruct Hl as (HA & HD & HS & HK & HK0).
  assert (A11 p <> 0) by lra. assert (kA55 p <> 0) by lra. assert (K0 p <> 0) by lra.
  unfold fcs, fc5, fc6, fc1, fc2, fc3, fc4. simpl.
  repeat (apply f_equal2; [field; repeat split; assumption|]). reflexivity.
Qed.

Lemma const_of_derive0 (f : R -> R) : (forall x, is_derive f x 0) -> forall x, f x = f 0.
Proof.
  intros H x.
  destruct (MVT_gen f 0 x (fun _ => 0)) as (c & _ & Hc).
  - intros y _. apply H.
  - intros y _. apply derivable_continuous_pt. exists 0. apply is_derive_Reals. apply H.
  - lra.
Qed.

Lemma free_complete z :
  (forall x, equilibrium p no_loads false z x) ->
  exists C, List.length C = 6%nat /\ forall x, z x = lincomb (zh_free p x) C.
Proof.
  intros He.
  assert (Ho : forall x, is_deriv6 z x (matvec (Ksys false p) (z x))).
  { intros x. pose proof (proj2 (ode_iff_equilibrium p no_loads false z x Hl) (He x)) as H.
    rewrite load_vector_zero, vadd_zero_r in H. exact H. }
  exists (fcs 0 (z 0)). split; [reflexivity|]. intros x.
  assert (EC : fcs x (z x) = fcs 0 (z 0)).
  { destruct Hl as (HA & HD & HS & HK & HK0).
    assert (NA : A11 p <> 0) by lra. assert (NS : kA55 p <> 0) by lra. assert (NK : K0 p <> 0) by lra.
    assert (HK2 : B11 p ^ 2 - A11 p * D11 p <> 0) by lra.
    assert (D4 : forall y, is_derive (fun s => fc4 (z s)) y 0).
    { intros y. destruct (Ho y) as (H1 & H2 & H3 & H4 & H5 & H6). unfold fc4.
      apply (is_derive_extR (fun s => (A11 p * kA55 p / (6 * K0 p)) * z_dw (z s)
                                      + (A11 p * kA55 p / (6 * K0 p)) * z_psi (z s))).
      { intros t; field; repeat split; assumption. }
      eapply is_derive_lin2; [exact H4|exact H5|].
      simpl; unfold dot6; simpl. field; repeat split; assumption. }
    assert (E4 : forall y, fc4 (z y) = fc4 (z 0)) by (apply (const_of_derive0 (fun y => fc4 (z y))); exact D4).
    assert (V4 : forall y, z_dw (z y) + z_psi (z y) = 6 * K0 p / (A11 p * kA55 p) * fc4 (z y)).
    { intros y. unfold fc4. field. repeat split; assumption. }
    assert (D3 : forall y, is_derive (fun s => fc3 s (z s)) y 0).
    { intros y. destruct (Ho y) as (H1 & H2 & H3 & H4 & H5 & H6).
      apply (is_derive_extR (fun s => (-1/2) * z_dpsi (z s) + (- 3 * fc4 (z 0)) * s)).
      { intros t. unfold fc3. rewrite (E4 t). field. }
      eapply is_derive_lin2; [exact H6|apply (is_derive_id (K := R_AbsRing))|].
      rewrite <- (E4 y). unfold fc4. simpl; unfold dot6; simpl. unfold one; simpl.
      field; repeat split; assumption. }
    assert (E3 : forall y, fc3 y (z y) = fc3 0 (z 0)) by (apply (const_of_derive0 (fun y => fc3 y (z y))); exact D3).
    set (k4 := fc4 (z 0)) in *. set (k3 := fc3 0 (z 0)) in *.
    assert (P3 : forall y, z_dpsi (z y) = - 2 * k3 - 6 * y * k4).
    { intros y. rewrite <- (E3 y), <- (E4 y). unfold fc3. field. }
    assert (D2 : forall y, is_derive (fun s => fc2 s (z s)) y 0).
    { intros y. destruct (Ho y) as (H1 & H2 & H3 & H4 & H5 & H6).
      apply (is_derive_extR (fun s => 1 * z_dw (z s) + (-1) * (2 * s * k3 + 3 * s ^ 2 * k4))).
      { intros t. unfold fc2. rewrite (E4 t), (E3 t). ring. }
      eapply is_derive_lin2; [exact H4|auto_derive; [trivial|reflexivity]|].
      simpl; unfold dot6; simpl. rewrite (P3 y). field. assumption. }
    assert (E2 : forall y, fc2 y (z y) = fc2 0 (z 0)) by (apply (const_of_derive0 (fun y => fc2 y (z y))); exact D2).
    set (k2 := fc2 0 (z 0)) in *.
    assert (P2 : forall y, z_dw (z y) = k2 + 2 * y * k3 + 3 * y ^ 2 * k4).
    { intros y. rewrite <- (E2 y), <- (E3 y), <- (E4 y). unfold fc2. ring. }
    assert (D1 : forall y, is_derive (fun s => fc1 s (z s)) y 0).
    { intros y. destruct (Ho y) as (H1 & H2 & H3 & H4 & H5 & H6).
      apply (is_derive_extR (fun s => 1 * z_w (z s) + (-1) * (s * k2 + s ^ 2 * k3 + s ^ 3 * k4))).
      { intros t. unfold fc1. rewrite (E4 t), (E3 t), (E2 t). ring. }
      eapply is_derive_lin2; [exact H3|auto_derive; [trivial|reflexivity]|].
      simpl; unfold dot6; simpl. rewrite (P2 y). ring. }
    assert (E1 : forall y, fc1 y (z y) = fc1 0 (z 0)) by (apply (const_of_derive0 (fun y => fc1 y (z y))); exact D1).
    assert (D6 : forall y, is_derive (fun s => fc6 s (z s)) y 0).
    { intros y. destruct (Ho y) as (H1 & H2 & H3 & H4 & H5 & H6).
      apply (is_derive_extR (fun s => 1 * z_du (z s) + (- 6 * B11 p / A11 p * k4) * s)).
      { intros t. unfold fc6. rewrite (E4 t). field. assumption. }
      eapply is_derive_lin2; [exact H2|apply (is_derive_id (K := R_AbsRing))|].
      rewrite <- (E4 y). unfold fc4. simpl; unfold dot6; simpl. unfold one; simpl.
      field; repeat split; assumption. }
    assert (E6 : forall y, fc6 y (z y) = fc6 0 (z 0)) by (apply (const_of_derive0 (fun y => fc6 y (z y))); exact D6).
    set (k6 := fc6 0 (z 0)) in *.
    assert (D5 : forall y, is_derive (fun s => fc5 s (z s)) y 0).
    { intros y. destruct (Ho y) as (H1 & H2 & H3 & H4 & H5 & H6).
      apply (is_derive_extR (fun s => 1 * z_u (z s) + (-1) * (3 * B11 p / A11 p * k4 * s ^ 2 + s * k6))).
      { intros t. unfold fc5. rewrite (E4 t), (E6 t). field. assumption. }
      eapply is_derive_lin2; [exact H1|auto_derive; [trivial|reflexivity]|].
      simpl; unfold dot6; simpl. rewrite <- (E6 y). unfold fc6. rewrite (E4 y). field. assumption. }
    assert (E5 : forall y, fc5 y (z y) = fc5 0 (z 0)) by (apply (const_of_derive0 (fun y => fc5 y (z y))); exact D5).
    unfold fcs. rewrite (E1 x), (E2 x), (E3 x), (E4 x), (E5 x), (E6 x). reflexivity. }
  rewrite <- EC. symmetry. apply fcs_inverse.
Qed.

Lemma free_independent x C :
  List.length C = 6%nat -> lincomb (zh_free p x) C = vzero -> C = [0; 0; 0; 0; 0; 0].
Proof.
  intros HC H.
  destruct C as [|c1 [|c2 [|c3 [|c4 [|c5 [|c6 [|c7 C]]]]]]]; try discriminate.
  rewrite <- (fcs_unique x c1 c2 c3 c4 c5 c6), H.
  rewrite <- (fcs_unique x 0 0 0 0 0 0). f_equal.
  apply vec6_eq; simpl; ring.
Qed.
End Free.

(** * C16 *)
Lemma expR_bounded ew x l : 0 <= x <= l -> 0 < exp (ew * (x + l * shiftR ew)) <= 1.
Proof.
  intros Hx. split; [apply exp_pos|].
  rewrite <- exp_0. unfold shiftR. destruct (Rlt_dec 0 ew).
  - assert (ew * (x + l * -1) <= 0) by nra.
    destruct (Req_dec (ew * (x + l * -1)) 0) as [->|]; [lra|].
    left; apply exp_increasing; lra.
  - assert (ew * (x + l * 0) <= 0) by nra.
    destruct (Req_dec (ew * (x + l * 0)) 0) as [->|]; [lra|].
    left; apply exp_increasing; lra.
Qed.
Lemma expC_bounded ew x l : 0 <= x <= l ->
  0 < exp (fst ew * (x + l * shiftC ew)) <= 1.
Proof.
  intros Hx. split; [apply exp_pos|].
  rewrite <- exp_0. destruct ew as [re im]; unfold shiftC; simpl.
  assert (re * (x + l * (if Rlt_dec 0 re then -1 else
            if Req_EM_T re 0 then if Rlt_dec 0 im then -1 else 0 else 0)) <= 0) as H.
  { destruct (Rlt_dec 0 re); [nra|]. destruct (Req_EM_T re 0) as [->|]; [lra|]. nra. }
  destruct H as [H|H]; [left; apply exp_increasing; exact H|rewrite H; lra].
Qed.

(** The shift rescales each column by a positive factor independent of x. *)
Lemma shift_rescales e l :
  exists s, Forall (fun k => 0 < k) s /\ forall x,
    zh_bedded e x l = map2 vscale s (zh_bedded e x 0) /\
    List.length s = List.length (zh_bedded e x 0).
Proof.
  exists (map (fun q => exp (fst q * (l * shiftR (fst q)))) (eR e) ++
          map (fun q => exp (fst (fst q) * (l * shiftC (fst q)))) (eC e) ++
          map (fun q => exp (fst (fst q) * (l * shiftC (fst q)))) (eC e)).
  split.
  - rewrite !Forall_app. split; [|split]; apply Forall_map, Forall_forall; intros; apply exp_pos.
  - intros x. split.
    + unfold zh_bedded.
      assert (G : forall (A : Type) (f g : A -> vec6) (h : A -> R) l,
                 (forall a, f a = vscale (h a) (g a)) ->
                 map f l = map2 vscale (map h l) (map g l)).
      { intros A f g h la Hh. induction la as [|a la IH]; simpl; [reflexivity|].
        rewrite Hh, IH. reflexivity. }
      assert (App : forall s1 s2 (c1 c2 : list vec6), List.length s1 = List.length c1 ->
                 map2 vscale (s1 ++ s2) (c1 ++ c2) = map2 vscale s1 c1 ++ map2 vscale s2 c2).
      { induction s1 as [|a s1 IH]; intros s2 [|c c1] c2 HL; simpl in *; try discriminate; [reflexivity|].
        rewrite IH by congruence. reflexivity. }
      rewrite !App by (rewrite !map_length; reflexivity).
      f_equal; [|f_equal].
      * apply G. intros [ew ev]. unfold colR; simpl. rewrite vscale_vscale, <- exp_plus.
        f_equal. f_equal. ring.
      * apply G. intros [[re im] [vr vi]]. unfold colC1; simpl fst; simpl snd.
        rewrite vscale_vscale, <- exp_plus. f_equal. f_equal. ring.
      * apply G. intros [[re im] [vr vi]]. unfold colC2; simpl fst; simpl snd.
        rewrite vscale_vscale, <- exp_plus. f_equal. f_equal. ring.
    + unfold zh_bedded. rewrite !app_length, !map_length. reflexivity.
Qed.

(** * C17 *)
Lemma system_matrix_kernel p z : lam_ok p -> fnd_ok p ->
  matvec (calc_system_matrix p) z = vzero -> z = vzero.
Proof.
  intros (HA & HD & HS & HK & HK0) (Hn & Ht & Hw) H.
  assert (K0 p <> 0) by lra. assert (kA55 p <> 0) by lra.
  assert (HK2 : B11 p ^ 2 - A11 p * D11 p <> 0) by lra.
  pose proof (f_equal z_u H) as E0. pose proof (f_equal z_du H) as E1.
  pose proof (f_equal z_w H) as E2. pose proof (f_equal z_dw H) as E3.
  pose proof (f_equal z_psi H) as E4. pose proof (f_equal z_dpsi H) as E5.
  simpl in *; unfold dot6 in *; simpl in *.
  assert (U : z_du z = 0) by lra. assert (W : z_dw z = 0) by lra.
  assert (P : z_dpsi z = 0) by lra.
  rewrite U, W, P in *.
  (* N' and M' from the two second-order rows *)
  set (tau := kt p * (z_u z + hh p / 2 * z_psi z)).
  assert (T0 : tau = 0).
  { transitivity (A11 p * (kt p * (- (2) * D11 p + B11 p * (hh p + wt p)) / (2 * K0 p) * z_u z
       + (- (2) * D11 p * hh p * kt p + B11 p * hh p * kt p * (hh p + wt p) + 4 * B11 p * kA55 p) / (4 * K0 p) * z_psi z)
     + B11 p * (kt p * (2 * B11 p - A11 p * (hh p + wt p)) / (2 * K0 p) * z_u z
       + (2 * B11 p * hh p * kt p - A11 p * hh p * kt p * (hh p + wt p) - 4 * A11 p * kA55 p) / (4 * K0 p) * z_psi z)).
    - unfold tau. rewrite HK. field. lra.
    - replace (kt p * (- (2) * D11 p + B11 p * (hh p + wt p)) / (2 * K0 p) * z_u z
       + (- (2) * D11 p * hh p * kt p + B11 p * hh p * kt p * (hh p + wt p) + 4 * B11 p * kA55 p) / (4 * K0 p) * z_psi z) with 0 by lra.
      replace (kt p * (2 * B11 p - A11 p * (hh p + wt p)) / (2 * K0 p) * z_u z
       + (2 * B11 p * hh p * kt p - A11 p * hh p * kt p * (hh p + wt p) - 4 * A11 p * kA55 p) / (4 * K0 p) * z_psi z) with 0 by lra.
      ring. }
  assert (V0 : kA55 p * z_psi z + (hh p + wt p) / 2 * tau = 0).
  { transitivity (B11 p * (kt p * (- (2) * D11 p + B11 p * (hh p + wt p)) / (2 * K0 p) * z_u z
       + (- (2) * D11 p * hh p * kt p + B11 p * hh p * kt p * (hh p + wt p) + 4 * B11 p * kA55 p) / (4 * K0 p) * z_psi z)
     + D11 p * (kt p * (2 * B11 p - A11 p * (hh p + wt p)) / (2 * K0 p) * z_u z
       + (2 * B11 p * hh p * kt p - A11 p * hh p * kt p * (hh p + wt p) - 4 * A11 p * kA55 p) / (4 * K0 p) * z_psi z)).
    - unfold tau. rewrite HK. field. lra.
    - replace (kt p * (- (2) * D11 p + B11 p * (hh p + wt p)) / (2 * K0 p) * z_u z
       + (- (2) * D11 p * hh p * kt p + B11 p * hh p * kt p * (hh p + wt p) + 4 * B11 p * kA55 p) / (4 * K0 p) * z_psi z) with 0 by lra.
      replace (kt p * (2 * B11 p - A11 p * (hh p + wt p)) / (2 * K0 p) * z_u z
       + (2 * B11 p * hh p * kt p - A11 p * hh p * kt p * (hh p + wt p) - 4 * A11 p * kA55 p) / (4 * K0 p) * z_psi z) with 0 by lra.
      ring. }
  rewrite T0 in V0.
  assert (Z : forall a b : R, 0 < a -> a * b = 0 -> b = 0).
  { intros a b Ha Hab. apply Rmult_integral in Hab. lra. }
  assert (PS : z_psi z = 0) by (apply (Z (kA55 p)); lra).
  assert (US : z_u z = 0).
  { apply (Z (kt p)); [lra|]. unfold tau in T0. rewrite PS in T0. lra. }
  assert (WS : z_w z = 0).
  { apply (Z (kn p / kA55 p)); [apply Rdiv_lt_0_compat; lra|]. lra. }
  apply vec6_eq; simpl; assumption.
Qed.

Definition ev_of (e : eigpair) : R * R := fst e.
Definition conj_ev (v : R * R) : R * R := (fst v, - snd v).

Lemma perm_count_im (l : list (R * R)) :
  Permutation (map conj_ev l) l ->
  List.length (filter (fun v => Rltb (snd v) 0) l)
  = List.length (filter (fun v => Rltb 0 (snd v)) l).
Proof.
  intros H.
  assert (E : List.length (filter (fun v => Rltb 0 (snd v)) (map conj_ev l))
              = List.length (filter (fun v => Rltb (snd v) 0) l)).
  { clear H. induction l as [|[a b] l IH]; simpl; [reflexivity|].
    assert (EB : Rltb 0 (- b) = Rltb b 0).
    { unfold Rltb. destruct (Rlt_dec 0 (- b)), (Rlt_dec b 0); try reflexivity; lra. }
    rewrite EB. destruct (Rltb b 0); simpl; rewrite IH; reflexivity. }
  rewrite <- E.
  apply Permutation_length.
  clear E. induction H; simpl.
  - constructor.
  - destruct (Rltb 0 (snd x)); [constructor|]; assumption.
  - destruct (Rltb 0 (snd x)), (Rltb 0 (snd y)); try (constructor; apply Permutation_refl); try apply Permutation_refl.
  - eapply Permutation_trans; eassumption.
Qed.

Lemma six_columns ews :
  List.length ews = 6%nat ->
  Permutation (map conj_ev (map ev_of ews)) (map ev_of ews) ->
  Forall (fun e => ev_of e <> (0, 0)) ews ->
  forall x l, List.length (zh_bedded (calc_eigensystem ews) x l) = 6%nat.
Proof.
  intros H6 Hp Hz x l. unfold zh_bedded, calc_eigensystem; simpl.
  rewrite !app_length, !map_length.
  apply perm_count_im in Hp.
  assert (P : (List.length (filter is_real_ew ews) + List.length (filter is_cmplx_ew ews)
           + List.length (filter (fun v => Rltb (snd v) 0) (map ev_of ews)) = List.length ews)%nat).
  { clear Hp H6. induction Hz as [|[[re im] vv] es Hne Hes IH]; simpl; [reflexivity|].
    unfold is_real_ew at 1; unfold is_cmplx_ew at 1; unfold ev_of in *; cbn [fst snd] in *.
    unfold Reqb, Rltb in *.
    destruct (Req_EM_T im 0) as [->|Hi].
    - destruct (Req_EM_T re 0) as [->|Hr]; [exfalso; apply Hne; reflexivity|]. simpl.
      destruct (Rlt_dec 0 0); [lra|]. lia.
    - simpl. destruct (Rlt_dec 0 im), (Rlt_dec im 0); try lra; simpl; lia. }
  assert (Q : List.length (filter (fun v => Rltb 0 (snd v)) (map ev_of ews))
              = List.length (filter is_cmplx_ew ews)).
  { clear. induction ews as [|e es IH]; simpl; [reflexivity|].
    unfold is_cmplx_ew at 1, ev_of at 1. destruct (Rltb 0 (snd (fst e))); simpl; congruence. }
  unfold eigpair in *. rewrite Hp, Q, H6 in P. lia.
Qed.

Lemma nonzero_eigenvalues p ews : lam_ok p -> fnd_ok p ->
  Forall (true_eigenpair (calc_system_matrix p)) ews ->
  Forall (fun e => ~ (fst (snd e) = vzero /\ snd (snd e) = vzero)) ews ->
  Forall (fun e => ev_of e <> (0, 0)) ews.
Proof.
  intros Hl Hf He Hv. rewrite Forall_forall in *. intros [[re im] [vr vi]] Hin E.
  specialize (He _ Hin). specialize (Hv _ Hin). unfold ev_of in E; simpl in *.
  injection E; intros -> ->. destruct He as [E1 E2].
  apply Hv. split; apply (system_matrix_kernel p); trivial.
  - rewrite E1. apply vec6_eq; simpl; ring.
  - rewrite E2. apply vec6_eq; simpl; ring.
Qed.

(** * C15/C19 witnesses *)
Lemma dz_dx_free_error p e ld C l x : lam_ok p -> B11 p * pt ld = 0 ->
  let z := zsol p e ld x C l false in
  let tau := kt p * (z_u z + hh p / 2 * z_psi z - wt p / 2 * z_dw z) in
  exists d, is_deriv6 (fun s => zsol p e ld s C l false) x d /\
  A11 p * (z_du (dz_dx p ld z) - z_du d) + B11 p * (z_dpsi (dz_dx p ld z) - z_dpsi d) = tau /\
  B11 p * (z_du (dz_dx p ld z) - z_du d) + D11 p * (z_dpsi (dz_dx p ld z) - z_dpsi d)
    = (hh p + wt p) / 2 * tau /\
  kA55 p * (z_dw (dz_dx p ld z) - z_dw d) = kn p * z_w z.
Proof.
  intros Hl HB z tau.
  exists (vadd (matvec (Ksys false p) z) (qsys false p ld)). split.
  - unfold z, zsol. rewrite matvec_add, <- vadd_assoc.
    apply is_deriv6_add.
    + destruct (zh_free_funs p Hl) as (cols & E & H). simpl zh. rewrite (E x).
      eapply is_deriv6_ext; [|apply lincomb_solves; exact H].
      intros s. cbv beta. rewrite E. reflexivity.
    + apply ode_iff_equilibrium; [exact Hl|]. apply zp_free_iff; assumption.
  - destruct Hl as (HA & HD & HS & HK & HK0).
    assert (NA : A11 p <> 0) by lra. assert (NS : kA55 p <> 0) by lra.
    assert (NK : K0 p <> 0) by lra.
    assert (HK2 : B11 p ^ 2 - A11 p * D11 p <> 0) by lra.
    unfold tau, dz_dx, Ksys, qsys, bed_par, free_par.
    cbn [z_u z_du z_w z_dw z_psi z_dpsi vadd matvec dot6 calc_system_matrix get_load_vector
      row0 row1 row2 row3 row4 row5 A11 B11 D11 kA55 K0 kn kt hh wt zs].
    unfold dot6. cbn [z_u z_du z_w z_dw z_psi z_dpsi].
    clearbody z. rewrite HK.
    split; [|split]; field; try assumption; repeat split; lra.
Qed.

Lemma dz_dx_free_wrong p e ld l : lam_ok p -> fnd_ok p ->
  ~ is_deriv6 (fun s => zsol p e ld s [1; 0; 0; 0; 0; 0] l false) 0
              (dz_dx p ld (zsol p e ld 0 [1; 0; 0; 0; 0; 0] l false)).
Proof.
  intros (HA & HD & HS & HK & HK0) (Hn & Ht & Hw) (_ & _ & _ & H4 & _ & _).
  assert (NA : A11 p <> 0) by lra. assert (NS : kA55 p <> 0) by lra.
  assert (NK : K0 p <> 0) by lra.
  assert (E : kn p / kA55 p = 0).
  { assert (G : is_derive (fun s => z_dw (zsol p e ld s [1; 0; 0; 0; 0; 0] l false)) 0 0).
    { apply (is_derive_extR (fun s => - A11 p * (qn ld + pn ld) * s ^ 3 / (6 * K0 p))).
      - intros t. simpl. ring.
      - polyd. field. assumption. }
    pose proof (is_derive_uniq _ _ _ _ G H4) as E. simpl in E. unfold dot6 in E. simpl in E.
    rewrite E. field. repeat split; assumption. }
  assert (0 < kn p / kA55 p) by (apply Rdiv_lt_0_compat; lra). lra.
Qed.

Require Import Verif.SSlab Verif.PSlab Verif.PCog Verif.PLam Verif.PSetup.
Lemma weak_below_stiff_B11 eig system o :
  Layered eig system (LList [(100, 100); (200, 100)]) false = Ok o ->
  0 < B11 (o_par o) /\ adm (o_par o).
Proof.
  intros H.
  assert (P : pos_layers [(100, 100); (200, 100)]) by (repeat constructor; simpl; lra).
  split; [|apply (Layered_adm eig system _ false o P H)].
  unfold Layered in H. rewrite set_beam_list in H by discriminate. cbn [bind] in H.
  apply Ok_inj in H. subst o.
  match goal with |- context [o_calc_fundamental_system eig ?x] => set (o1 := x) end.
  destruct (fundamental_par eig o1) as (E & _). cbv zeta in E. rewrite E. clear E. cbn [B11].
  assert (Hs : o_slab o1 = user_slab [(100, 100); (200, 100)] (65/10) (44/10) (1/4)) by reflexivity.
  assert (Hh : hh (o_par o1) = 200).
  { change (hh (o_par o1)) with (fst (calc_center_of_gravity [(100, 100); (200, 100)])).
    rewrite cog_closed. simpl. ring. }
  rewrite Hs, Hh, laminate_closed, ps_user. cbn [fst snd map pint].
  assert (I : 0 < bergfeld 100 917 (65/10) (44/10) < bergfeld 200 917 (65/10) (44/10))
    by (apply parametrisations; lra).
  set (e1 := bergfeld 100 917 (65/10) (44/10)) in *.
  set (e2 := bergfeld 200 917 (65/10) (44/10)) in *.
  unfold F1. lra.
Qed.

Lemma zp_free_wrong eig system o :
  Layered eig system (LList [(100, 100); (200, 100)]) false = Ok o ->
  let o' := set_surface_load o 1 in
  forall x, ~ equilibrium (o_par o') (loads_of o' 30) false
                (fun s => zp (o_par o') (loads_of o' 30) s false) x.
Proof.
  intros H o' x He.
  destruct (weak_below_stiff_B11 eig system o H) as (HB & (Hl & _)).
  change (o_par o') with (o_par o) in *.
  apply (proj1 (zp_free_iff (o_par o) (loads_of o' 30) x Hl)) in He.
  assert (HT : pt (loads_of o' 30) < 0).
  { unfold loads_of, get_weight_load, get_surface_load. cbn [pt o' o_p set_surface_load with_p].
    assert (0 < sin (deg2rad 30)); [|lra].
    apply sin_gt_0; unfold deg2rad; pose proof PI_RGT_0; lra. }
  nra.
Qed.

(** * Example parameters with explicit eigenpairs *)
Definition ex_par : params := mkPar 25 4 1 1 0 4 0 1 (25 / 2) (-4).
Definition ex_ews : list eigpair :=
  [ ((1, 0), (mkV (-6) (-6) 1 1 1 1, vzero));
    ((-1, 0), (mkV (-6) 6 (-1) 1 1 (-1), vzero));
    ((2, 1), (mkV (-1) (-2) 2 3 (-1) 2, mkV 0 (-1) 1 4 (-4) (-9)));
    ((2, -1), (mkV (-1) (-2) 2 3 (-1) 2, mkV 0 1 (-1) (-4) 4 9));
    ((-2, 1), (mkV (-1) 2 (-2) 3 (-1) (-2), mkV 0 (-1) 1 (-4) 4 (-9)));
    ((-2, -1), (mkV (-1) 2 (-2) 3 (-1) (-2), mkV 0 1 (-1) 4 (-4) 9)) ].
Lemma ex_lam_ok : lam_ok ex_par.
Proof. unfold lam_ok; simpl; lra. Qed.
Lemma ex_fnd_ok : fnd_ok ex_par.
Proof. unfold fnd_ok; simpl; lra. Qed.
Lemma ex_true_eig : Forall (true_eigenpair (calc_system_matrix ex_par)) ex_ews.
Proof.
  repeat constructor; apply vec6_eq; simpl; unfold dot6; simpl; field.
Qed.
Lemma ex_conj : Permutation (map conj_ev (map ev_of ex_ews)) (map ev_of ex_ews).
Proof.
  unfold ex_ews, conj_ev, ev_of; simpl. rewrite Ropp_0.
  replace (- -1) with 1 by ring. change (-(1)) with (-1).
  apply perm_skip, perm_skip. eapply perm_trans; [apply perm_swap|].
  apply perm_skip, perm_skip. apply perm_swap.
Qed.
Lemma ex_nonzero : Forall (fun e : eigpair => ~ (fst (snd e) = vzero /\ snd (snd e) = vzero)) ex_ews.
Proof.
  repeat constructor; simpl; intros [E _]; apply (f_equal z_u) in E; simpl in E; lra.
Qed.

(** * Statements used in PropBeam *)
Lemma zh_free_equilibrium p : lam_ok p -> forall e l C x,
  equilibrium p no_loads false (fun s => lincomb (zh p e s l false) C) x.
Proof.
  intros Hl e l C x. apply ode_iff_equilibrium; [exact Hl|].
  rewrite load_vector_zero, vadd_zero_r.
  destruct (zh_free_funs p Hl) as (cols & E & H). simpl zh. rewrite (E x).
  eapply is_deriv6_ext; [|apply lincomb_solves; exact H].
  intros s. cbv beta. rewrite E. reflexivity.
Qed.

Lemma columns_bounded x l : 0 <= x <= l ->
  (forall ew ev, exists c, 0 < c <= 1 /\ colR x l (ew, ev) = vscale c ev) /\
  (forall ew vr vi, exists c a b, 0 < c <= 1 /\ a ^ 2 + b ^ 2 = 1 /\
     colC1 x l (ew, (vr, vi)) = vscale c (vadd (vscale a vr) (vscale (- b) vi)) /\
     colC2 x l (ew, (vr, vi)) = vscale c (vadd (vscale a vi) (vscale b vr))).
Proof.
  intros Hx. split.
  - intros ew ev. exists (exp (ew * (x + l * shiftR ew))).
    split; [apply expR_bounded; exact Hx|reflexivity].
  - intros [re im] vr vi.
    exists (exp (re * (x + l * shiftC (re, im)))), (cos (im * x)), (sin (im * x)).
    split; [apply (expC_bounded (re, im)); exact Hx|].
    split; [|split; reflexivity].
    pose proof (sin2_cos2 (im * x)) as E. unfold Rsqr in E. nra.
Qed.

Lemma fundamental_columns p ews : lam_ok p -> fnd_ok p ->
  (forall z, matvec (calc_system_matrix p) z = vzero -> z = vzero) /\
  (List.length ews = 6%nat ->
   Forall (true_eigenpair (calc_system_matrix p)) ews ->
   Forall (fun e => ~ (fst (snd e) = vzero /\ snd (snd e) = vzero)) ews ->
   Permutation (map (fun v => (fst v, - snd v)) (map fst ews)) (map fst ews) ->
   forall x l, List.length (zh_bedded (calc_eigensystem ews) x l) = 6%nat).
Proof.
  intros Hl Hf. split; [intros z; apply system_matrix_kernel; assumption|].
  intros H6 He Hv Hp. apply six_columns; [exact H6|exact Hp|].
  apply (nonzero_eigenvalues p); assumption.
Qed.

Lemma supported_solution p ews ld C l x : lam_ok p -> fnd_ok p ->
  Forall (true_eigenpair (calc_system_matrix p)) ews ->
  let z := fun s => zsol p (calc_eigensystem ews) ld s C l true in
  is_deriv6 z x (dz_dx p ld (z x)) /\
  is_deriv6 (fun s => dz_dx p ld (z s)) x (dz_dxdx p ld (z x)) /\
  equilibrium p ld true z x.
Proof.
  intros Hl Hf He z. split; [apply zsol_deriv; assumption|].
  split; [apply zsol_deriv2; assumption|].
  apply ode_iff_equilibrium; [exact Hl|]. apply (zsol_deriv p ews ld C l x); assumption.
Qed.

Lemma zp_free_refuted : exists layers surface phi, forall eig system,
  exists o, Layered eig system (LList layers) false = Ok o /\
  let o' := set_surface_load o surface in
  adm (o_par o') /\
  forall x, ~ equilibrium (o_par o') (loads_of o' phi) false
                (fun s => zp (o_par o') (loads_of o' phi) s false) x.
Proof.
  exists [(100, 100); (200, 100)], 1, 30. intros eig system.
  destruct (Layered eig system (LList [(100, 100); (200, 100)]) false) as [o|] eqn:E;
    [|discriminate E].
  exists o. split; [reflexivity|]. cbv zeta.
  split; [apply (weak_below_stiff_B11 eig system o E)|].
  apply (zp_free_wrong eig system o E).
Qed.
