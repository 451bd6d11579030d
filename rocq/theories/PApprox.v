(** Proofs: small residuals of eigenvectors and linear solver mean small errors of the fields (C113). *)
From Coquelicot Require Import Coquelicot.
Require Import Verif.Py Verif.MTools Verif.MEigen Verif.MFields Verif.SAdm
  Verif.MSolution Verif.SBeam Verif.SBvp Verif.SEig Verif.SSplit Verif.SApprox Verif.PSetup Verif.PBeam Verif.PBeam2
  Verif.PBvp Verif.PBvp2 Verif.PBvp3 Verif.PBvp4 Verif.PBvp5 Verif.PLinAlg
  Verif.PWell Verif.PIndep Verif.PWell2 Verif.PWell3 Verif.PComplete Verif.PDepend.
Open Scope R_scope.

(** * Distances of states *)
Lemma close6_comp e a b : close6 e a b <-> forall r, (r < 6)%nat -> Rabs (dot6 (comp r) a - dot6 (comp r) b) <= e.
Proof.
  split.
  - intros (H1 & H2 & H3 & H4 & H5 & H6) r Hr. destruct a as [a1 a2 a3 a4 a5 a6], b as [b1 b2 b3 b4 b5 b6]. simpl in *.
    destruct r as [|[|[|[|[|[|r]]]]]]; [| | | | | |lia]; unfold dot6, comp; cbn [z_u z_du z_w z_dw z_psi z_dpsi];
    match goal with |- Rabs ?u <= _ => ring_simplify u end; assumption.
  - intros H. destruct a as [a1 a2 a3 a4 a5 a6], b as [b1 b2 b3 b4 b5 b6]. unfold close6. cbn [z_u z_du z_w z_dw z_psi z_dpsi].
    refine (conj _ (conj _ (conj _ (conj _ (conj _ _)))));
    [pose proof (H 0%nat ltac:(lia)) as G|pose proof (H 1%nat ltac:(lia)) as G|pose proof (H 2%nat ltac:(lia)) as G
    |pose proof (H 3%nat ltac:(lia)) as G|pose proof (H 4%nat ltac:(lia)) as G|pose proof (H 5%nat ltac:(lia)) as G];
    unfold dot6, comp in G; cbn [z_u z_du z_w z_dw z_psi z_dpsi] in G;
    match type of G with Rabs ?u <= _ => ring_simplify u in G end; assumption.
Qed.
Lemma abs_prod a b c : Rabs b <= c -> Rabs (a * b) <= Rabs a * c.
Proof. intros H. rewrite Rabs_mult. apply Rmult_le_compat_l; [apply Rabs_pos|exact H]. Qed.
Lemma close6_dot r e a b : close6 e a b -> Rabs (dot6 r a - dot6 r b) <= rownorm r * e.
Proof.
  intros (H1 & H2 & H3 & H4 & H5 & H6). unfold dot6, rownorm.
  replace (_ - _) with (z_u r * (z_u a - z_u b) + z_du r * (z_du a - z_du b) + z_w r * (z_w a - z_w b)
     + z_dw r * (z_dw a - z_dw b) + z_psi r * (z_psi a - z_psi b) + z_dpsi r * (z_dpsi a - z_dpsi b)) by ring.
  rewrite !Rmult_plus_distr_r.
  repeat (eapply Rle_trans; [apply Rabs_triang|apply Rplus_le_compat]; [|apply abs_prod; assumption]).
  apply abs_prod; assumption.
Qed.
Lemma close6_le e e' a b : e <= e' -> close6 e a b -> close6 e' a b.
Proof. intros L (H1 & H2 & H3 & H4 & H5 & H6). unfold close6. repeat split; lra. Qed.
Lemma close6_trans e e' a b c : close6 e a b -> close6 e' b c -> close6 (e + e') a c.
Proof.
  rewrite !close6_comp. intros H G r Hr. specialize (H r Hr). specialize (G r Hr).
  replace (_ - _) with ((dot6 (comp r) a - dot6 (comp r) b) + (dot6 (comp r) b - dot6 (comp r) c)) by ring.
  eapply Rle_trans; [apply Rabs_triang|lra].
Qed.
Lemma close6_add e e' a b : close6 e a vzero -> close6 e' b vzero -> close6 (e + e') (vadd a b) vzero.
Proof.
  rewrite !close6_comp. intros H G r Hr. specialize (H r Hr). specialize (G r Hr). rewrite dot_zero in *. rewrite dot_add.
  rewrite Rminus_0_r in *. eapply Rle_trans; [apply Rabs_triang|lra].
Qed.
Lemma close6_scale e c a : close6 e a vzero -> close6 (Rabs c * e) (vscale c a) vzero.
Proof.
  rewrite !close6_comp. intros H r Hr. specialize (H r Hr). rewrite dot_zero in *. rewrite dot_scale.
  rewrite Rminus_0_r in *. apply abs_prod. exact H.
Qed.
Lemma close6_zero e : 0 <= e -> close6 e vzero vzero.
Proof. intros H. apply close6_comp. intros r _. rewrite Rminus_diag_eq, Rabs_R0 by reflexivity. exact H. Qed.
Lemma close6_diff e a b : close6 e a b -> close6 e (vadd a (vscale (-1) b)) vzero.
Proof.
  rewrite !close6_comp. intros H r Hr. specialize (H r Hr). rewrite dot_zero, dot_add, dot_scale.
  replace (_ - 0) with (dot6 (comp r) a - dot6 (comp r) b) by ring. exact H.
Qed.

(** * States that solve the system of ordinary differential equations up to a residual *)
Definition nearly (K : mat6) (e : R) (f : R -> vec6) (x : R) : Prop :=
  exists v, is_deriv6 f x (vadd (matvec K (f x)) v) /\ close6 e v vzero.
Lemma nearly_le K e e' f x : e <= e' -> nearly K e f x -> nearly K e' f x.
Proof. intros L (v & H & C). exists v. split; [exact H|]. exact (close6_le e e' _ _ L C). Qed.
Lemma nearly_ext K e f g x : (forall s, f s = g s) -> nearly K e f x -> nearly K e g x.
Proof. intros E (v & H & C). exists v. split; [|exact C]. rewrite <- E. exact (is_deriv6_ext f g x _ E H). Qed.
Lemma nearly_zero K e x : 0 <= e -> nearly K e (fun _ => vzero) x.
Proof.
  intros H. exists vzero. split; [|apply close6_zero; exact H]. rewrite matvec_zero, vadd_zero_r. apply is_deriv6_const.
Qed.
Lemma nearly_add K e e' f g x : nearly K e f x -> nearly K e' g x -> nearly K (e + e') (fun s => vadd (f s) (g s)) x.
Proof.
  intros (v & H & C) (v' & H' & C'). exists (vadd v v'). split; [|apply close6_add; assumption].
  eapply is_deriv6_eq; [apply is_deriv6_add; [exact H|exact H']|]. rewrite matvec_add. apply vec6_eq; simpl; ring.
Qed.
Lemma nearly_scale K e c f x : nearly K e f x -> nearly K (Rabs c * e) (fun s => vscale c (f s)) x.
Proof.
  intros (v & H & C). exists (vscale c v). split; [|apply close6_scale; exact C].
  eapply is_deriv6_eq; [apply is_deriv6_scale; exact H|]. rewrite matvec_scale. apply vec6_eq; simpl; ring.
Qed.
Lemma nearly_lincomb K e fs x : 0 <= e -> Forall (fun f => nearly K e f x) fs ->
  forall C, nearly K (e * abs_sum C) (fun s => lincomb (map (fun f : R -> vec6 => f s) fs) C) x.
Proof.
  intros He H. induction H as [|f fs Hf Hfs IH]; intros C; simpl.
  - apply nearly_zero. apply Rmult_le_pos; [exact He|]. clear. induction C as [|c C IH]; simpl; [lra|]. pose proof (Rabs_pos c). lra.
  - destruct C as [|c C]; simpl; [apply nearly_zero; lra|].
    apply (nearly_le K (Rabs c * e + e * abs_sum C)); [lra|].
    apply (nearly_add K (Rabs c * e) (e * abs_sum C) (fun s => vscale c (f s)) (fun s => lincomb (map (fun f => f s) fs) C)); [apply nearly_scale; exact Hf|apply IH].
Qed.

(** Columns of an approximate eigensystem. *)
Lemma colR_nearly K rho ew ev l x : 0 <= x <= l -> 0 <= rho -> close6 rho (matvec K ev) (vscale ew ev) ->
  nearly K (2 * rho) (fun s => colR s l (ew, ev)) x.
Proof.
  intros Hx Hr H. set (c := exp (ew * (x + l * shiftR ew))).
  exists (vscale (- c) (vadd (matvec K ev) (vscale (-1) (vscale ew ev)))). split.
  - eapply is_deriv6_eq; [unfold colR; cbn [fst snd]; apply is_deriv6_scalfun; apply is_derive_exp_lin|].
    unfold colR. cbn [fst snd]. fold c. rewrite matvec_scale. apply vec6_eq; simpl; ring.
  - apply (close6_le (Rabs (- c) * rho)); [|apply close6_scale, close6_diff, H].
    pose proof (expR_bounded ew x l Hx) as B. fold c in B. rewrite Rabs_Ropp, Rabs_pos_eq by lra. nra.
Qed.
Lemma nearly_rot K rho c a b vr vi re im f x : 0 < c <= 1 -> a ^ 2 + b ^ 2 = 1 -> 0 <= rho ->
  approx_eigenpair K rho ((re, im), (vr, vi)) -> f x = vscale c (vadd (vscale a vr) (vscale b vi)) ->
  is_deriv6 f x (vscale c (vadd (vscale a (vadd (vscale re vr) (vscale (- im) vi))) (vscale b (vadd (vscale im vr) (vscale re vi))))) ->
  nearly K (2 * rho) f x.
Proof.
  intros Hc Hab Hr [H1 H2] E D.
  exists (vadd (vscale (- (c * a)) (vadd (matvec K vr) (vscale (-1) (vadd (vscale re vr) (vscale (- im) vi)))))
               (vscale (- (c * b)) (vadd (matvec K vi) (vscale (-1) (vadd (vscale im vr) (vscale re vi)))))).
  split.
  - eapply is_deriv6_eq; [exact D|]. rewrite E, matvec_scale, matvec_add, !matvec_scale. apply vec6_eq; simpl; ring.
  - assert (A1 : Rabs a <= 1) by (apply Rabs_le; split; nra). assert (B1 : Rabs b <= 1) by (apply Rabs_le; split; nra).
    apply (close6_le (Rabs (- (c * a)) * rho + Rabs (- (c * b)) * rho)).
    2:{ apply close6_add; apply close6_scale, close6_diff; assumption. }
    rewrite !Rabs_Ropp, !Rabs_mult, (Rabs_pos_eq c) by lra. pose proof (Rabs_pos a). pose proof (Rabs_pos b).
    assert (c * Rabs a <= 1) by nra. assert (c * Rabs b <= 1) by nra. nra.
Qed.
Lemma colC1_nearly K rho re im vr vi l x : 0 <= x <= l -> 0 <= rho -> approx_eigenpair K rho ((re, im), (vr, vi)) ->
  nearly K (2 * rho) (fun s => colC1 s l ((re, im), (vr, vi))) x.
Proof.
  intros Hx Hr H. pose proof (expC_bounded (re, im) x l Hx) as B. cbn [fst] in B.
  apply (nearly_rot K rho (exp (re * (x + l * shiftC (re, im)))) (cos (im * x)) (- sin (im * x)) vr vi re im); try assumption.
  - pose proof (sin2_cos2 (im * x)) as E. unfold Rsqr in E. nra.
  - reflexivity.
  - unfold colC1. set (sh := l * shiftC (re, im)).
    apply (is_deriv6_ext (fun s => vadd (vscale (exp (re * (s + sh)) * cos (im * s)) vr)
                                        (vscale (exp (re * (s + sh)) * - sin (im * s)) vi))).
    { intros s. apply vec6_eq; simpl; ring. }
    eapply is_deriv6_eq.
    + apply colC_derive.
      * instantiate (1 := re * (exp (re * (x + sh)) * cos (im * x)) + im * (exp (re * (x + sh)) * - sin (im * x))).
        auto_derive; [trivial|ring].
      * instantiate (1 := - im * (exp (re * (x + sh)) * cos (im * x)) + re * (exp (re * (x + sh)) * - sin (im * x))).
        auto_derive; [trivial|ring].
    + apply vec6_eq; simpl; ring.
Qed.
Lemma colC2_nearly K rho re im vr vi l x : 0 <= x <= l -> 0 <= rho -> approx_eigenpair K rho ((re, im), (vr, vi)) ->
  nearly K (2 * rho) (fun s => colC2 s l ((re, im), (vr, vi))) x.
Proof.
  intros Hx Hr H. pose proof (expC_bounded (re, im) x l Hx) as B. cbn [fst] in B.
  apply (nearly_rot K rho (exp (re * (x + l * shiftC (re, im)))) (sin (im * x)) (cos (im * x)) vr vi re im); try assumption.
  - pose proof (sin2_cos2 (im * x)) as E. unfold Rsqr in E. nra.
  - unfold colC2. apply vec6_eq; simpl; ring.
  - unfold colC2. set (sh := l * shiftC (re, im)).
    apply (is_deriv6_ext (fun s => vadd (vscale (exp (re * (s + sh)) * sin (im * s)) vr)
                                        (vscale (exp (re * (s + sh)) * cos (im * s)) vi))).
    { intros s. apply vec6_eq; simpl; ring. }
    eapply is_deriv6_eq.
    + apply colC_derive.
      * instantiate (1 := re * (exp (re * (x + sh)) * sin (im * x)) + im * (exp (re * (x + sh)) * cos (im * x))).
        auto_derive; [trivial|ring].
      * instantiate (1 := - im * (exp (re * (x + sh)) * sin (im * x)) + re * (exp (re * (x + sh)) * cos (im * x))).
        auto_derive; [trivial|ring].
    + apply vec6_eq; simpl; ring.
Qed.
Lemma zh_nearly K rho ews l x C : 0 <= x <= l -> 0 <= rho -> Forall (approx_eigenpair K rho) ews ->
  nearly K (2 * rho * abs_sum C) (fun s => lincomb (zh_bedded (calc_eigensystem ews) s l) C) x.
Proof.
  intros Hx Hr H. set (e := calc_eigensystem ews).
  assert (HR : Forall (fun ee => close6 rho (matvec K (snd ee)) (vscale (fst ee) (snd ee))) (eR e)).
  { unfold e, calc_eigensystem; simpl. apply Forall_map. apply Forall_forall.
    intros [[re im] [vr vi]] Hin. apply filter_In in Hin. destruct Hin as [Hin Hre].
    rewrite Forall_forall in H. specialize (H _ Hin). destruct H as [Hr1 _].
    unfold is_real_ew in Hre; simpl in Hre. apply andb_prop in Hre. destruct Hre as [Him _].
    unfold Reqb in Him. destruct (Req_EM_T im 0) as [->|]; [|discriminate]. cbn [fst snd].
    replace (vscale re vr) with (vadd (vscale re vr) (vscale (- 0) vi)); [exact Hr1|]. apply vec6_eq; simpl; ring. }
  assert (HC : Forall (approx_eigenpair K rho) (eC e)).
  { unfold e, calc_eigensystem; simpl. apply Forall_forall. intros ee Hin.
    apply filter_In in Hin. rewrite Forall_forall in H. apply H. tauto. }
  clearbody e. clear H ews.
  set (cols := map (fun ee s => colR s l ee) (eR e) ++ map (fun ee s => colC1 s l ee) (eC e) ++
               map (fun ee s => colC2 s l ee) (eC e) : list (R -> vec6)).
  assert (HP : Forall (fun f => nearly K (2 * rho) f x) cols).
  { unfold cols. rewrite !Forall_app. split; [|split]; apply Forall_map.
    - eapply Forall_impl; [|exact HR]. intros [ew ev] E. apply colR_nearly; assumption.
    - eapply Forall_impl; [|exact HC]. intros [[re im] [vr vi]] E. apply colC1_nearly; assumption.
    - eapply Forall_impl; [|exact HC]. intros [[re im] [vr vi]] E. apply colC2_nearly; assumption. }
  apply (nearly_ext K _ (fun s => lincomb (map (fun f => f s) cols) C)).
  { intros s. unfold cols, zh_bedded. rewrite !map_app, !map_map. reflexivity. }
  apply nearly_lincomb; [lra|exact HP].
Qed.

(** * Gronwall *)
Lemma exp_le a b : a <= b -> exp a <= exp b.
Proof. intros [H| ->]; [left; apply exp_increasing; exact H|right; reflexivity]. Qed.
Lemma dot_close e v a : 0 <= e -> close6 e v vzero -> 2 * dot6 a v <= norm2 a + 6 * e ^ 2.
Proof.
  intros He (H1 & H2 & H3 & H4 & H5 & H6). unfold norm2, dot6. destruct v as [v1 v2 v3 v4 v5 v6], a as [a1 a2 a3 a4 a5 a6]. simpl in *.
  rewrite Rminus_0_r in *.
  assert (G : forall u w, Rabs w <= e -> 2 * (u * w) <= u * u + e * e).
  { intros u w Hw. apply Rabs_le_between in Hw. assert (w * w <= e * e) by nra. pose proof (Rle_0_sqr (u - w)) as Q. unfold Rsqr in Q. nra. }
  pose proof (G a1 v1 H1). pose proof (G a2 v2 H2). pose proof (G a3 v3 H3). pose proof (G a4 v4 H4). pose proof (G a5 v5 H5). pose proof (G a6 v6 H6).
  lra.
Qed.
Definition amplify (K : mat6) (L : R) : R := sqrt (6 * L * exp ((2 * matnorm K + 1) * L)).
Lemma rownorm_pos v : 0 <= rownorm v.
Proof.
  unfold rownorm. pose proof (Rabs_pos (z_u v)). pose proof (Rabs_pos (z_du v)). pose proof (Rabs_pos (z_w v)).
  pose proof (Rabs_pos (z_dw v)). pose proof (Rabs_pos (z_psi v)). pose proof (Rabs_pos (z_dpsi v)). lra.
Qed.
Lemma matnorm_pos K : 0 <= matnorm K.
Proof.
  unfold matnorm. pose proof (rownorm_pos (row0 K)). pose proof (rownorm_pos (row1 K)). pose proof (rownorm_pos (row2 K)).
  pose proof (rownorm_pos (row3 K)). pose proof (rownorm_pos (row4 K)). pose proof (rownorm_pos (row5 K)). lra.
Qed.
Lemma gronwall K e d L : 0 <= e -> (forall x, 0 <= x <= L -> nearly K e d x) -> d 0 = vzero ->
  forall x, 0 <= x <= L -> close6 (amplify K L * e) (d x) vzero.
Proof.
  intros He HD H0 x Hx. set (k := 2 * matnorm K + 1). pose proof (matnorm_pos K) as KP.
  set (F := fun s => 6 * e ^ 2 * s - norm2 (d s) * exp (- k * s)).
  assert (Hv : forall s, exists v, 0 <= s <= L -> is_deriv6 d s (vadd (matvec K (d s)) v) /\ close6 e v vzero).
  { intros s. destruct (Rle_dec 0 s) as [A|A]; [|exists vzero; intros; lra]. destruct (Rle_dec s L) as [B|B]; [|exists vzero; intros; lra].
    destruct (HD s (conj A B)) as (v & H & C). exists v. intros _. split; assumption. }
  assert (HF : F 0 <= F x).
  { assert (exists dF, forall s, 0 <= s <= L -> is_derive F s (dF s) /\ 0 <= dF s) as (dF & HdF).
    { exists (fun s => Derive F s). intros s Hs. destruct (Hv s) as (v & Hv'). destruct (Hv' Hs) as [D C].
      assert (DF : is_derive F s (6 * e ^ 2 - ((2 * dot6 (d s) (vadd (matvec K (d s)) v)) * exp (- k * s) + norm2 (d s) * (- k * exp (- k * s))))).
      { unfold F. apply (is_derive_minus (fun s => 6 * e ^ 2 * s) (fun s => norm2 (d s) * exp (- k * s))); [auto_derive; [trivial|ring]|].
        apply (is_derive_mult (fun s => norm2 (d s)) (fun s => exp (- k * s))); [apply norm2_derive; exact D| |intros; apply Rmult_comm].
        auto_derive; [trivial|ring]. }
      rewrite (is_derive_unique _ _ _ DF). split; [exact DF|].
      rewrite dot_add. pose proof (mat_bound K (d s)) as B. apply Rabs_le_between in B. pose proof (dot_close e v (d s) He C) as Q.
      assert (E1 : 0 < exp (- k * s) <= 1). { split; [apply exp_pos|]. rewrite <- exp_0. apply exp_le. unfold k. nra. }
      assert (2 * (dot6 (d s) (matvec K (d s)) + dot6 (d s) v) <= k * norm2 (d s) + 6 * e ^ 2) by (unfold k; lra).
      set (n := norm2 (d s)) in *. set (t := 2 * (dot6 (d s) (matvec K (d s)) + dot6 (d s) v)) in *. set (w := exp (- k * s)) in *. clearbody n t w.
      assert (t * w <= (k * n + 6 * e ^ 2) * w) by (apply Rmult_le_compat_r; lra).
      assert (6 * e ^ 2 * w <= 6 * e ^ 2 * 1) by (apply Rmult_le_compat_l; [nra|lra]). nra. }
    apply (derive_nonneg_incr F dF); [apply Hx| |]; intros s Hs; apply HdF; lra. }
  assert (E0 : F 0 = 0). { unfold F. rewrite H0. unfold norm2, dot6, vzero. simpl. ring. }
  rewrite E0 in HF. unfold F in HF.
  assert (NB : norm2 (d x) <= (amplify K L * e) ^ 2).
  { assert (E : exp (- k * x) * exp (k * x) = 1) by (rewrite <- exp_plus; replace (- k * x + k * x) with 0 by ring; apply exp_0).
    assert (norm2 (d x) <= 6 * e ^ 2 * x * exp (k * x)).
    { pose proof (exp_pos (k * x)) as P. apply (Rmult_le_compat_r (exp (k * x))) in HF; [|lra].
      replace (norm2 (d x)) with (norm2 (d x) * (exp (- k * x) * exp (k * x))) by (rewrite E; ring). lra. }
    eapply Rle_trans; [exact H|]. rewrite Rpow_mult_distr. unfold amplify. rewrite pow2_sqrt; fold k.
    - assert (exp (k * x) <= exp (k * L)) by (apply exp_le; unfold k; nra). pose proof (exp_pos (k * x)).
      assert (x * exp (k * x) <= L * exp (k * L)) by (apply Rmult_le_compat; lra). pose proof (pow2_ge_0 e). nra.
    - pose proof (exp_pos (k * L)). apply Rmult_le_pos; lra. }
  assert (AP : 0 <= amplify K L * e) by (apply Rmult_le_pos; [apply sqrt_pos|exact He]).
  set (q := amplify K L * e) in *. clearbody q.
  assert (G : forall a, a ^ 2 <= norm2 (d x) -> Rabs (a - 0) <= q).
  { intros a Ha. rewrite Rminus_0_r. apply Rabs_le. split; nra. }
  unfold close6. unfold norm2, dot6 in G. cbn [vzero z_u z_du z_w z_dw z_psi z_dpsi]. repeat split; apply G; nra.
Qed.
