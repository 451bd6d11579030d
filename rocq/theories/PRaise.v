(** Short cracks lower the slab at their tips (C125). *)
From Coquelicot Require Import Coquelicot.
Require Import Verif.Py Verif.MTools Verif.MEigen Verif.MFields Verif.SAdm Verif.MRaster
  Verif.MSolution Verif.SBeam Verif.SBvp Verif.SEig Verif.SMirror Verif.SSkier Verif.SDecay Verif.SSelf Verif.PBeam Verif.PBeam2 Verif.PBvp Verif.PBvp2 Verif.PBalance
  Verif.PWell Verif.PWell2 Verif.PWell3 Verif.PBvp6 Verif.PMirror Verif.PSkier Verif.PDecay Verif.PDecay2 Verif.PDecay3 Verif.PDecay4 Verif.PDecay5 Verif.PDecay6 Verif.PropDecay2.
Open Scope R_scope.

Lemma derive_zero_const (f : R -> R) a b : a <= b -> (forall x, a <= x <= b -> is_derive f x 0) -> f a = f b.
Proof.
  intros H D. apply Rle_antisym.
  - apply (derive_nonneg_incr f (fun _ => 0) a b H D). intros; lra.
  - apply Ropp_le_cancel. apply (derive_nonneg_incr (fun x => - f x) (fun _ => 0) a b H); [|intros; lra].
    intros x Hx. eapply is_derive_eq; [apply (is_derive_opp f); exact (D x Hx)|]. unfold opp; simpl; ring.
Qed.
Lemma lin_derive q s : is_derive (fun x => q * x) s q.
Proof. auto_derive; [exact Logic.I|ring]. Qed.
Lemma bending_low p : lam_ok p -> exists e, 0 < e /\ forall a b, e * b ^ 2 <= A11 p * a ^ 2 + 2 * B11 p * a * b + D11 p * b ^ 2.
Proof.
  intros (HA & HD & _ & K & HK). exists ((A11 p * D11 p - B11 p ^ 2) / A11 p). split; [apply Rdiv_lt_0_compat; lra|]. intros a b.
  replace (A11 p * a ^ 2 + 2 * B11 p * a * b + D11 p * b ^ 2) with ((A11 p * D11 p - B11 p ^ 2) / A11 p * b ^ 2 + A11 p * (a + B11 p / A11 p * b) ^ 2) by (field; lra).
  pose proof (pow2_ge_0 (a + B11 p / A11 p * b)). nra.
Qed.

(** * Half of a symmetric slab: a supported part and half of the crack *)
Section Half.
Variable p : params.
Hypothesis Hl : lam_ok p.
Hypothesis Hf : fnd_ok p.
Hypothesis Hs : stable p.

Lemma half_tip : exists h0, 0 < h0 /\ forall L h q y c, 1 <= L -> 0 < h < h0 -> 0 < q ->
  (forall x, 0 <= x <= L -> forced p true 0 0 0 y x) -> d2 (y 0) = 0 -> jump6 p 0 0 (y L) (c 0) ->
  (forall x, 0 <= x <= h -> forced p false 0 0 (- q) c x) -> z_u (c h) = 0 -> z_psi (c h) = 0 -> sV p (c h) = 0 -> 0 < z_w (c 0).
Proof.
  destruct (window_full p Hl Hf Hs) as (C & HC & W). destruct (bending_low p Hl) as (e & He & Be).
  set (K := 1 / (4 * e) + 1). assert (HK : 0 < K) by (unfold K; assert (0 < 1 / (4 * e)) by (apply Rdiv_lt_0_compat; lra); lra).
  exists (Rmin 1 (/ (C * K))). assert (CK : 0 < C * K) by (apply Rmult_lt_0_compat; assumption).
  split; [apply Rmin_pos; [lra|apply Rinv_0_lt_compat; exact CK]|].
  intros L h q y c HL [h1 h2] Hq Fy Dy J Fc Uh Ph Vh. destruct (Rlt_dec 0 (z_w (c 0))) as [|NW]; [assumption|exfalso].
  assert (Hh1 : h < 1) by (eapply Rlt_le_trans; [exact h2|apply Rmin_l]).
  assert (Hh2 : h * (C * K) < 1).
  { assert (X : h < / (C * K)) by (eapply Rlt_le_trans; [exact h2|apply Rmin_r]). apply (Rmult_lt_compat_r (C * K)) in X; [|exact CK]. rewrite Rinv_l in X by lra. exact X. }
  (* section forces of the crack *)
  assert (N0 : forall x, 0 <= x <= h -> sN p (c x) = sN p (c h)).
  { intros x Hx. apply (derive_zero_const (fun s => sN p (c s))); [lra|]. intros s Hs'. destruct (Fc s ltac:(lra)) as (_ & _ & _ & D & _). eapply is_derive_eq; [exact D|]. unfold s_tau, on. ring. }
  assert (V0 : forall x, 0 <= x <= h -> sV p (c x) = q * (h - x)).
  { intros x Hx. assert (X : sV p (c x) + q * x = sV p (c h) + q * h).
    { apply (derive_zero_const (fun s => sV p (c s) + q * s)); [lra|]. intros s Hs'. destruct (Fc s ltac:(lra)) as (_ & _ & _ & _ & D & _).
      eapply is_derive_eq; [apply is_derive_plusR; [exact D|exact (lin_derive q s)]|]. unfold s_sig, on. ring. }
    lra. }
  assert (M0 : forall x, 0 <= x <= h -> sM p (c x) = sM p (c h) - q * (h - x) ^ 2 / 2).
  { intros x Hx. assert (X : sM p (c x) + q * (h - x) ^ 2 / 2 = sM p (c h) + q * (h - h) ^ 2 / 2).
    { apply (derive_zero_const (fun s => sM p (c s) + q * (h - s) ^ 2 / 2)); [lra|]. intros s Hs'. destruct (Fc s ltac:(lra)) as (_ & _ & _ & _ & _ & D).
      assert (D2 : is_derive (fun s => q * (h - s) ^ 2 / 2) s (- (q * (h - s)))) by (auto_derive; [exact Logic.I|field]).
      eapply is_derive_eq; [apply is_derive_plusR; [exact D|exact D2]|]. rewrite V0 by lra. unfold s_tau, on. ring. }
    replace (h - h) with 0 in X by ring. lra. }
  (* work of the tension and of the middle moment *)
  set (Nh := sN p (c h)) in *. set (Mh := sM p (c h)) in *.
  assert (G : Nh * z_u (c 0) + Mh * z_psi (c 0) <= q ^ 2 * h ^ 5 / (16 * e)).
  { assert (X : (Nh * z_u (c 0) + Mh * z_psi (c 0)) + q ^ 2 * h ^ 4 / (16 * e) * 0 <= (Nh * z_u (c h) + Mh * z_psi (c h)) + q ^ 2 * h ^ 4 / (16 * e) * h).
    { apply (derive_nonneg_incr (fun s => (Nh * z_u (c s) + Mh * z_psi (c s)) + q ^ 2 * h ^ 4 / (16 * e) * s)
        (fun s => (Nh * z_du (c s) + Mh * z_dpsi (c s)) + q ^ 2 * h ^ 4 / (16 * e) * 1)); [lra| |].
      - intros s Hs'. destruct (Fc s Hs') as (D1 & _ & D3 & _).
        apply is_derive_plusR; [apply is_derive_plusR; [exact (is_derive_scal _ s Nh _ D1)|exact (is_derive_scal _ s Mh _ D3)]|].
        eapply is_derive_eq; [apply lin_derive|ring].
      - intros s Hs'. pose proof (N0 s Hs') as A1. pose proof (M0 s Hs') as A2. set (a := z_du (c s)). set (b := z_dpsi (c s)).
        set (k := q * (h - s) ^ 2 / 2) in *.
        assert (X1 : Nh * a + Mh * b = A11 p * a ^ 2 + 2 * B11 p * a * b + D11 p * b ^ 2 + k * b).
        { rewrite <- A1. replace Mh with (sM p (c s) + k) by lra. unfold sN, sM. fold a b. ring. }
        rewrite X1. pose proof (Be a b) as Q.
        assert (Kb : 0 <= k <= q * h ^ 2 / 2).
        { unfold k. assert (0 <= (h - s) ^ 2 <= h ^ 2) by (split; [apply pow2_ge_0|simpl; nra]). split; [apply Rmult_le_pos; [apply Rmult_le_pos; lra|lra]|].
          apply Rmult_le_compat_r; [lra|]. apply Rmult_le_compat_l; lra. }
        assert (K2 : k ^ 2 <= q ^ 2 * h ^ 4 / 4).
        { replace (q ^ 2 * h ^ 4 / 4) with ((q * h ^ 2 / 2) ^ 2) by field. apply pow_incr. exact Kb. }
        assert (SQ : 0 <= e * b ^ 2 + k * b + k ^ 2 / (4 * e)).
        { replace (e * b ^ 2 + k * b + k ^ 2 / (4 * e)) with (e * (b + k / (2 * e)) ^ 2) by (field; lra). apply Rmult_le_pos; [lra|apply pow2_ge_0]. }
        assert (K3 : k ^ 2 / (4 * e) <= q ^ 2 * h ^ 4 / (16 * e)).
        { replace (q ^ 2 * h ^ 4 / (16 * e)) with (q ^ 2 * h ^ 4 / 4 / (4 * e)) by (field; lra). apply Rmult_le_compat_r; [left; apply Rinv_0_lt_compat; lra|exact K2]. }
        lra. }
    rewrite Uh, Ph in X. replace (q ^ 2 * h ^ 4 / (16 * e) * h) with (q ^ 2 * h ^ 5 / (16 * e)) in X by (field; lra). lra. }
  (* energy of the supported part *)
  set (P := work p (c 0)).
  assert (EP : work p (y L) = P). { pose proof (jump_work _ _ _ _ _ J) as X. unfold power in X. unfold P. lra. }
  assert (P0 : work p (y 0) = 0).
  { unfold d2 in Dy. pose proof (pow2_ge_0 (z_u (y 0))). pose proof (pow2_ge_0 (z_w (y 0))). pose proof (pow2_ge_0 (z_psi (y 0))).
    assert (Z : forall x, x ^ 2 = 0 -> x = 0) by (intros x X; simpl in X; nra).
    unfold work. rewrite (Z (z_u (y 0))), (Z (z_w (y 0))), (Z (z_psi (y 0))) by lra. ring. }
  assert (Nn : n2 p (c 0) <= C * P).
  { assert (En : n2 p (c 0) = n2 p (y L)). { destruct J as (J1 & J2 & J3 & J4 & J5 & J6). unfold n2, d2. rewrite J1, J2, J3. replace (sN p (y L)) with (sN p (c 0)) by lra. replace (sM p (y L)) with (sM p (c 0)) by lra. replace (sV p (y L)) with (sV p (c 0)) by lra. reflexivity. }
    rewrite En, <- EP. pose proof (supported_states p Hl Hf Hs C HC W 0 0 0 y L L HL Fy ltac:(lra)) as X. rewrite P0, Rminus_0_r in X. exact X. }
  assert (Ub : sV p (c 0) ^ 2 <= C * P /\ z_psi (c 0) ^ 2 <= C * P).
  { unfold n2, d2 in Nn. pose proof (pow2_ge_0 (sN p (c 0))). pose proof (pow2_ge_0 (sM p (c 0))). pose proof (pow2_ge_0 (sV p (c 0))).
    pose proof (pow2_ge_0 (z_u (c 0))). pose proof (pow2_ge_0 (z_w (c 0))). pose proof (pow2_ge_0 (z_psi (c 0))). lra. }
  destruct Ub as [Ub1 Ub2]. rewrite V0 in Ub1 by lra. rewrite Rminus_0_r in Ub1.
  set (s := sqrt (C * P)). assert (CP : 0 < C * P) by (assert (0 < (q * h) ^ 2) by (apply pow_lt; apply Rmult_lt_0_compat; lra); lra).
  assert (Es : s * s = C * P) by (apply sqrt_sqrt; lra). assert (Hs0 : 0 < s) by (apply sqrt_lt_R0; exact CP).
  assert (Qs : q * h <= s). { unfold s. rewrite <- (sqrt_pow2 (q * h)) by (apply Rmult_le_pos; lra). apply sqrt_le_1_alt. exact Ub1. }
  assert (Ps : Rabs (z_psi (c 0)) <= s). { unfold s. rewrite <- sqrt_Rsqr_abs. apply sqrt_le_1_alt. unfold Rsqr. simpl in Ub2. lra. }
  assert (UP : P <= q ^ 2 * h ^ 5 / (16 * e) + q * h ^ 2 / 2 * s).
  { unfold P, work. rewrite N0, M0, V0 by lra. rewrite !Rminus_0_r. fold Nh Mh.
    assert (A1 : q * h * z_w (c 0) <= 0) by (assert (0 < q * h) by (apply Rmult_lt_0_compat; lra); nra).
    assert (A2 : - (q * h ^ 2 / 2) * z_psi (c 0) <= q * h ^ 2 / 2 * s).
    { assert (0 <= q * h ^ 2 / 2) by (assert (0 <= q * h ^ 2) by (apply Rmult_le_pos; [lra|apply pow2_ge_0]); lra). apply Rabs_le_between in Ps. nra. }
    lra. }
  assert (B1 : q ^ 2 * h ^ 5 / (16 * e) <= s * s * h * (1 / (4 * e))).
  { replace (q ^ 2 * h ^ 5 / (16 * e)) with ((q * h) ^ 2 * (h ^ 3 * (1 / (16 * e)))) by (field; lra).
    assert (X1 : (q * h) ^ 2 <= s * s). { replace (s * s) with (s ^ 2) by ring. apply pow_incr. split; [apply Rmult_le_pos; lra|exact Qs]. }
    assert (X2 : 0 <= h ^ 3 * (1 / (16 * e)) <= h * (1 / (4 * e))).
    { assert (0 <= h ^ 3 <= h) by (split; [apply pow_le; lra|simpl; nra]). assert (I1 : 0 < / e) by (apply Rinv_0_lt_compat; lra).
      replace (1 / (16 * e)) with (/ e / 16) by (field; lra). replace (1 / (4 * e)) with (/ e / 4) by (field; lra). split; [nra|].
      apply Rmult_le_compat; lra. }
    rewrite Rmult_assoc. apply Rmult_le_compat; [apply pow2_ge_0|lra|exact X1|lra]. }
  assert (B2 : q * h ^ 2 / 2 * s <= s * s * h).
  { replace (q * h ^ 2 / 2 * s) with ((q * h) * (h * s) / 2) by field. assert (0 <= h * s) by nra. assert ((q * h) * (h * s) <= s * (h * s)) by (apply Rmult_le_compat_r; lra). nra. }
  assert (F : s * s <= s * s * (h * (C * K))).
  { rewrite Es at 1. apply Rle_trans with (C * (s * s * h * (1 / (4 * e)) + s * s * h)); [apply Rmult_le_compat_l; lra|]. unfold K. right. field. lra. }
  assert (0 < s * s) by (apply Rmult_lt_0_compat; assumption). nra.
Qed.

(** * Mirror images *)
Lemma forced_mirror k gN gM gV z l x : forced p k gN gM gV z (l - x) -> forced p k (- gN) (- gM) gV (fun s => mirror (z (l - s))) x.
Proof.
  intros (H1 & H2 & H3 & H4 & H5 & H6). unfold forced. rewrite mirror_tau, mirror_sig, mirror_V.
  assert (O : forall (f : R -> R) d, is_derive f (l - x) d -> is_derive (fun s => - f (l - s)) x d).
  { intros f d H. apply is_derive_flip in H.
    eapply is_derive_eq; [apply (is_derive_opp (fun s => f (l - s))); exact H|]. unfold opp; simpl; ring. }
  split; [apply (O _ _ H1)|]. split; [apply (is_derive_flip _ l x _ H2)|]. split; [apply (O _ _ H3)|]. split; [|split].
  - eapply is_derive_eq; [eapply is_derive_extR; [|apply (is_derive_flip _ l x _ H4)]|].
    + intros s. cbv beta. rewrite mirror_N. reflexivity.
    + unfold on. destruct k; ring.
  - eapply is_derive_eq; [eapply is_derive_extR; [|apply (O _ _ H5)]|].
    + intros s. cbv beta. rewrite mirror_V. reflexivity.
    + ring.
  - eapply is_derive_eq; [eapply is_derive_extR; [|apply (is_derive_flip _ l x _ H6)]|].
    + intros s. cbv beta. rewrite mirror_M. reflexivity.
    + unfold on. destruct k; ring.
Qed.
Lemma forced_sum k gN gM gV gN' gM' gV' z z' x : forced p k gN gM gV z x -> forced p k gN' gM' gV' z' x ->
  forced p k (gN + gN') (gM + gM') (gV + gV') (fun s => combo 1 (z s) 1 (z' s)) x.
Proof.
  intros (H1 & H2 & H3 & H4 & H5 & H6) (G1 & G2 & G3 & G4 & G5 & G6). unfold forced.
  assert (Ad : forall (f : vec6 -> R) d d', (forall a b, f (combo 1 a 1 b) = f a + f b) -> is_derive (fun s => f (z s)) x d -> is_derive (fun s => f (z' s)) x d' ->
    is_derive (fun s => f (combo 1 (z s) 1 (z' s))) x (d + d')).
  { intros f d d' Lf D D'. eapply is_derive_extR; [|exact (is_derive_plusR _ _ _ _ _ D D')]. intros s. rewrite Lf. reflexivity. }
  assert (E : forall a b, a = b -> forall f : R -> R, is_derive f x a -> is_derive f x b) by (intros a b -> f; auto).
  split; [refine (E _ _ _ _ (Ad z_u _ _ _ H1 G1)); [simpl; ring|intros; simpl; ring]|].
  split; [refine (E _ _ _ _ (Ad z_w _ _ _ H2 G2)); [simpl; ring|intros; simpl; ring]|].
  split; [refine (E _ _ _ _ (Ad z_psi _ _ _ H3 G3)); [simpl; ring|intros; simpl; ring]|].
  split; [refine (E _ _ _ _ (Ad (sN p) _ _ _ H4 G4)); [unfold s_tau, on; destruct k; simpl; ring|intros; rewrite combo_N; ring]|].
  split; [refine (E _ _ _ _ (Ad (sV p) _ _ _ H5 G5)); [unfold s_sig, on; destruct k; simpl; ring|intros; rewrite combo_V; ring]|].
  refine (E _ _ _ _ (Ad (sM p) _ _ _ H6 G6)); [rewrite combo_V; unfold s_tau, on; destruct k; simpl; field|intros; rewrite combo_M; ring].
Qed.

(** * Both tips of a crack in the middle *)
Lemma both_tips : exists h0, 0 < h0 /\ forall L h gN gM q z, 1 <= L -> 0 < h < h0 -> 0 < q ->
  fchain p 3 (fun i => nth i [L; h; h; L] 0) (fun i => nth i middle_support false) gN gM (- q) (fun _ => 0) (fun _ => 0) z ->
  d2 (z 0%nat 0) = 0 -> d2 (z 3%nat L) = 0 -> 0 < z_w (z 0%nat L) + z_w (z 2%nat h).
Proof.
  destruct half_tip as (h0 & H0 & HT). exists h0. split; [exact H0|]. intros L h gN gM q z HL Hh Hq (_ & F & J) D0 D3.
  set (y := fun s => combo 1 (z 0%nat s) 1 (mirror (z 3%nat (L - s)))). set (c := fun s => combo 1 (z 1%nat s) 1 (mirror (z 2%nat (h - s)))).
  assert (J0 := J 0%nat ltac:(lia)). assert (J1 := J 1%nat ltac:(lia)). assert (J2 := J 2%nat ltac:(lia)). cbn [nth] in J0, J1, J2.
  assert (Zd : forall v, d2 v = 0 -> z_u v = 0 /\ z_w v = 0 /\ z_psi v = 0).
  { intros v Dy. unfold d2 in Dy. pose proof (pow2_ge_0 (z_u v)). pose proof (pow2_ge_0 (z_w v)). pose proof (pow2_ge_0 (z_psi v)).
    assert (Z : forall x, x ^ 2 = 0 -> x = 0) by (intros x X; simpl in X; nra). repeat split; apply Z; lra. }
  destruct (Zd _ D0) as (U0 & W0 & P0). destruct (Zd _ D3) as (U3 & W3 & P3).
  destruct J0 as (A1 & A2 & A3 & A4 & A5 & A6). destruct J1 as (B1 & B2 & B3 & B4 & B5 & B6). destruct J2 as (C1 & C2 & C3 & C4 & C5 & C6).
  assert (X : 0 < z_w (c 0)).
  { apply (HT L h (2 * q) y c HL Hh ltac:(lra)).
    - intros x Hx. pose proof (forced_sum true gN gM (- q) (- gN) (- gM) (- q) (z 0%nat) (fun s => mirror (z 3%nat (L - s))) x (F 0%nat x ltac:(lia) Hx)
        (forced_mirror true gN gM (- q) (z 3%nat) L x (F 3%nat (L - x) ltac:(lia) ltac:(cbn [nth]; lra)))) as Q. exact Q.
    - unfold d2, y, combo, mirror. cbn [z_u z_w z_psi]. rewrite Rminus_0_r, U0, W0, P0, U3, W3, P3. ring.
    - unfold jump6, y, c. rewrite !combo_N, !combo_M, !combo_V, !mirror_N, !mirror_M, !mirror_V. unfold combo, mirror. cbn [z_u z_w z_psi].
      replace (L - L) with 0 by ring. rewrite Rminus_0_r. rewrite A1, A2, A3, C1, C2, C3. repeat split; lra.
    - intros x Hx. pose proof (forced_sum false gN gM (- q) (- gN) (- gM) (- q) (z 1%nat) (fun s => mirror (z 2%nat (h - s))) x (F 1%nat x ltac:(lia) Hx)
        (forced_mirror false gN gM (- q) (z 2%nat) h x (F 2%nat (h - x) ltac:(lia) ltac:(cbn [nth]; lra)))) as Q.
      replace (gN + - gN) with 0 in Q by ring. replace (gM + - gM) with 0 in Q by ring. replace (- q + - q) with (- (2 * q)) in Q by ring. exact Q.
    - unfold c, combo, mirror. cbn [z_u]. replace (h - h) with 0 by ring. rewrite B1. ring.
    - unfold c, combo, mirror. cbn [z_psi]. replace (h - h) with 0 by ring. rewrite B3. ring.
    - unfold c. rewrite combo_V, mirror_V. replace (h - h) with 0 by ring. lra. }
  unfold c, combo, mirror in X. cbn [z_w] in X. rewrite Rminus_0_r in X. rewrite A2. lra.
Qed.
End Half.
