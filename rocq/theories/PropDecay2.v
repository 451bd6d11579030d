(** Property theorems C115-C116: cracked slabs with long ends. The response is bounded by the loads however long the outer
    segments are, and their length hardly matters. *)
From Coquelicot Require Import Coquelicot.
Require Import Verif.Py Verif.MTools Verif.MEigen Verif.MFields Verif.SAdm Verif.MRaster
  Verif.MSolution Verif.SBeam Verif.SBvp Verif.SEig Verif.SMirror Verif.SSkier Verif.SDecay Verif.PBeam Verif.PBeam2 Verif.PBvp Verif.PBvp2 Verif.PBalance Verif.PLinAlg
  Verif.PWell Verif.PWell2 Verif.PWell3 Verif.PBvp6 Verif.PMirror Verif.PSkier Verif.PSplit Verif.PWork Verif.PDecay Verif.PDecay2 Verif.PDecay3 Verif.PDecay4
  Verif.PDecay5 Verif.PDecay6 Verif.PropDecay.

(** Forces on the unsupported slab beyond those at rest. *)
Definition pushN (ld : loads) : R := - (qt ld + pt ld).
Definition pushV (ld : loads) : R := - (qn ld + pn ld).
Definition pushM (p : params) (ld : loads) : R := - ((hh p + wt p) / 2 * (qt ld + pt ld) + B11 p / A11 p * pt ld).
Lemma const_derive (f : R -> R) c x d : (forall s, f s = c) -> is_derive f x d -> d = 0.
Proof.
  intros Hc H. apply (is_derive_unique (fun _ => c) x) in H || idtac.
  assert (D : is_derive (fun _ : R => c) x d) by (eapply is_derive_extR; [|exact H]; exact Hc).
  pose proof (is_derive_unique _ _ _ D) as A. rewrite Derive_const in A. symmetry. exact A.
Qed.
Lemma rest_values o phi : ready o ->
  sV (o_par o) (at_rest o phi) - zs (o_par o) * qt (loads_of o phi) + hh (o_par o) / 2 * pt (loads_of o phi)
  + extra_moment (o_par o) (loads_of o phi) false = pushM (o_par o) (loads_of o phi).
Proof.
  intros Hr. destruct (rest_balance o phi 0 Hr) as (_ & _ & _ & H4 & _ & H6).
  apply (const_derive _ (sN (o_par o) (at_rest o phi))) in H4; [|intros s; rewrite rest_is; reflexivity].
  apply (const_derive _ (sM (o_par o) (at_rest o phi))) in H6; [|intros s; rewrite rest_is; reflexivity].
  rewrite rest_is in H4, H6. unfold pushM, extra_moment.
  assert (T : s_tau (o_par o) true (at_rest o phi) = qt (loads_of o phi) + pt (loads_of o phi)) by lra. rewrite T in H6. lra.
Qed.
Lemma dev_forced o phi k z x : ready o -> balance (o_par o) (loads_of o phi) k (extra_moment (o_par o) (loads_of o phi) k) z x ->
  forced (o_par o) k (pushN (loads_of o phi)) (pushM (o_par o) (loads_of o phi)) (pushV (loads_of o phi)) (dev o phi z) x.
Proof.
  intros Hr H. destruct k.
  - destruct (dev_balance o phi z x Hr H) as (H1 & H2 & H3 & H4 & H5 & H6). cbn [no_loads qn qt pn pt] in *. unfold forced, on.
    split; [exact H1|]. split; [exact H2|]. split; [exact H3|].
    split; [eapply is_derive_eq; [exact H4|ring]|]. split; [eapply is_derive_eq; [exact H5|ring]|eapply is_derive_eq; [exact H6|ring]].
  - pose proof (rest_values o phi Hr) as RV. destruct H as (H1 & H2 & H3 & H4 & H5 & H6). destruct (rest_balance o phi x Hr) as (G1 & G2 & G3 & _).
    set (r := at_rest o phi) in *. set (p := o_par o) in *.
    assert (Add : forall (f : vec6 -> R) d, (forall a b, f (combo 1 a (-1) b) = f a - f b) -> is_derive (fun s => f (z s)) x d -> is_derive (fun s => f (dev o phi z s)) x d).
    { intros f d Hfc Hd. eapply is_derive_eq; [eapply is_derive_extR; [|exact (is_derive_plusR _ (fun _ => - f r) _ _ 0 Hd (is_derive_const (K := R_AbsRing) (V := R_NormedModule) _ _))]|ring].
      intros s. unfold dev. rewrite rest_is, Hfc. fold r. ring. }
    assert (Du : forall f : vec6 -> R, (forall a b, f (combo 1 a (-1) b) = f a - f b) -> forall c, f r = 0 -> c = f (z x) -> c = f (dev o phi z x)).
    { intros f Hfc c Z E. unfold dev. rewrite rest_is, Hfc. fold r. lra. }
    assert (Z : z_du r = 0 /\ z_dw r = 0 /\ z_dpsi r = 0).
    { split; [|split].
      - apply (const_derive _ (z_u r)) in G1; [|intros s; rewrite rest_is; reflexivity]. rewrite rest_is in G1. exact G1.
      - apply (const_derive _ (z_w r)) in G2; [|intros s; rewrite rest_is; reflexivity]. rewrite rest_is in G2. exact G2.
      - apply (const_derive _ (z_psi r)) in G3; [|intros s; rewrite rest_is; reflexivity]. rewrite rest_is in G3. exact G3. }
    destruct Z as (Z1 & Z2 & Z3). unfold forced, on, pushN, pushV, s_tau, s_sig in *.
    assert (Lu : forall a b, z_u (combo 1 a (-1) b) = z_u a - z_u b) by (intros; simpl; ring).
    assert (Lw : forall a b, z_w (combo 1 a (-1) b) = z_w a - z_w b) by (intros; simpl; ring).
    assert (Lp : forall a b, z_psi (combo 1 a (-1) b) = z_psi a - z_psi b) by (intros; simpl; ring).
    assert (Ldu : forall a b, z_du (combo 1 a (-1) b) = z_du a - z_du b) by (intros; simpl; ring).
    assert (Ldw : forall a b, z_dw (combo 1 a (-1) b) = z_dw a - z_dw b) by (intros; simpl; ring).
    assert (Ldp : forall a b, z_dpsi (combo 1 a (-1) b) = z_dpsi a - z_dpsi b) by (intros; simpl; ring).
    assert (LN : forall a b, sN p (combo 1 a (-1) b) = sN p a - sN p b) by (intros; rewrite combo_N; ring).
    assert (LM : forall a b, sM p (combo 1 a (-1) b) = sM p a - sM p b) by (intros; rewrite combo_M; ring).
    assert (LV : forall a b, sV p (combo 1 a (-1) b) = sV p a - sV p b) by (intros; rewrite combo_V; ring).
    split; [rewrite <- (Du z_du Ldu _ Z1 eq_refl); exact (Add z_u _ Lu H1)|].
    split; [rewrite <- (Du z_dw Ldw _ Z2 eq_refl); exact (Add z_w _ Lw H2)|].
    split; [rewrite <- (Du z_dpsi Ldp _ Z3 eq_refl); exact (Add z_psi _ Lp H3)|].
    split; [eapply is_derive_eq; [exact (Add _ _ LN H4)|ring]|].
    split; [eapply is_derive_eq; [exact (Add _ _ LV H5)|ring]|].
    eapply is_derive_eq; [exact (Add _ _ LM H6)|]. unfold dev at 1. rewrite rest_is, LV. fold r. rewrite <- RV. ring.
Qed.
Lemma push_size o phi : sqrt (force2 (pushN (loads_of o phi)) (pushM (o_par o) (loads_of o phi)) (pushV (loads_of o phi)))
  <= (1 + Rabs ((hh (o_par o) + wt (o_par o)) / 2) + Rabs (B11 (o_par o) / A11 (o_par o))) * slab_loads o phi.
Proof.
  assert (N3 : forall x y w, sqrt (force2 x y w) <= Rabs x + Rabs y + Rabs w).
  { intros x y w. pose proof (Rabs_pos x). pose proof (Rabs_pos y). pose proof (Rabs_pos w).
    rewrite <- (sqrt_Rsqr (Rabs x + Rabs y + Rabs w)) by lra. apply sqrt_le_1_alt. unfold force2. rewrite Rsqr_pow2, <- (pow2_abs x), <- (pow2_abs y), <- (pow2_abs w).
    assert (0 <= Rabs x * Rabs y) by (apply Rmult_le_pos; lra). assert (0 <= Rabs x * Rabs w) by (apply Rmult_le_pos; lra).
    assert (0 <= Rabs y * Rabs w) by (apply Rmult_le_pos; lra). nra. }
  eapply Rle_trans; [apply N3|]. unfold slab_loads, pushN, pushM, pushV. cbv zeta. set (ld := loads_of o phi). set (a := (hh (o_par o) + wt (o_par o)) / 2).
  set (b := B11 (o_par o) / A11 (o_par o)). rewrite !Rabs_Ropp.
  pose proof (Rabs_pos (qn ld)) as M1. pose proof (Rabs_pos (pn ld)) as M2. pose proof (Rabs_pos (qt ld)) as M3. pose proof (Rabs_pos (pt ld)) as M4. pose proof (Rabs_pos a) as M5. pose proof (Rabs_pos b) as M6.
  pose proof (Rabs_triang (qt ld) (pt ld)) as T1. pose proof (Rabs_triang (qn ld) (pn ld)) as T2. pose proof (Rabs_triang (a * (qt ld + pt ld)) (b * pt ld)) as T3.
  rewrite !Rabs_mult in T3.
  assert (Rabs a * Rabs (qt ld + pt ld) <= Rabs a * (Rabs (qt ld) + Rabs (pt ld))) by (apply Rmult_le_compat_l; lra).
  assert (0 <= Rabs a * (Rabs (qn ld) + Rabs (pn ld))) by (apply Rmult_le_pos; lra).
  assert (0 <= Rabs b * (Rabs (qn ld) + Rabs (qt ld) + Rabs (pn ld))) by (apply Rmult_le_pos; lra). lra.
Qed.

Lemma bounded_solved p Lam : lam_ok p -> fnd_ok p -> stable p -> exists C, 0 < C /\
  (forall o kR phi li mi ki Cs i x, o_par o = p -> ready o -> kind_of (o_system o) = Some KSkier -> cracked_inside Lam li ki ->
    bvp o kR phi li mi ki Cs -> (i < List.length li)%nat -> 0 <= x <= nth i li 0 ->
    apart (field o phi (nth i li 0) (nth i ki false) (nth i Cs []) x) (at_rest o phi)
    <= C * (skier_loads o mi (List.length li - 1) + slab_loads o phi)) /\
  (forall n l k z i x, fchain p n l k 0 0 0 (fun _ => 0) (fun _ => 0) z -> (0 < n)%nat -> pos l n - pos l 1 <= Lam ->
    k 0%nat = true -> k n = true -> 1 <= l 0%nat -> 1 <= l n -> (i <= n)%nat -> 0 <= x <= l i ->
    size6 (z i x) <= C * (sqrt (d2 (z 0%nat 0)) + sqrt (d2 (z n (l n))))).
Proof.
  intros Hl Hf Hs. destruct (fchain_bound p Lam Hl Hf Hs) as (C & HC & B).
  set (m := 3 + Rabs ((hh p + wt p) / 2) + Rabs (B11 p / A11 p)).
  assert (Hm : 3 <= m) by (unfold m; pose proof (Rabs_pos ((hh p + wt p) / 2)); pose proof (Rabs_pos (B11 p / A11 p)); lra).
  exists (C * m). split; [apply Rmult_lt_0_compat; lra|]. split.
  - intros o kR phi li mi ki Cs i x Ep Hr Hk (H2 & Hk0 & Hkn & L0 & Ln & Hpos & HL) HB Hi Hx.
    set (n := (List.length li - 1)%nat) in *. assert (Hn : li <> []) by (destruct li; [simpl in Hi; lia|discriminate]).
    pose proof (bvp_fbvp _ _ _ _ _ _ _ Hr Hn HB) as HF. fold n in HF.
    set (z := fun j => dev o phi (field o phi (nth j li 0) (nth j ki false) (nth j Cs []))).
    assert (Ch : fchain p n (fun j => nth j li 0) (fun j => nth j ki false) (pushN (loads_of o phi)) (pushM p (loads_of o phi)) (pushV (loads_of o phi))
      (fun j => - (skier_force o (nth j mi 0) * sin (phi * PI / 180))) (fun j => skier_force o (nth j mi 0) * cos (phi * PI / 180)) z).
    { destruct HF as (_ & _ & A & D). split; [intros j Hj; apply Hpos; unfold n in Hj; lia|]. split.
      - intros j s Hj Hs'. rewrite <- Ep. apply dev_forced; [exact Hr|]. exact (D j s Hj Hs').
      - intros j Hj. rewrite <- Ep. exact (dev_jump o phi _ _ (nth j mi 0) (nth j li 0) 0 (skier_kind o Hk) (A j Hj)). }
    pose proof (B n _ _ _ _ _ _ _ z i x Ch ltac:(unfold n; lia) HL Hk0 Hkn L0 Ln ltac:(unfold n; lia) Hx) as Q.
    assert (Z0 : d2 (z 0%nat 0) = 0) by exact (dev_left o kR phi Hk n _ _ _ _ HF).
    assert (Zn : d2 (z n (nth n li 0)) = 0) by exact (dev_right o kR phi Hk n _ _ _ _ HF).
    cbv beta in Q. rewrite Z0, Zn, sqrt_0, !Rplus_0_l in Q. unfold z in Q. rewrite dev_apart in Q.
    eapply Rle_trans; [exact Q|]. rewrite Rmult_assoc. apply Rmult_le_compat_l; [lra|].
    pose proof (push_size o phi) as PS. rewrite Ep in PS.
    assert (S1 : sumn n (fun j => Rabs (- (skier_force o (nth j mi 0) * sin (phi * PI / 180))) + Rabs (skier_force o (nth j mi 0) * cos (phi * PI / 180))) <= 2 * skier_loads o mi n).
    { unfold skier_loads. rewrite <- sumn_scal. apply sumn_le. intros j _. apply force_sum. }
    assert (S0 : 0 <= skier_loads o mi n).
    { unfold skier_loads. clear. induction n as [|n IH]; simpl; [lra|]. pose proof (Rabs_pos (line_load o (nth n mi 0))). lra. }
    assert (S2 : 0 <= slab_loads o phi).
    { unfold slab_loads. set (ld := loads_of o phi). cbv zeta. pose proof (Rabs_pos (qn ld)). pose proof (Rabs_pos (qt ld)). pose proof (Rabs_pos (pn ld)). pose proof (Rabs_pos (pt ld)). lra. }
    eapply Rle_trans; [apply Rplus_le_compat; [exact S1|exact PS]|]. unfold m. set (a := Rabs ((hh p + wt p) / 2)). set (b := Rabs (B11 p / A11 p)).
    assert (0 <= a) by apply Rabs_pos. assert (0 <= b) by apply Rabs_pos. assert (0 <= (1 + a + b) * skier_loads o mi n) by (apply Rmult_le_pos; lra). lra.
  - intros n l k z i x Ch Hn HL H0 Hkn L0 Ln Hi Hx.
    pose proof (B n l k 0 0 0 (fun _ => 0) (fun _ => 0) z i x Ch Hn HL H0 Hkn L0 Ln Hi Hx) as Q.
    replace (force2 0 0 0) with 0 in Q by (unfold force2; ring).
    replace (sumn n (fun _ => Rabs 0 + Rabs 0)) with 0 in Q by (clear; rewrite Rabs_R0; induction n as [|n IH]; simpl; lra).
    rewrite sqrt_0, !Rplus_0_r in Q. eapply Rle_trans; [exact Q|].
    pose proof (sqrt_pos (d2 (z 0%nat 0))). pose proof (sqrt_pos (d2 (z n (l n)))). rewrite Rmult_assoc. apply Rmult_le_compat_l; [lra|].
    assert (1 * (sqrt (d2 (z 0%nat 0)) + sqrt (d2 (z n (l n)))) <= m * (sqrt (d2 (z 0%nat 0)) + sqrt (d2 (z n (l n))))) by (apply Rmult_le_compat_r; lra). lra.
Qed.

(** C115: in a slab with cracks the disturbance is at most proportional to the skiers' weights and the slab's load. The constant
    belongs to slab, weak layer and the length of the stretch between the outer segments: it does not depend on how long the
    outer segments are, on the slope, or on how many cracks and skiers there are. Along the outer segments the disturbance fades exponentially. *)
Theorem C115_bounded p Lam : lam_ok p -> fnd_ok p -> stable p -> exists C kap, 0 < C /\ 0 < kap /\
  forall o kR phi li mi ki Cs i x, o_par o = p -> ready o -> kind_of (o_system o) = Some KSkier -> cracked_inside Lam li ki ->
    bvp o kR phi li mi ki Cs -> (i < List.length li)%nat -> 0 <= x <= nth i li 0 ->
    let n := (List.length li - 1)%nat in
    let off := apart (field o phi (nth i li 0) (nth i ki false) (nth i Cs []) x) (at_rest o phi) in
    let bound := C * (skier_loads o mi n + slab_loads o phi) in
    off <= bound /\ (i = 0%nat -> off <= exp (- (kap * (nth 0 li 0 - x))) * bound) /\ (i = n -> off <= exp (- (kap * x)) * bound).
Proof.
  intros Hl Hf Hs. destruct (bounded_solved p Lam Hl Hf Hs) as (C & HC & B & _). destruct (C111_outer p Hl Hf Hs) as (C' & kap & HC' & Hk & O).
  exists (C + C' * C), kap. assert (CC : 0 < C' * C) by (apply Rmult_lt_0_compat; assumption). split; [lra|]. split; [exact Hk|].
  intros o kR phi li mi ki Cs i x Ep Hr Hkd Hci HB Hi Hx n off bound.
  pose proof Hci as (H2 & Hk0 & Hkn & L0 & Ln & Hpos & HL). fold n in Hkn, Ln, HL.
  set (s := skier_loads o mi n + slab_loads o phi) in *.
  assert (S0 : 0 <= s).
  { pose proof (B o kR phi li mi ki Cs i x Ep Hr Hkd Hci HB Hi Hx) as Q. fold n s off in Q. pose proof (size6_nonneg (combo 1 (field o phi (nth i li 0) (nth i ki false) (nth i Cs []) x) (-1) (at_rest o phi))) as N.
    fold (apart (field o phi (nth i li 0) (nth i ki false) (nth i Cs []) x) (at_rest o phi)) in N. fold off in N. apply Rmult_le_reg_l with C; [exact HC|]. lra. }
  assert (CS : 0 <= C' * C * s) by (apply Rmult_le_pos; lra). assert (CS' : 0 <= C * s) by (apply Rmult_le_pos; lra).
  assert (Hn : li <> []) by (destruct li; [simpl in Hi; lia|discriminate]).
  destruct (O o kR phi li mi ki Cs x Ep Hr Hkd HB Hn) as [O1 O2]. fold n in O2.
  assert (Fin : forall e q, 0 < e -> off <= C' * e * q -> q <= C * s -> off <= e * bound).
  { intros e q He Hq Hb. eapply Rle_trans; [exact Hq|]. unfold bound. fold s.
    assert (C' * e * q <= C' * e * (C * s)) by (apply Rmult_le_compat_l; [apply Rmult_le_pos; lra|exact Hb]).
    assert (0 <= e * (C * s)) by (apply Rmult_le_pos; lra). lra. }
  split; [|split].
  - pose proof (B o kR phi li mi ki Cs i x Ep Hr Hkd Hci HB Hi Hx) as Q. fold n s off in Q. unfold bound. fold s. lra.
  - intros E. subst i. eapply Fin; [apply exp_pos|exact (O1 Hk0 L0 Hx)|]. apply (B o kR phi li mi ki Cs 0%nat (nth 0 li 0) Ep Hr Hkd Hci HB); [lia|lra].
  - intros E. subst i. eapply Fin; [apply exp_pos|exact (O2 Hkn Ln Hx)|]. apply (B o kR phi li mi ki Cs n 0 Ep Hr Hkd Hci HB); [exact Hi|lra].
Qed.
Print Assumptions C115_bounded.

(** C116: two models of the same cracked slab that differ only in how far the outer segments reach. At every common point, also
    over the cracks, their fields differ by no more than a multiple of the loads, reduced exponentially with the length of the
    shorter outer segments. *)
Theorem C116_ends p Lam : lam_ok p -> fnd_ok p -> stable p -> exists C kap, 0 < C /\ 0 < kap /\
  forall o kR phi li li' mi ki Cs Cs' i x, o_par o = p -> ready o -> kind_of (o_system o) = Some KSkier ->
    cracked_inside Lam li ki -> longer li li' ->
    bvp o kR phi li mi ki Cs -> bvp o kR phi li' mi ki Cs' -> (i < List.length li)%nat -> 0 <= x <= nth i li 0 ->
    let n := (List.length li - 1)%nat in
    let shift := if (i =? 0)%nat then nth 0 li' 0 - nth 0 li 0 else 0 in
    apart (field o phi (nth i li 0) (nth i ki false) (nth i Cs []) x)
          (field o phi (nth i li' 0) (nth i ki false) (nth i Cs' []) (shift + x))
    <= C * (exp (- (kap * nth 0 li 0)) + exp (- (kap * nth n li 0))) * (skier_loads o mi n + slab_loads o phi).
Proof.
  intros Hl Hf Hs. destruct (bounded_solved p Lam Hl Hf Hs) as (C & HC & _ & B). destruct (C115_bounded p Lam Hl Hf Hs) as (C' & kap & HC' & Hk & O).
  exists (C * C'), kap. split; [apply Rmult_lt_0_compat; assumption|]. split; [exact Hk|].
  intros o kR phi li li' mi ki Cs Cs' i x Ep Hr Hkd Hci (El & G0 & Gn & Gm) HB HB' Hi Hx n shift.
  pose proof Hci as (H2 & Hk0 & Hkn & L0 & Ln & Hpos & HL). fold n in Hkn, Ln, HL, Gn, Gm.
  assert (Hn1 : (0 < n)%nat) by (unfold n; lia).
  set (e := nth 0 li' 0 - nth 0 li 0). assert (He : 0 <= e) by (unfold e; lra).
  set (sh := fun j : nat => if (j =? 0)%nat then e else 0).
  set (y := fun j => field o phi (nth j li 0) (nth j ki false) (nth j Cs [])).
  set (y' := fun j => field o phi (nth j li' 0) (nth j ki false) (nth j Cs' [])).
  set (d := fun j s => combo 1 (y j s) (-1) (y' j (sh j + s))).
  assert (St : forall j, (j < n)%nat -> start li' (S j) = e + start li (S j)).
  { induction j as [|j IH]; intros Hj; [unfold start, e; simpl; ring|]. unfold start in *. cbn [sumn] in *. rewrite (Gm (S j)) by lia.
    specialize (IH ltac:(lia)). lra. }
  assert (Hci' : cracked_inside Lam li' ki).
  { unfold cracked_inside. cbv zeta. rewrite El. fold n. split; [exact H2|]. split; [exact Hk0|]. split; [exact Hkn|]. split; [lra|]. split; [lra|]. split.
    - intros j Hj. pose proof (Hpos j Hj) as A. destruct (Nat.eq_dec j 0) as [->|N0]; [lra|]. destruct (Nat.eq_dec j n) as [->|Nn]; [lra|].
      rewrite Gm by (unfold n in *; lia). exact A.
    - pose proof (St 0%nat Hn1) as S1. pose proof (St (n - 1)%nat ltac:(lia)) as S2. replace (S (n - 1)) with n in S2 by lia. lra. }
  assert (Bal : forall ll CC j s, balance p (loads_of o phi) (nth j ki false) (extra_moment p (loads_of o phi) (nth j ki false)) (field o phi (nth j ll 0) (nth j ki false) (nth j CC [])) s).
  { intros ll CC j s. pose proof (field_balance o phi (nth j ll 0) (nth j ki false) (nth j CC []) s (proj1 Hr) (proj1 (proj2 Hr)) (ready_eig o Hr)) as Q.
    rewrite Ep in Q. exact Q. }
  assert (Hshl : forall j, (j < n)%nat -> sh j + nth j li 0 = nth j li' 0).
  { intros [|j] Hj; unfold sh; simpl; [unfold e; simpl; ring|]. rewrite Gm by lia. ring. }
  assert (Ch : fchain p n (fun j => nth j li 0) (fun j => nth j ki false) 0 0 0 (fun _ => 0) (fun _ => 0) d).
  { split; [intros j Hj; apply Hpos; unfold n in Hj; lia|]. split.
    - intros j s Hj Hs'.
      destruct (balance_combo _ _ _ _ _ _ _ _ 1 (-1) _ (Bal li Cs j s) (balance_shift _ _ _ _ _ (sh j) _ (Bal li' Cs' j (sh j + s)))) as (A1 & A2 & A3 & A4 & A5 & A6).
      cbn [qn qt pn pt] in *. assert (Z : forall b, on b 0 = 0) by (intros []; reflexivity). unfold forced. rewrite Z.
      split; [exact A1|]. split; [exact A2|]. split; [exact A3|].
      split; [eapply is_derive_eq; [exact A4|unfold d, y, y'; ring]|]. split; [eapply is_derive_eq; [exact A5|unfold d, y, y'; ring]|eapply is_derive_eq; [exact A6|unfold d, y, y'; ring]].
    - intros j Hj. destruct HB as (_ & _ & T). destruct HB' as (_ & _ & T').
      pose proof (transition_force _ _ _ _ _ (skier_kind o Hkd) (T j ltac:(unfold n in Hj; lia))) as J.
      pose proof (transition_force _ _ _ _ _ (skier_kind o Hkd) (T' j ltac:(unfold n in Hj; lia))) as J'.
      pose proof (jump_diff _ _ _ _ _ _ _ _ _ J' J) as JJ. rewrite Ep in JJ. rewrite !Rminus_eq_0 in JJ.
      unfold d, y, y'. rewrite (Hshl j Hj). replace (sh (S j) + 0) with 0 by (unfold sh; simpl; ring). exact JJ. }
  pose proof (B n _ _ d i x Ch Hn1 HL Hk0 Hkn L0 Ln ltac:(unfold n; lia) Hx) as M. cbv beta in M.
  change (size6 (d i x) <= C * C' * (exp (- (kap * nth 0 li 0)) + exp (- (kap * nth n li 0))) * (skier_loads o mi n + slab_loads o phi)).
  eapply Rle_trans; [exact M|]. rewrite !Rmult_assoc. apply Rmult_le_compat_l; [lra|].
  set (s := skier_loads o mi n + slab_loads o phi).
  destruct HB as (HLf & HRf & _). unfold left_end in HLf. unfold right_end in HRf. rewrite Hkd in HLf, HRf. fold n in HRf.
  assert (Mv : forall a b, far_field o phi a -> sqrt (d2 (combo 1 a (-1) b)) <= apart b (at_rest o phi)).
  { intros a b (F1 & F2 & F3). unfold apart, size6. apply sqrt_le_1_alt. unfold d2. simpl z_u. simpl z_w. simpl z_psi. simpl z_du. simpl z_dw. simpl z_dpsi.
    cbv zeta in *. unfold at_rest. simpl. simpl in F1, F2, F3.
    assert (Gq : forall u v w, u = w -> (1 * u + -1 * v) ^ 2 = (1 * v + -1 * w) ^ 2) by (intros u v w ->; ring).
    pose proof (Gq _ (z_u b) _ F1) as Q1. pose proof (Gq _ (z_w b) _ F2) as Q2. pose proof (Gq _ (z_psi b) _ F3) as Q3. simpl in Q1, Q2, Q3. rewrite Q1, Q2, Q3.
    match goal with |- ?a + ?b' + ?c <= ?u + ?v + ?w + ?q + ?r + ?t => assert (0 <= v) by (simpl; nra); assert (0 <= q) by (simpl; nra); assert (0 <= t) by (simpl; nra) end.
    lra. }
  assert (E0 : sqrt (d2 (d 0%nat 0)) <= exp (- (kap * nth 0 li 0)) * (C' * s)).
  { eapply Rle_trans; [apply Mv; exact HLf|]. change (sh 0%nat) with e. rewrite Rplus_0_r.
    destruct (O o kR phi li' mi ki Cs' 0%nat e Ep Hr Hkd Hci' HB' ltac:(lia) ltac:(unfold e; lra)) as (_ & Q & _). specialize (Q eq_refl).
    rewrite El in Q. fold n s in Q. replace (nth 0 li' 0 - e) with (nth 0 li 0) in Q by (unfold e; ring). exact Q. }
  assert (E1 : sqrt (d2 (d n (nth n li 0))) <= exp (- (kap * nth n li 0)) * (C' * s)).
  { eapply Rle_trans; [apply Mv; exact HRf|]. replace (sh n) with 0 by (unfold sh; destruct n; [lia|reflexivity]). rewrite Rplus_0_l.
    destruct (O o kR phi li' mi ki Cs' n (nth n li 0) Ep Hr Hkd Hci' HB' ltac:(rewrite El; unfold n; lia) ltac:(lra)) as (_ & _ & Q).
    rewrite El in Q. fold n s in Q. exact (Q eq_refl). }
  lra.
Qed.
Print Assumptions C116_ends.

(** Both theorems apply to a skier over a crack of two segments (lengths in mm), modelled with short and with longer ends. *)
Lemma ex_cracked l0 l3 : 1 <= l0 -> 1 <= l3 -> cracked_inside 2 [l0; 1; 1; l3] [true; false; false; true] /\
  exists Cs, bvp (ex_obj "skier" None 30) 0 30 [l0; 1; 1; l3] [0; 80; 0] [true; false; false; true] Cs.
Proof.
  intros H0 H3. split.
  - unfold cracked_inside. cbn [List.length Nat.sub nth]. split; [lia|]. split; [reflexivity|]. split; [reflexivity|]. split; [lra|]. split; [lra|]. split.
    + intros j Hj. destruct j as [|[|[|[|j]]]]; simpl; try lra; lia.
    + unfold start. cbn [sumn nth]. lra.
  - destruct (well_posed (fun _ => ex_ews) elim_solve (ex_obj "skier" None 30) true 30
      [l0; 1; 1; l3] [0; 80; 0] [true; false; false; true] KSkier 0 elim_sound elim_complete
      (ex_ready _ _ _) ex_stable ltac:(simpl; lia)) as (Cs & _ & B & _); try reflexivity; try discriminate; [| |exists Cs; exact B].
    + unfold invalid_segments. simpl. intros [A|[A|[A|[_ [A|A]]]]]; try discriminate; try (apply A; reflexivity).
      specialize (A true (or_introl eq_refl)). discriminate.
    + split; [intros i Hi; destruct i as [|[|[|[|i]]]]; simpl; try lra; simpl in Hi; lia|].
      exists 0%nat. simpl. split; [lia|]. split; [reflexivity|lra].
Qed.
Example C115_example : exists C kap Cs, 0 < C /\ 0 < kap /\ cracked_inside 2 [9; 1; 1; 5] [true; false; false; true] /\
  bvp (ex_obj "skier" None 30) 0 30 [9; 1; 1; 5] [0; 80; 0] [true; false; false; true] Cs /\
  apart (field (ex_obj "skier" None 30) 30 9 true (nth 0 Cs []) 2) (at_rest (ex_obj "skier" None 30) 30)
  <= exp (- (kap * 7)) * (C * (80 * 9810 / 1000 / 1000 + slab_loads (ex_obj "skier" None 30) 30)).
Proof.
  destruct (ex_ready "skier" None 30) as (Hl & Hf & _). destruct (C115_bounded ex_par 2 Hl Hf ex_stable) as (C & kap & HC & Hk & D).
  destruct (ex_cracked 9 5 ltac:(lra) ltac:(lra)) as (Ci & Cs & B). exists C, kap, Cs. split; [exact HC|]. split; [exact Hk|]. split; [exact Ci|]. split; [exact B|].
  destruct (D (ex_obj "skier" None 30) 0 30 _ _ _ Cs 0%nat 2 eq_refl (ex_ready _ _ _) eq_refl Ci B ltac:(simpl; lia) ltac:(simpl; lra)) as (_ & E & _).
  specialize (E eq_refl). cbn [nth] in E. replace (9 - 2) with 7 in E by ring. eapply Rle_trans; [exact E|]. right. repeat f_equal.
  unfold skier_loads, line_load. cbn [List.length Nat.sub sumn nth ex_obj o_g o_lski]. rewrite !Rabs_pos_eq by lra. field.
Qed.
Example C116_example : exists C kap Cs Cs', 0 < C /\ 0 < kap /\
  bvp (ex_obj "skier" None 30) 0 30 [4; 1; 1; 4] [0; 80; 0] [true; false; false; true] Cs /\
  bvp (ex_obj "skier" None 30) 0 30 [6; 1; 1; 9] [0; 80; 0] [true; false; false; true] Cs' /\
  apart (field (ex_obj "skier" None 30) 30 1 false (nth 1 Cs []) (1 / 2)) (field (ex_obj "skier" None 30) 30 1 false (nth 1 Cs' []) (0 + 1 / 2))
  <= C * (exp (- (kap * 4)) + exp (- (kap * 4))) * (skier_loads (ex_obj "skier" None 30) [0; 80; 0] 3 + slab_loads (ex_obj "skier" None 30) 30).
Proof.
  destruct (ex_ready "skier" None 30) as (Hl & Hf & _). destruct (C116_ends ex_par 2 Hl Hf ex_stable) as (C & kap & HC & Hk & D).
  destruct (ex_cracked 4 4 ltac:(lra) ltac:(lra)) as (Ci & Cs & B). destruct (ex_cracked 6 9 ltac:(lra) ltac:(lra)) as (_ & Cs' & B').
  exists C, kap, Cs, Cs'. split; [exact HC|]. split; [exact Hk|]. split; [exact B|]. split; [exact B'|].
  apply (D (ex_obj "skier" None 30) 0 30 [4; 1; 1; 4] [6; 1; 1; 9] [0; 80; 0] [true; false; false; true] Cs Cs' 1%nat (1 / 2) eq_refl (ex_ready _ _ _) eq_refl Ci); try exact B; try exact B'.
  - split; [reflexivity|]. simpl. split; [lra|]. split; [lra|]. intros i Hi. destruct i as [|[|[|i]]]; try lia; reflexivity.
  - simpl; lia.
  - simpl; lra.
Qed.
