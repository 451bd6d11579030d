(** Property theorem C117: energy release rates of a crack hardly depend on how far the outer segments reach. *)
From Coquelicot Require Import Coquelicot.
Require Import Verif.Py Verif.MTools Verif.MEigen Verif.MFields Verif.SAdm Verif.MRaster
  Verif.MSolution Verif.MAnalysis Verif.SBeam Verif.SBvp Verif.SEig Verif.SEnergy Verif.SMirror Verif.SSkier Verif.SDecay Verif.PBeam Verif.PBeam2 Verif.PBvp Verif.PBvp2 Verif.PBalance Verif.PLinAlg
  Verif.PWell Verif.PWell2 Verif.PWell3 Verif.PBvp6 Verif.PMirror Verif.PSkier Verif.PSplit Verif.PWork Verif.PDecay Verif.PDecay2 Verif.PDecay3 Verif.PDecay4
  Verif.PDecay5 Verif.PDecay6 Verif.PropDecay Verif.PropDecay2 Verif.PConvex Verif.PDepend Verif.PApprox4 Verif.PEnergy2 Verif.PropEnergy Verif.PropDepend.

(** Movement of the weak layer's top: normal and tangential. *)
Definition sl (p : params) (z : vec6) : R := z_u z + hh p / 2 * z_psi z - wt p / 2 * z_dw z.
Lemma size6_comp z : Rabs (z_u z) <= size6 z /\ Rabs (z_w z) <= size6 z /\ Rabs (z_dw z) <= size6 z /\ Rabs (z_psi z) <= size6 z.
Proof.
  pose proof (size6_sq z) as Q. pose proof (size6_nonneg z) as N.
  assert (T : forall a, a ^ 2 <= size6 z ^ 2 -> Rabs a <= size6 z).
  { intros a H. rewrite <- (Rabs_pos_eq (size6 z)) by exact N. apply Rsqr_le_abs_0. unfold Rsqr. simpl in H. lra. }
  pose proof (pow2_ge_0 (z_u z)). pose proof (pow2_ge_0 (z_du z)). pose proof (pow2_ge_0 (z_w z)). pose proof (pow2_ge_0 (z_dw z)). pose proof (pow2_ge_0 (z_psi z)). pose proof (pow2_ge_0 (z_dpsi z)).
  repeat split; apply T; lra.
Qed.
Definition slw (p : params) : R := 1 + Rabs (hh p) / 2 + Rabs (wt p) / 2.
Lemma apart_forms p a b : Rabs (z_w a - z_w b) <= slw p * apart a b /\ Rabs (sl p a - sl p b) <= slw p * apart a b.
Proof.
  destruct (size6_comp (combo 1 a (-1) b)) as (U & W & D & P). fold (apart a b) in *. cbn [combo z_u z_w z_dw z_psi] in *.
  assert (N : 0 <= apart a b) by apply size6_nonneg. pose proof (Rabs_pos (hh p)) as H0. pose proof (Rabs_pos (wt p)) as W0.
  replace (1 * z_u a + -1 * z_u b) with (z_u a - z_u b) in U by ring. replace (1 * z_w a + -1 * z_w b) with (z_w a - z_w b) in W by ring.
  replace (1 * z_dw a + -1 * z_dw b) with (z_dw a - z_dw b) in D by ring. replace (1 * z_psi a + -1 * z_psi b) with (z_psi a - z_psi b) in P by ring.
  assert (A1 : Rabs (hh p) / 2 * Rabs (z_psi a - z_psi b) <= Rabs (hh p) / 2 * apart a b) by (apply Rmult_le_compat_l; lra).
  assert (A2 : Rabs (wt p) / 2 * Rabs (z_dw a - z_dw b) <= Rabs (wt p) / 2 * apart a b) by (apply Rmult_le_compat_l; lra).
  assert (B1 : 0 <= Rabs (hh p) / 2 * apart a b) by (apply Rmult_le_pos; lra). assert (B2 : 0 <= Rabs (wt p) / 2 * apart a b) by (apply Rmult_le_pos; lra).
  unfold slw. split; [lra|].
  replace (sl p a - sl p b) with ((z_u a - z_u b) + hh p / 2 * (z_psi a - z_psi b) + - (wt p / 2 * (z_dw a - z_dw b))) by (unfold sl; ring).
  eapply Rle_trans; [apply Rabs_triang|]. eapply Rle_trans; [apply Rplus_le_compat_r, Rabs_triang|].
  rewrite Rabs_Ropp, !Rabs_mult. replace (Rabs (hh p / 2)) with (Rabs (hh p) / 2) by (unfold Rdiv; rewrite Rabs_mult, (Rabs_pos_eq (/ 2)) by lra; reflexivity).
  replace (Rabs (wt p / 2)) with (Rabs (wt p) / 2) by (unfold Rdiv; rewrite Rabs_mult, (Rabs_pos_eq (/ 2)) by lra; reflexivity). lra.
Qed.
Lemma rest_forms o phi : lam_ok (o_par o) -> fnd_ok (o_par o) ->
  z_w (at_rest o phi) = (qn (loads_of o phi) + pn (loads_of o phi)) / kn (o_par o) /\
  sl (o_par o) (at_rest o phi) = (qt (loads_of o phi) + pt (loads_of o phi)) / kt (o_par o).
Proof.
  intros Hl Hf. unfold at_rest, zp, sl. cbn [z_u z_w z_psi z_dw]. split; [reflexivity|].
  destruct Hl as (_ & _ & HV & _). destruct Hf as (_ & Ht & _). field. lra.
Qed.

Lemma slab_parts o phi : Rabs (qn (loads_of o phi) + pn (loads_of o phi)) <= slab_loads o phi /\ Rabs (qt (loads_of o phi) + pt (loads_of o phi)) <= slab_loads o phi.
Proof.
  unfold slab_loads. cbv zeta. set (ld := loads_of o phi).
  pose proof (Rabs_triang (qn ld) (pn ld)). pose proof (Rabs_triang (qt ld) (pt ld)).
  pose proof (Rabs_pos (qn ld)). pose proof (Rabs_pos (pn ld)). pose proof (Rabs_pos (qt ld)). pose proof (Rabs_pos (pt ld)). split; lra.
Qed.
Lemma slab_loads_nonneg o phi : 0 <= slab_loads o phi.
Proof. destruct (slab_parts o phi) as [A _]. pose proof (Rabs_pos (qn (loads_of o phi) + pn (loads_of o phi))). lra. Qed.
Lemma skier_loads_nonneg o mi n : 0 <= skier_loads o mi n.
Proof. unfold skier_loads. apply sumn_nonneg. intros. apply Rabs_pos. Qed.
Lemma longer_inside Lam li li' ki : longer li li' -> cracked_inside Lam li ki -> cracked_inside Lam li' ki.
Proof.
  intros (El & G0 & Gn & Gm) Hci. pose proof Hci as (H2 & Hk0 & Hkn & L0 & Ln & Hpos & HL). set (n := (List.length li - 1)%nat) in *.
  assert (Hn1 : (0 < n)%nat) by (unfold n; lia).
  set (e := nth 0 li' 0 - nth 0 li 0). assert (He : 0 <= e) by (unfold e; lra).
  assert (St : forall j, (j < n)%nat -> start li' (S j) = e + start li (S j)).
  { induction j as [|j IH]; intros Hj; [unfold start, e; simpl; ring|]. unfold start in *. cbn [sumn] in *. rewrite (Gm (S j)) by lia.
    specialize (IH ltac:(lia)). lra. }
  unfold cracked_inside. cbv zeta. rewrite El. fold n. split; [exact H2|]. split; [exact Hk0|]. split; [exact Hkn|]. split; [lra|]. split; [lra|]. split.
  - intros j Hj. pose proof (Hpos j Hj) as A. destruct (Nat.eq_dec j 0) as [->|N0]; [lra|]. destruct (Nat.eq_dec j n) as [->|Nn]; [lra|].
    rewrite Gm by (unfold n in *; lia). exact A.
  - pose proof (St 0%nat Hn1) as S1. pose proof (St (n - 1)%nat ltac:(lia)) as S2. replace (S (n - 1)) with n in S2 by lia. lra.
Qed.

(** Weight of the ends. *)
Definition ends (kap : R) (li : list R) : R := exp (- (kap * nth 0 li 0)) + exp (- (kap * nth (List.length li - 1) li 0)).
(** All the loads. *)
Definition all_loads (o : obj) (phi : R) (mi li : list R) : R := skier_loads o mi (List.length li - 1) + slab_loads o phi.
(** Both movements are bounded by the loads and differ little between the two models. *)
Lemma forms_close p Lam : lam_ok p -> fnd_ok p -> stable p -> exists C kap, 0 < C /\ 0 < kap /\
  forall o kR phi li li' mi ki Cs Cs' i x, o_par o = p -> ready o -> kind_of (o_system o) = Some KSkier ->
    cracked_inside Lam li ki -> longer li li' ->
    bvp o kR phi li mi ki Cs -> bvp o kR phi li' mi ki Cs' -> (i < List.length li)%nat -> 0 <= x <= nth i li 0 ->
    let shift := if (i =? 0)%nat then nth 0 li' 0 - nth 0 li 0 else 0 in
    let y := field o phi (nth i li 0) (nth i ki false) (nth i Cs []) x in
    let y' := field o phi (nth i li' 0) (nth i ki false) (nth i Cs' []) (shift + x) in
    let s := all_loads o phi mi li in
    forall f, f = z_w \/ f = sl p -> Rabs (f y - f y') <= C * ends kap li * s /\ Rabs (f y) <= C * s /\ Rabs (f y') <= C * s.
Proof.
  intros Hl Hf Hs. destruct (C116_ends p Lam Hl Hf Hs) as (C & kap & HC & Hk & D). destruct (C115_bounded p Lam Hl Hf Hs) as (C1 & k1 & HC1 & Hk1 & B).
  pose proof Hf as (Hn & Ht & _). set (w := slw p). assert (Hw : 0 < w) by (unfold w, slw; pose proof (Rabs_pos (hh p)); pose proof (Rabs_pos (wt p)); lra).
  assert (In : 0 < / kn p) by (apply Rinv_0_lt_compat; exact Hn). assert (It : 0 < / kt p) by (apply Rinv_0_lt_compat; exact Ht).
  set (K := w * C + (w * C1 + / kn p + / kt p)).
  assert (P1 : 0 < w * C) by (apply Rmult_lt_0_compat; assumption). assert (P2 : 0 < w * C1) by (apply Rmult_lt_0_compat; assumption).
  exists K, kap. split; [unfold K; lra|]. split; [exact Hk|].
  intros o kR phi li li' mi ki Cs Cs' i x Ep Hr Hkd Hci Hlo HB HB' Hi Hx shift y y' s f Hff.
  pose proof (skier_loads_nonneg o mi (List.length li - 1)) as S1. pose proof (slab_loads_nonneg o phi) as S2.
  assert (S0 : 0 <= s) by (unfold s, all_loads; lra).
  assert (E0 : 0 <= ends kap li) by (unfold ends; pose proof (exp_pos (- (kap * nth 0 li 0))); pose proof (exp_pos (- (kap * nth (List.length li - 1) li 0))); lra).
  assert (Dif : forall a b, Rabs (f a - f b) <= w * apart a b) by (intros a b; destruct (apart_forms p a b); destruct Hff as [->| ->]; assumption).
  pose proof (longer_inside Lam li li' ki Hlo Hci) as Hci'. pose proof Hlo as (El & G0 & Gn & Gm).
  assert (Rest : Rabs (f (at_rest o phi)) <= (/ kn p + / kt p) * s).
  { rewrite <- Ep in Hl, Hf. destruct (rest_forms o phi Hl Hf) as [R1 R2]. rewrite Ep in R1, R2. destruct (slab_parts o phi) as [Q1 Q2].
    assert (T : forall v k, 0 < / k -> Rabs v <= slab_loads o phi -> Rabs (v / k) <= / k * s).
    { intros v k Ik Hv. unfold Rdiv. rewrite Rabs_mult, (Rabs_pos_eq (/ k)) by lra. rewrite Rmult_comm. apply Rmult_le_compat_l; [lra|]. unfold s, all_loads. lra. }
    assert (0 <= / kn p * s) by (apply Rmult_le_pos; lra). assert (0 <= / kt p * s) by (apply Rmult_le_pos; lra).
    destruct Hff as [->| ->]; [rewrite R1; pose proof (T _ _ In Q1)|rewrite R2; pose proof (T _ _ It Q2)]; lra. }
  assert (Bd : forall z, apart z (at_rest o phi) <= C1 * s -> Rabs (f z) <= K * s).
  { intros z Hz. pose proof (Dif z (at_rest o phi)) as Q. pose proof (Rabs_triang (f z - f (at_rest o phi)) (f (at_rest o phi))) as T.
    replace (f z - f (at_rest o phi) + f (at_rest o phi)) with (f z) in T by ring.
    assert (w * apart z (at_rest o phi) <= w * (C1 * s)) by (apply Rmult_le_compat_l; lra).
    assert (0 <= w * C * s) by (apply Rmult_le_pos; lra). unfold K. lra. }
  split; [|split].
  - pose proof (D o kR phi li li' mi ki Cs Cs' i x Ep Hr Hkd Hci Hlo HB HB' Hi Hx) as Q. cbv zeta in Q. fold shift y y' in Q.
    change (apart y y' <= C * ends kap li * s) in Q.
    eapply Rle_trans; [apply Dif|]. assert (w * apart y y' <= w * (C * ends kap li * s)) by (apply Rmult_le_compat_l; lra).
    assert (0 <= ends kap li * s) by (apply Rmult_le_pos; lra). assert (0 <= (w * C1 + / kn p + / kt p) * (ends kap li * s)) by (apply Rmult_le_pos; lra).
    unfold K. lra.
  - apply Bd. destruct (B o kR phi li mi ki Cs i x Ep Hr Hkd Hci HB Hi Hx) as (Q & _). exact Q.
  - apply Bd. assert (X : 0 <= shift + x <= nth i li' 0).
    { unfold shift. destruct (Nat.eqb_spec i 0) as [->|N0]; [lra|]. destruct (Nat.eq_dec i (List.length li - 1)) as [->|Nn]; [lra|]. rewrite (Gm i) by lia. lra. }
    destruct (B o kR phi li' mi ki Cs' i (shift + x) Ep Hr Hkd Hci' HB' ltac:(lia) X) as (Q & _). rewrite El in Q. exact Q.
Qed.
Lemma prod_diff a b c d e M : Rabs (a - c) <= e -> Rabs (b - d) <= e -> Rabs b <= M -> Rabs c <= M -> Rabs (a * b - c * d) <= 2 * (e * M).
Proof.
  intros H1 H2 H3 H4. replace (a * b - c * d) with ((a - c) * b + c * (b - d)) by ring. eapply Rle_trans; [apply Rabs_triang|]. rewrite !Rabs_mult.
  pose proof (Rabs_pos (a - c)). pose proof (Rabs_pos (b - d)). pose proof (Rabs_pos b). pose proof (Rabs_pos c).
  assert (Rabs (a - c) * Rabs b <= e * M) by (apply Rmult_le_compat; assumption).
  assert (Rabs c * Rabs (b - d) <= M * e) by (apply Rmult_le_compat; assumption). lra.
Qed.
(** Unit factor; zero for unknown units. *)
Definition factor (unit : string) : R := match conv_err unit with Ok c => c | Err _ => 0 end.
Lemma factor_bounds unit : 0 <= factor unit <= 1000.
Proof. unfold factor, conv_err. destruct (String.eqb unit "J/m^2"); [lra|]. destruct (String.eqb unit "kJ/m^2"); [lra|]. destruct (String.eqb unit "N/mm"); lra. Qed.
Lemma factor_is unit c : err_factor unit c -> factor unit = c.
Proof. intros [[-> ->]|[[-> ->]|[-> ->]]]; reflexivity. Qed.
Lemma no_tip_sum ki n f : (forall j, (j < n)%nat -> ~ is_tip ki j) -> tip_sum ki n f = 0.
Proof.
  intros H. unfold tip_sum. assert (I : forall j, In j (seq 0 n) -> (j < n)%nat) by (intros j Hj; apply in_seq in Hj; lia).
  induction (seq 0 n) as [|j l IH]; [reflexivity|]. cbn [map]. cbn [rsum fold_right]. fold (rsum (map (fun j => if Bool.bool_dec (nth j ki false) (nth (S j) ki false) then 0 else f j) l)).
  rewrite (IH (fun j Hj => I j (or_intror Hj))). destruct (Bool.bool_dec _ _) as [|N]; [ring|]. exfalso. exact (H j (I j (or_introl eq_refl)) N).
Qed.
Lemma gdif_sum o phi Cs li ki unit G G1 G2 : List.length ki = List.length li ->
  gdif (o_par o) (o_eig o) (loads_of o phi) Cs li ki unit = Ok (G, G1, G2) ->
  let z j := field o phi (nth j li 0) (nth j ki false) (nth j Cs []) (nth j li 0) in
  let n := (List.length li - 1)%nat in
  G1 = factor unit * tip_sum ki n (fun j => weight_at ki j * GI (o_par o) (z j)) /\
  G2 = factor unit * tip_sum ki n (fun j => weight_at ki j * GII (o_par o) (z j)) /\ G = G1 + G2.
Proof.
  intros L E z n. assert (W : tip_weights ki (List.length li) (weight_at ki)) by (rewrite <- L; apply weight_at_ok).
  destruct (C42_weights _ _ _ _ _ _ _ _ _ _ _ L W E) as [(Nt & -> & -> & ->)|(c & Hc & Q)].
  - rewrite !no_tip_sum by (intros j Hj; apply Nt; unfold n in Hj; lia). lra.
  - rewrite (factor_is _ _ Hc). exact Q.
Qed.
Lemma weight_bounds ki j : 0 <= weight_at ki j <= 1.
Proof. unfold weight_at. destruct (_ || _)%bool; lra. Qed.

(** C117: the differential energy release rates of two models of the same cracked slab that differ only in how far the outer
    segments reach differ by no more than an exponential of their lengths times the square of the loads ... *)
Theorem C117_differential p Lam : lam_ok p -> fnd_ok p -> stable p -> exists C kap, 0 < C /\ 0 < kap /\
  forall o kR phi li li' mi ki Cs Cs' unit G G1 G2 G' G1' G2', o_par o = p -> ready o -> kind_of (o_system o) = Some KSkier ->
    List.length ki = List.length li -> cracked_inside Lam li ki -> longer li li' ->
    bvp o kR phi li mi ki Cs -> bvp o kR phi li' mi ki Cs' ->
    gdif p (o_eig o) (loads_of o phi) Cs li ki unit = Ok (G, G1, G2) -> gdif p (o_eig o) (loads_of o phi) Cs' li' ki unit = Ok (G', G1', G2') ->
    let n := (List.length li - 1)%nat in
    let bound := C * INR n * (exp (- (kap * nth 0 li 0)) + exp (- (kap * nth n li 0))) * (skier_loads o mi n + slab_loads o phi) ^ 2 in
    Rabs (G1 - G1') <= bound /\ Rabs (G2 - G2') <= bound /\ Rabs (G - G') <= bound.
Proof.
  intros Hl Hf Hs. destruct (forms_close p Lam Hl Hf Hs) as (K & kap & HK & Hk & F). pose proof Hf as (Hn & Ht & _).
  assert (KK : 0 < K * K) by (apply Rmult_lt_0_compat; assumption).
  set (kk := kn p + kt p). exists (1000 * (kk * (K * K))), kap. assert (kkp : 0 < kk * (K * K)) by (apply Rmult_lt_0_compat; unfold kk; lra).
  split; [lra|]. split; [exact Hk|].
  intros o kR phi li li' mi ki Cs Cs' unit G G1 G2 G' G1' G2' Ep Hr Hkd Lk Hci Hlo HB HB' E E' n bound.
  pose proof Hlo as (El & G0 & Gn & Gm). rewrite <- Ep in E, E'.
  destruct (gdif_sum o phi Cs li ki unit G G1 G2 Lk E) as (A1 & A2 & A0). destruct (gdif_sum o phi Cs' li' ki unit G' G1' G2' ltac:(congruence) E') as (B1 & B2 & B0).
  rewrite El in B1, B2. rewrite Ep in *. fold n in A1, A2, B1, B2.
  set (s := all_loads o phi mi li). set (en := ends kap li).
  set (y := fun j => field o phi (nth j li 0) (nth j ki false) (nth j Cs []) (nth j li 0)) in *.
  set (y' := fun j => field o phi (nth j li' 0) (nth j ki false) (nth j Cs' []) (nth j li' 0)) in *.
  assert (en0 : 0 <= en) by (unfold en, ends; pose proof (exp_pos (- (kap * nth 0 li 0))); pose proof (exp_pos (- (kap * nth (List.length li - 1) li 0))); lra).
  assert (Sq : forall f, f = z_w \/ f = sl p -> forall j, (j < n)%nat -> Rabs (f (y j) * f (y j) - f (y' j) * f (y' j)) <= 2 * (K * K) * (en * s ^ 2)).
  { intros f Hff j Hj. pose proof Hci as (_ & _ & _ & _ & _ & Hpos & _). pose proof (Hpos j ltac:(unfold n in Hj; lia)) as Pj.
    pose proof (F o kR phi li li' mi ki Cs Cs' j (nth j li 0) Ep Hr Hkd Hci Hlo HB HB' ltac:(unfold n in Hj; lia) ltac:(lra) f Hff) as Q. cbv zeta in Q.
    replace ((if (j =? 0)%nat then nth 0 li' 0 - nth 0 li 0 else 0) + nth j li 0) with (nth j li' 0) in Q
      by (destruct (Nat.eqb_spec j 0) as [->|N0]; [ring|rewrite (Gm j) by (unfold n in Hj; lia); ring]).
    fold (y j) (y' j) s en in Q. destruct Q as (Q1 & Q2 & Q3). eapply Rle_trans; [exact (prod_diff _ _ _ _ _ _ Q1 Q1 Q2 Q3)|]. right. ring. }
  assert (T : forall (g : params -> vec6 -> R) k f, 0 < k <= kk -> (f = z_w \/ f = sl p) -> (forall z, g p z = k / 2 * (f z * f z)) ->
    Rabs (factor unit * tip_sum ki n (fun j => weight_at ki j * g p (y j)) - factor unit * tip_sum ki n (fun j => weight_at ki j * g p (y' j))) <= factor unit * (k * (K * K) * INR n * (en * s ^ 2))).
  { intros g k f Hkk Hff Hg. apply scaled_diff; [apply factor_bounds|].
    eapply Rle_trans; [apply (tip_sum_diff ki n _ _ (fun _ => k * (K * K) * (en * s ^ 2)))|].
    - intros j Hj. rewrite !Hg. destruct (weight_bounds ki j) as [W0 W1]. pose proof (Sq f Hff j Hj) as Q.
      replace (weight_at ki j * (k / 2 * (f (y j) * f (y j))) - weight_at ki j * (k / 2 * (f (y' j) * f (y' j)))) with (weight_at ki j * (k / 2 * (f (y j) * f (y j) - f (y' j) * f (y' j)))) by ring.
      rewrite !Rabs_mult. rewrite (Rabs_pos_eq (weight_at ki j)) by exact W0. rewrite (Rabs_pos_eq (k / 2)) by lra.
      rewrite <- (Rmult_1_l (k * (K * K) * (en * s ^ 2))). apply Rmult_le_compat; [exact W0|apply Rmult_le_pos; [lra|apply Rabs_pos]|exact W1|].
      replace (k * (K * K) * (en * s ^ 2)) with (k / 2 * (2 * (K * K) * (en * s ^ 2))) by field. apply Rmult_le_compat_l; [lra|exact Q].
    - intros j. apply Rmult_le_pos; [apply Rmult_le_pos; lra|]. apply Rmult_le_pos; [exact en0|apply pow2_ge_0].
    - right. assert (Cn : forall c l, rsum (map (fun _ : nat => c) l) = c * INR (List.length l)).
      { intros c l. induction l as [|a l IH]; [simpl; ring|]. cbn [map rsum fold_right]. fold (rsum (map (fun _ : nat => c) l)). rewrite IH. cbn [List.length]. rewrite S_INR. ring. }
      rewrite Cn, seq_length. ring. }
  assert (SE : 0 <= INR n * (en * s ^ 2)) by (apply Rmult_le_pos; [apply pos_INR|apply Rmult_le_pos; [exact en0|apply pow2_ge_0]]).
  destruct (factor_bounds unit) as [c0 c1].
  assert (KS : 0 <= K * K * (INR n * (en * s ^ 2))) by (apply Rmult_le_pos; lra).
  assert (Fin : forall k, 0 < k <= kk -> factor unit * (k * (K * K) * INR n * (en * s ^ 2)) <= 1000 * (k * (K * K * (INR n * (en * s ^ 2))))).
  { intros k Hkk. replace (k * (K * K) * INR n * (en * s ^ 2)) with (k * (K * K * (INR n * (en * s ^ 2)))) by ring. apply Rmult_le_compat_r; [apply Rmult_le_pos; lra|exact c1]. }
  assert (Bn : bound = 1000 * (kk * (K * K * (INR n * (en * s ^ 2))))) by (unfold bound, en, ends, s, all_loads; fold n; ring).
  pose proof (T GI (kn p) z_w ltac:(unfold kk; lra) ltac:(auto)) as T1. pose proof (T GII (kt p) (sl p) ltac:(unfold kk; lra) ltac:(auto)) as T2.
  assert (X1 : Rabs (G1 - G1') <= 1000 * (kn p * (K * K * (INR n * (en * s ^ 2))))).
  { rewrite A1, B1. eapply Rle_trans; [apply T1; intros z; unfold GI; field; lra|]. apply Fin. unfold kk; lra. }
  assert (X2 : Rabs (G2 - G2') <= 1000 * (kt p * (K * K * (INR n * (en * s ^ 2))))).
  { rewrite A2, B2. eapply Rle_trans; [apply T2; intros z; unfold GII, sl; field; lra|]. apply Fin. unfold kk; lra. }
  assert (Y1 : 0 <= kn p * (K * K * (INR n * (en * s ^ 2)))) by (apply Rmult_le_pos; lra). assert (Y2 : 0 <= kt p * (K * K * (INR n * (en * s ^ 2)))) by (apply Rmult_le_pos; lra).
  rewrite Bn. unfold kk. split; [lra|]. split; [lra|]. rewrite A0, B0. replace (G1 + G2 - (G1' + G2')) with ((G1 - G1') + (G2 - G2')) by ring.
  eapply Rle_trans; [apply Rabs_triang|]. lra.
Qed.
Print Assumptions C117_differential.
Ltac asR := match goal with |- ?a = ?b => change (@eq R a b) end.
Lemma form_cont o phi l k C f x : ready o -> f = z_w \/ f = sl (o_par o) -> continuous (fun t => f (field o phi l k C t)) x.
Proof.
  intros Hr Hff. destruct (field_balance o phi l k C x (proj1 Hr) (proj1 (proj2 Hr)) (ready_eig o Hr)) as (H1 & H2 & H3 & H4 & H5 & H6).
  assert (Cd : forall (g : R -> R) d, is_derive g x d -> continuous g x) by (intros g d H; apply (ex_derive_continuous (K := R_AbsRing) (V := R_NormedModule)); exists d; exact H).
  destruct Hff as [->| ->]; [exact (Cd _ _ H2)|]. destruct Hr as ((_ & _ & HV & _) & _).
  assert (Cw : continuous (fun t => z_dw (field o phi l k C t)) x).
  { apply (continuous_ext (fun t => sV (o_par o) (field o phi l k C t) / kA55 (o_par o) + -1 * z_psi (field o phi l k C t))).
    - intros t. asR. unfold sV. field. lra.
    - apply (@continuous_plus R_UniformSpace R_AbsRing R_NormedModule).
      + apply (continuous_ext (fun t => / kA55 (o_par o) * sV (o_par o) (field o phi l k C t))); [intros t; asR; unfold Rdiv; ring|].
        exact (continuous_scal_r (K := R_AbsRing) (V := R_NormedModule) (/ kA55 (o_par o)) _ _ (Cd _ _ H5)).
      + exact (continuous_scal_r (K := R_AbsRing) (V := R_NormedModule) (-1) _ _ (Cd _ _ H3)). }
  apply (continuous_ext (fun t => z_u (field o phi l k C t) + (hh (o_par o) / 2 * z_psi (field o phi l k C t) + - (wt (o_par o) / 2) * z_dw (field o phi l k C t)))).
  - intros t. asR. unfold sl. ring.
  - apply (@continuous_plus R_UniformSpace R_AbsRing R_NormedModule); [exact (Cd _ _ H1)|]. apply (@continuous_plus R_UniformSpace R_AbsRing R_NormedModule).
    + exact (continuous_scal_r (K := R_AbsRing) (V := R_NormedModule) _ _ _ (Cd _ _ H3)).
    + exact (continuous_scal_r (K := R_AbsRing) (V := R_NormedModule) _ _ _ Cw).
Qed.
Lemma crack_sum_ext k0 ki n f g : (forall i, (i < n)%nat -> cracking k0 ki i = true -> f i = g i) -> crack_sum k0 ki n f = crack_sum k0 ki n g.
Proof.
  intros H. unfold crack_sum. f_equal. apply map_ext_in. intros i Hi. apply in_seq in Hi. destruct (cracking k0 ki i) eqn:E; [|reflexivity]. apply H; [lia|exact E].
Qed.
Lemma crack_sum_diff k0 ki n f g l D : (forall i, (i < n)%nat -> cracking k0 ki i = true -> Rabs (f i - g i) <= l i * D) ->
  Rabs (crack_sum k0 ki n f - crack_sum k0 ki n g) <= crack_sum k0 ki n l * D.
Proof.
  intros H. unfold crack_sum. assert (J : forall j, In j (seq 0 n) -> (j < n)%nat) by (intros j Hj; apply in_seq in Hj; lia).
  induction (seq 0 n) as [|j r IH]; [simpl; rewrite Rminus_diag_eq, Rabs_R0 by reflexivity; lra|].
  specialize (IH (fun j Hj => J j (or_intror Hj))). pose proof (H j (J j (or_introl eq_refl))) as Hj. cbn [map]. cbn [rsum fold_right].
  match goal with |- Rabs (?a + ?x - (?b + ?y)) <= (?c + ?z) * D => replace (a + x - (b + y)) with ((a - b) + (x - y)) by ring end.
  eapply Rle_trans; [apply Rabs_triang|]. rewrite Rmult_plus_distr_r. apply Rplus_le_compat; [|exact IH].
  destruct (cracking k0 ki j); [apply Hj; reflexivity|rewrite Rminus_diag_eq, Rabs_R0 by reflexivity; lra].
Qed.

(** ... and so do the incremental ones, apart from the error [q] of the quadrature. *)
Theorem C117_incremental p Lam : lam_ok p -> fnd_ok p -> stable p -> exists C kap, 0 < C /\ 0 < kap /\
  forall o kR0 kR1 phi li li' mi k0 ki Ca Cb Ca' Cb' quad q G G1 G2 G' G1' G2', o_par o = p -> ready o -> kind_of (o_system o) = Some KSkier ->
    cracked_inside Lam li k0 -> cracked_inside Lam li ki -> longer li li' ->
    bvp o kR0 phi li mi k0 Ca -> bvp o kR1 phi li mi ki Cb -> bvp o kR0 phi li' mi k0 Ca' -> bvp o kR1 phi li' mi ki Cb' ->
    accurate_quad quad q -> (exists i, cracking k0 ki i = true) ->
    ginc quad p (o_eig o) (loads_of o phi) Ca Cb li ki k0 = Ok (Some G, Some G1, Some G2) ->
    ginc quad p (o_eig o) (loads_of o phi) Ca' Cb' li' ki k0 = Ok (Some G', Some G1', Some G2') ->
    let n := (List.length li - 1)%nat in
    let da := crack_sum k0 ki (List.length li) (fun i => nth i li 0) in
    let bound := C * (exp (- (kap * nth 0 li 0)) + exp (- (kap * nth n li 0))) * (skier_loads o mi n + slab_loads o phi) ^ 2 + 2 * INR (S n) * q / da in
    0 < da /\ Rabs (G1 - G1') <= bound /\ Rabs (G2 - G2') <= bound /\ Rabs (G - G') <= bound.
Proof.
  intros Hl Hf Hs. destruct (forms_close p Lam Hl Hf Hs) as (K & kap & HK & Hk & F). pose proof Hf as (Hn & Ht & _).
  assert (KK : 0 < K * K) by (apply Rmult_lt_0_compat; assumption).
  set (kk := kn p + kt p). exists (kk * (K * K)), kap. assert (kkp : 0 < kk * (K * K)) by (apply Rmult_lt_0_compat; unfold kk; lra).
  split; [lra|]. split; [exact Hk|].
  intros o kR0 kR1 phi li li' mi k0 ki Ca Cb Ca' Cb' quad q G G1 G2 G' G1' G2' Ep Hr Hkd Hc0 Hc1 Hlo Ba Bb Ba' Bb' HQ Hex E E' n da bound.
  pose proof Hlo as (El & G0 & Gn & Gm). pose proof Hc1 as (H2 & Hk0 & Hkn & _ & _ & Hpos & _). fold n in Hkn, Gn, Gm.
  assert (Sn : List.length li = S n) by (unfold n; lia).
  rewrite <- Ep in E, E'.
  destruct (C44_crack_opening quad q o phi Ca Cb li ki k0 G G1 G2 HQ Hr E) as (A0 & _ & A). destruct (A Hex) as (Dp & A1 & A2). clear A.
  destruct (C44_crack_opening quad q o phi Ca' Cb' li' ki k0 G' G1' G2' HQ Hr E') as (B0 & _ & B). destruct (B Hex) as (_ & B1 & B2). clear B.
  rewrite El in B1, B2. assert (Eda : da = crack_sum k0 ki (S n) (fun i => nth i li 0)) by (unfold da; rewrite Sn; reflexivity).
  fold da in Dp, A1, A2. rewrite Sn in A1, A2, B1, B2, H2, Hpos.
  assert (Inner : forall i, (i < S n)%nat -> cracking k0 ki i = true -> (0 < i < n)%nat /\ nth i li' 0 = nth i li 0 /\ nth i k0 false = true /\ nth i ki false = false).
  { intros i Hi Hc. unfold cracking in Hc. apply andb_true_iff in Hc. destruct Hc as [C1 C2]. apply negb_true_iff in C2.
    assert (i <> 0%nat) by (intros ->; congruence). assert (i <> n) by (intros ->; congruence). assert (J : (0 < i < n)%nat) by lia. split; [exact J|]. split; [exact (Gm i J)|]. auto. }
  assert (Ed : crack_sum k0 ki (S n) (fun i => nth i li' 0) = da) by (rewrite Eda; apply crack_sum_ext; intros i Hi Hc; apply Inner; assumption).
  rewrite Ed in B1, B2.
  set (s := all_loads o phi mi li) in *. set (en := ends kap li) in *.
  assert (en0 : 0 <= en) by (unfold en, ends; pose proof (exp_pos (- (kap * nth 0 li 0))); pose proof (exp_pos (- (kap * nth (List.length li - 1) li 0))); lra).
  assert (Pt : forall f, f = z_w \/ f = sl p -> forall i x, (i < S n)%nat -> cracking k0 ki i = true -> 0 <= x <= nth i li 0 ->
    Rabs (f (field o phi (nth i li 0) true (nth i Ca []) x) * f (field o phi (nth i li 0) false (nth i Cb []) x)
        - f (field o phi (nth i li' 0) true (nth i Ca' []) x) * f (field o phi (nth i li' 0) false (nth i Cb' []) x)) <= 2 * (K * K) * (en * s ^ 2)).
  { intros f Hff i x Hi Hc Hx. destruct (Inner i Hi Hc) as (J & Ei & C1 & C2).
    pose proof (F o kR0 phi li li' mi k0 Ca Ca' i x Ep Hr Hkd Hc0 Hlo Ba Ba' ltac:(lia) Hx f Hff) as Qa.
    pose proof (F o kR1 phi li li' mi ki Cb Cb' i x Ep Hr Hkd Hc1 Hlo Bb Bb' ltac:(lia) Hx f Hff) as Qb. cbv zeta in Qa, Qb.
    replace (i =? 0)%nat with false in Qa, Qb by (symmetry; apply Nat.eqb_neq; lia). rewrite Rplus_0_l in Qa, Qb. rewrite C1 in Qa. rewrite C2 in Qb. fold s en in Qa, Qb.
    destruct Qa as (Q1 & Q2 & Q3). destruct Qb as (R1 & R2 & R3). eapply Rle_trans; [exact (prod_diff _ _ _ _ _ _ Q1 R1 R2 Q3)|]. right. ring. }
  assert (Ex : accurate_quad (fun f a b => RInt f a b) 0) by (intros f a b _; rewrite Rminus_diag_eq, Rabs_R0 by reflexivity; lra).
  assert (Int : forall (h : R -> list R -> list R -> R -> R) c f, 0 < Rabs c -> (f = z_w \/ f = sl p) ->
    (forall l X Y x, h l X Y x = c * (f (field o phi l true X x) * f (field o phi l false Y x))) ->
    Rabs (crack_sum k0 ki (S n) (fun i => RInt (h (nth i li 0) (nth i Ca []) (nth i Cb [])) 0 (nth i li 0))
        - crack_sum k0 ki (S n) (fun i => RInt (h (nth i li' 0) (nth i Ca' []) (nth i Cb' [])) 0 (nth i li' 0))) <= da * (Rabs c * (2 * (K * K) * (en * s ^ 2)))).
  { intros h c f Hc Hff Hh. rewrite Eda. apply crack_sum_diff. intros i Hi Hcr. destruct (Inner i Hi Hcr) as (J & Ei & _ & _).
    assert (Hct : forall l X Y t, continuous (h l X Y) t).
    { intros l X Y t. apply (continuous_ext (fun x => c * (f (field o phi l true X x) * f (field o phi l false Y x)))); [intros x; symmetry; apply Hh|].
      apply (continuous_scal_r (K := R_AbsRing) (V := R_NormedModule)). apply continuous_mulR; apply form_cont; rewrite ?Ep; assumption. }
    pose proof (integral_close (fun f a b => RInt f a b) 0 (h (nth i li 0) (nth i Ca []) (nth i Cb [])) (h (nth i li' 0) (nth i Ca' []) (nth i Cb' [])) (nth i li 0)
      (Rabs c * (2 * (K * K) * (en * s ^ 2))) Ex (Hpos i ltac:(lia)) (fun x => Hct _ _ _ x) (fun x => Hct _ _ _ x)) as Q.
    rewrite Rplus_0_l in Q. rewrite Ei at 2. apply Q. intros x Hx. rewrite !Hh, <- Rmult_minus_distr_l, Rabs_mult. apply Rmult_le_compat_l; [lra|]. exact (Pt f Hff i x Hi Hcr Hx). }
  assert (Fin : forall g g' I I' k, Rabs (g - 1 / (2 * da) * I) <= INR (S n) * q / (2 * da) -> Rabs (g' - 1 / (2 * da) * I') <= INR (S n) * q / (2 * da) ->
    Rabs (I - I') <= da * (k * (2 * (K * K) * (en * s ^ 2))) -> Rabs (g - g') <= k * ((K * K) * (en * s ^ 2)) + INR (S n) * q / da).
  { intros g g' J J' k X Y Z.
    replace (g - g') with ((g - 1 / (2 * da) * J) + (- (g' - 1 / (2 * da) * J') + 1 / (2 * da) * (J - J'))) by ring.
    eapply Rle_trans; [apply Rabs_triang|]. eapply Rle_trans; [apply Rplus_le_compat_l, Rabs_triang|]. rewrite Rabs_Ropp, (Rabs_mult (1 / (2 * da))).
    assert (0 < 1 / (2 * da)) by (apply Rdiv_lt_0_compat; lra). rewrite (Rabs_pos_eq (1 / (2 * da))) by lra.
    assert (1 / (2 * da) * Rabs (J - J') <= 1 / (2 * da) * (da * (k * (2 * (K * K) * (en * s ^ 2))))) as W by (apply Rmult_le_compat_l; lra).
    replace (1 / (2 * da) * (da * (k * (2 * (K * K) * (en * s ^ 2))))) with (k * ((K * K) * (en * s ^ 2))) in W by (field; lra).
    replace (INR (S n) * q / da) with (INR (S n) * q / (2 * da) + INR (S n) * q / (2 * da)) by (field; lra). lra. }
  assert (X1 : Rabs (G1 - G1') <= kn p * ((K * K) * (en * s ^ 2)) + INR (S n) * q / da).
  { eapply Fin; [exact A1|exact B1|]. rewrite <- (Rabs_pos_eq (kn p)) by lra. apply (Int (opening o phi) (kn p) z_w); [rewrite Rabs_pos_eq; lra|auto|]. intros l X Y x. unfold opening. rewrite Ep. ring. }
  assert (X2 : Rabs (G2 - G2') <= kt p * ((K * K) * (en * s ^ 2)) + INR (S n) * q / da).
  { eapply Fin; [exact A2|exact B2|]. replace (kt p) with (Rabs (- kt p)) by (rewrite Rabs_Ropp, Rabs_pos_eq; lra).
    apply (Int (sliding o phi) (- kt p) (sl p)); [rewrite Rabs_Ropp, Rabs_pos_eq; lra|auto|]. intros l X Y x. unfold sliding, s_tau, sl. rewrite Ep. ring. }
  assert (Y1 : 0 <= kn p * ((K * K) * (en * s ^ 2))) by (apply Rmult_le_pos; [lra|]; apply Rmult_le_pos; [lra|]; apply Rmult_le_pos; [exact en0|apply pow2_ge_0]).
  assert (Y2 : 0 <= kt p * ((K * K) * (en * s ^ 2))) by (apply Rmult_le_pos; [lra|]; apply Rmult_le_pos; [lra|]; apply Rmult_le_pos; [exact en0|apply pow2_ge_0]).
  assert (q0 : 0 <= q). { eapply Rle_trans; [apply Rabs_pos|]. apply (HQ (fun _ => 0) 0 0). intros; apply continuous_const. }
  assert (Y3 : 0 <= INR (S n) * q / da) by (unfold Rdiv; apply Rmult_le_pos; [apply Rmult_le_pos; [apply pos_INR|exact q0]|left; apply Rinv_0_lt_compat; exact Dp]).
  assert (Bn : bound = kk * ((K * K) * (en * s ^ 2)) + (INR (S n) * q / da + INR (S n) * q / da)) by (unfold bound, en, ends, s, all_loads; fold n; field; lra).
  split; [exact Dp|]. rewrite Bn. unfold kk. split; [lra|]. split; [lra|]. rewrite A0, B0. replace (G1 + G2 - (G1' + G2')) with ((G1 - G1') + (G2 - G2')) by ring.
  eapply Rle_trans; [apply Rabs_triang|]. lra.
Qed.
Print Assumptions C117_incremental.

(** Both theorems apply to a skier over a crack of two segments of 1 mm, modelled with outer segments of 4 mm and with longer ones. *)
Lemma ex_model l0 l3 k : 1 <= l0 -> 1 <= l3 ->
  cracked_inside 2 [l0; 1; 1; l3] [true; k; k; true] /\
  exists Cs, six_each 4 Cs /\ bvp (ex_obj "skier" None 30) 0 30 [l0; 1; 1; l3] [0; 80; 0] [true; k; k; true] Cs.
Proof.
  intros H0 H3. split.
  - unfold cracked_inside. cbn [List.length Nat.sub nth]. split; [lia|]. split; [reflexivity|]. split; [reflexivity|]. split; [lra|]. split; [lra|]. split.
    + intros j Hj. destruct j as [|[|[|[|j]]]]; simpl; try lra; lia.
    + unfold start. cbn [sumn nth]. lra.
  - apply (ex_bvp [l0; 1; 1; l3] [0; 80; 0] [true; k; k; true]); try reflexivity; [simpl; lia|].
    split; [intros i Hi; destruct i as [|[|[|[|i]]]]; simpl; try lra; simpl in Hi; lia|].
    exists 0%nat. simpl. split; [lia|]. split; [reflexivity|lra].
Qed.
Lemma ex_longer : longer [4; 1; 1; 4] [6; 1; 1; 9].
Proof. split; [reflexivity|]. simpl. split; [lra|]. split; [lra|]. intros i Hi. destruct i as [|[|[|i]]]; try lia; reflexivity. Qed.
Lemma ex_gdif l0 l3 Cs : six_each 4 Cs -> exists g,
  gdif ex_par (calc_eigensystem ex_ews) (loads_of (ex_obj "skier" None 30) 30) Cs [l0; 1; 1; l3] [true; false; false; true] "J/m^2" = Ok g.
Proof.
  intros [L F]. apply (C41_accepted ex_par (calc_eigensystem ex_ews) _ Cs [l0; 1; 1; l3] [true; false; false; true] "J/m^2" 1000 (or_introl (conj eq_refl eq_refl)) eq_refl).
  intros j Hj _. assert (J : (j < List.length Cs)%nat) by (rewrite L; simpl in Hj; lia). split; [exact J|].
  etransitivity; [exact (six_zh _ (ready_six _ (ex_ready "skier" None 30)) _ _ _)|]. symmetry. exact (proj1 (Forall_forall _ _) F _ (nth_In _ _ J)).
Qed.
Example C117_differential_example : exists C kap Cs Cs' G G1 G2 G' G1' G2', 0 < C /\ 0 < kap /\
  bvp (ex_obj "skier" None 30) 0 30 [4; 1; 1; 4] [0; 80; 0] [true; false; false; true] Cs /\
  bvp (ex_obj "skier" None 30) 0 30 [6; 1; 1; 9] [0; 80; 0] [true; false; false; true] Cs' /\
  gdif ex_par (calc_eigensystem ex_ews) (loads_of (ex_obj "skier" None 30) 30) Cs [4; 1; 1; 4] [true; false; false; true] "J/m^2" = Ok (G, G1, G2) /\
  gdif ex_par (calc_eigensystem ex_ews) (loads_of (ex_obj "skier" None 30) 30) Cs' [6; 1; 1; 9] [true; false; false; true] "J/m^2" = Ok (G', G1', G2') /\
  Rabs (G - G') <= C * 3 * (exp (- (kap * 4)) + exp (- (kap * 4))) * (80 * 9810 / 1000 / 1000 + slab_loads (ex_obj "skier" None 30) 30) ^ 2.
Proof.
  destruct (ex_ready "skier" None 30) as (Hl & Hf & _). destruct (C117_differential ex_par 2 Hl Hf ex_stable) as (C & kap & HC & Hk & D).
  destruct (ex_model 4 4 false ltac:(lra) ltac:(lra)) as (Ci & Cs & S6 & B). destruct (ex_model 6 9 false ltac:(lra) ltac:(lra)) as (_ & Cs' & S6' & B').
  destruct (ex_gdif 4 4 Cs S6) as ([[G G1] G2] & E). destruct (ex_gdif 6 9 Cs' S6') as ([[G' G1'] G2'] & E').
  exists C, kap, Cs, Cs', G, G1, G2, G', G1', G2'. do 6 (split; [assumption|]).
  destruct (D (ex_obj "skier" None 30) 0 30 [4; 1; 1; 4] [6; 1; 1; 9] _ [true; false; false; true] Cs Cs' _ _ _ _ _ _ _ eq_refl (ex_ready _ _ _) eq_refl eq_refl Ci ex_longer B B' E E') as (_ & _ & Q).
  eapply Rle_trans; [exact Q|]. right. cbn [List.length Nat.sub nth]. replace (INR 3) with 3 by (simpl; ring). do 2 f_equal. f_equal.
  unfold skier_loads, line_load. cbn [List.length Nat.sub sumn nth ex_obj o_g o_lski]. rewrite !Rabs_pos_eq by lra. field.
Qed.
Example C117_incremental_example : exists C kap Ca Cb Ca' Cb' G G1 G2 G' G1' G2', 0 < C /\ 0 < kap /\
  bvp (ex_obj "skier" None 30) 0 30 [4; 1; 1; 4] [0; 80; 0] [true; true; true; true] Ca /\
  bvp (ex_obj "skier" None 30) 0 30 [4; 1; 1; 4] [0; 80; 0] [true; false; false; true] Cb /\
  bvp (ex_obj "skier" None 30) 0 30 [6; 1; 1; 9] [0; 80; 0] [true; true; true; true] Ca' /\
  bvp (ex_obj "skier" None 30) 0 30 [6; 1; 1; 9] [0; 80; 0] [true; false; false; true] Cb' /\
  ginc (fun f a b => RInt f a b) ex_par (calc_eigensystem ex_ews) (loads_of (ex_obj "skier" None 30) 30) Ca Cb [4; 1; 1; 4] [true; false; false; true] [true; true; true; true] = Ok (Some G, Some G1, Some G2) /\
  ginc (fun f a b => RInt f a b) ex_par (calc_eigensystem ex_ews) (loads_of (ex_obj "skier" None 30) 30) Ca' Cb' [6; 1; 1; 9] [true; false; false; true] [true; true; true; true] = Ok (Some G', Some G1', Some G2') /\
  Rabs (G - G') <= C * (exp (- (kap * 4)) + exp (- (kap * 4))) * (80 * 9810 / 1000 / 1000 + slab_loads (ex_obj "skier" None 30) 30) ^ 2.
Proof.
  destruct (ex_ready "skier" None 30) as (Hl & Hf & _). destruct (C117_incremental ex_par 2 Hl Hf ex_stable) as (C & kap & HC & Hk & D).
  destruct (ex_model 4 4 true ltac:(lra) ltac:(lra)) as (Ci0 & Ca & Sa & Ba). destruct (ex_model 6 9 true ltac:(lra) ltac:(lra)) as (_ & Ca' & Sa' & Ba').
  destruct (ex_model 4 4 false ltac:(lra) ltac:(lra)) as (Ci & Cb & Sb & Bb). destruct (ex_model 6 9 false ltac:(lra) ltac:(lra)) as (_ & Cb' & Sb' & Bb').
  destruct (ginc_total (fun f a b => RInt f a b) (ex_obj "skier" None 30) 30 Ca Cb [4; 1; 1; 4] [true; true; true; true] [true; false; false; true] (ex_ready _ _ _) eq_refl eq_refl Sa Sb
    ltac:(simpl; lra)) as (G & G1 & G2 & E).
  destruct (ginc_total (fun f a b => RInt f a b) (ex_obj "skier" None 30) 30 Ca' Cb' [6; 1; 1; 9] [true; true; true; true] [true; false; false; true] (ex_ready _ _ _) eq_refl eq_refl Sa' Sb'
    ltac:(simpl; lra)) as (G' & G1' & G2' & E').
  exists C, kap, Ca, Cb, Ca', Cb', G, G1, G2, G', G1', G2'. do 8 (split; [assumption|]).
  assert (Q0 : accurate_quad (fun f a b => RInt f a b) 0) by (intros f a b _; rewrite Rminus_diag_eq, Rabs_R0 by reflexivity; lra).
  destruct (D (ex_obj "skier" None 30) 0 0 30 [4; 1; 1; 4] [6; 1; 1; 9] _ [true; true; true; true] [true; false; false; true] Ca Cb Ca' Cb' _ 0 _ _ _ _ _ _ eq_refl (ex_ready _ _ _) eq_refl Ci0 Ci ex_longer Ba Bb Ba' Bb' Q0
    (ex_intro _ 1%nat eq_refl) E E') as (_ & _ & _ & Q).
  eapply Rle_trans; [exact Q|]. right. cbn [List.length Nat.sub nth].
  replace (skier_loads (ex_obj "skier" None 30) [0; 80; 0] 3) with (80 * 9810 / 1000 / 1000); [unfold Rdiv; ring|].
  unfold skier_loads, line_load. cbn [List.length Nat.sub sumn nth ex_obj o_g o_lski]. rewrite !Rabs_pos_eq by lra. field.
Qed.
