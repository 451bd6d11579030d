(** Proofs about the value of the self-propagation check as a function of the crack length (C124). *)
From Coquelicot Require Import Coquelicot.
Require Import Verif.Py Verif.MTools Verif.MEigen Verif.MFields Verif.SAdm Verif.SSlab Verif.MRaster
  Verif.MSolution Verif.MAnalysis Verif.SBeam Verif.SBvp Verif.SEig Verif.SEnergy Verif.SContact Verif.SMirror Verif.MEnvelope Verif.MCriterion
  Verif.SSegment Verif.SSplit Verif.SCritical Verif.SCoupled Verif.SSelf Verif.SShort Verif.PLam Verif.PSetup Verif.PSetup2 Verif.PBvp Verif.PBvp5 Verif.PWell2 Verif.PWell3 Verif.PBvp6 Verif.PEnergy Verif.PEnergy2 Verif.PContact Verif.PMirror
  Verif.PEnvelope Verif.PConvex Verif.PLimit Verif.PWork Verif.PRelease Verif.PropEnergy Verif.PropMirror
  Verif.PCreate Verif.PCreate2 Verif.PropDepend Verif.PCoupled2 Verif.PSelf Verif.PCritical Verif.PCritical2 Verif.PCritical7.
Open Scope R_scope.

(** * Continuity of the toughness criterion *)
Lemma rpow_near y x0 e : 0 < y -> 0 <= x0 -> 0 < e -> exists d, 0 < d /\ forall x, 0 <= x -> Rabs (x - x0) <= d -> Rabs (rpow x y - rpow x0 y) <= e.
Proof.
  intros Hy Hx He. destruct (Req_dec x0 0) as [->|N].
  - exists (Rpower e (1 / y)). assert (Pd : 0 < Rpower e (1 / y)) by apply exp_pos. split; [exact Pd|]. intros x X Hd.
    rewrite (rpow_0 y) by lra. rewrite Rminus_0_r in Hd |- *. rewrite Rabs_pos_eq in Hd by exact X. rewrite Rabs_pos_eq by (apply rpow_nonneg; exact X).
    eapply Rle_trans; [apply (rpow_mono x (Rpower e (1 / y)) y); [lra|exact Hy]|]. rewrite rpow_Rpower by exact Pd. rewrite Rpower_mult.
    replace (1 / y * y) with 1 by (field; lra). rewrite Rpower_1 by exact He. lra.
  - assert (P : 0 < x0) by lra.
    assert (C : continuity_pt (fun x => exp (y * ln x)) x0).
    { apply derivable_continuous_pt. apply ex_derive_Reals_0. auto_derive. exact P. }
    destruct (C (e) He) as (d & Hd & H). exists (Rmin (d / 2) (x0 / 2)). split; [apply Rmin_pos; lra|]. intros x X Hx0.
    assert (Q1 := Rle_trans _ _ _ Hx0 (Rmin_l _ _)). assert (Q2 := Rle_trans _ _ _ Hx0 (Rmin_r _ _)).
    assert (Px : 0 < x) by (apply Rabs_le_between in Q2; lra). rewrite !rpow_Rpower by assumption. unfold Rpower.
    destruct (Req_dec x x0) as [->|Nx]; [rewrite Rminus_diag_eq, Rabs_R0 by reflexivity; lra|].
    left. apply (H x). split; [split; [exact Logic.I|congruence]|]. unfold dist; simpl. unfold R_dist. lra.
Qed.
Lemma tough_near x0 y0 e : 0 < e -> exists d, 0 < d /\ forall x y, Rabs (x - x0) <= d -> Rabs (y - y0) <= d ->
  Rabs (fracture_toughness_criterion x y - fracture_toughness_criterion x0 y0) <= e.
Proof.
  intros He.
  assert (A : forall c x x0, 0 < c -> 0 <= Rabs x0 / c /\ Rabs (Rabs x / c - Rabs x0 / c) <= Rabs (x - x0) / c).
  { intros c x x1 Hc. split; [apply Rdiv_le_0_compat; [apply Rabs_pos|exact Hc]|]. replace (Rabs x / c - Rabs x1 / c) with ((Rabs x - Rabs x1) / c) by (field; lra).
    unfold Rdiv. rewrite Rabs_mult, (Rabs_pos_eq (/ c)) by (left; apply Rinv_0_lt_compat; exact Hc).
    apply Rmult_le_compat_r; [left; apply Rinv_0_lt_compat; exact Hc|apply Rabs_triang_inv2]. }
  destruct (rpow_near (1 / (2 / 10)) (Rabs x0 / (56 / 100)) (e / 2)) as (d1 & D1 & H1); [lra|apply (A _ 0); lra|lra|].
  destruct (rpow_near (1 / (45 / 100)) (Rabs y0 / (79 / 100)) (e / 2)) as (d2 & D2 & H2); [lra|apply (A _ 0); lra|lra|].
  exists (Rmin (d1 / 2) (d2 / 2)). split; [apply Rmin_pos; lra|]. intros x y X Y.
  assert (X' := Rle_trans _ _ _ X (Rmin_l _ _)). assert (Y' := Rle_trans _ _ _ Y (Rmin_r _ _)).
  unfold fracture_toughness_criterion.
  match goal with |- Rabs (?a + ?b - (?c + ?d)) <= _ => replace (a + b - (c + d)) with ((a - c) + (b - d)) by ring end.
  eapply Rle_trans; [apply Rabs_triang|]. replace e with (e / 2 + e / 2) by lra. apply Rplus_le_compat.
  - apply H1; [apply (A _ 0); lra|]. destruct (A (56 / 100) x x0 ltac:(lra)) as [_ Q]. lra.
  - apply H2; [apply (A _ 0); lra|]. destruct (A (79 / 100) y y0 ltac:(lra)) as [_ Q]. lra.
Qed.
Lemma square_near c y0 e : 0 < e -> exists d, 0 < d /\ forall y, Rabs (y - y0) <= d -> Rabs (c * (y * y) - c * (y0 * y0)) <= e.
Proof.
  intros He. destruct (near_product_k (Rabs c + 1) y0 y0 e) as (d & Hd & H); [pose proof (Rabs_pos c); lra|exact He|].
  exists d. split; [exact Hd|]. intros y Hy. specialize (H y y Hy Hy). rewrite <- Rmult_minus_distr_l.
  rewrite Rabs_mult in H |- *. rewrite (Rabs_pos_eq (Rabs c + 1)) in H by (pose proof (Rabs_pos c); lra).
  eapply Rle_trans; [|exact H]. apply Rmult_le_compat_r; [apply Rabs_pos|lra].
Qed.
Lemma GI_near p z0 e : 0 < kn p -> 0 < e -> exists d, 0 < d /\ forall z, close6 d z z0 -> Rabs (GI p z - GI p z0) <= e.
Proof.
  intros Hk He. destruct (square_near (kn p / 2) (z_w z0) e He) as (d & Hd & H). exists d. split; [exact Hd|]. intros z (_ & _ & W & _).
  unfold GI. replace ((kn p * z_w z) ^ 2 / (2 * kn p)) with (kn p / 2 * (z_w z * z_w z)) by (field; lra).
  replace ((kn p * z_w z0) ^ 2 / (2 * kn p)) with (kn p / 2 * (z_w z0 * z_w z0)) by (field; lra). apply H. exact W.
Qed.
Lemma GII_near p z0 e : 0 < kt p -> 0 < e -> exists d, 0 < d /\ forall z, close6 d z z0 -> Rabs (GII p z - GII p z0) <= e.
Proof.
  intros Hk He. destruct (square_near (kt p / 2) (z_u z0 + hh p / 2 * z_psi z0 - wt p / 2 * z_dw z0) e He) as (d & Hd & H).
  set (K := 1 + Rabs (hh p / 2) + Rabs (wt p / 2)). assert (HK : 0 < K) by (unfold K; pose proof (Rabs_pos (hh p / 2)); pose proof (Rabs_pos (wt p / 2)); lra).
  exists (d / K). split; [apply Rdiv_lt_0_compat; assumption|]. intros z (U & _ & _ & W & Ps & _).
  unfold GII. set (y := z_u z + hh p / 2 * z_psi z - wt p / 2 * z_dw z). set (y0 := z_u z0 + hh p / 2 * z_psi z0 - wt p / 2 * z_dw z0) in *.
  replace ((kt p * y) ^ 2 / (2 * kt p)) with (kt p / 2 * (y * y)) by (field; lra).
  replace ((kt p * y0) ^ 2 / (2 * kt p)) with (kt p / 2 * (y0 * y0)) by (field; lra). apply H.
  replace (y - y0) with ((z_u z - z_u z0) + hh p / 2 * (z_psi z - z_psi z0) + - (wt p / 2 * (z_dw z - z_dw z0))) by (unfold y, y0; ring).
  eapply Rle_trans; [apply Rabs_triang|]. rewrite Rabs_Ropp. rewrite Rabs_mult.
  eapply Rle_trans; [apply Rplus_le_compat_r; apply Rabs_triang|]. rewrite Rabs_mult.
  replace d with (d / K + Rabs (hh p / 2) * (d / K) + Rabs (wt p / 2) * (d / K)) by (unfold K; field; fold K; lra).
  apply Rplus_le_compat; [apply Rplus_le_compat; [exact U|]|]; (apply Rmult_le_compat_l; [apply Rabs_pos|assumption]).
Qed.

(** * The value as a function of the tip states *)
Definition tip_value (p : params) (z : nat -> vec6) : R := fracture_toughness_criterion (1000 * mean_of (GI p) z) (1000 * mean_of (GII p) z).
Lemma tip_near p z0 e : 0 < kn p -> 0 < kt p -> 0 < e -> exists d, 0 < d /\ forall z, close6 d (z 0%nat) (z0 0%nat) -> close6 d (z 2%nat) (z0 2%nat) ->
  Rabs (tip_value p z - tip_value p z0) <= e.
Proof.
  intros Hn Ht He. destruct (tough_near (1000 * mean_of (GI p) z0) (1000 * mean_of (GII p) z0) e He) as (d & Hd & H).
  destruct (GI_near p (z0 0%nat) (d / 1000) Hn ltac:(lra)) as (d1 & D1 & H1). destruct (GI_near p (z0 2%nat) (d / 1000) Hn ltac:(lra)) as (d2 & D2 & H2).
  destruct (GII_near p (z0 0%nat) (d / 1000) Ht ltac:(lra)) as (d3 & D3 & H3). destruct (GII_near p (z0 2%nat) (d / 1000) Ht ltac:(lra)) as (d4 & D4 & H4).
  exists (Rmin (Rmin d1 d2) (Rmin d3 d4)). split; [repeat apply Rmin_pos; assumption|]. intros z A B.
  assert (W : forall d d' x y, close6 d x y -> d <= d' -> close6 d' x y).
  { intros e1 e2 x y (C1 & C2 & C3 & C4 & C5 & C6) L. repeat split; eapply Rle_trans; eassumption. }
  assert (L1 : Rmin (Rmin d1 d2) (Rmin d3 d4) <= d1) by (eapply Rle_trans; [apply Rmin_l|apply Rmin_l]).
  assert (L2 : Rmin (Rmin d1 d2) (Rmin d3 d4) <= d2) by (eapply Rle_trans; [apply Rmin_l|apply Rmin_r]).
  assert (L3 : Rmin (Rmin d1 d2) (Rmin d3 d4) <= d3) by (eapply Rle_trans; [apply Rmin_r|apply Rmin_l]).
  assert (L4 : Rmin (Rmin d1 d2) (Rmin d3 d4) <= d4) by (eapply Rle_trans; [apply Rmin_r|apply Rmin_r]).
  specialize (H1 _ (W _ _ _ _ A L1)). specialize (H2 _ (W _ _ _ _ B L2)). specialize (H3 _ (W _ _ _ _ A L3)). specialize (H4 _ (W _ _ _ _ B L4)).
  apply Rabs_le_between in H1, H2, H3, H4. apply H; unfold mean_of; apply Rabs_le; lra.
Qed.

Section S.
Variables (o : obj) (phi T : R).
Hypothesis Hr : ready o.
Hypothesis Hs : stable (o_par o).
Hypothesis Hk : kind_of (o_system o) = Some KSkier.
Hypothesis HT : 0 < T.
Notation sol a Cs := (six_each 4 Cs /\ bvp o 0 phi (middle_crack T a) [0; 0; 0] middle_support Cs).
Notation value a Cs := (tip_value (o_par o) (end_state o phi (middle_crack T a) middle_support Cs)).

Lemma crack_proper0 a : 0 <= a < T -> proper_segments (middle_crack T a) middle_support.
Proof.
  intros H. split.
  - intros i Hi. unfold middle_crack in *. do 4 (destruct i as [|i]; [simpl; lra|]). simpl in Hi. lia.
  - exists 0%nat. unfold middle_crack. simpl. split; [lia|]. split; [reflexivity|lra].
Qed.
Lemma value_near a0 C0 e : 0 <= a0 < T -> sol a0 C0 -> 0 < e ->
  exists d, 0 < d /\ forall a Cs, sol a Cs -> Rabs (a - a0) < d -> Rabs (value a Cs - value a0 C0) <= e.
Proof.
  intros Ha [S0 B0] He. assert (Hn : 0 < kn (o_par o) /\ 0 < kt (o_par o)) by (destruct Hr as (_ & Hf & _); unfold fnd_ok in Hf; tauto).
  destruct (tip_near (o_par o) (end_state o phi (middle_crack T a0) middle_support C0) e (proj1 Hn) (proj2 Hn) He) as (d1 & D1 & H1).
  destruct (C91_continuous o 0 phi middle_support KSkier (middle_crack T a0) [0; 0; 0] C0 d1 Hr Hs Hk ltac:(discriminate) ltac:(discriminate) ltac:(discriminate)
    ltac:(lra) ltac:(simpl; lia) eq_refl (crack_proper0 a0 Ha) S0 B0 D1) as (d & Hd & H).
  exists d. split; [exact Hd|]. intros a Cs [S B] Hd'.
  assert (NL : near 4 d (middle_crack T a) (middle_crack T a0)).
  { intros i Hi. apply Rabs_lt_between in Hd'. do 4 (destruct i as [|i]; [unfold middle_crack; cbn [nth]; apply Rabs_lt_between; lra|]). lia. }
  assert (NM : near 3 d [0; 0; 0] [0; 0; 0]) by (intros i Hi; rewrite Rminus_diag_eq, Rabs_R0 by reflexivity; exact Hd).
  specialize (H (middle_crack T a) [0; 0; 0] Cs eq_refl S B NL NM).
  apply H1; unfold end_state; apply H; try (simpl; lia); try (apply NL; lia); unfold middle_crack; simpl; lra.
Qed.

(** Without a crack both tips are at rest. *)
Lemma closed_tips C0 : sol 0 C0 -> exists r1 r2, 
  GI (o_par o) (end_state o phi (middle_crack T 0) middle_support C0 0) = r1 /\ GI (o_par o) (end_state o phi (middle_crack T 0) middle_support C0 2) = r1 /\
  GII (o_par o) (end_state o phi (middle_crack T 0) middle_support C0 0) = r2 /\ GII (o_par o) (end_state o phi (middle_crack T 0) middle_support C0 2) = r2 /\
  r1 = (qn (loads_of o phi) + pn (loads_of o phi)) ^ 2 / (2 * kn (o_par o)) /\ r2 = (qt (loads_of o phi) + pt (loads_of o phi)) ^ 2 / (2 * kt (o_par o)).
Proof.
  intros [S0 (B1 & B2 & B3)].
  assert (T0 := B3 0%nat ltac:(simpl; lia)). assert (T1 := B3 1%nat ltac:(simpl; lia)). assert (T2 := B3 2%nat ltac:(simpl; lia)).
  unfold middle_crack, middle_support in T0, T1, T2, B1, B2. cbn [List.length Nat.sub nth] in T0, T1, T2, B1, B2.
  assert (Z0 : 0 / 2 = 0) by field. assert (Z1 : (T - 0) / 2 = T / 2) by (rewrite Rminus_0_r; reflexivity). rewrite ?Z0, ?Z1 in T0. rewrite ?Z0, ?Z1 in T1. rewrite ?Z0, ?Z1 in T2. rewrite ?Z1 in B1. rewrite ?Z1 in B2.
  set (F0 := field o phi (T / 2) true (nth 0 C0 [])) in *. set (F1 := field o phi 0 false (nth 1 C0 [])) in *.
  set (F2 := field o phi 0 false (nth 2 C0 [])) in *. set (F3 := field o phi (T / 2) true (nth 3 C0 [])) in *.
  assert (Tr : forall x y z, transition o phi 0 x y -> transition o phi 0 y z -> transition o phi 0 x z).
  { unfold transition. intros x y z. cbv zeta. rewrite Hk. intros (A1 & A2 & A3 & A4 & A5 & A6) (C1 & C2 & C3 & C4 & C5 & C6).
    replace (0 * o_g o / 1000 / o_lski o) with 0 in * by (unfold Rdiv; ring).
    repeat split; try congruence; lra. }
  assert (B : bvp o 0 phi [T / 2; T / 2] [0] [true; true] [nth 0 C0 []; nth 3 C0 []]).
  { split; [|split]; cbn [List.length Nat.sub nth].
    - exact B1.
    - exact B2.
    - intros [|i] Hi; [|lia]. cbn [nth]. exact (Tr _ _ _ T0 (Tr _ _ _ T1 T2)). }
  pose proof (bvp_fbvp o 0 phi [T / 2; T / 2] [0] [true; true] _ Hr ltac:(discriminate) B) as Fa.
  pose proof (bvp_fbvp o 0 phi [T / 2; T / 2] [0] [true; true] _ Hr ltac:(discriminate) (uniform_bvp o phi (T / 2) (T / 2) Hk)) as Fb.
  cbn [List.length Nat.sub] in Fa, Fb. destruct (Hr) as (Hl & Hf & _).
  assert (Hp : forall i, (i <= 1)%nat -> 0 <= nth i [T / 2; T / 2] 0) by (intros [|[|i]] Hi; cbn [nth]; try lra; lia).
  assert (HL0 : 0 < nth 0 [T / 2; T / 2] 0) by (cbn [nth]; lra).
  pose proof (fbvp_unique o 0 phi 1 (fun i => nth i [T / 2; T / 2] 0) (fun i => nth i [0] 0) (fun i => nth i [true; true] false) _ _ 0%nat Hl Hf Hs (Rle_refl 0) Hp (Nat.le_0_l 1) eq_refl HL0 Fa Fb) as U.
  pose proof (U 0%nat (T / 2) ltac:(lia) ltac:(simpl; lra)) as U0. pose proof (U 1%nat 0 ltac:(lia) ltac:(simpl; lra)) as U1.
  cbn [nth] in U0, U1. rewrite uniform_field in U0, U1. change (F0 (T / 2) = zp (o_par o) (loads_of o phi) 0 true) in U0. change (F3 0 = zp (o_par o) (loads_of o phi) 0 true) in U1.
  destruct (unloaded_continuous o phi _ _ Hl T2) as [G1 G2]. destruct (uniform_GI o phi Hr) as [R1 R2].
  unfold end_state, middle_crack, middle_support. cbn [nth]. rewrite ?Z0, ?Z1. fold F0 F2.
  rewrite G1, G2, U0, U1, R1, R2. eexists _, _. repeat (split; [reflexivity|]). reflexivity.
Qed.
Lemma value_short e : 0 < e -> exists d, 0 < d /\ forall a Cs, 0 < a < d -> sol a Cs -> 
  Rabs (value a Cs - fracture_toughness_criterion (1000 * ((qn (loads_of o phi) + pn (loads_of o phi)) ^ 2 / (2 * kn (o_par o))))
    (1000 * ((qt (loads_of o phi) + pt (loads_of o phi)) ^ 2 / (2 * kt (o_par o))))) <= e.
Proof.
  intros He.
  assert (Hc : check_segments o (middle_crack T 0) [0; 0; 0] middle_support = Ok tt).
  { apply (check_iff o). unfold invalid_segments. intros [H|[H|[H|[NF [H|H]]]]]; try (simpl in H; congruence).
    specialize (H true ltac:(left; reflexivity)). discriminate. }
  destruct (bvp_exists_unique o (Ok 0) 0 phi (middle_crack T 0) [0; 0; 0] middle_support KSkier Hr Hs ltac:(simpl; lia) Hc (crack_proper0 0 ltac:(lra)) Hk
    ltac:(discriminate) ltac:(discriminate) ltac:(discriminate) ltac:(intros r Er; injection Er as <-; lra)) as (C0 & H6 & B0 & _).
  destruct (value_near 0 C0 e ltac:(lra) (conj H6 B0) He) as (d & Hd & H). exists d. split; [exact Hd|]. intros a Cs Ha HS.
  destruct (closed_tips C0 (conj H6 B0)) as (r1 & r2 & G1 & G2 & G3 & G4 & <- & <-).
  specialize (H a Cs HS ltac:(apply Rabs_lt_between; lra)). unfold tip_value at 2, mean_of in H. rewrite G1, G2, G3, G4 in H.
  replace ((r1 + r1) / 2) with r1 in H by field. replace ((r2 + r2) / 2) with r2 in H by field. exact H.
Qed.
End S.

(** * First point at which a continuous function reaches one *)
Lemma first_hit (f : R -> R) d b : d <= b -> f d < 1 -> 1 <= f b ->
  (forall x e, d <= x <= b -> 0 < e -> exists r, 0 < r /\ forall y, d <= y <= b -> Rabs (y - x) < r -> Rabs (f y - f x) <= e) ->
  exists m, d < m <= b /\ f m = 1 /\ forall a, d <= a < m -> f a < 1.
Proof.
  intros Db F0 F1 C. set (X x := d <= x <= b /\ forall a, d <= a <= x -> f a < 1).
  assert (Xd : X d) by (split; [lra|intros a Ha; replace a with d by lra; exact F0]).
  destruct (completeness X) as (m & U & L).
  { exists b. intros x [Hx _]. lra. }
  { exists d. exact Xd. }
  assert (Mb : d <= m <= b). { split; [apply U; exact Xd|]. apply L. intros x [Hx _]. lra. }
  assert (Below : forall a, d <= a < m -> f a < 1).
  { intros a [A1 A2]. destruct (Rlt_dec (f a) 1) as [Y|N]; [exact Y|]. exfalso. apply (Rlt_not_le _ _ A2). apply L. intros x [Hx Fx].
    destruct (Rle_dec x a) as [Z|Z]; [exact Z|]. exfalso. apply N. apply Fx. lra. }
  assert (Fm : f m = 1).
  { destruct (Rtotal_order (f m) 1) as [A|[A|A]]; [exfalso|exact A|exfalso].
    - assert (m < b) by (destruct Mb as [_ [Q|Q]]; [exact Q|subst; lra]).
      destruct (C m ((1 - f m) / 2) Mb ltac:(lra)) as (r & Hr & HH). set (x := Rmin (m + r / 2) b).
      assert (m < x) by (unfold x; apply Rmin_glb_lt; lra). assert (x <= m + r / 2) by apply Rmin_l. assert (x <= b) by apply Rmin_r.
      apply (Rlt_not_le x m); [assumption|]. apply U. split; [lra|]. intros a Ha. destruct (Rlt_dec a m) as [Q|Q]; [apply Below; lra|].
      specialize (HH a ltac:(lra) ltac:(apply Rabs_lt_between; lra)). apply Rabs_le_between in HH. lra.
    - assert (d < m) by (destruct Mb as [[Q|Q] _]; [exact Q|subst; lra]).
      destruct (C m ((f m - 1) / 2) Mb ltac:(lra)) as (r & Hr & HH). set (x := Rmax (m - r / 2) d).
      assert (x < m) by (unfold x; apply Rmax_lub_lt; lra). assert (m - r / 2 <= x) by apply Rmax_l. assert (d <= x) by apply Rmax_r.
      specialize (HH x ltac:(lra) ltac:(apply Rabs_lt_between; lra)). specialize (Below x ltac:(lra)). apply Rabs_le_between in HH. lra. }
  exists m. split; [|split; [exact Fm|exact Below]]. split; [|lra]. destruct Mb as [[Q|Q] _]; [exact Q|]. subst. lra.
Qed.
