(** The assembled linear system is the boundary value problem (C20). *)
From Coquelicot Require Import Coquelicot.
Require Import Verif.Py Verif.MTools Verif.MEigen Verif.MFields Verif.MRaster
  Verif.MSolution Verif.SBeam Verif.SBvp Verif.PSetup Verif.PBeam Verif.PBvp Verif.PBvp2
  Verif.PBvp3.

(** ** Shape of the right-hand side *)
Definition rhs_shape (nS : nat) (rhs : vector) (vl vr : list R) (mid : nat -> list R) : Prop :=
  (forall c, (c < 3)%nat -> rhs c = nth c vl 0) /\
  (forall c, (c < 3)%nat -> rhs (6 * nS - 3 + c)%nat = nth c vr 0) /\
  (forall i c, (S i < nS)%nat -> (c < 6)%nat ->
     rhs (6 * i + 3 + c)%nat = nth c ([0; 0; 0] ++ mid i) 0).

Lemma nth3 (v : nat -> R) c : (c < 3)%nat -> nth c [v 0%nat; v 1%nat; v 2%nat] 0 = v c.
Proof. intros H. destruct c as [|[|[|c]]]; [reflexivity..|lia]. Qed.

Lemma rhs0_shape o phi nS mi : (2 <= nS)%nat -> S (List.length mi) = nS ->
  rhs_shape nS (assemble_rhs o phi 1 mi (fun _ => 0)) [0; 0; 0] [0; 0; 0]
    (fun i => skier_vec o phi (nth i mi 0)).
Proof.
  intros HN Hm. destruct (assemble_rhs_spec o phi mi 1 (fun _ => 0)) as (I1 & I2 & I3).
  split; [|split].
  - intros c Hc. rewrite I1 by lia. destruct c as [|[|[|]]]; reflexivity || lia.
  - intros c Hc.
    replace (6 * nS - 3 + c)%nat with (6 * (1 + (nS - 2)) + (3 + c))%nat by lia.
    rewrite I3 by lia. destruct c as [|[|[|]]]; [reflexivity..|lia].
  - intros i c Hi Hc. destruct (Nat.lt_ge_cases c 3) as [Hc3|Hc3].
    + rewrite app_nth1 by exact Hc3.
      assert (nth c [0; 0; 0] 0 = 0) as -> by (destruct c as [|[|[|]]]; reflexivity || lia).
      destruct i as [|i].
      * apply I1. lia.
      * replace (6 * S i + 3 + c)%nat with (6 * (1 + i) + (3 + c))%nat by lia. apply I3; lia.
    + rewrite app_nth2 by exact Hc3. simpl (List.length [0; 0; 0]).
      replace (6 * i + 3 + c)%nat with (6 * (1 + i) + (c - 3))%nat by lia. apply I2; lia.
Qed.

Lemma ends_shape nS rhs vl vr mid a b c a' b' c' : (2 <= nS)%nat ->
  rhs_shape nS rhs vl vr mid ->
  rhs_shape nS (set_slice (set_slice rhs 0 [a; b; c]) (6 * nS - 3) [a'; b'; c'])
    [a; b; c] [a'; b'; c'] mid.
Proof.
  intros HN (H1 & H2 & H3). split; [|split].
  - intros d Hd. rewrite set_slice3_out by lia.
    change d with (0 + d)%nat at 1. apply set_slice3_in. exact Hd.
  - intros d Hd. apply set_slice3_in. exact Hd.
  - intros i d Hi Hd. rewrite !set_slice3_out by lia. apply H3; assumption.
Qed.

Lemma td_vec_len o s k v : List.length v = 3%nat -> List.length (td_vec o s k v) = 3%nat.
Proof. intros H. unfold td_vec. destruct k; [exact H|]. destruct (o_mode o) as [[| |]|]; reflexivity || exact H. Qed.

Lemma nth_list3 {A} (v : list A) d : List.length v = 3%nat -> v = [nth 0 v d; nth 1 v d; nth 2 v d].
Proof. destruct v as [|a [|b [|c [|]]]]; intros H; try discriminate. reflexivity. Qed.

Lemma touchdown_shape o nS rhs vl vr mid ki : (2 <= nS)%nat -> List.length ki = nS ->
  List.length vl = 3%nat -> List.length vr = 3%nat ->
  rhs_shape nS rhs vl vr mid ->
  rhs_shape nS (touchdown_rhs o nS 0 ki rhs)
    (td_vec o (-1) (nth 0 ki false) vl) (td_vec o 1 (nth (nS - 1) ki false) vr) mid.
Proof.
  intros HN Hk Lvl Lvr (H1 & H2 & H3).
  destruct (touchdown_rhs_spec o nS HN ki 0 rhs ltac:(lia)) as (I1 & I2 & I3).
  split; [|split].
  - intros c Hc. rewrite I2 by exact Hc. destruct ki as [|k ki]; [simpl in Hk; lia|]. cbn [nth].
    rewrite !H1 by lia. rewrite <- (nth_list3 vl 0 Lvl). reflexivity.
  - intros c Hc. rewrite I3 by exact Hc. cbn [Nat.add]. rewrite Hk.
    replace (Nat.ltb (nS - 1) nS) with true by (symmetry; apply Nat.ltb_lt; lia).
    change (Nat.leb 0 (nS - 1)) with true. cbn [andb].
    rewrite Nat.sub_0_r. rewrite !H2 by lia.
    replace (rhs (6 * nS - 3)%nat) with (nth 0 vr 0).
    2:{ specialize (H2 0%nat ltac:(lia)). rewrite Nat.add_0_r in H2. symmetry; exact H2. }
    rewrite <- (nth_list3 vr 0 Lvr). reflexivity.
  - intros i c Hi Hc. rewrite I1 by lia. apply H3; assumption.
Qed.

(** Values written at the ends. *)
Definition end_vec (o : obj) (phi sgn : R) (k : bool) : list R :=
  match kind_of (o_system o) with
  | Some KPst => td_vec o sgn k [0; 0; 0]
  | Some KVpst =>
      let '(xs, zs, m) := calc_vertical_bc_center_of_gravity (o_slab o) phi in
      let ph := deg2rad phi in
      td_vec o sgn k [- o_g o * m * sin ph; - o_g o * m * (xs * cos ph + zs * sin ph);
         o_g o * m * cos ph]
  | Some KSkier =>
      let zf := zp (o_par o) (loads_of o phi) 0 true in [z_u zf; z_w zf; z_psi zf]
  | Some KRot => if Rlt_dec sgn 0 then [0; 1; 0] else [0; 0; 0]
  | Some KTrans => if Rlt_dec sgn 0 then [0; 0; 1] else [0; 0; 0]
  | None => []
  end.
Definition mid_vec (o : obj) (phi : R) (mi : list R) (i : nat) : list R :=
  match kind_of (o_system o) with
  | Some KRot | Some KTrans => [0; 0; 0]
  | _ => skier_vec o phi (nth i mi 0)
  end.

Lemma zp_supported_const p ld x : zp p ld x true = zp p ld 0 true.
Proof. reflexivity. Qed.

Lemma unit_shape nS j : (2 <= nS)%nat -> (j < 3)%nat ->
  rhs_shape nS (set_slice (fun _ => 0) j [1])
    (match j with O => [1;0;0] | 1%nat => [0; 1; 0] | _ => [0; 0; 1] end) [0; 0; 0]
    (fun _ => [0; 0; 0]).
Proof.
  intros HN Hj. unfold set_slice. cbn [List.length].
  assert (Z : forall r, (3 <= r)%nat ->
    (if (Nat.leb j r && Nat.ltb r (j + 1))%bool then nth (r - j) [1] 0 else 0) = 0).
  { intros r Hr. replace (Nat.ltb r (j + 1)) with false by (symmetry; apply Nat.ltb_ge; lia).
    rewrite Bool.andb_false_r. reflexivity. }
  split; [|split].
  - intros c Hc. destruct j as [|[|[|]]], c as [|[|[|]]]; simpl; reflexivity || lia.
  - intros c Hc. rewrite Z by lia. destruct c as [|[|[|]]]; reflexivity || lia.
  - intros i c Hi Hc. rewrite Z by lia. destruct c as [|[|[|[|[|[|]]]]]]; reflexivity || lia.
Qed.

Lemma build_rhs_shape o kR phi li mi ki kd rhs :
  let nS := List.length li in
  (2 <= nS)%nat -> S (List.length mi) = nS -> List.length ki = nS ->
  kind_of (o_system o) = Some kd ->
  (kd = KSkier -> nth 0 ki false = true /\ nth (nS - 1) ki false = true) ->
  build_rhs o kR phi li mi ki nS = Ok rhs ->
  rhs_shape nS rhs (end_vec o phi (-1) (nth 0 ki false)) (end_vec o phi 1 (nth (nS - 1) ki false))
    (mid_vec o phi mi).
Proof.
  intros nS HN Hm Hk Hkd Hsk H.
  pose proof (kinds (o_system o)) as K. cbv zeta in K. rewrite Hkd in K.
  pose proof (rhs0_shape o phi nS mi HN Hm) as S0.
  unfold build_rhs in H. unfold end_vec, mid_vec. rewrite Hkd.
  destruct kd; destruct K as (K1 & K2 & K3 & K4 & K5 & K6 & K7 & K8 & K9).
  - rewrite K5, K6, K7, K8 in H. cbn [negb bind] in H. apply Ok_inj in H. subst rhs.
    apply touchdown_shape; try assumption; reflexivity.
  - rewrite K5 in H. cbn [negb] in H.
    rewrite !bc_lin in H. unfold bc_rows in H. rewrite K1, K2 in H. cbn [bind map] in H.
    rewrite K6, K7, K8 in H. apply Ok_inj in H. subst rhs.
    destruct (calc_vertical_bc_center_of_gravity (o_slab o) phi) as [[xs zs] m].
    apply touchdown_shape; try assumption; try reflexivity.
    eapply ends_shape; [exact HN|].
    eapply ends_shape; [exact HN|]. exact S0.
  - rewrite K5 in H. cbn [negb] in H.
    rewrite !bc_lin in H. unfold bc_rows in H. rewrite K1, K2, K3 in H. cbn [bind map] in H.
    rewrite K6, K7, K8 in H. apply Ok_inj in H. subst rhs.
    destruct (Hsk eq_refl) as [Hk0 HkN].
    rewrite (last_nth ki), Hk, Hk0, HkN, (zp_supported_const _ _ (last li 0)), !dot_u, !dot_w, !dot_psi.
    set (zf := zp (o_par o) (loads_of o phi) 0 true).
    assert (S1 : rhs_shape nS (set_slice (set_slice (assemble_rhs o phi 1 mi (fun _ => 0)) 0
        [z_u zf; z_w zf; z_psi zf]) (6 * nS - 3) [z_u zf; z_w zf; z_psi zf])
        [z_u zf; z_w zf; z_psi zf] [z_u zf; z_w zf; z_psi zf] (fun i => skier_vec o phi (nth i mi 0))).
    { eapply ends_shape; [exact HN|exact S0]. }
    pose proof (fun h1 h2 => touchdown_shape o nS _ _ _ _ ki HN Hk h1 h2 S1) as S2.
    specialize (S2 eq_refl eq_refl).
    rewrite Hk0, HkN in S2. exact S2.
  - rewrite K5 in H. cbn [negb] in H.
    rewrite !bc_lin in H. unfold bc_rows in H. rewrite K1, K2, K3, K4 in H. cbn [bind map] in H.
    rewrite K6, K7, K8 in H. apply Ok_inj in H. subst rhs.
    destruct (Rlt_dec (-1) 0); [|lra]. destruct (Rlt_dec 1 0); [lra|].
    apply (unit_shape nS 1 HN). lia.
  - rewrite K5 in H. cbn [negb] in H.
    rewrite !bc_lin in H. unfold bc_rows in H. rewrite K1, K2, K3, K4 in H. cbn [bind map] in H.
    rewrite K6, K7, K8 in H. apply Ok_inj in H. subst rhs.
    destruct (Rlt_dec (-1) 0); [|lra]. destruct (Rlt_dec 1 0); [lra|].
    apply (unit_shape nS 2 HN). lia.
Qed.

(** ** Row blocks *)
Lemma rows_split nS (P : nat -> Prop) : (2 <= nS)%nat ->
  (forall r, (r < 6 * nS)%nat -> P r) <->
  (forall c, (c < 3)%nat -> P c) /\
  (forall c, (c < 3)%nat -> P (6 * nS - 3 + c)%nat) /\
  (forall i c, (S i < nS)%nat -> (c < 6)%nat -> P (6 * i + 3 + c)%nat).
Proof.
  intros HN. split.
  - intros H. split; [|split]; intros; apply H; lia.
  - intros (H1 & H2 & H3) r Hr.
    destruct (Nat.lt_ge_cases r 3) as [L|L]; [apply H1; exact L|].
    destruct (Nat.lt_ge_cases r (6 * nS - 3)) as [L2|L2].
    + pose proof (Nat.div_mod (r - 3) 6 ltac:(lia)) as E.
      pose proof (Nat.mod_upper_bound (r - 3) 6 ltac:(lia)) as U.
      replace r with (6 * ((r - 3) / 6) + 3 + (r - 3) mod 6)%nat by lia.
      apply H3; [|exact U]. lia.
    + replace r with (6 * nS - 3 + (r - (6 * nS - 3)))%nat by lia. apply H2. lia.
Qed.

Lemma forall3 (P : nat -> Prop) : (forall c, (c < 3)%nat -> P c) <-> P 0%nat /\ P 1%nat /\ P 2%nat.
Proof.
  split; [intros H; repeat split; apply H; lia|].
  intros (A & B & C) c Hc. destruct c as [|[|[|]]]; assumption || lia.
Qed.
Lemma forall6 (P : nat -> Prop) : (forall c, (c < 6)%nat -> P c) <->
  P 0%nat /\ P 1%nat /\ P 2%nat /\ P 3%nat /\ P 4%nat /\ P 5%nat.
Proof.
  split; [intros H; repeat split; apply H; lia|].
  intros (A & B & C & D & E & F) c Hc. destruct c as [|[|[|[|[|[|]]]]]]; assumption || lia.
Qed.

Lemma nth_reshape nS x i : (i < nS)%nat -> nth i (reshape_constants nS x) [] = block x i.
Proof.
  intros H. unfold reshape_constants.
  rewrite (nth_indep _ [] (block x 0)) by (rewrite map_length, seq_length; exact H).
  change (fun i0 => map (fun j => x (6 * i0 + j)%nat) (seq 0 6)) with (block x).
  rewrite (map_nth (block x)), seq_nth by exact H. reflexivity.
Qed.

Lemma deg2rad_eq phi : deg2rad phi = phi * PI / 180.
Proof. unfold deg2rad. field. Qed.

(** End conditions row by row. *)
Lemma pst_end_rows o kR kRv phi sgn k pos b z :
  kind_of (o_system o) = Some KPst ->
  (sgn = -1 /\ pos = "l"%string \/ sgn = 1 /\ pos = "r"%string) ->
  (o_mode o = Some ModeC -> kR = Ok kRv /\ o_phi o = phi) ->
  bc_rows o kR k pos = Ok b ->
  ((forall c, (c < 3)%nat -> nth c (map (fun r => dot6 r z) b) 0 = nth c (td_vec o sgn k [0; 0; 0]) 0)
   <-> pst_end o kRv phi sgn k z).
Proof.
  intros Hkd Hpos HC H. pose proof (kinds (o_system o)) as K. cbv zeta in K. rewrite Hkd in K.
  destruct K as (K1 & _). unfold bc_rows in H. rewrite K1 in H.
  rewrite forall3. unfold pst_end, td_vec, forces.
  destruct k; cbn [negb] in H.
  - apply Ok_inj in H. subst b. cbn [map nth]. rewrite dot_N, dot_M, dot_V. tauto.
  - unfold mode_is in H. destruct (o_mode o) as [[| |]|] eqn:Em.
    + apply Ok_inj in H. subst b. cbn [map nth]. rewrite dot_N, dot_M, dot_V. tauto.
    + assert (b = [rowN (o_par o); rowM (o_par o); roww]) as ->.
      { destruct Hpos as [[_ ->]|[_ ->]]; cbn [andb] in H;
          [change (mem_str "l" ["r"; "right"]%string) with false in H;
           change (mem_str "l" ["l"; "left"]%string) with true in H
          |change (mem_str "r" ["r"; "right"]%string) with true in H];
          cbv iota in H; apply Ok_inj in H; symmetry; exact H. }
      cbn [map nth]. rewrite dot_N, dot_M, dot_w. tauto.
    + destruct (HC eq_refl) as [HkR Hphi]. rewrite HkR in H.
      assert (b = [rowN (o_par o); vadd (rowM (o_par o)) (vscale (sgn * kRv) rowpsi); roww]) as ->.
      { destruct Hpos as [[-> ->]|[-> ->]]; cbn [andb] in H;
          [change (mem_str "l" ["r"; "right"]%string) with false in H;
           change (mem_str "l" ["l"; "left"]%string) with true in H
          |change (mem_str "r" ["r"; "right"]%string) with true in H];
          cbv iota in H; cbn [bind] in H; apply Ok_inj in H; rewrite <- H.
        - replace (-1 * kRv) with (- kRv) by ring. reflexivity.
        - rewrite Rmult_1_l. reflexivity. }
      cbn [map nth]. rewrite dot_add_l, dot_scale_l, dot_N, dot_M, dot_w, dot_psi.
      unfold calc_qt. rewrite Hphi.
      rewrite (Rmult_assoc sgn (_ + _)). tauto.
    + simpl in H. discriminate.
Qed.

Lemma free_rows o kR k pos b z (a1 a2 a3 : R) kd :
  kind_of (o_system o) = Some kd -> kd <> KPst -> kd <> KSkier ->
  bc_rows o kR k pos = Ok b ->
  ((forall c, (c < 3)%nat -> nth c (map (fun r => dot6 r z) b) 0 = nth c [a1; a2; a3] 0)
   <-> forces (o_par o) z a1 a2 a3).
Proof.
  intros Hkd Hn1 Hn2 H. pose proof (kinds (o_system o)) as K. cbv zeta in K. rewrite Hkd in K.
  assert (b = [rowN (o_par o); rowM (o_par o); rowV (o_par o)]) as ->.
  { unfold bc_rows in H. destruct kd; try congruence;
    destruct K as (K1 & K2 & K3 & K4 & _); rewrite K1, K2, ?K3, ?K4 in H;
    apply Ok_inj in H; symmetry; exact H. }
  rewrite forall3. cbn [map nth]. rewrite dot_N, dot_M, dot_V. unfold forces. tauto.
Qed.

Lemma td_vec_off o s k v : (k = true \/ o_mode o = None \/ o_mode o = Some ModeA) -> td_vec o s k v = v.
Proof. unfold td_vec. intros [->|[H|H]]; [reflexivity| |]; rewrite H; destruct k; reflexivity. Qed.

Lemma end_rows o kR kRv phi sgn k pos b z kd :
  kind_of (o_system o) = Some kd ->
  (sgn = -1 /\ pos = "l"%string \/ sgn = 1 /\ pos = "r"%string) ->
  (kd = KPst -> o_mode o = Some ModeC -> kR = Ok kRv /\ o_phi o = phi) ->
  (kd = KVpst -> k = true \/ o_mode o = None \/ o_mode o = Some ModeA) ->
  bc_rows o kR k pos = Ok b ->
  ((forall c, (c < 3)%nat -> nth c (map (fun r => dot6 r z) b) 0 = nth c (end_vec o phi sgn k) 0)
   <-> (if Rlt_dec sgn 0 then left_end o kRv phi k z else right_end o kRv phi k z)).
Proof.
  intros Hkd Hpos HC HV H. unfold end_vec, left_end, right_end. rewrite Hkd.
  destruct kd.
  - rewrite (pst_end_rows o kR kRv phi sgn k pos b z Hkd Hpos (HC eq_refl) H).
    destruct Hpos as [[-> _]|[-> _]]; destruct Rlt_dec; tauto || lra.
  - unfold face_end.
    destruct (calc_vertical_bc_center_of_gravity (o_slab o) phi) as [[xs zs] m].
    rewrite td_vec_off by (apply HV; reflexivity).
    rewrite (free_rows o kR k pos b z _ _ _ KVpst Hkd) by (congruence || exact H).
    rewrite deg2rad_eq.
    replace (- o_g o * m * sin (phi * PI / 180)) with (- (o_g o * m * sin (phi * PI / 180))) by ring.
    replace (- o_g o * m * (xs * cos (phi * PI / 180) + zs * sin (phi * PI / 180)))
      with (- (o_g o * m * (xs * cos (phi * PI / 180) + zs * sin (phi * PI / 180)))) by ring.
    destruct Rlt_dec; tauto.
  - pose proof (kinds (o_system o)) as K. cbv zeta in K. rewrite Hkd in K.
    destruct K as (K1 & K2 & K3 & _). unfold bc_rows in H. rewrite K1, K2, K3 in H.
    apply Ok_inj in H. subst b. rewrite forall3. cbn [map nth].
    rewrite dot_u, dot_w, dot_psi. unfold far_field. destruct Rlt_dec; tauto.
  - destruct Hpos as [[-> _]|[-> _]]; destruct Rlt_dec; try lra;
      apply (free_rows o kR k pos b z _ _ _ KRot Hkd); congruence || exact H.
  - destruct Hpos as [[-> _]|[-> _]]; destruct Rlt_dec; try lra;
      apply (free_rows o kR k pos b z _ _ _ KTrans Hkd); congruence || exact H.
Qed.

Lemma transition_rows o phi mi i zl zr :
  (forall c, (c < 6)%nat -> inner_val o zl c - inner_val o zr c
     = nth c ([0; 0; 0] ++ mid_vec o phi mi i) 0)
  <-> transition o phi (nth i mi 0) zl zr.
Proof.
  rewrite forall6. unfold inner_val, inner_rows. cbn [map nth app].
  rewrite !dot_u, !dot_w, !dot_psi, !dot_N, !dot_M, !dot_V.
  unfold transition, mid_vec, skier_vec, get_skier_load. cbv zeta.
  assert (E : forall a b : R, a - b = 0 <-> a = b) by (intros; split; intros; lra).
  destruct (kind_of (o_system o)) as [[| | | |]|]; cbn [nth]; rewrite !E;
    rewrite ?deg2rad_eq;
    set (a := phi * PI / 180);
    (split; intros (H1 & H2 & H3 & H4 & H5 & H6); repeat split; try assumption;
     first [lra | rewrite H4; unfold Rdiv; ring | rewrite H5; unfold Rdiv; ring | rewrite H6; unfold Rdiv; ring]).
Qed.

Lemma assemble_bvp o kR kRv phi li mi ki zh0 zp0 rhs x kd :
  let nS := List.length li in
  six_cols o ->
  (2 <= nS)%nat ->
  check_segments o li mi ki = Ok tt ->
  kind_of (o_system o) = Some kd ->
  (kd = KPst -> o_mode o = Some ModeC -> kR = Ok kRv /\ o_phi o = phi) ->
  (kd = KVpst -> o_mode o = None \/ o_mode o = Some ModeA) ->
  assemble o kR phi li mi ki = Ok (zh0, zp0, rhs) ->
  (lin_solves (6 * nS) zh0 x (fun r => rhs r - zp0 r)
   <-> bvp o kRv phi li mi ki (reshape_constants nS x)).
Proof.
  intros nS H6 HN Hchk Hkd HC HV H.
  unfold check_segments in Hchk.
  destruct (negb (existsb (fun b => b) ki)); [discriminate|].
  destruct (Nat.eqb_spec (List.length li) (List.length ki)) as [Lk|]; [|discriminate].
  destruct (Nat.eqb_spec (List.length li) (S (List.length mi))) as [Lm|]; [|discriminate].
  cbn [andb negb] in Hchk.
  assert (Hsk : kd = KSkier -> nth 0 ki false = true /\ nth (nS - 1) ki false = true).
  { intros ->. pose proof (kinds (o_system o)) as K. cbv zeta in K. rewrite Hkd in K.
    destruct K as (_ & _ & _ & _ & _ & _ & _ & _ & K9). rewrite K9 in Hchk. cbn [negb andb] in Hchk.
    rewrite last_nth in Hchk. rewrite <- Lk in Hchk. fold nS in Hchk.
    destruct (nth 0 ki false); [|discriminate]. cbn [andb negb] in Hchk.
    destruct (nth (nS - 1) ki false); [|discriminate]. split; reflexivity. }
  unfold assemble in H.
  destruct (assemble_lhs o kR phi (List.length li) 0 li ki (fun _ _ => 0, fun _ => 0)) as [[M v]|] eqn:EL; [|discriminate].
  cbn [bind] in H.
  destruct (build_rhs o kR phi li mi ki (List.length li)) as [rhs'|] eqn:ER; [|discriminate].
  cbn [bind fst snd] in H. apply Ok_inj in H. injection H; intros -> -> ->. clear H.
  destruct (lhs_rows o kR phi li ki zh0 zp0 H6 HN (eq_sym Lk) EL) as (bl & br & Hbl & Hbr & HS).
  fold nS in Hbr, HS. cbv zeta in HS. destruct (HS x) as (S1 & S2 & S3).
  destruct (build_rhs_shape o kR phi li mi ki kd rhs HN (eq_sym Lm) (eq_sym Lk) Hkd Hsk ER)
    as (R1 & R2 & R3). fold nS in R1, R2, R3.
  assert (L1 : lin_solves (6 * nS) zh0 x (fun r => rhs r - zp0 r) <->
     (forall r, (r < 6 * nS)%nat -> sumn (6 * nS) (fun c => zh0 r c * x c) + zp0 r = rhs r)).
  { unfold lin_solves. split; intros H r Hr; specialize (H r Hr); lra. }
  rewrite L1, (rows_split nS _ HN). clear L1.
  unfold bvp. fold nS.
  assert (Z : forall i, (i < nS)%nat -> field o phi (nth i li 0) (nth i ki false)
     (nth i (reshape_constants nS x) []) = zi o phi li ki x i).
  { intros i Hi. rewrite nth_reshape by exact Hi. reflexivity. }
  rewrite !Z by lia.
  assert (A : forall P P' Q Q' T T' : Prop, (P <-> P') -> (Q <-> Q') -> (T <-> T') ->
    (P /\ Q /\ T <-> P' /\ Q' /\ T')) by tauto.
  apply A.
  - pose proof (end_rows o kR kRv phi (-1) (nth 0 ki false) "l" bl (zi o phi li ki x 0 0) kd Hkd
      (or_introl (conj eq_refl eq_refl)) HC (fun h => or_intror (HV h)) Hbl) as E.
    destruct (Rlt_dec (-1) 0); [|lra]. rewrite <- E.
    split; intros H c Hc; specialize (H c Hc); rewrite S1, R1 in * by exact Hc; exact H.
  - pose proof (end_rows o kR kRv phi 1 (nth (nS - 1) ki false) "r" br
      (zi o phi li ki x (nS - 1) (nth (nS - 1) li 0)) kd Hkd
      (or_intror (conj eq_refl eq_refl)) HC (fun h => or_intror (HV h)) Hbr) as E.
    destruct (Rlt_dec 1 0); [lra|]. rewrite <- E.
    split; intros H c Hc; specialize (H c Hc); rewrite S2, R2 in * by exact Hc; exact H.
  - split.
    + intros H i Hi. rewrite !Z by lia. apply transition_rows. intros c Hc.
      specialize (H i c Hi Hc). rewrite S3, R3 in H by assumption. exact H.
    + intros H i c Hi Hc. rewrite S3, R3 by assumption.
      specialize (H i Hi). rewrite !Z in H by lia.
      apply (proj2 (transition_rows o phi mi i _ _) H c Hc).
Qed.
