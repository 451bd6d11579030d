(** The stresses under the skier depend on the weight (C120). *)
From Coquelicot Require Import Coquelicot.
Require Import Verif.Py Verif.MTools Verif.MEigen Verif.MFields Verif.SAdm Verif.SSlab Verif.MRaster Verif.MSolution Verif.MAnalysis Verif.SBeam Verif.SBvp Verif.SEig Verif.SRaster Verif.SMirror Verif.SSegment
  Verif.MEnvelope Verif.MCriterion Verif.SCritical Verif.PSetup Verif.PRaster Verif.PCreate Verif.PCreate2 Verif.PropSegment
  Verif.PropRaster Verif.PSegment Verif.PCritical Verif.PCritical2 Verif.PCritical3 Verif.PCritical5.
Open Scope R_scope.

Lemma chain_index {A} (li : list R) : (forall l, In l li -> 0 <= l) -> forall (X : list A) x0 b l a d, seg_at x0 (combine li X) b l a ->
  exists q, (q < List.length li)%nat /\ b = x0 + seg_start li q /\ l = nth q li 0 /\ a = nth q X d.
Proof.
  induction li as [|y li IH]; intros N X x0 b l a d H; [inversion H|]. destruct X as [|z X]; [inversion H|]. cbn [combine] in H. inversion H; subst.
  - exists 0%nat. split; [simpl; lia|]. unfold seg_start, rsum. simpl. repeat split; ring.
  - match goal with HS : seg_at _ (combine li X) _ _ _ |- _ => destruct (IH (fun l h => N l (or_intror h)) X _ _ _ _ d HS) as (q & Q1 & Q2 & Q3 & Q4) end. exists (S q). split; [simpl; lia|]. split; [|auto].
    rewrite Q2, Rabs_pos_eq by (apply N; left; reflexivity). unfold seg_start, rsum. simpl. ring.
Qed.
Lemma index_chain {A} (li : list R) : (forall l, In l li -> 0 <= l) -> forall (X : list A) x0 q d, List.length X = List.length li -> (q < List.length li)%nat ->
  seg_at x0 (combine li X) (x0 + seg_start li q) (nth q li 0) (nth q X d).
Proof.
  induction li as [|y li IH]; intros N X x0 q d L H; [simpl in H; lia|]. destruct X as [|z X]; [discriminate|]. destruct q as [|q]; cbn [combine nth].
  - replace (x0 + seg_start (y :: li) 0) with x0 by (unfold seg_start, rsum; simpl; ring). constructor.
  - constructor. rewrite Rabs_pos_eq by (apply N; left; reflexivity).
    replace (x0 + seg_start (y :: li) (S q)) with (x0 + y + seg_start li q) by (unfold seg_start, rsum; simpl; ring). apply IH; [intros l h; apply N; right; exact h|simpl in L; lia|simpl in H; lia].
Qed.
Lemma start_S li q : (q < List.length li)%nat -> seg_start li (S q) = seg_start li q + nth q li 0.
Proof. revert q. induction li as [|y li IH]; intros q H; [simpl in H; lia|]. destruct q as [|q]; [unfold seg_start, rsum; simpl; ring|]. pose proof (IH q ltac:(simpl in H; lia)) as I. change (seg_start (y :: li) (S (S q))) with (y + seg_start li (S q)). change (seg_start (y :: li) (S q)) with (y + seg_start li q). cbn [nth]. lra. Qed.
Lemma start_mono li : (forall l, In l li -> 0 <= l) -> forall a b, (a <= b <= List.length li)%nat -> seg_start li a <= seg_start li b.
Proof.
  intros N a b [H G]. induction H as [|b H IH]; [lra|]. rewrite start_S by lia. pose proof (N (nth b li 0) (nth_In li 0 (n := b) ltac:(lia))). specialize (IH ltac:(lia)). lra.
Qed.

(** A quantity that is continuous at all boundaries has one value at coordinate [seg_start li (S j)]. *)
Lemma one_value (W : nat -> R -> R) li j q s : (forall l, In l li -> 0 <= l) -> (forall i, (S i < List.length li)%nat -> W i (nth i li 0) = W (S i) 0) ->
  (S j < List.length li)%nat -> (q < List.length li)%nat -> 0 <= s <= nth q li 0 -> seg_start li q + s = seg_start li (S j) -> W q s = W j (nth j li 0).
Proof.
  intros N C Hj Hq Hs E. destruct (Nat.le_gt_cases q j) as [L|L].
  - assert (Z : forall d, (q + d <= j)%nat -> W q s = W (q + d)%nat (nth (q + d) li 0) /\ seg_start li (S (q + d)) = seg_start li (S j)).
    { induction d as [|d IH]; intros Hd.
      - replace (q + 0)%nat with q by lia. pose proof (start_S li q Hq). pose proof (start_mono li N (S q) (S j) ltac:(lia)). split; [f_equal; lra|lra].
      - destruct (IH ltac:(lia)) as [I1 I2]. replace (q + S d)%nat with (S (q + d)) in * by lia.
        pose proof (start_S li (S (q + d)) ltac:(lia)) as T. pose proof (start_mono li N (S (S (q + d))) (S j) ltac:(lia)). pose proof (N _ (nth_In li 0 (n := S (q + d)) ltac:(lia))).
        split; [|lra]. rewrite I1, (C (q + d)%nat) by lia. f_equal. lra. }
    destruct (Z (j - q)%nat ltac:(lia)) as [Z1 _]. rewrite Z1. replace (q + (j - q))%nat with j by lia. reflexivity.
  - pose proof (start_mono li N (S j) q ltac:(lia)). assert (s = 0) by lra. subst s. rewrite (C j) by lia.
    assert (Z : forall d, (S j + d <= q)%nat -> W (S j) 0 = W (S j + d)%nat 0).
    { induction d as [|d IH]; intros Hd; [replace (S j + 0)%nat with (S j) by lia; reflexivity|]. rewrite IH by lia. replace (S j + S d)%nat with (S (S j + d)) by lia. rewrite <- (C (S j + d)%nat) by lia. f_equal.
      pose proof (start_S li (S j + d) ltac:(lia)). pose proof (start_mono li N (S j) (S j + d) ltac:(lia)). pose proof (start_mono li N (S (S j + d)) q ltac:(lia)). pose proof (N _ (nth_In li 0 (n := (S j + d)%nat) ltac:(lia))). lra. }
    rewrite (Z (q - S j)%nat) by lia. replace (S j + (q - S j))%nat with q by lia. reflexivity.
Qed.

Lemma layered_constants eig system la td o : Layered eig system la td = Ok o -> o_g o = 9810 /\ o_lski o = 1000.
Proof.
  unfold Layered. match goal with |- bind ?m _ = _ -> _ => destruct m as [o1|e] eqn:E; [|discriminate] end.
  cbn [bind]. intros H. apply Ok_inj in H. subst o.
  match goal with |- context [o_calc_fundamental_system eig ?x] => destruct (fundamental_misc eig x) as (-> & _ & _ & -> & _) end.
  unfold set_foundation_properties, with_weak. simpl. unfold set_beam_properties in E.
  match type of E with bind ?m _ = _ => destruct m as [[ly El]|e]; [|discriminate] end. cbn [bind] in E.
  destruct (calc_center_of_gravity ly) as [h z]. apply Ok_inj in E. subst o1. auto.
Qed.
Lemma model_constants eig o E t : o_g (model_obj eig o E t) = o_g o /\ o_lski (model_obj eig o E t) = o_lski o.
Proof. unfold model_obj, set_foundation_properties. destruct (fundamental_misc eig (with_weak o E (1 / 4) t)) as (-> & _ & _ & -> & _). auto. Qed.

Section S.
Variable eig : mat6 -> list eigpair.
Variable solve : nat -> matrix -> vector -> res vector.
Variable brent : R -> R -> list (R * R) -> bstep.
Variable maxeval : nat.
Variables (layers : list layer) (phi E t : R) (li : list R) (ki : list bool).
Hypothesis St : setting eig solve layers li ki E t.
Notation create := (fun w => create_skier_object eig solve brent maxeval (LList layers) w phi li ki false E t).

(** Symmetric segments with the load in the middle: the sample under the load. *)
Lemma symmetric_sample j m : rev li = li -> List.length li = (2 * S j)%nat -> skier_weights li (List.length li) 1 = Ok m -> nth j m 0 = 1 ->
  exists o o0 F z k0 k1 i a b a' b', ready o /\ stable (o_par o) /\ Layered eig "skiers" (LList layers) false = Ok o0 /\ o_par o = o_par (model_obj eig o0 E t) /\
    difference (o_par o) (List.length li - 1) (fun i => nth i li 0) F (fun i => nth i (map (fun _ => true) ki) false) (phi * PI / 180) z /\
    F j = 9810 / 1000 / 1000 /\ (forall i, i <> j -> F i = 0) /\ (forall i, (i < List.length li)%nat -> nth i (map (fun _ => true) ki) false = true) /\
    (forall i, (i <= List.length li - 1)%nat -> nth (List.length li - 1 - i) li 0 = nth i li 0) /\
    create 0 = Ok k0 /\ create 1 = Ok k1 /\ sample k0 i a b /\ sample k1 i a' b' /\ a' = a - 1000 * kn (o_par o) * z_w (z j (nth j li 0)).
Proof.
  intros Sy Len Em Mj.
  pose proof (setting_proper _ _ _ _ _ _ _ St) as Pr. destruct St as (P & HE & Ht & So & Co & G & N2 & Lk & Nn & Pos & _).
  assert (Em' : skier_weights li (List.length ki) 1 = Ok m) by (rewrite Lk; exact Em).
  destruct (create_affine eig solve brent maxeval layers phi li ki E t 1 m P HE Ht So Co G N2 Lk Pr Em') as (o & j' & C0 & C1 & z0 & z1 & Rd & Sb & Sys & (o0 & Lo & SM & Ls) & Hj' & H). cbv zeta in H.
  set (ks := map (fun _ => true) ki) in *. set (mw := fun w => set_nth (repeat 0 (List.length li - 1)) j' w) in *.
  destruct H as (B0 & B1 & LC0 & LC1 & _ & _ & (x & b & ER0 & ER1) & Lz & W).
  assert (j' = j).
  { destruct (W 1) as (W1 & _). rewrite Em' in W1. apply Ok_inj in W1. destruct (Nat.eq_dec j j') as [->|Nj]; [reflexivity|].
    destruct (set_nth_repeat _ _ 1 Hj') as (_ & _ & Q). rewrite W1 in Mj. unfold mw in Mj. rewrite (Q j Nj) in Mj. lra. }
  subst j'.
  assert (Lks : List.length ks = List.length li) by (unfold ks; rewrite map_length; exact Lk).
  assert (Kt : forall i, (i < List.length li)%nat -> nth i ks false = true).
  { intros i Hi. rewrite <- Lks in Hi. pose proof (nth_In ks false Hi) as I. unfold ks in I. apply in_map_iff in I. destruct I as (bb & I & _). symmetry. exact I. }
  assert (Kd : kind_of (o_system o) = Some KSkier) by (rewrite Sys; reflexivity).
  assert (Nl : li <> []) by (intros Z; rewrite Z in N2; simpl in N2; lia).
  pose proof (bvp_difference o phi li ks (mw 0) (mw 1) C0 C1 Rd Kd Nl B0 B1) as D.
  set (n := (List.length li - 1)%nat) in *.
  set (F := fun i => nth i (mw 1) 0 * o_g o / 1000 / o_lski o - nth i (mw 0) 0 * o_g o / 1000 / o_lski o) in D.
  set (z := fun i s => combo 1 (field o phi (nth i li 0) (nth i ks false) (nth i C1 []) s) (-1) (field o phi (nth i li 0) (nth i ks false) (nth i C0 []) s)) in D.
  destruct (layered_constants _ _ _ _ _ Lo) as [Eg El]. destruct (model_constants eig o0 E t) as [Eg' El']. destruct SM as (M1 & M2 & M3 & M4 & M5 & M6).
  assert (Og : o_g o = 9810) by congruence. assert (Ol : o_lski o = 1000) by congruence.
  destruct (set_nth_repeat n j 1 ltac:(lia)) as (_ & Q1 & Q1'). destruct (set_nth_repeat n j 0 ltac:(lia)) as (_ & Q0 & Q0').
  assert (Sl : forall i, (i <= n)%nat -> nth (n - i) li 0 = nth i li 0).
  { intros i Hi. rewrite <- Sy at 2. rewrite rev_nth by lia. f_equal. lia. }
  (* the sample under the load *)
  set (xs := seg_start li (S j)).
  assert (N800 : (1 <= 800)%nat) by (apply Nat.leb_le; reflexivity).
  assert (Ix : In xs x).
  { destruct (C38_grid _ _ _ _ _ _ _ _ _ _ N800 ER0) as (_ & _ & _ & I & _). pose proof (index_chain li Nn ks 0 (S j) false Lks ltac:(lia)) as SA. apply I in SA. destruct SA as [SA _]. rewrite Rplus_0_l in SA. exact SA. }
  apply In_nth_error in Ix. destruct Ix as [i Ix].
  assert (Own : forall C zq, List.length C = List.length li -> rasterize_solution (o_par o) (o_eig o) (loads_of o phi) C li ks 800 = Ok (x, zq, b) ->
    exists q v, (q < List.length li)%nat /\ 0 <= xs - seg_start li q <= nth q li 0 /\ nth_error zq i = Some v /\ v = field o phi (nth q li 0) (nth q ks false) (nth q C []) (xs - seg_start li q)).
  { intros C zq LC ER. pose proof (C40_columns _ _ _ _ _ _ _ _ _ _ N800 ER) as F2.
    assert (Z : exists v, nth_error zq i = Some v /\ exists b0 l C' k, owns (combine li (combine C ks)) b0 l (C', k) xs /\ v = zsol (o_par o) (o_eig o) (loads_of o phi) (xs - b0) C' (Rabs l) k).
    { clear - F2 Ix. revert i Ix. induction F2 as [|x0 v x' zq Hv F2 IH]; intros [|i] Ix; simpl in *; try discriminate; [injection Ix as ->; exists v; auto|exact (IH i Ix)]. }
    destruct Z as (v & Ev & b0 & l & C' & k & (SA & Nz & Ow) & Hv).
    destruct (chain_index li Nn (combine C ks) 0 b0 l (C', k) ([], false) SA) as (q & Q & Eb & E_l & Ek). rewrite Rplus_0_l in Eb. subst b0 l.
    rewrite combine_nth in Ek by congruence. injection Ek as -> ->.
    assert (Pq : 0 <= nth q li 0) by (apply Nn; apply nth_In; exact Q). rewrite (Rabs_pos_eq _ Pq) in *.
    exists q, v. split; [exact Q|]. split; [destruct Ow as [Ow|[Ow _]]; lra|]. split; [exact Ev|exact Hv]. }
  destruct (Own C0 z0 LC0 ER0) as (q0 & v0 & A1 & A2 & A3 & A4). destruct (Own C1 z1 LC1 ER1) as (q1 & v1 & A1' & A2' & A3' & A4').
  assert (V : forall C q, (exists m, bvp o 0 phi li m ks C) -> (q < List.length li)%nat -> 0 <= xs - seg_start li q <= nth q li 0 ->
     z_w (field o phi (nth q li 0) (nth q ks false) (nth q C []) (xs - seg_start li q)) = z_w (field o phi (nth j li 0) (nth j ks false) (nth j C []) (nth j li 0))).
  { intros C q (mm & B) Hq Hs. apply (one_value (fun q s => z_w (field o phi (nth q li 0) (nth q ks false) (nth q C []) s)) li j q (xs - seg_start li q) Nn); [|lia|exact Hq|exact Hs|unfold xs; ring].
    intros i' Hi'. destruct B as (_ & _ & B). specialize (B i' ltac:(lia)). unfold transition in B. rewrite Kd in B. cbv zeta in B. destruct B as (_ & B & _). exact B. }
  destruct (W 0) as (_ & k0 & K0 & _ & _ & _ & S0 & T0). destruct (W 1) as (_ & k1 & K1 & _ & _ & _ & S1 & T1).
  assert (Nz0 : nth_error (map2 (zmix 0) z0 z1) i = Some (zmix 0 v0 v1)) by (apply map2_nth_error; assumption).
  assert (Nz1 : nth_error (map2 (zmix 1) z0 z1) i = Some (zmix 1 v0 v1)) by (apply map2_nth_error; assumption).
  assert (Fj : F j = 9810 / 1000 / 1000) by (unfold F, mw; rewrite Q1, Q0, Og, Ol; lra).
  assert (Fi : forall i, i <> j -> F i = 0) by (intros i' Nij; unfold F, mw; rewrite Q1', Q0' by exact Nij; unfold Rdiv; ring).
  exists o, o0, F, z, k0, k1, i. eexists _, _, _, _. split; [exact Rd|]. split; [exact Sb|]. split; [exact Lo|]. split; [congruence|]. split; [exact D|]. split; [exact Fj|]. split; [exact Fi|].
  split; [exact Kt|]. split; [exact Sl|]. split; [exact K0|]. split; [exact K1|]. unfold sample. rewrite S0, T0, S1, T1, !nth_error_map, Nz0, Nz1. cbn [option_map].
  split; [split; reflexivity|]. split; [split; reflexivity|].
  assert (WW : z_w (z j (nth j li 0)) = z_w v1 - z_w v0).
  { rewrite A4, A4', (V C0 q0), (V C1 q1); eauto. unfold z, combo. cbn [z_w]. ring. }
  rewrite WW. unfold f_sig, f_w, zmix, combo. cbn [z_w]. ring.
Qed.
(** The compression under the load grows with it. *)
Lemma symmetric_matters j m : rev li = li -> List.length li = (2 * S j)%nat -> skier_weights li (List.length li) 1 = Ok m -> nth j m 0 = 1 -> 0 < cos (phi * PI / 180) ->
  exists k0 k1 i a b a' b', create 0 = Ok k0 /\ create 1 = Ok k1 /\ sample k0 i a b /\ sample k1 i a' b' /\ a' < a.
Proof.
  intros Sy Len Em Mj Hc. destruct (symmetric_sample j m Sy Len Em Mj) as (o & o0 & F & z & k0 & k1 & i & a & b & a' & b' & (Hl & Hf & _) & Sb & _ & _ & D & Fj & Fi & Kt & Sl & K0 & K1 & S0 & S1 & Ea).
  exists k0, k1, i, a, b, a', b'. split; [exact K0|]. split; [exact K1|]. split; [exact S0|]. split; [exact S1|].
  pose proof (setting_proper _ _ _ _ _ _ _ St) as Pr. destruct St as (_ & _ & _ & _ & _ & _ & N2 & Lk & Nn & _). set (n := (List.length li - 1)%nat) in *.
  assert (WD : 0 < z_w (z j (nth j li 0))).
  { destruct Pr as [_ (i0 & I1 & I2 & I3)].
    assert (X : exists i0, (i0 <= j)%nat /\ 0 < nth i0 li 0). { destruct (Nat.le_gt_cases i0 j) as [?|?]; [exists i0; auto|]. exists (n - i0)%nat. split; [lia|]. rewrite Sl by lia. exact I3. }
    destruct X as (i1 & X1 & X2).
    apply (symmetric_deflection (o_par o) Hl Hf Sb n (fun i => nth i li 0) F (fun i => nth i (map (fun _ => true) ki) false) (phi * PI / 180) z j i1); try assumption.
    - intros i' Hi. apply Nn. apply nth_In. lia.
    - lia.
    - intros i' Hi. rewrite !Kt by lia. reflexivity.
    - apply Kt. lia.
    - rewrite Fj. apply Rmult_lt_0_compat; [lra|exact Hc]. }
  assert (0 < kn (o_par o)) by (unfold fnd_ok in Hf; tauto). nra.
Qed.
End S.
