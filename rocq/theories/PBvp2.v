(** The assembled linear system is the boundary value problem (C20). *)
From Coquelicot Require Import Coquelicot.
Require Import Verif.Py Verif.MTools Verif.MEigen Verif.MFields Verif.MRaster
  Verif.MSolution Verif.SBeam Verif.SBvp Verif.PBeam Verif.PBvp.

(** * Which branch a system takes *)
Lemma kinds s :
  let S1 := mem_str s ["pst-"; "-pst"]%string in
  let S2 := mem_str s ["-vpst"; "vpst-"]%string in
  let S3 := mem_str s ["skier"; "skiers"]%string in
  let S4 := mem_str s ["rot"; "trans"]%string in
  let S5 := mem_str s ["pst-"; "-pst"; "rested"]%string in
  let S6 := mem_str s ["vpst-"; "-vpst"]%string in
  let S7 := mem_str s ["rot"]%string in
  let S8 := mem_str s ["trans"]%string in
  let S9 := mem_str s ["pst-"; "-pst"; "vpst-"; "-vpst"; "rot"; "trans"]%string in
  match kind_of s with
  | Some KPst => S1 = true /\ S2 = false /\ S3 = false /\ S4 = false /\ S5 = true /\ S6 = false /\ S7 = false /\ S8 = false /\ S9 = true
  | Some KVpst => S1 = false /\ S2 = true /\ S3 = false /\ S4 = false /\ S5 = false /\ S6 = true /\ S7 = false /\ S8 = false /\ S9 = true
  | Some KSkier => S1 = false /\ S2 = false /\ S3 = true /\ S4 = false /\ S5 = false /\ S6 = false /\ S7 = false /\ S8 = false /\ S9 = false
  | Some KRot => S1 = false /\ S2 = false /\ S3 = false /\ S4 = true /\ S5 = false /\ S6 = false /\ S7 = true /\ S8 = false /\ S9 = true
  | Some KTrans => S1 = false /\ S2 = false /\ S3 = false /\ S4 = true /\ S5 = false /\ S6 = false /\ S7 = false /\ S8 = true /\ S9 = true
  | None => S1 = false /\ S2 = false /\ S3 = false /\ S4 = false /\ S7 = false /\ S8 = false /\ S9 = false
  end.
Proof.
  unfold kind_of.
  destruct (String.eqb_spec s "pst-"); [subst; repeat split; reflexivity|].
  destruct (String.eqb_spec s "-pst"); [subst; repeat split; reflexivity|].
  destruct (String.eqb_spec s "vpst-"); [subst; repeat split; reflexivity|].
  destruct (String.eqb_spec s "-vpst"); [subst; repeat split; reflexivity|].
  destruct (String.eqb_spec s "skier"); [subst; repeat split; reflexivity|].
  destruct (String.eqb_spec s "skiers"); [subst; repeat split; reflexivity|].
  destruct (String.eqb_spec s "rot"); [subst; repeat split; reflexivity|].
  destruct (String.eqb_spec s "trans"); [subst; repeat split; reflexivity|].
  cbn [orb]. unfold mem_str. cbn [existsb].
  repeat match goal with H : s <> _ |- _ => apply String.eqb_neq in H; rewrite ?H, ?(String.eqb_sym _ s), ?H; clear H end.
  repeat split; reflexivity.
Qed.

(** * Sums with few non-zero terms *)
Lemma sumn_zero n f : (forall i, (i < n)%nat -> f i = 0) -> sumn n f = 0.
Proof.
  induction n as [|n IH]; intros H; simpl; [reflexivity|].
  rewrite IH, (H n) by (intros; try apply H; lia). ring.
Qed.
Lemma sumn_one n f a : (a < n)%nat ->
  (forall i, (i < n)%nat -> i <> a -> f i = 0) -> sumn n f = f a.
Proof.
  intros Ha H. induction n as [|n IH]; [lia|]. simpl.
  destruct (Nat.eq_dec a n) as [->|Hne].
  - rewrite sumn_zero; [ring|]. intros i Hi. apply H; lia.
  - rewrite IH, (H n) by (intros; try apply H; lia). ring.
Qed.
Lemma sumn_two n f a b : (a < b)%nat -> (b < n)%nat ->
  (forall i, (i < n)%nat -> i <> a -> i <> b -> f i = 0) -> sumn n f = f a + f b.
Proof.
  intros Ha Hb H. induction n as [|n IH]; [lia|]. simpl.
  destruct (Nat.eq_dec b n) as [->|Hne].
  - rewrite (sumn_one n f a); [ring|lia|]. intros i Hi Hia. apply H; lia.
  - rewrite IH, (H n) by (intros; try apply H; lia). ring.
Qed.

(** * The right-hand side *)
Lemma set_slice3 v lo a b c r : set_slice v lo [a; b; c] r =
  if Nat.eqb r lo then a else if Nat.eqb r (lo + 1) then b
  else if Nat.eqb r (lo + 2) then c else v r.
Proof.
  unfold set_slice. cbn [List.length].
  destruct (Nat.eqb_spec r lo) as [->|H0].
  { rewrite Nat.leb_refl. replace (Nat.ltb lo (lo + 3)) with true by (symmetry; apply Nat.ltb_lt; lia).
    rewrite Nat.sub_diag. reflexivity. }
  destruct (Nat.eqb_spec r (lo + 1)) as [->|H1].
  { replace (Nat.leb lo (lo + 1)) with true by (symmetry; apply Nat.leb_le; lia).
    replace (Nat.ltb (lo + 1) (lo + 3)) with true by (symmetry; apply Nat.ltb_lt; lia).
    replace (lo + 1 - lo)%nat with 1%nat by lia. reflexivity. }
  destruct (Nat.eqb_spec r (lo + 2)) as [->|H2].
  { replace (Nat.leb lo (lo + 2)) with true by (symmetry; apply Nat.leb_le; lia).
    replace (Nat.ltb (lo + 2) (lo + 3)) with true by (symmetry; apply Nat.ltb_lt; lia).
    replace (lo + 2 - lo)%nat with 2%nat by lia. reflexivity. }
  destruct (Nat.leb_spec lo r); [|reflexivity].
  replace (Nat.ltb r (lo + 3)) with false by (symmetry; apply Nat.ltb_ge; lia). reflexivity.
Qed.
Lemma set_slice3_out v lo a b c r : (r < lo \/ lo + 3 <= r)%nat ->
  set_slice v lo [a; b; c] r = v r.
Proof.
  intros H. rewrite set_slice3.
  destruct (Nat.eqb_spec r lo); [lia|].
  destruct (Nat.eqb_spec r (lo + 1)); [lia|].
  destruct (Nat.eqb_spec r (lo + 2)); [lia|]. reflexivity.
Qed.
Lemma set_slice3_in v lo a b c j : (j < 3)%nat ->
  set_slice v lo [a; b; c] (lo + j)%nat = nth j [a; b; c] 0.
Proof.
  intros H. rewrite set_slice3.
  destruct j as [|[|[|j]]]; [| | |lia].
  - rewrite Nat.add_0_r, Nat.eqb_refl. reflexivity.
  - destruct (Nat.eqb_spec (lo + 1) lo); [lia|]. rewrite Nat.eqb_refl. reflexivity.
  - destruct (Nat.eqb_spec (lo + 2) lo); [lia|].
    destruct (Nat.eqb_spec (lo + 2) (lo + 1)); [lia|]. rewrite Nat.eqb_refl. reflexivity.
Qed.

Definition skier_vec (o : obj) (phi m : R) : list R :=
  let '(Fn, Ft) := get_skier_load (o_g o) (o_lski o) m phi in
  [Ft; - Ft * hh (o_par o) / 2; Fn].
Lemma skier_vec_len o phi m : List.length (skier_vec o phi m) = 3%nat.
Proof. unfold skier_vec. destruct get_skier_load. reflexivity. Qed.

Lemma assemble_rhs_spec o phi : forall mi i v,
  (forall r, (r < 6 * i \/ 6 * (i + List.length mi) <= r)%nat ->
     assemble_rhs o phi i mi v r = v r) /\
  (forall j c, (j < List.length mi)%nat -> (c < 3)%nat ->
     assemble_rhs o phi i mi v (6 * (i + j) + c)%nat = nth c (skier_vec o phi (nth j mi 0)) 0) /\
  (forall j c, (j < List.length mi)%nat -> (3 <= c < 6)%nat ->
     assemble_rhs o phi i mi v (6 * (i + j) + c)%nat = v (6 * (i + j) + c)%nat).
Proof.
  induction mi as [|m mi IH]; intros i v.
  - simpl. repeat split; intros; try reflexivity; lia.
  - cbn [assemble_rhs]. destruct (get_skier_load (o_g o) (o_lski o) m phi) as [Fn Ft] eqn:EF.
    destruct (IH (S i) (set_slice v (6 * i) [Ft; - Ft * hh (o_par o) / 2; Fn])) as (I1 & I2 & I3).
    split; [|split].
    + intros r Hr. simpl in Hr. rewrite I1 by lia. apply set_slice3_out. lia.
    + intros [|j] c Hj Hc.
      * rewrite Nat.add_0_r. rewrite I1 by lia. rewrite set_slice3_in by exact Hc.
        cbn [nth]. unfold skier_vec. rewrite EF. reflexivity.
      * replace (i + S j)%nat with (S i + j)%nat by lia. rewrite I2 by (simpl in Hj; lia). reflexivity.
    + intros [|j] c Hj Hc.
      * rewrite Nat.add_0_r. rewrite I1 by lia. apply set_slice3_out. lia.
      * replace (i + S j)%nat with (S i + j)%nat by lia. rewrite I3 by (simpl in Hj; lia).
        apply set_slice3_out. lia.
Qed.

(** What the touchdown branch writes at an end. *)
Definition td_vec (o : obj) (sgn : R) (k : bool) (v : list R) : list R :=
  if k then v else
  match o_mode o with
  | Some ModeB => [0; 0; o_tc o]
  | Some ModeC => [sgn * (calc_qt o * (o_a o - o_td o)); 0; o_tc o]
  | _ => v
  end.

Lemma touchdown_rhs_spec o nS : (2 <= nS)%nat -> forall ki i v,
  (i + List.length ki <= nS)%nat ->
  (forall r, (3 <= r < 6 * nS - 3)%nat -> touchdown_rhs o nS i ki v r = v r) /\
  (forall c, (c < 3)%nat -> touchdown_rhs o nS i ki v c =
     match i, ki with
     | O, k :: _ => nth c (td_vec o (-1) k [v 0%nat; v 1%nat; v 2%nat]) 0
     | _, _ => v c end) /\
  (forall c, (c < 3)%nat -> touchdown_rhs o nS i ki v (6 * nS - 3 + c)%nat =
     if (Nat.ltb (nS - 1) (i + List.length ki) && Nat.leb i (nS - 1))%bool
     then nth c (td_vec o 1 (nth (nS - 1 - i) ki false)
                   [v (6 * nS - 3)%nat; v (6 * nS - 3 + 1)%nat; v (6 * nS - 3 + 2)%nat]) 0
     else v (6 * nS - 3 + c)%nat).
Proof.
  intros HN. induction ki as [|k ki IH]; intros i v Hn.
  - cbn [touchdown_rhs List.length]. repeat split; intros.
    + destruct i; reflexivity.
    + replace (Nat.ltb (nS - 1) (i + 0) && Nat.leb i (nS - 1))%bool with false; [reflexivity|].
      destruct (Nat.ltb_spec (nS - 1) (i + 0)); [|reflexivity].
      destruct (Nat.leb_spec i (nS - 1)); [lia|reflexivity].
  - cbn [touchdown_rhs]. cbn [List.length] in Hn.
    match goal with |- context [touchdown_rhs o nS (S i) ki ?w] => set (v1 := w) end.
    destruct (IH (S i) v1 ltac:(lia)) as (I1 & I2 & I3). clear IH.
    assert (Hv1 : v1 =
      if k then v else match o_mode o with
      | Some ModeB =>
          let r1 := if Nat.eqb i 0 then set_slice v 0 [0; 0; o_tc o] else v in
          if Nat.eqb i (nS - 1) then set_slice r1 (6 * nS - 3) [0; 0; o_tc o] else r1
      | Some ModeC =>
          let N := calc_qt o * (o_a o - o_td o) in
          let r1 := if Nat.eqb i 0 then set_slice v 0 [- N; 0; o_tc o] else v in
          if Nat.eqb i (nS - 1) then set_slice r1 (6 * nS - 3) [N; 0; o_tc o] else r1
      | _ => v end).
    { unfold v1, mode_is. destruct k; cbn [negb andb]; [reflexivity|].
      destruct (o_mode o) as [[| |]|]; reflexivity. }
    clearbody v1.
    split; [|split].
    + intros r Hr. rewrite I1 by exact Hr. subst v1.
      destruct k; [reflexivity|]. destruct (o_mode o) as [[| |]|]; try reflexivity; cbv zeta;
        destruct (Nat.eqb i 0), (Nat.eqb i (nS - 1)); rewrite ?set_slice3_out by lia; reflexivity.
    + intros c Hc. rewrite I2 by exact Hc. subst v1. unfold td_vec.
      destruct i as [|i].
      * change (Nat.eqb 0 0) with true. destruct (Nat.eqb_spec 0 (nS - 1)); [lia|]. cbv iota zeta.
        destruct k.
        { destruct c as [|[|[|c]]]; [reflexivity..|lia]. }
        destruct (o_mode o) as [[| |]|].
        { destruct c as [|[|[|c]]]; [reflexivity..|lia]. }
        { change c with (0 + c)%nat at 1. rewrite set_slice3_in by exact Hc. reflexivity. }
        { change c with (0 + c)%nat at 1. rewrite set_slice3_in by exact Hc.
          destruct c as [|[|[|c]]]; [cbn [nth]; ring|reflexivity..|lia]. }
        { destruct c as [|[|[|c]]]; [reflexivity..|lia]. }
      * change (Nat.eqb (S i) 0) with false. cbv iota.
        destruct k; [reflexivity|].
        destruct (o_mode o) as [[| |]|]; try reflexivity; cbv zeta;
          destruct (Nat.eqb (S i) (nS - 1)); rewrite ?set_slice3_out by lia; reflexivity.
    + intros c Hc. rewrite I3 by exact Hc. cbn [List.length].
      replace (S i + List.length ki)%nat with (i + S (List.length ki))%nat by lia.
      destruct (Nat.eqb_spec i (nS - 1)) as [Ei|Ei].
      * assert (List.length ki = 0%nat) as Lk by lia. destruct ki; [|discriminate].
        cbn [List.length].
        replace (Nat.ltb (nS - 1) (i + 1)) with true by (symmetry; apply Nat.ltb_lt; lia).
        replace (Nat.leb (S i) (nS - 1)) with false by (symmetry; apply Nat.leb_gt; lia).
        replace (Nat.leb i (nS - 1)) with true by (symmetry; apply Nat.leb_le; lia).
        cbn [andb]. replace (nS - 1 - i)%nat with 0%nat by lia. cbn [nth].
        destruct (Nat.eqb_spec i 0); [lia|].
        subst v1. unfold td_vec. destruct k.
        { destruct c as [|[|[|c]]]; [rewrite Nat.add_0_r; reflexivity|reflexivity..|lia]. }
        destruct (o_mode o) as [[| |]|]; cbv zeta.
        { destruct c as [|[|[|c]]]; [rewrite Nat.add_0_r; reflexivity|reflexivity..|lia]. }
        { rewrite set_slice3_in by exact Hc. reflexivity. }
        { rewrite set_slice3_in by exact Hc.
          destruct c as [|[|[|c]]]; [cbn [nth]; ring|reflexivity..|lia]. }
        { destruct c as [|[|[|c]]]; [rewrite Nat.add_0_r; reflexivity|reflexivity..|lia]. }
      * assert (Hv : forall c, (c < 3)%nat -> v1 (6 * nS - 3 + c)%nat = v (6 * nS - 3 + c)%nat).
        { intros c' Hc'. subst v1. destruct k; [reflexivity|].
          destruct (o_mode o) as [[| |]|]; try reflexivity; cbv zeta;
            destruct (Nat.eqb i 0); rewrite ?set_slice3_out by lia; reflexivity. }
        rewrite !Hv by lia.
        replace (v1 (6 * nS - 3)%nat) with (v (6 * nS - 3)%nat).
        2:{ specialize (Hv 0%nat ltac:(lia)). rewrite Nat.add_0_r in Hv. symmetry; exact Hv. }
        destruct (Nat.leb_spec (S i) (nS - 1)) as [Hl|Hl].
        { replace (Nat.leb i (nS - 1)) with true by (symmetry; apply Nat.leb_le; lia).
          replace (nS - 1 - i)%nat with (S (nS - 1 - S i))%nat by lia. reflexivity. }
        { replace (Nat.leb i (nS - 1)) with false by (symmetry; apply Nat.leb_gt; lia).
          rewrite !Bool.andb_false_r. reflexivity. }
Qed.
