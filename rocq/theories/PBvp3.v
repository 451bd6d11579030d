(** The assembled linear system is the boundary value problem (C20). *)
From Coquelicot Require Import Coquelicot.
Require Import Verif.Py Verif.MTools Verif.MEigen Verif.MFields Verif.MRaster
  Verif.MSolution Verif.SBeam Verif.SBvp Verif.PSetup Verif.PBeam Verif.PBvp Verif.PBvp2.

Lemma last_nth {A} (l : list A) d : last l d = nth (List.length l - 1) l d.
Proof.
  induction l as [|a l IH]; [reflexivity|].
  destruct l as [|b l]; [reflexivity|].
  change (last (a :: b :: l) d) with (last (b :: l) d). rewrite IH.
  cbn [List.length].
  replace (S (S (List.length l)) - 1)%nat with (S (S (List.length l) - 1))%nat by lia.
  reflexivity.
Qed.

(** ** Values of single rows *)
Lemma inrow_in lo vals r : (lo <= r)%nat -> (r < lo + List.length vals)%nat ->
  inrow lo vals r = nth (r - lo) vals 0.
Proof.
  intros H1 H2. unfold inrow.
  rewrite (proj2 (Nat.leb_le _ _) H1), (proj2 (Nat.ltb_lt _ _) H2). reflexivity.
Qed.
Lemma inrow_out lo vals r : (r < lo \/ lo + List.length vals <= r)%nat ->
  inrow lo vals r = 0.
Proof.
  intros H. unfold inrow. destruct (Nat.leb_spec lo r); [|reflexivity].
  destruct (Nat.ltb_spec r (lo + List.length vals)); [lia|reflexivity].
Qed.

Lemma nth_map_dot (rows : list vec6) z j : (j < List.length rows)%nat ->
  nth j (map (fun r => dot6 r z) rows) 0 = dot6 (nth j rows vzero) z.
Proof.
  intros H. rewrite (nth_indep _ 0 (dot6 vzero z)) by (rewrite map_length; exact H).
  apply (map_nth (fun r => dot6 r z)).
Qed.

Section Rows.
Variable o : obj.
Variable kR : res R.
Variable phi : R.
Variable nS : nat.
Hypothesis HN : (2 <= nS)%nat.

Lemma pos_first : pos_of nS 0 = "l"%string.
Proof. unfold pos_of. destruct (Nat.eqb_spec 0 (nS - 1)); [lia|reflexivity]. Qed.
Lemma pos_last : pos_of nS (nS - 1) = "r"%string.
Proof. unfold pos_of. rewrite Nat.eqb_refl. reflexivity. Qed.
Lemma pos_mid i : (0 < i)%nat -> (S i < nS)%nat -> pos_of nS i = "m"%string.
Proof.
  intros H1 H2. unfold pos_of. destruct (Nat.eqb_spec i (nS - 1)); [lia|].
  destruct (Nat.eqb_spec i 0); [lia|reflexivity].
Qed.

Definition inner_val (z : vec6) (c : nat) : R :=
  nth c (map (fun r => dot6 r z) (inner_rows (o_par o))) 0.

Lemma vals_first l k C b c : eqs_rows o kR k (pos_of nS 0) = Ok b -> (c < 3)%nat ->
  exists bb, bc_rows o kR k "l" = Ok bb /\
    nth c (seg_vals o phi l k C b) 0 = nth c (map (fun r => dot6 r (field o phi l k C 0)) bb) 0.
Proof.
  rewrite pos_first. unfold eqs_rows. cbn [mem_str existsb]. intros H Hc.
  change (mem_str "l" ["l"; "left"]%string) with true in H. cbv iota in H.
  destruct (bc_rows o kR k "l") as [bb|] eqn:EB; [|discriminate].
  exists bb. split; [reflexivity|]. cbn [bind] in H. apply Ok_inj in H. subst b.
  pose proof (bc_rows_len _ _ _ _ _ EB) as L.
  unfold seg_vals. rewrite map_app, map_map.
  rewrite app_nth1 by (rewrite map_length; lia).
  f_equal. apply map_ext. intros r. apply ev2_lrow.
Qed.
Lemma vals_last l k C b c : eqs_rows o kR k (pos_of nS (nS - 1)) = Ok b -> (c < 3)%nat ->
  exists bb, bc_rows o kR k "r" = Ok bb /\
    nth (6 + c) (seg_vals o phi l k C b) 0 = nth c (map (fun r => dot6 r (field o phi l k C l)) bb) 0.
Proof.
  rewrite pos_last. unfold eqs_rows. intros H Hc.
  change (mem_str "r" ["l"; "left"]%string) with false in H.
  change (mem_str "r" ["m"; "mid"]%string) with false in H.
  change (mem_str "r" ["r"; "right"]%string) with true in H. cbv iota in H.
  destruct (bc_rows o kR k "r") as [bb|] eqn:EB; [|discriminate].
  exists bb. split; [reflexivity|]. cbn [bind] in H. apply Ok_inj in H. subst b.
  unfold seg_vals. rewrite map_app, (map_map rrow).
  rewrite app_nth2 by (rewrite map_length; simpl; lia).
  rewrite map_length. cbn [inner_rows map List.length].
  replace (6 + c - 6)%nat with c by lia.
  f_equal. apply map_ext. intros r. apply ev2_rrow.
Qed.
Lemma vals_left i l k C b c : eqs_rows o kR k (pos_of nS i) = Ok b ->
  (0 < i)%nat -> (i < nS)%nat -> (c < 6)%nat ->
  nth c (seg_vals o phi l k C b) 0 = - inner_val (field o phi l k C 0) c.
Proof.
  intros H H0 Hi Hc.
  assert (E : exists t, b = map (fun r => lrow (vscale (-1) r)) (inner_rows (o_par o)) ++ t).
  { destruct (Nat.eq_dec i (nS - 1)) as [->|Hne].
    - rewrite pos_last in H. unfold eqs_rows in H.
      change (mem_str "r" ["l"; "left"]%string) with false in H.
      change (mem_str "r" ["m"; "mid"]%string) with false in H.
      change (mem_str "r" ["r"; "right"]%string) with true in H. cbv iota in H.
      destruct (bc_rows o kR k "r") as [bb|]; [|discriminate].
      cbn [bind] in H. apply Ok_inj in H. eexists. symmetry. exact H.
    - rewrite pos_mid in H by lia. unfold eqs_rows in H.
      change (mem_str "m" ["l"; "left"]%string) with false in H.
      change (mem_str "m" ["m"; "mid"]%string) with true in H. cbv iota in H.
      apply Ok_inj in H. eexists. symmetry. exact H. }
  destruct E as [t ->]. unfold seg_vals. rewrite map_app.
  rewrite app_nth1 by (rewrite !map_length; exact Hc).
  unfold inner_val. cbn [inner_rows map].
  rewrite !ev2_lrow, !dot_scale_l.
  destruct c as [|[|[|[|[|[|c]]]]]]; cbn [nth]; try ring. lia.
Qed.
Lemma vals_right i l k C b c : eqs_rows o kR k (pos_of nS i) = Ok b ->
  (S i < nS)%nat -> (c < 6)%nat ->
  nth (6 * i + 3 - row_lo i + c) (seg_vals o phi l k C b) 0
  = inner_val (field o phi l k C l) c.
Proof.
  intros H Hi Hc.
  assert (E : exists t, b = t ++ map rrow (inner_rows (o_par o)) /\
     List.length t = (6 * i + 3 - row_lo i)%nat).
  { destruct (Nat.eq_dec i 0) as [->|Hne].
    - rewrite pos_first in H. unfold eqs_rows in H.
      change (mem_str "l" ["l"; "left"]%string) with true in H. cbv iota in H.
      destruct (bc_rows o kR k "l") as [bb|] eqn:EB; [|discriminate].
      cbn [bind] in H. apply Ok_inj in H. eexists. split; [symmetry; exact H|].
      rewrite map_length, (bc_rows_len _ _ _ _ _ EB). reflexivity.
    - rewrite pos_mid in H by lia. unfold eqs_rows in H.
      change (mem_str "m" ["l"; "left"]%string) with false in H.
      change (mem_str "m" ["m"; "mid"]%string) with true in H. cbv iota in H.
      apply Ok_inj in H. eexists. split; [symmetry; exact H|].
      rewrite map_length. unfold row_lo. destruct (Nat.eqb_spec i 0); [lia|]. simpl List.length. lia. }
  destruct E as (t & -> & Lt). unfold seg_vals. rewrite map_app.
  rewrite app_nth2 by (rewrite map_length; lia).
  rewrite map_length. replace (6 * i + 3 - row_lo i + c - List.length t)%nat with c by lia.
  unfold inner_val. rewrite map_map. f_equal. apply map_ext. intros r. apply ev2_rrow.
Qed.
End Rows.

(** ** All rows *)
Definition zi (o : obj) (phi : R) (li : list R) (ki : list bool) (x : vector) (i : nat) : R -> vec6 :=
  field o phi (nth i li 0) (nth i ki false) (block x i).

Lemma lhs_rows o kR phi li ki M v :
  six_cols o -> (2 <= List.length li)%nat -> List.length ki = List.length li ->
  assemble_lhs o kR phi (List.length li) 0 li ki (fun _ _ => 0, fun _ => 0) = Ok (M, v) ->
  let nS := List.length li in
  exists bl br,
    bc_rows o kR (nth 0 ki false) "l" = Ok bl /\
    bc_rows o kR (nth (nS - 1) ki false) "r" = Ok br /\
    forall x,
    let Sm r := sumn (6 * nS) (fun c => M r c * x c) + v r in
    (forall c, (c < 3)%nat -> Sm c = nth c (map (fun r => dot6 r (zi o phi li ki x 0 0)) bl) 0) /\
    (forall c, (c < 3)%nat -> Sm (6 * nS - 3 + c)%nat =
       nth c (map (fun r => dot6 r (zi o phi li ki x (nS - 1) (nth (nS - 1) li 0))) br) 0) /\
    (forall i c, (S i < nS)%nat -> (c < 6)%nat -> Sm (6 * i + 3 + c)%nat =
       inner_val o (zi o phi li ki x i (nth i li 0)) c - inner_val o (zi o phi li ki x (S i) 0) c).
Proof.
  intros H6 HN Hk H nS.
  destruct (assemble_lhs_spec o kR phi nS H6 li ki 0 _ _ M v Hk ltac:(unfold nS; lia)
    ltac:(reflexivity) H) as (HR & HS).
  fold nS in HR, HS. cbn [Nat.add] in HR, HS.
  assert (HRr : forall j, (j < nS)%nat ->
    exists rows, eqs_rows o kR (nth j ki false) (pos_of nS j) = Ok rows /\
      rows_of o kR (nth j ki false) (pos_of nS j) = rows /\
      List.length rows = (row_hi nS j - row_lo j)%nat).
  { intros j Hj. destruct (HR j Hj) as [E1 E2]. eexists. split; [exact E1|]. split; [reflexivity|exact E2]. }
  assert (Hlen : forall j x, (j < nS)%nat ->
    List.length (seg_vals o phi (nth j li 0) (nth j ki false) (block x j)
               (rows_of o kR (nth j ki false) (pos_of nS j))) = (row_hi nS j - row_lo j)%nat).
  { intros j x Hj. unfold seg_vals. rewrite map_length. apply HR. exact Hj. }
  assert (Hlo : forall j, (j < nS)%nat -> row_lo j = if Nat.eqb j 0 then 0%nat else (6 * j - 3)%nat) by reflexivity.
  destruct (HRr 0%nat ltac:(lia)) as (r0 & R0 & R0' & _).
  destruct (HRr (nS - 1)%nat ltac:(lia)) as (rN & RN & RN' & _).
  destruct (vals_first o kR phi nS HN (nth 0 li 0) (nth 0 ki false) [] r0 0 R0 ltac:(lia)) as (bl & Hbl & _).
  destruct (vals_last o kR phi nS HN (nth 0 li 0) (nth (nS - 1) ki false) [] rN 0 RN ltac:(lia)) as (br & Hbr & _).
  exists bl, br. split; [exact Hbl|]. split; [exact Hbr|].
  intros x Sm.
  assert (HSx : forall r, Sm r = sumn nS (fun j =>
          inrow (row_lo j)
            (seg_vals o phi (nth j li 0) (nth j ki false) (block x j)
               (rows_of o kR (nth j ki false) (pos_of nS j))) r)).
  { intros r. unfold Sm. rewrite HS. simpl (sumn (6 * 0) _). ring. }
  clearbody Sm. clear HS.
  split; [|split].
  - intros c Hc. rewrite HSx, (sumn_one nS _ 0%nat ltac:(lia)).
    + rewrite inrow_in; [|unfold row_lo; simpl; lia|].
      2:{ rewrite Hlen by lia. unfold row_lo, row_hi. destruct (Nat.eqb_spec 0 (nS - 1)); [lia|]. simpl. lia. }
      unfold row_lo at 1. simpl (Nat.eqb 0 0). cbv iota. rewrite Nat.sub_0_r, R0'.
      destruct (vals_first o kR phi nS HN (nth 0 li 0) (nth 0 ki false) (block x 0) r0 c R0 Hc) as (b2 & Hb2 & ->).
      rewrite Hbl in Hb2. apply Ok_inj in Hb2. subst b2. reflexivity.
    + intros i Hi Hi0. apply inrow_out. left. unfold row_lo. destruct (Nat.eqb_spec i 0); lia.
  - intros c Hc. rewrite HSx, (sumn_one nS _ (nS - 1)%nat ltac:(lia)).
    + assert (E : row_lo (nS - 1) = (6 * (nS - 1) - 3)%nat).
      { unfold row_lo. destruct (Nat.eqb_spec (nS - 1) 0); [lia|reflexivity]. }
      assert (E2 : row_hi nS (nS - 1) = (6 * (nS - 1) + 6)%nat).
      { unfold row_hi. rewrite Nat.eqb_refl. reflexivity. }
      rewrite inrow_in; [|lia|rewrite Hlen by lia; lia].
      rewrite RN'. replace (6 * nS - 3 + c - row_lo (nS - 1))%nat with (6 + c)%nat by lia.
      destruct (vals_last o kR phi nS HN (nth (nS - 1) li 0) (nth (nS - 1) ki false) (block x (nS - 1)) rN c RN Hc) as (b2 & Hb2 & ->).
      rewrite Hbr in Hb2. apply Ok_inj in Hb2. subst b2. reflexivity.
    + intros i Hi Hi0. apply inrow_out. right. rewrite Hlen by exact Hi.
      unfold row_lo, row_hi. destruct (Nat.eqb_spec i 0), (Nat.eqb_spec i (nS - 1)); lia.
  - intros i c Hi Hc. rewrite HSx, (sumn_two nS _ i (S i) ltac:(lia) ltac:(lia)).
    + assert (E : row_lo (S i) = (6 * i + 3)%nat).
      { unfold row_lo. destruct (Nat.eqb_spec (S i) 0); lia. }
      assert (E1 : (row_lo i <= 6 * i)%nat).
      { unfold row_lo. destruct (Nat.eqb_spec i 0); lia. }
      assert (E2 : row_hi nS i = (6 * i + 9)%nat).
      { unfold row_hi. destruct (Nat.eqb_spec i (nS - 1)); lia. }
      assert (E3 : (6 * S i + 6 <= row_hi nS (S i))%nat).
      { unfold row_hi. destruct (Nat.eqb_spec (S i) (nS - 1)); lia. }
      rewrite !inrow_in; [|lia|rewrite Hlen by lia; lia|lia|rewrite Hlen by lia; lia].
      destruct (HRr i ltac:(lia)) as (ri & Ri & Ri' & _).
      destruct (HRr (S i) ltac:(lia)) as (rj & Rj & Rj' & _).
      rewrite Ri', Rj'.
      replace (6 * i + 3 + c - row_lo i)%nat with (6 * i + 3 - row_lo i + c)%nat by lia.
      replace (6 * i + 3 + c - row_lo (S i))%nat with c by lia.
      rewrite (vals_right o kR phi nS HN i _ _ _ ri c Ri Hi Hc).
      rewrite (vals_left o kR phi nS HN (S i) _ _ _ rj c Rj ltac:(lia) ltac:(lia) Hc).
      unfold zi. ring.
    + intros j Hj Hji Hji2. apply inrow_out. rewrite Hlen by exact Hj.
      unfold row_lo, row_hi. destruct (Nat.eqb_spec j 0), (Nat.eqb_spec j (nS - 1)); lia.
Qed.
