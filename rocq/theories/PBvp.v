(** The assembled linear system is the boundary value problem (C20, C21). *)
From Coquelicot Require Import Coquelicot.
Require Import Verif.Py Verif.MTools Verif.MEigen Verif.MFields Verif.MRaster
  Verif.MSolution Verif.SBeam Verif.SBvp Verif.PBeam.

(** * Linear forms *)
Definition rowu : vec6 := mkV 1 0 0 0 0 0.
Definition roww : vec6 := mkV 0 0 1 0 0 0.
Definition rowpsi : vec6 := mkV 0 0 0 0 1 0.
Definition rowN (p : params) : vec6 := mkV 0 (A11 p) 0 0 0 (B11 p).
Definition rowM (p : params) : vec6 := mkV 0 (B11 p) 0 0 0 (D11 p).
Definition rowV (p : params) : vec6 := mkV 0 0 0 (kA55 p) (kA55 p) 0.

Lemma dot_N p z : dot6 (rowN p) z = sN p z.
Proof. unfold dot6, sN; simpl; ring. Qed.
Lemma dot_M p z : dot6 (rowM p) z = sM p z.
Proof. unfold dot6, sM; simpl; ring. Qed.
Lemma dot_V p z : dot6 (rowV p) z = sV p z.
Proof. unfold dot6, sV; simpl; ring. Qed.
Lemma dot_u z : dot6 rowu z = z_u z.
Proof. unfold dot6; simpl; ring. Qed.
Lemma dot_w z : dot6 roww z = z_w z.
Proof. unfold dot6; simpl; ring. Qed.
Lemma dot_psi z : dot6 rowpsi z = z_psi z.
Proof. unfold dot6; simpl; ring. Qed.
Lemma dot_add r a b : dot6 r (vadd a b) = dot6 r a + dot6 r b.
Proof. unfold dot6; simpl; ring. Qed.
Lemma dot_scale r c a : dot6 r (vscale c a) = c * dot6 r a.
Proof. unfold dot6; simpl; ring. Qed.
Lemma dot_zero r : dot6 r vzero = 0.
Proof. unfold dot6; simpl; ring. Qed.
Lemma dot_scale_l r c a : dot6 (vscale c r) a = c * dot6 r a.
Proof. unfold dot6; simpl; ring. Qed.
Lemma dot_add_l r s a : dot6 (vadd r s) a = dot6 r a + dot6 s a.
Proof. unfold dot6; simpl; ring. Qed.
Lemma dot_zero_l a : dot6 vzero a = 0.
Proof. unfold dot6; simpl; ring. Qed.

(** Coefficients of [bc] and [eqs]. *)
Definition bc_rows (o : obj) (kR : res R) (k : bool) (pos : string) : res (list vec6) :=
  let p := o_par o in
  let free := [rowN p; rowM p; rowV p] in
  if mem_str (o_system o) ["pst-"; "-pst"]%string then
    if negb k then
      if mode_is o ModeA then Ok free
      else if (mode_is o ModeB && mem_str pos ["r"; "right"]%string)%bool
      then Ok [rowN p; rowM p; roww]
      else if (mode_is o ModeB && mem_str pos ["l"; "left"]%string)%bool
      then Ok [rowN p; rowM p; roww]
      else if (mode_is o ModeC && mem_str pos ["r"; "right"]%string)%bool
      then r <- kR ;; Ok [rowN p; vadd (rowM p) (vscale r rowpsi); roww]
      else if (mode_is o ModeC && mem_str pos ["l"; "left"]%string)%bool
      then r <- kR ;; Ok [rowN p; vadd (rowM p) (vscale (- r) rowpsi); roww]
      else Err UnboundLocalError
    else Ok free
  else if mem_str (o_system o) ["-vpst"; "vpst-"]%string then Ok free
  else if mem_str (o_system o) ["skier"; "skiers"]%string then Ok [rowu; roww; rowpsi]
  else if mem_str (o_system o) ["rot"; "trans"]%string then Ok free
  else Err ValueError.

Ltac lincols := simpl; unfold f_N, f_M, f_V, f_u, f_w, f_psi;
  repeat (apply f_equal2; [unfold dot6; simpl; ring|]); reflexivity.

Lemma bc_lin o kR k pos z :
  bc o kR k pos z = (rows <- bc_rows o kR k pos ;; Ok (map (fun r => dot6 r z) rows)).
Proof.
  unfold bc, bc_rows.
  destruct (mem_str (o_system o) ["pst-"; "-pst"]%string).
  - destruct (negb k).
    + destruct (mode_is o ModeA); [cbn [bind]; apply f_equal; lincols|].
      destruct (mode_is o ModeB && mem_str pos ["r"; "right"]%string)%bool; [cbn [bind]; apply f_equal; lincols|].
      destruct (mode_is o ModeB && mem_str pos ["l"; "left"]%string)%bool; [cbn [bind]; apply f_equal; lincols|].
      destruct (mode_is o ModeC && mem_str pos ["r"; "right"]%string)%bool;
        [destruct kR; [cbn [bind]; apply f_equal; lincols|reflexivity]|].
      destruct (mode_is o ModeC && mem_str pos ["l"; "left"]%string)%bool;
        [destruct kR; [cbn [bind]; apply f_equal; lincols|reflexivity]|]. reflexivity.
    + cbn [bind]; apply f_equal; lincols.
  - destruct (mem_str (o_system o) ["-vpst"; "vpst-"]%string); [cbn [bind]; apply f_equal; lincols|].
    destruct (mem_str (o_system o) ["skier"; "skiers"]%string); [cbn [bind]; apply f_equal; lincols|].
    destruct (mem_str (o_system o) ["rot"; "trans"]%string); [cbn [bind]; apply f_equal; lincols|]. reflexivity.
Qed.

Lemma bc_rows_len o kR k pos rows : bc_rows o kR k pos = Ok rows -> List.length rows = 3%nat.
Proof.
  unfold bc_rows. intros H.
  repeat match type of H with context [if ?b then _ else _] => destruct b end;
    try discriminate; try (injection H; intros <-; reflexivity);
    destruct kR; simpl in H; try discriminate; injection H; intros <-; reflexivity.
Qed.

Definition lrow (r : vec6) : vec6 * vec6 := (r, vzero).
Definition rrow (r : vec6) : vec6 * vec6 := (vzero, r).
Definition inner_rows (p : params) : list vec6 :=
  [rowu; roww; rowpsi; rowN p; rowM p; rowV p].
Definition eqs_rows (o : obj) (kR : res R) (k : bool) (pos : string)
  : res (list (vec6 * vec6)) :=
  let p := o_par o in
  if mem_str pos ["l"; "left"]%string then
    b <- bc_rows o kR k pos ;; Ok (map lrow b ++ map rrow (inner_rows p))
  else if mem_str pos ["m"; "mid"]%string then
    Ok (map (fun r => lrow (vscale (-1) r)) (inner_rows p) ++ map rrow (inner_rows p))
  else if mem_str pos ["r"; "right"]%string then
    b <- bc_rows o kR k pos ;;
    Ok (map (fun r => lrow (vscale (-1) r)) (inner_rows p) ++ map rrow b)
  else Err ValueError.

Definition ev2 (zl zr : vec6) (rr : vec6 * vec6) : R := dot6 (fst rr) zl + dot6 (snd rr) zr.

Lemma ev2_lrow zl zr r : ev2 zl zr (lrow r) = dot6 r zl.
Proof. unfold ev2; simpl. rewrite dot_zero_l. ring. Qed.
Lemma ev2_rrow zl zr r : ev2 zl zr (rrow r) = dot6 r zr.
Proof. unfold ev2; simpl. rewrite dot_zero_l. ring. Qed.

Lemma eqs_lin o kR zl zr k pos :
  eqs o kR zl zr k pos
  = (rows <- eqs_rows o kR k pos ;; Ok (map (ev2 zl zr) rows)).
Proof.
  unfold eqs, eqs_rows. rewrite !bc_lin.
  destruct (mem_str pos ["l"; "left"]%string).
  - destruct (bc_rows o kR k pos) as [b|]; [|reflexivity].
    cbn [bind]. rewrite map_app, !map_map. apply f_equal. apply f_equal2.
    + apply map_ext; intros r; symmetry; apply ev2_lrow.
    + simpl. rewrite !ev2_rrow. lincols.
  - destruct (mem_str pos ["m"; "mid"]%string).
    + cbn [bind]. apply f_equal. simpl. rewrite !ev2_rrow, !ev2_lrow, !dot_scale_l. lincols.
    + destruct (mem_str pos ["r"; "right"]%string); [|reflexivity].
      destruct (bc_rows o kR k pos) as [b|]; [|reflexivity].
      cbn [bind]. rewrite map_app, !map_map. apply f_equal. apply f_equal2.
      * simpl. rewrite !ev2_lrow, !dot_scale_l. lincols.
      * apply map_ext; intros r; symmetry; apply ev2_rrow.
Qed.

Lemma mapM_rows {A} (R0 : res (list (vec6 * vec6))) (f : A -> vec6 * vec6 -> R) l :
  mapM (fun a => rows <- R0 ;; Ok (map (f a) rows)) l
  = match R0 with
    | Ok rows => Ok (map (fun a => map (f a) rows) l)
    | Err e => match l with [] => Ok [] | _ => Err e end
    end.
Proof.
  destruct R0 as [rows|e]; [|destruct l; reflexivity].
  induction l as [|a l IH]; simpl in *; [reflexivity|]. rewrite IH. reflexivity.
Qed.

(** * One segment of the assembly loop *)
Definition six_cols (o : obj) : Prop :=
  forall x l, List.length (zh_bedded (o_eig o) x l) = 6%nat.
Lemma six_zh o : six_cols o -> forall x l k, List.length (zh (o_par o) (o_eig o) x l k) = 6%nat.
Proof. intros H x l [|]; simpl; [apply H|reflexivity]. Qed.

Definition block (x : nat -> R) (i : nat) : list R :=
  map (fun j => x (6 * i + j)%nat) (seq 0 6).
Definition row_lo (i : nat) : nat := if Nat.eqb i 0 then 0%nat else (6 * i - 3)%nat.
Definition row_hi (nS i : nat) : nat := if Nat.eqb i (nS - 1) then (6 * i + 6)%nat else (6 * i + 9)%nat.

(** Values of the conditions of segment i. *)
Definition seg_vals (o : obj) (phi l : R) (k : bool) (C : list R)
    (rows : list (vec6 * vec6)) : list R :=
  let z := field o phi l k C in map (ev2 (z 0) (z l)) rows.
Definition inrow (lo : nat) (vals : list R) (r : nat) : R :=
  if (Nat.leb lo r && Nat.ltb r (lo + List.length vals))%bool
  then nth (r - lo) vals 0 else 0.

Lemma lincomb6 (c0 c1 c2 c3 c4 c5 : vec6) x0 x1 x2 x3 x4 x5 r :
  dot6 r (lincomb [c0; c1; c2; c3; c4; c5] [x0; x1; x2; x3; x4; x5])
  = dot6 r c0 * x0 + dot6 r c1 * x1 + dot6 r c2 * x2 + dot6 r c3 * x3
    + dot6 r c4 * x4 + dot6 r c5 * x5.
Proof. simpl lincomb. rewrite !dot_add, !dot_scale, dot_zero. ring. Qed.

Lemma sumn_6S f i : sumn (6 * S i) f
  = sumn (6 * i) f + f (6 * i)%nat + f (6 * i + 1)%nat + f (6 * i + 2)%nat
    + f (6 * i + 3)%nat + f (6 * i + 4)%nat + f (6 * i + 5)%nat.
Proof.
  replace (6 * S i)%nat with (S (S (S (S (S (S (6 * i))))))) by lia.
  cbn [sumn].
  replace (6 * i + 1)%nat with (S (6 * i)) by lia.
  replace (6 * i + 2)%nat with (S (S (6 * i))) by lia.
  replace (6 * i + 3)%nat with (S (S (S (6 * i)))) by lia.
  replace (6 * i + 4)%nat with (S (S (S (S (6 * i))))) by lia.
  replace (6 * i + 5)%nat with (S (S (S (S (S (6 * i)))))) by lia.
  reflexivity.
Qed.

Lemma sumn_ext n f g : (forall i, (i < n)%nat -> f i = g i) -> sumn n f = sumn n g.
Proof.
  induction n as [|n IH]; intros H; simpl; [reflexivity|].
  rewrite IH, H by (intros; try apply H; lia). reflexivity.
Qed.

Lemma nth_map_ev zl zr rows j : (j < List.length rows)%nat ->
  nth j (map (ev2 zl zr) rows) 0 = ev2 zl zr (nth j rows (vzero, vzero)).
Proof.
  intros H. rewrite (nth_indep _ 0 (ev2 zl zr (vzero, vzero))) by (rewrite map_length; exact H).
  apply map_nth.
Qed.

Lemma assemble_segment_spec o kR phi nS i l k M v M' v' :
  six_cols o -> (i < nS)%nat ->
  assemble_segment o kR phi nS i l k (M, v) = Ok (M', v') ->
  (forall r c, (6 * i <= c)%nat -> M r c = 0) ->
  exists rows, eqs_rows o kR k (pos_of nS i) = Ok rows /\
    List.length rows = (row_hi nS i - row_lo i)%nat /\
    (forall r c, (6 * S i <= c)%nat -> M' r c = 0) /\
    forall x r,
      sumn (6 * S i) (fun c => M' r c * x c) + v' r
      = sumn (6 * i) (fun c => M r c * x c) + v r
        + inrow (row_lo i) (seg_vals o phi l k (block x i) rows) r.
Proof.
  intros H6 Hi H HM. unfold assemble_segment in H.
  pose proof (six_zh o H6 0 l k) as L0. pose proof (six_zh o H6 l l k) as L1.
  set (z0 := zh (o_par o) (o_eig o) 0 l k) in *.
  set (z1 := zh (o_par o) (o_eig o) l l k) in *.
  assert (E1 : mapM (fun zz => eqs o kR (fst zz) (snd zz) k (pos_of nS i)) (combine z0 z1)
    = mapM (fun zz => rows <- eqs_rows o kR k (pos_of nS i) ;; Ok (map (ev2 (fst zz) (snd zz)) rows)) (combine z0 z1)).
  { generalize (combine z0 z1) as L. induction L as [|a L IH]; simpl; [reflexivity|].
    rewrite eqs_lin, IH. reflexivity. }
  rewrite E1 in H. clear E1.
  rewrite (mapM_rows _ (fun zz => ev2 (fst zz) (snd zz))) in H.
  rewrite eqs_lin in H.
  destruct (eqs_rows o kR k (pos_of nS i)) as [rows|e] eqn:ER.
  2:{ destruct (combine z0 z1); discriminate. }
  exists rows. split; [reflexivity|].
  destruct z0 as [|a0 [|a1 [|a2 [|a3 [|a4 [|a5 [|]]]]]]] eqn:Ez0; try discriminate L0.
  destruct z1 as [|b0 [|b1 [|b2 [|b3 [|b4 [|b5 [|]]]]]]] eqn:Ez1; try discriminate L1.
  cbn [bind combine map fst snd] in H.
  set (start := if Nat.eqb i 0 then 0%nat else 3%nat) in H.
  set (stop := if Nat.eqb i (nS - 1) then 6%nat else 9%nat) in H.
  assert (Elo : (6 * i - start)%nat = row_lo i).
  { unfold start, row_lo. destruct (Nat.eqb_spec i 0); [subst; reflexivity|reflexivity]. }
  assert (Ehi : (6 * i + stop)%nat = row_hi nS i).
  { unfold stop, row_hi. destruct (Nat.eqb i (nS - 1)); reflexivity. }
  rewrite Elo, Ehi in H. clear start stop Elo Ehi.
  set (B := [map (ev2 a0 b0) rows; map (ev2 a1 b1) rows; map (ev2 a2 b2) rows;
             map (ev2 a3 b3) rows; map (ev2 a4 b4) rows; map (ev2 a5 b5) rows]) in H.
  destruct (assign_block M (row_lo i) (row_hi nS i) (i * 6) ((i + 1) * 6) B) as [M1|] eqn:EB; [|discriminate].
  cbn [bind] in H. injection H; intros Ev EM. subst M1. clear H.
  unfold assign_block in EB.
  destruct (Nat.eqb (List.length B) ((i + 1) * 6 - i * 6) &&
     forallb (fun col => Nat.eqb (List.length col) (row_hi nS i - row_lo i)) B)%bool eqn:EC; [|discriminate].
  injection EB; intros EM'. clear EB.
  assert (Hlen : List.length rows = (row_hi nS i - row_lo i)%nat).
  { apply andb_prop in EC. destruct EC as [_ EC]. unfold B in EC. simpl in EC.
    apply andb_prop in EC. destruct EC as [EC _]. apply Nat.eqb_eq in EC.
    rewrite map_length in EC. exact EC. }
  split; [exact Hlen|].
  assert (Hlohi : (row_lo i + List.length rows = row_hi nS i)%nat).
  { rewrite Hlen. unfold row_hi, row_lo. destruct (Nat.eqb i (nS - 1)), (Nat.eqb i 0); lia. }
  assert (HM' : forall r c, M' r c =
     if (Nat.leb (row_lo i) r && Nat.ltb r (row_hi nS i) && Nat.leb (i * 6) c && Nat.ltb c ((i + 1) * 6))%bool
     then nth (r - row_lo i) (nth (c - i * 6) B []) 0 else M r c).
  { intros r c. rewrite <- EM'. reflexivity. }
  split.
  - intros r c Hc. rewrite HM'.
    assert (Nat.ltb c ((i + 1) * 6) = false) as -> by (apply Nat.ltb_ge; lia).
    rewrite Bool.andb_false_r. apply HM. lia.
  - intros x r. rewrite sumn_6S.
    rewrite (sumn_ext (6 * i) (fun c => M' r c * x c) (fun c => M r c * x c)).
    2:{ intros c Hc. rewrite HM'.
        assert (Nat.leb (i * 6) c = false) as -> by (apply Nat.leb_gt; lia).
        rewrite Bool.andb_false_r. reflexivity. }
    rewrite <- Ev. unfold add_slice. rewrite map_length, Hlohi.
    unfold inrow, seg_vals. rewrite map_length, Hlohi.
    rewrite !HM'.
    destruct (Nat.leb (row_lo i) r && Nat.ltb r (row_hi nS i))%bool eqn:Er.
    + replace (Nat.leb (i * 6) (6 * i)) with true by (symmetry; apply Nat.leb_le; lia).
      replace (Nat.leb (i * 6) (6 * i + 1)) with true by (symmetry; apply Nat.leb_le; lia).
      replace (Nat.leb (i * 6) (6 * i + 2)) with true by (symmetry; apply Nat.leb_le; lia).
      replace (Nat.leb (i * 6) (6 * i + 3)) with true by (symmetry; apply Nat.leb_le; lia).
      replace (Nat.leb (i * 6) (6 * i + 4)) with true by (symmetry; apply Nat.leb_le; lia).
      replace (Nat.leb (i * 6) (6 * i + 5)) with true by (symmetry; apply Nat.leb_le; lia).
      replace (Nat.ltb (6 * i) ((i + 1) * 6)) with true by (symmetry; apply Nat.ltb_lt; lia).
      replace (Nat.ltb (6 * i + 1) ((i + 1) * 6)) with true by (symmetry; apply Nat.ltb_lt; lia).
      replace (Nat.ltb (6 * i + 2) ((i + 1) * 6)) with true by (symmetry; apply Nat.ltb_lt; lia).
      replace (Nat.ltb (6 * i + 3) ((i + 1) * 6)) with true by (symmetry; apply Nat.ltb_lt; lia).
      replace (Nat.ltb (6 * i + 4) ((i + 1) * 6)) with true by (symmetry; apply Nat.ltb_lt; lia).
      replace (Nat.ltb (6 * i + 5) ((i + 1) * 6)) with true by (symmetry; apply Nat.ltb_lt; lia).
      cbn [andb].
      replace (6 * i - i * 6)%nat with 0%nat by lia.
      replace (6 * i + 1 - i * 6)%nat with 1%nat by lia.
      replace (6 * i + 2 - i * 6)%nat with 2%nat by lia.
      replace (6 * i + 3 - i * 6)%nat with 3%nat by lia.
      replace (6 * i + 4 - i * 6)%nat with 4%nat by lia.
      replace (6 * i + 5 - i * 6)%nat with 5%nat by lia.
      unfold B. cbn [nth].
      assert (Hr : (r - row_lo i < List.length rows)%nat).
      { apply andb_prop in Er. destruct Er as [Ea Eb]. apply Nat.leb_le in Ea. apply Nat.ltb_lt in Eb. lia. }
      rewrite !nth_map_ev by exact Hr.
      set (rr := nth (r - row_lo i) rows (vzero, vzero)).
      unfold field, zsol. fold z0 z1. rewrite Ez0, Ez1.
      unfold ev2, block. cbn [map seq].
      rewrite !dot_add, !lincomb6.
      replace (6 * i + 0)%nat with (6 * i)%nat by lia.
      ring.
    + cbn [andb].
      rewrite !HM by lia. ring.
Qed.

(** * The whole loop *)
Lemma sumn_S n f : sumn (S n) f = sumn n f + f n.
Proof. reflexivity. Qed.
Lemma sumn_shift n f : sumn (S n) f = f 0%nat + sumn n (fun j => f (S j)).
Proof. induction n as [|n IH]; [simpl; ring|]. rewrite sumn_S, IH, sumn_S. ring. Qed.

Definition rows_of (o : obj) (kR : res R) (k : bool) (pos : string) : list (vec6 * vec6) :=
  match eqs_rows o kR k pos with Ok rows => rows | Err _ => [] end.

Lemma assemble_lhs_spec o kR phi nS : six_cols o ->
  forall li ki i M v M' v',
  List.length ki = List.length li -> (i + List.length li <= nS)%nat ->
  (forall r c, (6 * i <= c)%nat -> M r c = 0) ->
  assemble_lhs o kR phi nS i li ki (M, v) = Ok (M', v') ->
  (forall j, (j < List.length li)%nat ->
     eqs_rows o kR (nth j ki false) (pos_of nS (i + j)) = Ok (rows_of o kR (nth j ki false) (pos_of nS (i + j)))
     /\ List.length (rows_of o kR (nth j ki false) (pos_of nS (i + j)))
        = (row_hi nS (i + j) - row_lo (i + j))%nat) /\
  forall x r,
    sumn (6 * (i + List.length li)) (fun c => M' r c * x c) + v' r
    = sumn (6 * i) (fun c => M r c * x c) + v r
      + sumn (List.length li) (fun j =>
          inrow (row_lo (i + j))
            (seg_vals o phi (nth j li 0) (nth j ki false) (block x (i + j))
               (rows_of o kR (nth j ki false) (pos_of nS (i + j)))) r).
Proof.
  intros H6 li. induction li as [|l li IH]; intros ki i M v M' v' Hk Hn HM H.
  - destruct ki; [|discriminate]. simpl in H. injection H; intros <- <-.
    split; [intros j Hj; simpl in Hj; lia|].
    intros x r. simpl List.length. rewrite Nat.add_0_r. simpl. ring.
  - destruct ki as [|k ki]; [discriminate|]. cbn [assemble_lhs] in H.
    destruct (assemble_segment o kR phi nS i l k (M, v)) as [[M1 v1]|] eqn:ES; [|discriminate].
    cbn [bind] in H. simpl in Hn.
    destruct (assemble_segment_spec o kR phi nS i l k M v M1 v1 H6 ltac:(lia) ES HM)
      as (rows & ER & EL & HM1 & Hsum).
    assert (Erows : rows_of o kR k (pos_of nS i) = rows) by (unfold rows_of; rewrite ER; reflexivity).
    destruct (IH ki (S i) M1 v1 M' v' ltac:(simpl in Hk; lia) ltac:(lia) HM1 H) as (IH1 & IH2).
    split.
    + intros [|j] Hj.
      * cbn [nth]. rewrite Nat.add_0_r, Erows. split; assumption.
      * cbn [nth]. replace (i + S j)%nat with (S i + j)%nat by lia.
        apply IH1. simpl in Hj; lia.
    + intros x r. cbn [List.length].
      replace (i + S (List.length li))%nat with (S i + List.length li)%nat by lia.
      rewrite IH2, Hsum, sumn_shift. cbn [nth]. rewrite Nat.add_0_r, Erows.
      rewrite (sumn_ext (List.length li) _
        (fun j => inrow (row_lo (i + S j))
            (seg_vals o phi (nth j li 0) (nth j ki false) (block x (i + S j))
               (rows_of o kR (nth j ki false) (pos_of nS (i + S j)))) r)).
      { ring. }
      intros j Hj. replace (S i + j)%nat with (i + S j)%nat by lia. reflexivity.
Qed.
