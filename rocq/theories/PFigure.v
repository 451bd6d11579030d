(** Proofs about the picture of the deformed slab. *)
From Coq Require Import Lia Lra.
Require Import Verif.Py Verif.MTools Verif.MEigen Verif.MFields Verif.MRaster Verif.MAnalysis Verif.MEnvelope Verif.MPlot Verif.MFigure
  Verif.SSlab Verif.SAdm Verif.SStress Verif.SPlot Verif.SFigure Verif.PSetup Verif.PLam Verif.PRaster Verif.PStress Verif.PStress2 Verif.PPlot2.
Require Import Sorting.Sorted.

(** * Slab profile *)
Lemma on_line_cons a b l p : on_line (a :: b :: l) p <->
  (exists t, 0 <= t <= 1 /\ fst p = fst a + t * (fst b - fst a) /\ snd p = snd a + t * (snd b - snd a)) \/ on_line (b :: l) p.
Proof.
  split.
  - intros ([|k] & u & v & t & E1 & E2 & T & P1 & P2); cbn [nth_error] in *.
    + injection E1 as <-. injection E2 as <-. left. exists t. auto.
    + right. exists k, u, v, t. auto.
  - intros [(t & T & P1 & P2)|(k & u & v & t & E1 & E2 & T & P1 & P2)].
    + exists 0%nat, a, b, t. auto.
    + exists (S k), u, v, t. auto.
Qed.
Lemma on_line_one a p : ~ on_line [a] p.
Proof. intros (k & u & v & t & _ & E & _). destruct k as [|[|k]]; discriminate. Qed.
Lemma on_line_nil p : ~ on_line [] p.
Proof. intros (k & u & v & t & E & _). destruct k; discriminate. Qed.
(** A line upwards through heights between lo and hi. *)
Lemma on_line_range l p lo hi : on_line l p -> (forall q, In q l -> lo <= snd q <= hi) -> lo <= snd p <= hi.
Proof.
  intros (k & u & v & t & E1 & E2 & T & _ & P2) H. apply nth_error_In in E1. apply nth_error_In in E2.
  apply H in E1. apply H in E2. rewrite P2. split; nra.
Qed.
Lemma profile_range rows : forall H q, Forall (fun r => 0 < p_h r) rows -> In q (profile_loop rows H) -> H <= snd q <= H + rsum (map p_h rows).
Proof.
  assert (N : forall rows, Forall (fun r => 0 < p_h r) rows -> 0 <= rsum (map p_h rows)).
  { induction 1; simpl; lra. }
  induction rows as [|r rows IH]; intros H q F I; [destruct I|]. inversion F; subst. pose proof (N rows ltac:(assumption)). cbn [profile_loop map rsum fold_right] in *.
  change (fold_right Rplus 0 (map p_h rows)) with (rsum (map p_h rows)) in *.
  destruct I as [<-|[<-|I]]; cbn [snd]; [lra|lra|]. apply IH in I; [lra|assumption].
Qed.
Lemma profile_line below : forall H q above y x, Forall (fun r => 0 < p_h r) (below ++ q :: above) ->
  let B := H + rsum (map p_h below) in
  B < y < B + p_h q -> (on_line (profile_loop (below ++ q :: above) H) (x, y) <-> x = p_rho q).
Proof.
  induction below as [|r below IH]; intros H q above y x F B Y.
  - unfold B in Y. cbn [map rsum fold_right app] in *. cbn [profile_loop]. inversion F as [|? ? Fq Fa]; subst. rewrite on_line_cons. cbn [fst snd]. split.
    + intros [(t & T & P1 & _)|L]; [lra|]. exfalso.
      pose proof (on_line_range _ _ (H + p_h q) (H + p_h q + rsum (map p_h above)) L) as Rg. cbn [snd] in Rg.
      assert (H + p_h q <= y <= H + p_h q + rsum (map p_h above)); [|lra]. apply Rg. intros z [<-|I]; cbn [snd].
      * pose proof (profile_range above (H + p_h q)). assert (N : 0 <= rsum (map p_h above)) by (clear -Fa; induction Fa; simpl; lra). lra.
      * apply profile_range; assumption.
    + intros ->. left. exists ((y - H) / p_h q). split; [|split; [lra|field; lra]]. split.
      * apply Rmult_le_pos; [lra|]. left. apply Rinv_0_lt_compat. lra.
      * apply Rmult_le_reg_r with (p_h q); [lra|]. unfold Rdiv. rewrite Rmult_assoc, Rinv_l by lra. lra.
  - cbn [app] in *. inversion F as [|? ? Fr Fb]; subst. unfold B in Y. cbn [map rsum fold_right] in Y.
    change (fold_right Rplus 0 (map p_h below)) with (rsum (map p_h below)) in Y.
    assert (N : 0 <= rsum (map p_h below)) by (apply Forall_app in Fb; destruct Fb as [Fb _]; clear -Fb; induction Fb; simpl; lra).
    cbn [profile_loop]. rewrite on_line_cons. cbn [fst snd].
    rewrite <- (IH (H + p_h r) q above y x Fb) by lra. split.
    + intros [(t & T & _ & P2)|L]; [exfalso; nra|].
      destruct (profile_loop (below ++ q :: above) (H + p_h r)) as [|c0 rest] eqn:E; [exfalso; exact (on_line_one _ _ L)|].
      rewrite on_line_cons in L. destruct L as [(t & T & _ & P2)|L]; [|exact L]. exfalso. cbn [snd fst] in P2.
      assert (snd c0 = H + p_h r).
      { destruct below as [|s below]; cbn [app profile_loop] in E; injection E as <- _; reflexivity. }
      rewrite H0 in P2. nra.
    + intros L. right. destruct (profile_loop (below ++ q :: above) (H + p_h r)) as [|c0 rest] eqn:E; [exfalso; exact (on_line_nil _ L)|].
      rewrite on_line_cons. right. exact L.
Qed.
Lemma slab_profile_line o above q below y x : Forall good_ply (o_slab o) -> o_slab o = above ++ q :: below ->
  rsum (map p_h below) < y < rsum (map p_h below) + p_h q -> (on_line (slab_profile o) (x, y) <-> x = p_rho q).
Proof.
  intros F E Y. unfold slab_profile. rewrite E, rev_app_distr. cbn [rev]. rewrite <- app_assoc. cbn [app].
  assert (S : rsum (map p_h (rev below)) = rsum (map p_h below)).
  { clear. induction below as [|r b IH]; [reflexivity|]. cbn [rev map]. rewrite map_app. unfold rsum in *. rewrite fold_right_app. cbn [fold_right map].
    rewrite <- IH. rewrite Rplus_0_r. generalize (map p_h (rev b)). intros l. induction l as [|a l IHl]; cbn [fold_right]; lra. }
  apply profile_line.
  - apply Forall_forall. intros r I. rewrite Forall_forall in F. apply F. rewrite E.
    rewrite in_app_iff in *. cbn [In] in *. rewrite <- !in_rev in I. tauto.
  - rewrite S. lra.
Qed.
Lemma slab_profile_corner o c : Forall good_ply (o_slab o) -> hh (o_par o) = rsum (map p_h (o_slab o)) -> In c (slab_profile o) ->
  (exists q, In q (o_slab o) /\ fst c = p_rho q) /\ 0 <= snd c <= hh (o_par o).
Proof.
  intros F H I. unfold slab_profile in I. split.
  - assert (G : forall rows H, In c (profile_loop rows H) -> exists q, In q rows /\ fst c = p_rho q).
    { clear. induction rows as [|q rows IH]; intros H I; [destruct I|]. cbn [profile_loop] in I. destruct I as [<-|[<-|I]].
      - exists q. split; [left|]; reflexivity.
      - exists q. split; [left|]; reflexivity.
      - destruct (IH _ I) as (r & R & E). exists r. split; [right|]; assumption. }
    destruct (G _ _ I) as (q & Q & E). exists q. rewrite <- in_rev in Q. auto.
  - apply profile_range in I.
    + assert (S : rsum (map p_h (rev (o_slab o))) = rsum (map p_h (o_slab o))).
      { clear. induction (o_slab o) as [|r b IH]; [reflexivity|]. cbn [rev map]. rewrite map_app. unfold rsum in *. rewrite fold_right_app. cbn [fold_right map].
        rewrite <- IH. rewrite Rplus_0_r. generalize (map p_h (rev b)). intros l. induction l as [|a l IHl]; cbn [fold_right]; lra. }
      rewrite S in I. lra.
    + apply Forall_forall. intros r J. rewrite <- in_rev in J. rewrite Forall_forall in F. apply F. exact J.
Qed.

(** * Depths of the mesh *)
Lemma mesh_head o dz : laminated o -> 0 < dz -> map m_z (get_zmesh o dz) <> [] /\
  hd 0 (map m_z (get_zmesh o dz)) = - hh (o_par o) / 2 /\ last (map m_z (get_zmesh o dz)) 0 = hh (o_par o) / 2 /\
  ordered (map m_z (get_zmesh o dz)).
Proof.
  intros (Hne & F & H & _) Hd. destruct (zmesh_spec o dz Hd F) as (blocks & E & B). rewrite E. clear E.
  replace (hh (o_par o) / 2) with (- hh (o_par o) / 2 + rsum (map p_h (o_slab o))) by lra.
  generalize dependent (- hh (o_par o) / 2). clear H. 
  assert (G : forall slab blocks a, slab <> [] -> Forall good_ply slab -> Forall2 (layer_block dz) (layer_tops a slab) blocks ->
    let l := map m_z (List.concat blocks) in
    l <> [] /\ hd 0 l = a /\ last l 0 = a + rsum (map p_h slab) /\ (forall x, In x l -> a <= x) /\ ordered l).
  { clear. induction slab as [|q s IH]; intros blocks a Hne F B; [congruence|]. inversion F as [|? ? Fq Fs]; subst. cbn [layer_tops] in B.
    inversion B as [|? blk ? rest LB B']; subst. cbn [List.concat]. rewrite map_app.
    destruct LB as (L1 & L2 & L3 & _ & _). set (zl := map m_z blk) in *.
    assert (Z : zl <> []). { intros E. rewrite E in L1. simpl in L1. lra. }
    assert (So : forall l, StronglySorted Rlt l -> ordered l).
    { clear. induction 1 as [|x l S IH Fa]; intros i j Hij Hj; [simpl in Hj; lia|]. destruct i as [|i], j as [|j]; cbn [nth]; [lra| |lia|].
      - rewrite Forall_forall in Fa. left. apply Fa. apply nth_In. simpl in Hj. lia.
      - apply IH; simpl in Hj; lia. }
    assert (Lz : forall x, In x zl -> a <= x <= a + p_h q).
    { intros x I. apply (In_nth _ _ 0) in I. destruct I as (i & Hi & <-). split.
      - replace a with (nth 0 zl 0). { apply So; [exact L3|lia|lia]. } destruct zl; [congruence|]. exact L1.
      - replace (a + p_h q) with (nth (List.length zl - 1) zl 0); [apply So; [exact L3|lia|lia]|].
        rewrite <- L2. rewrite last_nthR. apply nth_indep. lia. }
    assert (Hd0 : hd 0 zl = a) by (destruct zl; [congruence|exact L1]).
    assert (La0 : last zl 0 = a + p_h q). { rewrite last_nthR. rewrite last_nthR in L2. rewrite <- L2. apply nth_indep. destruct zl; [congruence|simpl; lia]. }
    destruct s as [|q2 s].
    - assert (rest = []) as -> by (inversion B'; reflexivity). cbn [List.concat map]. rewrite app_nil_r. repeat split; [exact Z|exact Hd0| |intros x I; apply Lz; exact I|apply So; exact L3].
      rewrite La0. simpl. lra.
    - destruct (IH rest (a + p_h q) ltac:(discriminate) Fs B') as (N & Hh & Hl & Hx & Ho). set (r := map m_z (List.concat rest)) in *.
      assert (0 < p_h q) by apply Fq. repeat split.
      + destruct zl; [congruence|discriminate].
      + destruct zl; [congruence|exact Hd0].
      + transitivity (last r 0).
        * clear -N. induction zl as [|x zl IH]; [reflexivity|]. cbn [app]. destruct (zl ++ r) eqn:E; [apply app_eq_nil in E; destruct E; contradiction|].
          change (last (x :: r0 :: l) 0) with (last (r0 :: l) 0). exact IH.
        * rewrite Hl. change (rsum (map p_h (q :: q2 :: s))) with (p_h q + rsum (map p_h (q2 :: s))). lra.
      + intros x I. apply in_app_or in I. destruct I as [I|I]; [apply Lz; exact I|]. apply Hx in I. lra.
      + intros i j Hij Hj. rewrite app_length in Hj.
        destruct (Nat.lt_ge_cases j (List.length zl)) as [J|J].
        * rewrite !app_nth1 by lia. apply So; [exact L3|lia|lia].
        * rewrite (app_nth2 zl r 0 (n := j)) by lia. destruct (Nat.lt_ge_cases i (List.length zl)) as [I|I].
          -- rewrite app_nth1 by lia. apply Rle_trans with (a + p_h q).
             ++ apply Lz. apply nth_In. exact I.
             ++ apply Hx. apply nth_In. lia.
          -- rewrite app_nth2 by lia. apply Ho; lia. }
  intros a B. destruct (G _ _ _ Hne F B) as (A1 & A2 & A3 & A4 & A5). repeat split; assumption.
Qed.
