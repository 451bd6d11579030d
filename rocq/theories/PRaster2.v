(** Rasterised solution: dropping empty segments, final statements. *)
Require Import Verif.Py Verif.MTools Verif.MEigen Verif.MFields Verif.MRaster Verif.SRaster Verif.PSetup Verif.PRaster.
Require Import Sorting.Sorted.

Definition nzb (l : R) : bool := Rltb 0 (Rabs l).
Lemma nzb_spec l : nzb l = true <-> l <> 0.
Proof.
  unfold nzb, Rltb. destruct (Rlt_dec 0 (Rabs l)) as [H|H]; split; intros G; try reflexivity; try discriminate.
  - intros ->. rewrite Rabs_R0 in H. lra.
  - exfalso. apply H. apply Rabs_pos_lt. exact G.
Qed.
Definition drop {A} (s : list (R * A)) : list (R * A) :=
  map (fun q => (Rabs (fst q), snd q)) (filter (fun q => nzb (fst q)) s).

Lemma combine_select {A} (li : list R) (X : list A) : List.length X = List.length li ->
  combine (select (map (Rltb 0) (map Rabs li)) (map Rabs li)) (select (map (Rltb 0) (map Rabs li)) X) = drop (combine li X).
Proof.
  revert X. induction li as [|l li IH]; intros [|a X] E; simpl in E; try discriminate; [reflexivity|].
  unfold drop. simpl. fold (nzb l). destruct (nzb l); simpl; [f_equal|]; apply IH; congruence.
Qed.
Lemma select_combine {A B} m (X : list A) (Y : list B) : List.length X = List.length m -> List.length Y = List.length m ->
  combine (select m X) (select m Y) = select m (combine X Y).
Proof.
  revert X Y. induction m as [|b m IH]; intros [|x X] [|y Y] E1 E2; simpl in *; try discriminate; [reflexivity|].
  destruct b; simpl; [f_equal|]; apply IH; congruence.
Qed.

Lemma seg_drop {A} x0 (s : list (R * A)) b l a :
  seg_at x0 (drop s) b l a <-> exists l0, seg_at x0 s b l0 a /\ l0 <> 0 /\ l = Rabs l0.
Proof.
  split.
  - revert x0. induction s as [|[l1 a1] s IH]; intros x0 H; [inversion H|].
    unfold drop in H. simpl in H. destruct (nzb l1) eqn:E; simpl in H; fold (drop s) in H.
    + apply nzb_spec in E. inversion H as [|? ? ? ? ? ? ? H6]; subst; [exists l1; split; [constructor|auto]|].
      rewrite Rabs_Rabsolu in H6. destruct (IH _ H6) as (l0 & H1 & H2). exists l0. split; [constructor; exact H1|exact H2].
    + assert (l1 = 0). { destruct (Req_dec l1 0) as [Z|Z]; [exact Z|]. apply nzb_spec in Z. congruence. }
      subst l1. destruct (IH _ H) as (l0 & H1 & H2). exists l0. split; [constructor; rewrite Rabs_R0, Rplus_0_r; exact H1|exact H2].
  - intros (l0 & H & Hn & ->). induction H as [x0 l1 a1 s|x0 l1 a1 s b l' a' H IH].
    + unfold drop. simpl. assert (E := proj2 (nzb_spec l1) Hn). rewrite E. simpl. constructor.
    + unfold drop. simpl. destruct (nzb l1) eqn:E; simpl; fold (drop s).
      * constructor. rewrite Rabs_Rabsolu. apply IH. exact Hn.
      * assert (l1 = 0). { destruct (Req_dec l1 0) as [Z|Z]; [exact Z|]. apply nzb_spec in Z. congruence. }
        subst l1. rewrite Rabs_R0, Rplus_0_r in IH. apply IH. exact Hn.
Qed.
Lemma drop_positive {A} (s : list (R * A)) : Forall (fun q => 0 < fst q) (drop s).
Proof.
  apply Forall_forall. intros q I. unfold drop in I. apply in_map_iff in I. destruct I as (r & <- & I).
  apply filter_In in I. destruct I as [_ I]. apply nzb_spec in I. simpl. apply Rabs_pos_lt. exact I.
Qed.
Lemma drop_length {A} (s : list (R * A)) : chain_length (drop s) = chain_length s.
Proof.
  unfold chain_length. induction s as [|[l a] s IH]; [reflexivity|]. unfold drop in *. simpl.
  destruct (nzb l) eqn:E; simpl; rewrite IH; [rewrite Rabs_Rabsolu; reflexivity|].
  assert (l = 0). { destruct (Req_dec l 0) as [Z|Z]; [exact Z|]. apply nzb_spec in Z. congruence. }
  subst. rewrite Rabs_R0. lra.
Qed.
Definition kept (li : list R) : list R := select (map (Rltb 0) (map Rabs li)) (map Rabs li).
Lemma kept_positive li : Forall (fun l => 0 < l) (kept li).
Proof.
  unfold kept. induction li as [|l li IH]; simpl; [constructor|]. fold (nzb l). destruct (nzb l) eqn:E; [|exact IH].
  apply nzb_spec in E. constructor; [apply Rabs_pos_lt; exact E|exact IH].
Qed.
Lemma kept_count li : List.length (kept li) = nonempty li.
Proof.
  unfold kept, nonempty. induction li as [|l li IH]; [reflexivity|]. simpl. fold (nzb l).
  destruct (nzb l) eqn:E; destruct (Req_EM_T l 0) as [Z|Z]; simpl; try (rewrite IH; reflexivity).
  - apply nzb_spec in E. contradiction.
  - apply nzb_spec in Z. congruence.
Qed.
Lemma kept_sum li : rsum (kept li) = rsum (map Rabs li).
Proof.
  unfold kept. induction li as [|l li IH]; [reflexivity|]. simpl. fold (nzb l). destruct (nzb l) eqn:E; simpl; rewrite IH; [reflexivity|].
  assert (l = 0). { destruct (Req_dec l 0) as [Z|Z]; [exact Z|]. apply nzb_spec in Z. congruence. }
  subst. rewrite Rabs_R0. lra.
Qed.
Lemma select_length {A} (X : list A) li : List.length X = List.length li ->
  List.length (select (map (Rltb 0) (map Rabs li)) X) = List.length (kept li).
Proof.
  unfold kept. revert X. induction li as [|l li IH]; intros [|x X] E; simpl in *; try discriminate; [reflexivity|].
  destruct (Rltb 0 (Rabs l)); simpl; rewrite IH by congruence; reflexivity.
Qed.
Lemma chain_length_combine {A} (li : list R) (X : list A) : List.length X = List.length li ->
  chain_length (combine li X) = rsum (map Rabs li).
Proof.
  unfold chain_length. revert X. induction li as [|l li IH]; intros [|x X] E; simpl in *; try discriminate; [reflexivity|].
  rewrite IH by congruence. reflexivity.
Qed.
Lemma map_fst_combine {A} (li : list R) (X : list A) : List.length X = List.length li -> map fst (combine li X) = li.
Proof.
  revert X. induction li as [|l li IH]; intros [|x X] E; simpl in *; try discriminate; [reflexivity|]. rewrite IH by congruence. reflexivity.
Qed.

Section Result.
Variables (p : params) (e : eigsys) (ld : loads).

Lemma raster_inv Cs li ki num xq zq xb : rasterize_solution p e ld Cs li ki num = Ok (xq, zq, xb) ->
  List.length Cs = List.length li /\ List.length ki = List.length li /\ kept li <> [] /\
  let nz := map (Rltb 0) (map Rabs li) in
  let nq := raster_counts (kept li) num in
  xq = raster_xq 0 (kept li) nq /\
  raster_zq p e ld (select nz Cs) (kept li) (select nz ki) nq = Ok zq /\
  xb = map2 (fun (b : bool) x => if b then Some x else None) (raster_mask (select nz ki) nq) xq.
Proof.
  unfold rasterize_solution. intros H.
  destruct (Nat.eqb (List.length Cs) (List.length li)) eqn:E1; [|discriminate].
  destruct (Nat.eqb (List.length ki) (List.length li)) eqn:E2; [|discriminate]. apply Nat.eqb_eq in E1, E2.
  split; [exact E1|]. split; [exact E2|]. cbn [negb andb] in H.
  fold (kept li) in H. cbv zeta. set (nz := map (Rltb 0) (map Rabs li)) in *.
  destruct (kept li) as [|l0 l'] eqn:E; [discriminate|]. split; [discriminate|].
  set (nq := raster_counts (l0 :: l') num) in *.
  destruct (raster_zq p e ld (select nz Cs) (l0 :: l') (select nz ki) nq) as [z|er]; simpl in H; [|discriminate].
  apply Ok_inj in H. injection H as <- <- <-. auto.
Qed.

Lemma last_max (l : list R) m : StronglySorted Rlt l -> In m l -> (forall x, In x l -> x <= m) -> last l 0 = m.
Proof.
  induction 1 as [|a l Hs IH F]; [contradiction|]. intros I M. destruct l as [|b l].
  - destruct I as [->|[]]. reflexivity.
  - change (last (a :: b :: l) 0) with (last (b :: l) 0). apply IH; [|intros x Ix; apply M; right; exact Ix].
    destruct I as [->|I]; [|exact I]. exfalso. inversion F; subst. pose proof (M b (or_intror (or_introl eq_refl))). lra.
Qed.

(** C38. *)
Lemma raster_grid Cs li ki num xq zq xb : (1 <= num)%nat ->
  rasterize_solution p e ld Cs li ki num = Ok (xq, zq, xb) ->
  strictly_increasing xq /\ hd 1 xq = 0 /\ last xq 0 = chain_length (combine li ki) /\
  (forall b l k, seg_at 0 (combine li ki) b l k -> In b xq /\ In (b + Rabs l) xq) /\
  (num + 1 <= List.length xq <= num + nonempty li + 1)%nat /\
  List.length zq = List.length xq /\ List.length xb = List.length xq.
Proof.
  intros Hn H. apply raster_inv in H. destruct H as (E1 & E2 & Hne & Hxq & Hz & Hxb). cbv zeta in *.
  set (nz := map (Rltb 0) (map Rabs li)) in *. set (nq := raster_counts (kept li) num) in *.
  assert (F := kept_positive li). assert (Lq : List.length nq = List.length (kept li)) by apply counts_length.
  assert (Hc : counts_ok nq) by (apply counts_positive; assumption).
  assert (Hs : StronglySorted Rlt xq) by (rewrite Hxq; apply xq_sorted; [exact F|congruence|exact Hc]).
  assert (Hlast : In (rsum (kept li)) xq).
  { rewrite Hxq. replace (rsum (kept li)) with (0 + rsum (kept li)) by lra. apply xq_last; [exact F|exact Hne|congruence|exact Hc]. }
  assert (Tot : chain_length (combine li ki) = rsum (kept li)) by (rewrite kept_sum; apply chain_length_combine; exact E2).
  assert (Hh : hd 1 xq = 0 /\ In 0 xq).
  { rewrite Hxq. destruct (kept li) as [|l l'] eqn:E; [congruence|]. destruct nq as [|n nq']; [discriminate|].
    destruct (xq_head 0 l l' n nq') as [t Et]; [destruct nq'; simpl in Hc; lia|]. rewrite Et. simpl. auto. }
  assert (St : forall b l k, seg_at 0 (combine li ki) b l k -> l <> 0 -> In b xq).
  { intros b l k Hb Hl. rewrite Hxq. replace (kept li) with (map fst (drop (combine li ki))).
    - apply xq_starts with (l := Rabs l) (a := k); [apply drop_positive| |exact Hc|apply seg_drop; exists l; auto].
      rewrite <- combine_select by exact E2. fold (kept li). rewrite combine_length, select_length by exact E2. lia.
    - rewrite <- combine_select by exact E2. fold (kept li). apply map_fst_combine. apply select_length. exact E2. }
  split; [exact Hs|]. split; [apply Hh|]. split.
  { rewrite Tot. apply last_max; [exact Hs|exact Hlast|]. intros x I. rewrite Hxq in I. apply xq_range in I; [lra|exact F]. }
  split.
  { (* every start and end: the start of a segment is the start of the next non-empty one or the end *)
    assert (G : forall s x0 b l k, (forall b l (k : bool), seg_at x0 s b l k -> l <> 0 -> In b xq) -> In (x0 + chain_length s) xq ->
      seg_at x0 s b l k -> In b xq /\ In (b + Rabs l) xq).
    { assert (N : forall s x0, (forall b l (k : bool), seg_at x0 s b l k -> l <> 0 -> In b xq) -> In (x0 + chain_length s) xq -> In x0 xq).
      { induction s as [|[l1 k1] s IH]; intros x0 G Ge; [unfold chain_length in Ge; simpl in Ge; rewrite Rplus_0_r in Ge; exact Ge|].
        destruct (Req_dec l1 0) as [->|Hl]; [|apply (G x0 l1 k1); [constructor|exact Hl]].
        apply IH; [|unfold chain_length in *; simpl in Ge; rewrite Rabs_R0 in Ge; replace (x0 + rsum (map (fun q : R * bool => Rabs (fst q)) s)) with (x0 + (0 + rsum (map (fun q : R * bool => Rabs (fst q)) s))) by lra; exact Ge].
        intros b l k Hb. apply (G b l k). constructor. rewrite Rabs_R0, Rplus_0_r. exact Hb. }
      induction s as [|[l1 k1] s IH]; intros x0 b l k G Ge Hb; [inversion Hb|].
      assert (G' : forall b l (k : bool), seg_at (x0 + Rabs l1) s b l k -> l <> 0 -> In b xq) by (intros b' l' k' Hb'; apply (G b' l' k'); constructor; exact Hb').
      assert (Ge' : In (x0 + Rabs l1 + chain_length s) xq).
      { unfold chain_length in *. simpl in Ge. replace (x0 + Rabs l1 + rsum (map (fun q : R * bool => Rabs (fst q)) s)) with (x0 + (Rabs l1 + rsum (map (fun q : R * bool => Rabs (fst q)) s))) by lra. exact Ge. }
      inversion Hb; subst.
      - split; [apply (N ((l, k) :: s)); assumption|apply (N s); assumption].
      - apply (IH (x0 + Rabs l1) b l k); assumption. }
    intros b l k Hb. apply (G (combine li ki) 0 b l k); [intros; eapply St; eassumption|rewrite Tot, Rplus_0_l; exact Hlast|exact Hb]. }
  assert (Lx : List.length xq = nsum nq) by (rewrite Hxq; apply raster_xq_length; congruence).
  split.
  { rewrite Lx, <- kept_count. apply counts_total; assumption. }
  split.
  - apply (zq_spec p e ld (select nz Cs) (kept li) (select nz ki) nq 0 zq) in Hz;
      [|exact F|apply select_length; exact E1|apply select_length; exact E2|exact Lq|exact Hc].
    rewrite <- Hxq in Hz. symmetry. clear - Hz. induction Hz; simpl; congruence.
  - rewrite Hxb. assert (M := mask_spec (kept li) (select nz ki) nq 0 false F (select_length ki li E2) Lq Hc).
    rewrite <- Hxq in M. rewrite mask_eq; [|rewrite Lq; apply select_length; exact E2|exact Hc].
    clear - M. induction M; simpl; congruence.
Qed.

(** C40. *)
Lemma raster_columns Cs li ki num xq zq xb : (1 <= num)%nat ->
  rasterize_solution p e ld Cs li ki num = Ok (xq, zq, xb) ->
  Forall2 (fun x z => exists b l C k, owns (combine li (combine Cs ki)) b l (C, k) x /\
    z = zsol p e ld (x - b) C (Rabs l) k) xq zq.
Proof.
  intros Hn H. apply raster_inv in H. destruct H as (E1 & E2 & Hne & Hxq & Hz & _). cbv zeta in *.
  set (nz := map (Rltb 0) (map Rabs li)) in *. set (nq := raster_counts (kept li) num) in *.
  assert (F := kept_positive li). assert (Lq : List.length nq = List.length (kept li)) by apply counts_length.
  assert (Hc : counts_ok nq) by (apply counts_positive; assumption).
  apply (zq_spec p e ld (select nz Cs) (kept li) (select nz ki) nq 0 zq) in Hz;
    [|exact F|apply select_length; exact E1|apply select_length; exact E2|exact Lq|exact Hc].
  rewrite <- Hxq in Hz. eapply Forall2_impl; [|exact Hz].
  intros x z (b & l & C & k & (S1 & S2) & ->).
  assert (LC : List.length (combine Cs ki) = List.length li) by (rewrite combine_length; lia).
  assert (EC : chain (kept li) (select nz Cs) (select nz ki) = drop (combine li (combine Cs ki))).
  { unfold chain. rewrite select_combine by (unfold nz; rewrite !map_length; assumption).
    apply combine_select. exact LC. }
  rewrite EC in S1, S2. apply seg_drop in S1. destruct S1 as (l0 & S1 & Hl & ->).
  rewrite drop_length, Rabs_Rabsolu in S2. exists b, l0, C, k. split; [|reflexivity].
  split; [exact S1|]. split; [exact Hl|]. rewrite Rplus_0_l in S2. exact S2.
Qed.

(** C39. *)
Lemma raster_foundation Cs li ki num xq zq xb : (1 <= num)%nat ->
  rasterize_solution p e ld Cs li ki num = Ok (xq, zq, xb) ->
  Forall2 (fun x y => on_foundation (combine li ki) x /\ y = Some x \/
                      ~ on_foundation (combine li ki) x /\ y = None) xq xb.
Proof.
  intros Hn H. apply raster_inv in H. destruct H as (E1 & E2 & Hne & Hxq & _ & Hxb). cbv zeta in *.
  set (nz := map (Rltb 0) (map Rabs li)) in *. set (nq := raster_counts (kept li) num) in *.
  assert (F := kept_positive li). assert (Lq : List.length nq = List.length (kept li)) by apply counts_length.
  assert (Hc : counts_ok nq) by (apply counts_positive; assumption).
  assert (M := mask_spec (kept li) (select nz ki) nq 0 false F (select_length ki li E2) Lq Hc).
  rewrite <- Hxq in M. rewrite mask_eq in Hxb; [|rewrite Lq; apply select_length; exact E2|exact Hc].
  assert (EC : combine (kept li) (select nz ki) = drop (combine li ki)) by (apply combine_select; exact E2).
  rewrite EC in M.
  assert (Q : forall x, found_from 0 (drop (combine li ki)) x <-> on_foundation (combine li ki) x).
  { intros x. split.
    - intros (b & l & S1 & S2). apply seg_drop in S1. destruct S1 as (l0 & S1 & Hl & ->). exists b, l0. rewrite Rabs_Rabsolu in S2. auto.
    - intros (b & l & S1 & Hl & S2). exists b, (Rabs l). rewrite Rabs_Rabsolu. split; [apply seg_drop; exists l; auto|exact S2]. }
  rewrite Hxb. clear Hxq Hxb. revert M. generalize (mask_rec false (select nz ki) nq). intros ms M.
  induction M as [|x m xs ms Hm M IH]; simpl; constructor; [|exact IH].
  rewrite Q in Hm. destruct m.
  - left. split; [destruct (proj1 Hm eq_refl) as [[A _]|A]; [discriminate|exact A]|reflexivity].
  - right. split; [|reflexivity]. intros A. assert (false = true) by (apply Hm; right; exact A). discriminate.
Qed.

(** Acceptance. *)
Lemma raster_accepts Cs li ki num : List.length Cs = List.length li -> List.length ki = List.length li ->
  (exists l, In l li /\ l <> 0) ->
  (forall b l C k, seg_at 0 (combine li (combine Cs ki)) b l (C, k) -> l <> 0 ->
     forall x, List.length (zh p e x (Rabs l) k) = List.length C) ->
  exists r, rasterize_solution p e ld Cs li ki num = Ok r.
Proof.
  intros E1 E2 (l1 & I1 & N1) H. unfold rasterize_solution. rewrite E1, E2, Nat.eqb_refl. cbn [negb andb].
  fold (kept li). destruct (kept li) as [|l0 l'] eqn:E.
  { exfalso. assert (0 < nonempty li)%nat; [|rewrite <- kept_count, E in *; simpl in *; lia].
    unfold nonempty. clear - I1 N1. induction li as [|l li IH]; [contradiction|]. simpl. destruct I1 as [->|I1].
    - destruct (Req_EM_T l1 0); [contradiction|simpl; lia].
    - specialize (IH I1). destruct (Req_EM_T l 0); simpl; lia. }
  rewrite <- E. set (nz := map (Rltb 0) (map Rabs li)).
  destruct (zq_total p e ld (select nz Cs) (kept li) (select nz ki) (raster_counts (kept li) num)) as [zs Ez].
  - apply select_length; exact E1.
  - apply select_length; exact E2.
  - intros b l C k x0 Hs. assert (LC : List.length (combine Cs ki) = List.length li) by (rewrite combine_length; lia).
    assert (EC : chain (kept li) (select nz Cs) (select nz ki) = drop (combine li (combine Cs ki))).
    { unfold chain. rewrite select_combine by (unfold nz; rewrite !map_length; assumption).
      apply combine_select. exact LC. }
    rewrite EC in Hs. apply seg_drop in Hs. destruct Hs as (l2 & Hs & Hl & ->). intros x.
    assert (Sh : forall s : list (R * (list R * bool)), seg_at x0 s b l2 (C, k) -> forall y0, exists b', seg_at y0 s b' l2 (C, k)).
    { clear. intros s Hs. induction Hs as [|? ? ? ? ? ? ? ? IH]; intros y0; [eexists; constructor|].
      destruct (IH (y0 + Rabs l)) as [b' B]. exists b'. constructor. exact B. }
    destruct (Sh _ Hs 0) as [b' Hb']. exact (H b' l2 C k Hb' Hl x).
  - rewrite Ez. simpl. eexists. reflexivity.
Qed.

(** Empty segments have no influence. *)
Lemma select_insert {A} (la : list R) (X Y : list A) (y : A) lb : List.length X = List.length la ->
  select (map (Rltb 0) (map Rabs (la ++ 0 :: lb))) (X ++ y :: Y) = select (map (Rltb 0) (map Rabs (la ++ lb))) (X ++ Y).
Proof.
  revert X. induction la as [|l la IH]; intros [|x X] E; simpl in E; try discriminate.
  - simpl. assert (Z : Rltb 0 (Rabs 0) = false) by (unfold Rltb; rewrite Rabs_R0; destruct (Rlt_dec 0 0); [lra|reflexivity]).
    rewrite Z. reflexivity.
  - simpl. rewrite IH by congruence. reflexivity.
Qed.
Lemma raster_empty C1 C2 c l1 l2 k1 k2 k num : List.length C1 = List.length l1 -> List.length k1 = List.length l1 ->
  rasterize_solution p e ld (C1 ++ c :: C2) (l1 ++ 0 :: l2) (k1 ++ k :: k2) num
  = rasterize_solution p e ld (C1 ++ C2) (l1 ++ l2) (k1 ++ k2) num.
Proof.
  intros H1 H2. unfold rasterize_solution. rewrite !app_length. simpl List.length.
  rewrite !Nat.add_succ_r. cbn [Nat.eqb].
  destruct (negb _); [reflexivity|]. fold (kept (l1 ++ 0 :: l2)). fold (kept (l1 ++ l2)).
  assert (K : kept (l1 ++ 0 :: l2) = kept (l1 ++ l2)).
  { unfold kept. rewrite (map_app Rabs l1 (0 :: l2)) at 2. simpl (map Rabs (0 :: l2)).
    rewrite select_insert by (rewrite map_length; reflexivity). rewrite <- map_app. reflexivity. }
  rewrite K, !select_insert by assumption. reflexivity.
Qed.
End Result.
