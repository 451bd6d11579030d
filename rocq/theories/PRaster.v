(** Proofs about the rasterised solution. *)
Require Import Verif.Py Verif.MTools Verif.MEigen Verif.MFields Verif.MRaster Verif.SRaster Verif.PSetup.
Require Import Sorting.Sorted.

(** Counts. *)
Lemma ceilZ_bounds x : x <= IZR (ceilZ x) < x + 1.
Proof.
  unfold ceilZ. destruct (base_Int_part (- x)) as [A B].
  rewrite opp_IZR. lra.
Qed.
Lemma ceil_nat_bounds x : 0 < x -> x <= INR (ceil_nat x) < x + 1 /\ (1 <= ceil_nat x)%nat.
Proof.
  intros H. destruct (ceilZ_bounds x) as [A B]. unfold ceil_nat.
  assert (P : (0 < ceilZ x)%Z) by (apply lt_IZR; lra).
  rewrite INR_IZR_INZ, Z2Nat.id by lia. split; [split; assumption|]. lia.
Qed.

Lemma rsum_map_pos li : Forall (fun l => 0 < l) li -> li <> [] -> 0 < rsum li.
Proof.
  induction 1 as [|l li H F IH]; [congruence|]. intros _. simpl. destruct li as [|y t]; [simpl; lra|].
  assert (0 < rsum (y :: t)) by (apply IH; discriminate). lra.
Qed.

(** Local grids. *)
Lemma linspace_length a b n ep : List.length (linspace a b n ep) = n.
Proof. unfold linspace. rewrite map_length, seq_length. reflexivity. Qed.

Lemma sorted_map_seq (f : nat -> R) s n : (forall i j, (i < j)%nat -> f i < f j) ->
  StronglySorted Rlt (map f (seq s n)).
Proof.
  intros H. revert s. induction n as [|n IH]; intros s; simpl; constructor; [apply IH|].
  apply Forall_forall. intros y I. apply in_map_iff in I. destruct I as (j & <- & J). apply in_seq in J.
  apply H. lia.
Qed.

Lemma linspace_sorted a b n ep : a < b -> StronglySorted Rlt (linspace a b n ep).
Proof.
  intros H. unfold linspace. set (d := if ep then (n - 1)%nat else n).
  destruct (Nat.eq_dec d 0) as [E|E].
  - assert (n <= 1)%nat by (unfold d in E; destruct ep; lia).
    destruct n as [|[|n]]; [constructor|simpl; repeat constructor|lia].
  - apply sorted_map_seq. intros i j L. assert (0 < INR d) by (apply lt_0_INR; lia).
    apply lt_INR in L. assert (0 < (b - a) / INR d) by (apply Rdiv_lt_0_compat; lra). nra.
Qed.

Lemma linspace_in a b n ep x : a < b -> In x (linspace a b n ep) ->
  if ep then a <= x <= b else a <= x < b.
Proof.
  intros H I. unfold linspace in I. apply in_map_iff in I. destruct I as (i & <- & J). apply in_seq in J.
  destruct ep.
  - destruct (Nat.eq_dec (n - 1) 0) as [E|E].
    + assert (i = 0)%nat by lia. subst i. simpl. lra.
    + assert (0 < INR (n - 1)) by (apply lt_0_INR; lia).
      assert (0 <= INR i <= INR (n - 1)) by (split; [apply pos_INR|apply le_INR; lia]).
      replace (INR i * ((b - a) / INR (n - 1))) with ((b - a) * (INR i / INR (n - 1))) by (field; lra).
      assert (0 <= INR i / INR (n - 1) <= 1).
      { split; [apply Rmult_le_pos; [lra|left; apply Rinv_0_lt_compat; lra]|].
        apply Rmult_le_reg_r with (INR (n - 1)); [lra|]. unfold Rdiv. rewrite Rmult_assoc, Rinv_l by lra. lra. }
      nra.
  - assert (0 < INR n) by (apply lt_0_INR; lia).
    assert (0 <= INR i < INR n) by (split; [apply pos_INR|apply lt_INR; lia]).
    replace (INR i * ((b - a) / INR n)) with ((b - a) * (INR i / INR n)) by (field; lra).
    assert (0 <= INR i / INR n < 1).
    { split; [apply Rmult_le_pos; [lra|left; apply Rinv_0_lt_compat; lra]|].
      apply Rmult_lt_reg_r with (INR n); [lra|]. unfold Rdiv. rewrite Rmult_assoc, Rinv_l by lra. lra. }
    nra.
Qed.

Lemma linspace_head a b n ep : (1 <= n)%nat -> exists t, linspace a b n ep = a :: t /\ List.length t = (n - 1)%nat.
Proof.
  intros H. destruct n as [|n]; [lia|]. unfold linspace. simpl seq. simpl map.
  eexists. split; [f_equal; lra|]. rewrite map_length, seq_length. lia.
Qed.
Lemma linspace_last a b n : (2 <= n)%nat -> In b (linspace a b n true).
Proof.
  intros H. unfold linspace. apply in_map_iff. exists (n - 1)%nat. split; [|apply in_seq; lia].
  assert (0 < INR (n - 1)) by (apply lt_0_INR; lia). field. lra.
Qed.

(** Counts per segment. *)
Lemma incr_last_length l : List.length (incr_last l) = List.length l.
Proof. induction l as [|n [|m l] IH]; simpl in *; congruence. Qed.
Lemma counts_length li num : List.length (raster_counts li num) = List.length li.
Proof. unfold raster_counts. rewrite incr_last_length, map_length. reflexivity. Qed.

(** All counts positive, the last one at least two. *)
Fixpoint counts_ok (nq : list nat) : Prop :=
  match nq with
  | [] => True
  | [n] => (2 <= n)%nat
  | n :: nq' => (1 <= n)%nat /\ counts_ok nq'
  end.
Lemma incr_last_ok l : Forall (fun n => (1 <= n)%nat) l -> counts_ok (incr_last l).
Proof.
  induction 1 as [|n l H F IH]; [exact I|]. destruct l as [|m l]; [simpl; lia|].
  change (incr_last (n :: m :: l)) with (n :: incr_last (m :: l)).
  destruct (incr_last (m :: l)) as [|a b] eqn:E; [apply (f_equal (@List.length nat)) in E; rewrite incr_last_length in E; discriminate|].
  split; assumption.
Qed.
Lemma counts_positive li num : Forall (fun l => 0 < l) li -> (1 <= num)%nat -> counts_ok (raster_counts li num).
Proof.
  intros F Hn. destruct li as [|l0 li0]; [exact I|]. set (li := l0 :: li0) in *.
  assert (T : 0 < rsum li) by (apply rsum_map_pos; [exact F|discriminate]).
  apply incr_last_ok. apply Forall_forall. intros n I. apply in_map_iff in I. destruct I as (l & <- & Il).
  rewrite Forall_forall in F. pose proof (F l Il).
  apply ceil_nat_bounds. apply Rmult_lt_0_compat; [apply Rdiv_lt_0_compat; lra|apply lt_0_INR; lia].
Qed.

Lemma nsum_incr l : l <> [] -> nsum (incr_last l) = S (nsum l).
Proof.
  induction l as [|n [|m l] IH]; [congruence|simpl; lia|]. intros _.
  change (incr_last (n :: m :: l)) with (n :: incr_last (m :: l)).
  change (nsum (n :: incr_last (m :: l))) with (n + nsum (incr_last (m :: l)))%nat.
  rewrite IH by discriminate. simpl. lia.
Qed.
Lemma ceil_sum (f : R -> R) li : (forall l, In l li -> 0 < f l) ->
  rsum (map f li) <= INR (nsum (map (fun l => ceil_nat (f l)) li)) <= rsum (map f li) + INR (List.length li).
Proof.
  induction li as [|l li IH]; intros H; [simpl; lra|].
  change (List.length (l :: li)) with (S (List.length li)). rewrite S_INR.
  simpl map. simpl rsum. change (nsum (ceil_nat (f l) :: ?t)) with (ceil_nat (f l) + nsum t)%nat.
  change (nsum (ceil_nat (f l) :: map (fun l0 => ceil_nat (f l0)) li))
    with (ceil_nat (f l) + nsum (map (fun l0 => ceil_nat (f l0)) li))%nat.
  rewrite plus_INR.
  destruct (ceil_nat_bounds (f l) (H l (or_introl eq_refl))) as [A _].
  assert (B := IH (fun x I => H x (or_intror I))). lra.
Qed.
Lemma rsum_scale c li : rsum (map (fun l => c * l) li) = c * rsum li.
Proof. induction li as [|l li IH]; simpl; [lra|rewrite IH; lra]. Qed.
Lemma counts_total li num : Forall (fun l => 0 < l) li -> li <> [] -> (1 <= num)%nat ->
  (num + 1 <= nsum (raster_counts li num) <= num + List.length li + 1)%nat.
Proof.
  intros F Hne Hn. unfold raster_counts. rewrite nsum_incr by (destruct li; [congruence|discriminate]).
  assert (T : 0 < rsum li) by (apply rsum_map_pos; assumption).
  destruct (ceil_sum (fun l => l / rsum li * INR num) li) as [A B].
  { intros l Il. rewrite Forall_forall in F. pose proof (F l Il).
    apply Rmult_lt_0_compat; [apply Rdiv_lt_0_compat; lra|apply lt_0_INR; lia]. }
  assert (E : rsum (map (fun l => l / rsum li * INR num) li) = INR num).
  { rewrite (map_ext (fun l => l / rsum li * INR num) (fun l => (INR num / rsum li) * l)) by (intros; field; lra).
    rewrite rsum_scale. field. lra. }
  rewrite E in A, B. rewrite <- plus_INR in B. apply INR_le in A, B. lia.
Qed.

(** Grid of a chain of positive lengths. *)
Lemma raster_xq_length x0 li nq : List.length li = List.length nq -> List.length (raster_xq x0 li nq) = nsum nq.
Proof.
  revert x0 nq. induction li as [|l li IH]; intros x0 [|n nq] H; simpl in H; try discriminate; [reflexivity|].
  simpl. rewrite app_length, map_length. unfold raster_local. rewrite linspace_length.
  rewrite IH by congruence. reflexivity.
Qed.

Lemma xq_range x0 li nq x : Forall (fun l => 0 < l) li -> In x (raster_xq x0 li nq) -> x0 <= x <= x0 + rsum li.
Proof.
  intros F. revert x0 nq. induction F as [|l li H F IH]; intros x0 [|n nq] I; simpl in I; try contradiction.
  assert (0 <= rsum li) by (destruct li as [|y t]; [simpl; lra|left; apply rsum_map_pos; [exact F|discriminate]]).
  simpl. apply in_app_or in I. destruct I as [I|I].
  - apply in_map_iff in I. destruct I as (xi & <- & I). unfold raster_local in I.
    apply linspace_in in I; [|lra]. destruct li; lra.
  - apply IH in I. lra.
Qed.

Lemma sorted_app (l1 l2 : list R) : StronglySorted Rlt l1 -> StronglySorted Rlt l2 ->
  (forall x y, In x l1 -> In y l2 -> x < y) -> StronglySorted Rlt (l1 ++ l2).
Proof.
  intros S1 S2 H. induction S1 as [|a l1 S1 IH F]; simpl; [exact S2|]. constructor.
  - apply IH. intros x y I J. apply H; [right; exact I|exact J].
  - apply Forall_app. split; [exact F|]. apply Forall_forall. intros y J. apply H; [left; reflexivity|exact J].
Qed.
Lemma sorted_shift c (l : list R) : StronglySorted Rlt l -> StronglySorted Rlt (map (fun x => c + x) l).
Proof.
  induction 1 as [|a l S1 IH F]; simpl; constructor; [exact IH|].
  apply Forall_forall. intros y J. apply in_map_iff in J. destruct J as (x & <- & J).
  rewrite Forall_forall in F. pose proof (F x J). lra.
Qed.

Lemma xq_sorted x0 li nq : Forall (fun l => 0 < l) li -> List.length li = List.length nq -> counts_ok nq ->
  StronglySorted Rlt (raster_xq x0 li nq).
Proof.
  intros F. revert x0 nq. induction F as [|l li H F IH]; intros x0 [|n nq] E Hc; simpl in E; try discriminate; [constructor|].
  simpl raster_xq. destruct li as [|l2 li].
  - simpl. rewrite app_nil_r. apply sorted_shift, linspace_sorted. exact H.
  - destruct nq as [|n2 nq]; [discriminate|]. destruct Hc as [H1 Hc].
    apply sorted_app; [apply sorted_shift, linspace_sorted; exact H|apply IH; [congruence|exact Hc]|].
    intros x y I J. apply in_map_iff in I. destruct I as (xi & <- & I). unfold raster_local in I.
    apply linspace_in in I; [|lra]. apply xq_range in J; [|exact F]. lra.
Qed.

Lemma xq_head x0 l li n nq : (1 <= n)%nat -> exists t, raster_xq x0 (l :: li) (n :: nq) = x0 :: t.
Proof.
  intros H. simpl. unfold raster_local.
  destruct (linspace_head 0 l n (match li with [] => true | _ :: _ => false end) H) as (t & E & _). rewrite E.
  simpl. eexists. f_equal. lra.
Qed.

Lemma xq_last x0 li nq : Forall (fun l => 0 < l) li -> li <> [] -> List.length li = List.length nq -> counts_ok nq ->
  In (x0 + rsum li) (raster_xq x0 li nq).
Proof.
  intros F. revert x0 nq. induction F as [|l li H F IH]; intros x0 [|n nq] Hne E Hc; simpl in E; try discriminate; [congruence|].
  simpl raster_xq. apply in_or_app. destruct li as [|l2 li].
  - destruct nq; [|discriminate]. left. apply in_map_iff. exists l. split; [simpl; lra|].
    apply linspace_last. exact Hc.
  - right. destruct nq as [|n2 nq]; [discriminate|]. destruct Hc as [_ Hc].
    replace (x0 + rsum (l :: l2 :: li)) with (x0 + l + rsum (l2 :: li)) by (simpl; lra).
    apply IH; [discriminate|congruence|exact Hc].
Qed.

(** Starts of segments are grid points. *)
Lemma xq_starts {A} x0 (s : list (R * A)) nq b l a : Forall (fun q => 0 < fst q) s ->
  List.length s = List.length nq -> counts_ok nq -> seg_at x0 s b l a -> In b (raster_xq x0 (map fst s) nq).
Proof.
  intros F E Hc Hs. revert nq F E Hc. induction Hs as [x0 l a s|x0 l a s b l' a' Hs IH]; intros nq F E Hc.
  - destruct nq as [|n nq]; [discriminate|]. simpl map.
    destruct (xq_head x0 l (map fst s) n nq) as [t Et]; [destruct nq; simpl in Hc; lia|]. rewrite Et. left. reflexivity.
  - destruct nq as [|n nq]; [discriminate|]. inversion F as [|? ? H F' E']; subst. simpl map. simpl raster_xq.
    apply in_or_app. right. destruct nq as [|n2 nq].
    + destruct s; [inversion Hs|discriminate].
    + destruct Hc as [_ Hc]. simpl in H. rewrite Rabs_pos_eq in IH by lra. apply IH; [exact F'|simpl in E |- *; lia|exact Hc].
Qed.

(** Columns. *)
Lemma mapM_Ok {A B} (f : A -> res B) l ys : mapM f l = Ok ys -> Forall2 (fun x y => f x = Ok y) l ys.
Proof.
  revert ys. induction l as [|a l IH]; simpl; intros ys H.
  - apply Ok_inj in H. subst. constructor.
  - destruct (f a) as [b|e] eqn:E; simpl in H; [|discriminate]. destruct (mapM f l) as [bs|e]; simpl in H; [|discriminate].
    apply Ok_inj in H. subst. constructor; [exact E|apply IH; reflexivity].
Qed.
Lemma mapM_total {A B} (f : A -> res B) (g : A -> B) l : (forall a, In a l -> f a = Ok (g a)) -> mapM f l = Ok (map g l).
Proof.
  induction l as [|a l IH]; simpl; intros H; [reflexivity|].
  rewrite (H a (or_introl eq_refl)). simpl. rewrite IH by (intros; apply H; right; assumption). reflexivity.
Qed.
Lemma zsol_checked_Ok p e ld x C l k z : zsol_checked p e ld x C l k = Ok z -> z = zsol p e ld x C l k.
Proof. unfold zsol_checked. destruct (Nat.eqb _ _); [|discriminate]. intros H. apply Ok_inj in H. auto. Qed.

(** Half-open ownership, relative to a chain starting at x0. *)
Definition own_from {A} (x0 : R) (s : list (R * A)) b l (a : A) x : Prop :=
  seg_at x0 s b l a /\ (b <= x < b + Rabs l \/ x = b + Rabs l /\ x = x0 + chain_length s).

Definition chain (li : list R) (Cs : list (list R)) (ki : list bool) : list (R * (list R * bool)) := combine li (combine Cs ki).

Lemma Forall2_impl {A B} (P Q : A -> B -> Prop) l m : (forall a b, P a b -> Q a b) -> Forall2 P l m -> Forall2 Q l m.
Proof. intros H. induction 1; constructor; auto. Qed.

Lemma zq_spec p e ld Cs li ki nq x0 zs : Forall (fun l => 0 < l) li ->
  List.length Cs = List.length li -> List.length ki = List.length li -> List.length nq = List.length li -> counts_ok nq ->
  raster_zq p e ld Cs li ki nq = Ok zs ->
  Forall2 (fun x z => exists b l C k, own_from x0 (chain li Cs ki) b l (C, k) x /\ z = zsol p e ld (x - b) C l k)
    (raster_xq x0 li nq) zs.
Proof.
  intros F. revert Cs ki nq x0 zs.
  induction F as [|l li H F IH]; intros [|C Cs] [|k ki] [|n nq] x0 zs E1 E2 E3 Hc Hz; simpl in E1, E2, E3; try discriminate.
  - simpl in Hz. apply Ok_inj in Hz. subst. constructor.
  - simpl in Hz. destruct (mapM _ _) as [zi|er] eqn:Ez; simpl in Hz; [|discriminate].
    destruct (raster_zq p e ld Cs li ki nq) as [zr|er] eqn:Er; simpl in Hz; [|discriminate]. apply Ok_inj in Hz. subst zs.
    simpl raster_xq. apply Forall2_app.
    + apply mapM_Ok in Ez. clear - Ez H E1 E2. unfold raster_local in *.
      assert (R : Forall (fun xi => if (match li with [] => true | _ => false end) then 0 <= xi <= l else 0 <= xi < l)
        (linspace 0 l n (match li with [] => true | _ => false end))).
      { apply Forall_forall. intros x I. exact (linspace_in 0 l n _ x H I). }
      revert R. induction Ez as [|xi z xs zs Hz Hf IHf]; intros R; simpl; constructor; inversion R; subst.
      * exists x0, l, C, k. split; [|apply zsol_checked_Ok in Hz; rewrite Hz; f_equal; lra].
        split; [simpl; constructor|]. rewrite Rabs_pos_eq by lra.
        destruct li as [|y t].
        -- destruct (Rle_lt_or_eq_dec xi l) as [L|L]; [lra|left; lra|right]. unfold chain_length. simpl.
           destruct Cs; [|discriminate]. simpl. rewrite Rabs_pos_eq by lra. lra.
        -- left. lra.
      * apply IHf. assumption.
    + destruct li as [|l2 li].
      * destruct Cs, ki, nq; try discriminate. simpl in Er. apply Ok_inj in Er. subst. constructor.
      * destruct nq as [|n2 nq]; [discriminate|]. destruct Hc as [_ Hc].
        assert (G := IH Cs ki (n2 :: nq) (x0 + l) zr ltac:(congruence) ltac:(congruence) ltac:(congruence) Hc Er).
        eapply Forall2_impl; [|exact G]. intros x z (b & l' & C' & k' & (S1 & S2) & ->).
        exists b, l', C', k'. split; [|reflexivity]. split.
        -- simpl. constructor. rewrite Rabs_pos_eq by lra. exact S1.
        -- destruct S2 as [S2|[S2 S3]]; [left; exact S2|right]. split; [exact S2|].
           rewrite S3. unfold chain_length. simpl. rewrite (Rabs_pos_eq l) by lra.
           destruct Cs as [|C2 Cs]; [discriminate|]. destruct ki as [|k2 ki]; [discriminate|]. simpl. lra.
Qed.

Lemma zq_total p e ld Cs li ki nq :
  List.length Cs = List.length li -> List.length ki = List.length li ->
  (forall b l C k x0, seg_at x0 (chain li Cs ki) b l (C, k) -> forall x, List.length (zh p e x l k) = List.length C) ->
  exists zs, raster_zq p e ld Cs li ki nq = Ok zs.
Proof.
  revert Cs ki nq. induction li as [|l li IH]; intros [|C Cs] [|k ki] nq E1 E2 H; simpl in E1, E2; try discriminate.
  - exists []. reflexivity.
  - destruct nq as [|n nq]; [exists []; reflexivity|]. simpl.
    rewrite (mapM_total _ (fun x => zsol p e ld x C l k)).
    + simpl. destruct (IH Cs ki nq ltac:(congruence) ltac:(congruence)) as [zs E].
      { intros b l' C' k' x0 Hs. apply (H b l' C' k' (x0 - Rabs l)). simpl. constructor.
        replace (x0 - Rabs l + Rabs l) with x0 by lra. exact Hs. }
      rewrite E. simpl. eexists. reflexivity.
    + intros x _. unfold zsol_checked. rewrite (H 0 l C k 0); [rewrite Nat.eqb_refl; reflexivity|]. simpl. constructor.
Qed.

(** Mask. *)
Fixpoint mask_rec (kp : bool) (ki : list bool) (nq : list nat) : list bool :=
  match ki, nq with
  | k :: ki', n :: nq' => orb kp k :: repeat k (n - 1) ++ mask_rec k ki' nq'
  | _, _ => []
  end.
Lemma set_nth_app {A} (l : list A) a m v : set_nth (l ++ a :: m) (List.length l) v = l ++ v :: m.
Proof. induction l as [|b l IH]; simpl; [reflexivity|rewrite IH; reflexivity]. Qed.

Lemma tips_rec k0 n ki nq pre s : List.length ki = List.length nq -> Forall (fun n => (1 <= n)%nat) nq ->
  List.length s = n ->
  raster_tips (k0 :: ki) (n :: nq) (List.length pre) (pre ++ s ++ raster_mask0 ki nq) = pre ++ s ++ mask_rec k0 ki nq.
Proof.
  revert k0 n nq pre s. induction ki as [|k ki IH]; intros k0 n [|m nq] pre s E F Hs; simpl in E; try discriminate.
  - reflexivity.
  - inversion F as [|? ? Hm F']; subst.
    change (raster_tips (k0 :: k :: ki) (List.length s :: m :: nq) (List.length pre) (pre ++ s ++ raster_mask0 (k :: ki) (m :: nq)))
      with (raster_tips (k :: ki) (m :: nq) (List.length pre + List.length s)
        (set_nth (pre ++ s ++ raster_mask0 (k :: ki) (m :: nq)) (List.length pre + List.length s) (k0 || k))).
    destruct m as [|m]; [lia|]. simpl raster_mask0. simpl mask_rec. rewrite Nat.sub_0_r.
    rewrite <- app_length, app_assoc, set_nth_app.
    replace ((pre ++ s) ++ (k0 || k)%bool :: repeat k m ++ raster_mask0 ki nq)
      with ((pre ++ s) ++ ((k0 || k)%bool :: repeat k m) ++ raster_mask0 ki nq) by reflexivity.
    rewrite IH; [|congruence|exact F'|simpl; rewrite repeat_length; reflexivity].
    rewrite <- app_assoc. reflexivity.
Qed.
Lemma counts_ok_pos nq : counts_ok nq -> Forall (fun n => (1 <= n)%nat) nq.
Proof.
  induction nq as [|n [|m nq] IH]; intros H; [constructor|constructor; [simpl in H; lia|constructor]|].
  destruct H as [H1 H2]. constructor; [exact H1|apply IH; exact H2].
Qed.
Lemma mask_eq ki nq : List.length ki = List.length nq -> counts_ok nq -> raster_mask ki nq = mask_rec false ki nq.
Proof.
  intros E Hc. apply counts_ok_pos in Hc. destruct ki as [|k ki], nq as [|n nq]; try discriminate; [reflexivity|].
  inversion Hc; subst. unfold raster_mask. simpl raster_mask0.
  transitivity ([] ++ repeat k n ++ mask_rec k ki nq);
    [exact (tips_rec k n ki nq [] (repeat k n) ltac:(simpl in E; congruence) ltac:(assumption) (repeat_length k n))|].
  simpl. destruct n as [|n]; [lia|]. simpl. rewrite Nat.sub_0_r. reflexivity.
Qed.

Definition found_from (x0 : R) (s : list (R * bool)) (x : R) : Prop :=
  exists b l, seg_at x0 s b l true /\ b <= x <= b + Rabs l.

Lemma found_cons x0 l k s x : found_from x0 ((l, k) :: s) x <->
  (k = true /\ x0 <= x <= x0 + Rabs l) \/ found_from (x0 + Rabs l) s x.
Proof.
  split.
  - intros (b & l' & H & Hx). inversion H; subst; [left; auto|right; exists b, l'; auto].
  - intros [[-> Hx]|(b & l' & H & Hx)]; [exists x0, l; split; [constructor|exact Hx]|exists b, l'; split; [constructor; exact H|exact Hx]].
Qed.
Lemma found_range x0 s x : found_from x0 s x -> x0 <= x.
Proof.
  intros (b & l & H & Hx). revert Hx. remember true as k. clear Heqk. induction H as [|x0 l0 k0 s b l' a' H IH]; intros Hx; [lra|].
  pose proof (Rabs_pos l0). specialize (IH Hx). lra.
Qed.
Lemma found_start x0 l k s : 0 < l -> Forall (fun q : R * bool => 0 < fst q) s ->
  found_from x0 ((l, k) :: s) x0 <-> k = true.
Proof.
  intros H F. rewrite found_cons. split; [|intros ->; left; split; [reflexivity|rewrite Rabs_pos_eq; lra]].
  intros [[E _]|G]; [exact E|]. apply found_range in G. rewrite Rabs_pos_eq in G; lra.
Qed.

Lemma mask_spec li ki nq x0 kp : Forall (fun l => 0 < l) li ->
  List.length ki = List.length li -> List.length nq = List.length li -> counts_ok nq ->
  Forall2 (fun x m => m = true <-> (kp = true /\ x = x0) \/ found_from x0 (combine li ki) x)
    (raster_xq x0 li nq) (mask_rec kp ki nq).
Proof.
  intros F. revert ki nq x0 kp.
  induction F as [|l li H F IH]; intros [|k ki] [|n nq] x0 kp E2 E3 Hc; simpl in E2, E3; try discriminate; [constructor|].
  assert (Fc : Forall (fun q : R * bool => 0 < fst q) (combine li ki)).
  { clear - F. revert ki. induction F as [|l li H F IH]; intros [|k ki]; simpl; constructor; [exact H|apply IH]. }
  assert (Hn : (1 <= n)%nat) by (destruct nq; simpl in Hc; lia).
  simpl raster_xq. simpl mask_rec. unfold raster_local. set (ep := match li with [] => true | _ => false end).
  destruct (linspace_head 0 l n ep Hn) as (t & Et & Lt).
  assert (St := linspace_sorted 0 l n ep H). assert (Rt : forall x, In x t -> 0 < x /\ if ep then x <= l else x < l).
  { intros x I. rewrite Et in St. inversion St as [|? ? _ Fs]; subst. rewrite Forall_forall in Fs. split; [apply Fs; exact I|].
    assert (I2 : In x (linspace 0 l n ep)) by (rewrite Et; right; exact I). apply linspace_in in I2; [|exact H]. destruct ep; lra. }
  rewrite Et. simpl map. constructor.
  - replace (x0 + 0) with x0 by lra. change (combine (l :: li) (k :: ki)) with ((l, k) :: combine li ki).
    rewrite (found_start x0 l k _ H Fc). rewrite orb_true_iff. split; [intros [A|A]; auto|intros [[A _]|A]; auto].
  - apply Forall2_app.
    + clear Et St. rewrite <- Lt. clear Lt. induction t as [|x t IHt]; simpl; constructor.
      * change (combine (l :: li) (k :: ki)) with ((l, k) :: combine li ki). rewrite found_cons, (Rabs_pos_eq l) by lra.
        destruct (Rt x (or_introl eq_refl)) as [R1 R2].
        split.
        -- intros ->. right. left. split; [reflexivity|]. destruct ep; lra.
        -- intros [[_ A]|[[A _]|A]]; [lra|exact A|exfalso].
           unfold ep in *. destruct li as [|l2 li]; [destruct A as (b & l' & A & _); simpl in A; inversion A|].
           apply found_range in A. lra.
      * apply IHt. intros y I. apply Rt. right. exact I.
    + destruct li as [|l2 li].
      * destruct ki, nq; try discriminate. constructor.
      * destruct nq as [|n2 nq]; [discriminate|]. destruct Hc as [_ Hc].
        assert (G := IH ki (n2 :: nq) (x0 + l) k ltac:(congruence) ltac:(congruence) Hc).
        assert (Rg : Forall (fun x => x0 + l <= x) (raster_xq (x0 + l) (l2 :: li) (n2 :: nq))).
        { apply Forall_forall. intros x I. apply xq_range in I; [lra|exact F]. }
        change (match nq with [] => (2 <= n2)%nat | _ :: _ => (1 <= n2)%nat /\ counts_ok nq end) with (counts_ok (n2 :: nq)) in Hc.
        revert G Rg. generalize (raster_xq (x0 + l) (l2 :: li) (n2 :: nq)) (mask_rec k ki (n2 :: nq)).
        intros xs ms G. induction G as [|x m xs ms Hm G IHG]; intros Rg; constructor; inversion Rg; subst.
        -- rewrite Hm. change (combine (l :: l2 :: li) (k :: ki)) with ((l, k) :: combine (l2 :: li) ki).
           rewrite found_cons, (Rabs_pos_eq l) by lra. split.
           ++ intros [[A1 A2]|A]; right; [left; split; [exact A1|lra]|right; exact A].
           ++ intros [[A1 A2]|[[A1 A2]|A]]; [lra|left; split; [exact A1|lra]|right; exact A].
        -- apply IHG. assumption.
Qed.
