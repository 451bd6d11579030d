(** Property theorems C57, C58 and C64: segment lookup, splitting and skier placement. *)
Require Import Verif.Py Verif.MTools Verif.MEigen Verif.MRaster Verif.MSolution Verif.MCriterion Verif.SSegment Verif.PSetup
  Verif.PEnvelope Verif.PSegment Verif.PCreate.

(** C57: the segment found is the first one that ends at or beyond the coordinate, with the
    coordinate relative to its start; none is found exactly when all segments end before it. *)
Theorem C57_lookup_partial ls x :
  List.length ls <> 1%nat ->
  (forall i xi, find_segment_index ls x = Some (i, xi) <->
     (i < List.length ls)%nat /\ x <= seg_start ls (S i) /\ (forall j, (j < i)%nat -> seg_start ls (S j) < x) /\
     xi = x - seg_start ls i) /\
  (find_segment_index ls x = None <-> forall j, (j < List.length ls)%nat -> seg_start ls (S j) < x).
Proof. intros N. split; [intros i xi; exact (find_lookup ls x i xi N)|exact (find_none ls x N)]. Qed.
Print Assumptions C57_lookup_partial.
(** Inside the model the relative coordinate lies in the segment. *)
Theorem C57_inside ls x :
  (forall l, In l ls -> 0 <= l) -> 0 <= x <= rsum ls -> ls <> [] ->
  exists i xi, find_segment_index ls x = Some (i, xi) /\ (i < List.length ls)%nat /\ 0 <= xi <= nth i ls 0 /\ x = seg_start ls i + xi.
Proof.
  intros P X N. destruct (Nat.eq_dec (List.length ls) 1) as [E|E].
  - destruct ls as [|l [|a ls]]; try discriminate. exists 0%nat, x. split; [reflexivity|]. split; [simpl; lia|].
    unfold rsum in X. simpl in X |- *. rewrite seg_start_0. lra.
  - destruct (find_segment_index ls x) as [[i xi]|] eqn:F.
    + exists i, xi. split; [reflexivity|]. apply (find_lookup ls x i xi E) in F. destruct F as (A & B & C & ->). split; [exact A|].
      rewrite (seg_start_S ls i A) in B. split; [|lra]. split; [|lra].
      destruct i as [|i]; [rewrite seg_start_0; lra|]. pose proof (C i ltac:(lia)). lra.
    + exfalso. apply (find_none ls x E) with (m := (List.length ls - 1)%nat) in F; [|destruct ls; [congruence|simpl; lia]].
      replace (S (List.length ls - 1)) with (List.length ls) in F by (destruct ls; [congruence|simpl; lia]).
      rewrite seg_start_all in F. lra.
Qed.
Print Assumptions C57_inside.
(** Outside of the model a segment is reported nevertheless: for negative coordinates, and beyond
    the end of a model with a single segment. *)
Theorem C57_outside_refuted :
  find_segment_index [5; 10] (-1) = Some (0%nat, -1) /\ find_segment_index [5] 7 = Some (0%nat, 7).
Proof.
  split; [|reflexivity]. unfold find_segment_index, find_segment_loop. rewrite Rleb_true by lra.
  do 2 f_equal. lra.
Qed.
Print Assumptions C57_outside_refuted.
Example C57_example : find_segment_index [5; 10; 20] 15 = Some (1%nat, 10) /\ find_segment_index [5; 10; 20] 36 = None.
Proof.
  split.
  - apply C57_lookup_partial; [simpl; lia|]. unfold seg_start, rsum. simpl. split; [lia|]. split; [lra|]. split; [|lra].
    intros j J. destruct j; [simpl; lra|lia].
  - apply C57_lookup_partial; [simpl; lia|]. intros j J. unfold seg_start, rsum. simpl in J.
    destruct j as [|[|[|j]]]; [simpl; lra|simpl; lra|simpl; lra|lia].
Qed.

(** C58: if the midpoint lies beyond the first segment, splitting keeps the total length and the
    support of every point and makes the midpoint a segment boundary. *)
Theorem C58_split_partial ls ks :
  List.length ks = List.length ls -> (forall l, In l ls -> 0 <= l) -> nth 0 ls 0 < rsum ls / 2 ->
  exists ls' ks', split_segments_at_midpoint ls ks = Ok (ls', ks') /\ List.length ks' = List.length ls' /\
    (forall l, In l ls' -> 0 <= l) /\ rsum ls' = rsum ls /\
    (exists j, (j <= List.length ls')%nat /\ seg_start ls' j = rsum ls / 2) /\
    (forall x q, x <> rsum ls / 2 -> (carries ls' ks' x q <-> carries ls ks x q)).
Proof. intros A B C. exact (split_sound ls ks A C B). Qed.
Print Assumptions C58_split_partial.
(** If the midpoint lies in the first segment, half of the model is added to it. *)
Theorem C58_refuted : forall ls ks k, ls <> [] -> rsum ls / 2 <= nth 0 ls 0 ->
  split_segments_at_midpoint ls (k :: ks) = Ok (rsum ls / 2 :: ls, k :: k :: ks) /\
  rsum (rsum ls / 2 :: ls) = 3 / 2 * rsum ls.
Proof.
  intros ls ks k N H. split.
  - destruct ls as [|l ls]; [congruence|]. unfold split_segments_at_midpoint. rewrite cumsum_last by exact N.
    unfold cumsum at 1. cbn [cumsum_from]. unfold cumsum. cbn [cumsum_from first_ge nth] in *.
    rewrite Rleb_true by lra. reflexivity.
  - unfold rsum at 1. cbn [fold_right]. fold (rsum ls). lra.
Qed.
Print Assumptions C58_refuted.
Example C58_example : split_segments_at_midpoint [2; 6; 4] [true; false; true] = Ok ([2; 4; 2; 4], [true; false; false; true]) /\
  split_segments_at_midpoint [6; 4] [true; false] = Ok ([5; 6; 4], [true; true; false]).
Proof.
  split.
  - unfold split_segments_at_midpoint, cumsum. cbn [cumsum_from last first_ge]. rewrite (Rleb_false _ (0 + 2)) by lra.
    rewrite (Rleb_true _ (0 + 2 + 6)) by lra. cbn [nth_error nth firstn skipn app]. do 2 f_equal. f_equal. f_equal; [lra|]. f_equal. lra.
  - assert (E : rsum [6; 4] / 2 = 5) by (unfold rsum; simpl; lra).
    destruct (C58_refuted [6; 4] [false] true ltac:(discriminate) ltac:(rewrite E; simpl; lra)) as [H _]. rewrite E in H. exact H.
Qed.

(** C64: the created model has the given lengths and supports (all supported if uncracked); the
    weight acts at one transition, which is the first boundary at or beyond the midpoint, hence the
    midpoint itself if that is a boundary. *)
Theorem C64_placement eig solve brent maxeval profile w phi li ki crack E t k :
  create_skier_object eig solve brent maxeval profile w phi li ki crack E t = Ok k ->
  (forall l, In l li -> 0 <= l) -> 0 < rsum li -> List.length ki = List.length li ->
  k_li k = li /\ k_ki k = (if crack then ki else map (fun _ => true) ki) /\
  exists i, (S i < List.length li)%nat /\ List.length (k_mi k) = (List.length li - 1)%nat /\
    nth i (k_mi k) 0 = w /\ (forall j, j <> i -> nth j (k_mi k) 0 = 0) /\
    rsum li / 2 <= seg_start li (S i) /\
    (forall j, (j <= List.length li)%nat -> rsum li / 2 <= seg_start li j -> seg_start li (S i) <= seg_start li j) /\
    ((exists j, (j <= List.length li)%nat /\ seg_start li j = rsum li / 2) -> seg_start li (S i) = rsum li / 2).
Proof.
  intros H P T L. destruct (create_keeps _ _ _ _ _ _ _ _ _ _ _ _ _ H) as (A & B & C). split; [exact A|]. split; [exact C|].
  rewrite L in B. destruct (placement li w (k_mi k) P T B) as (i & I1 & I2 & I3 & I4 & I5 & I6). exists i.
  repeat (split; [assumption|]). intros (j & J & E0). pose proof (I6 j J ltac:(lra)). lra.
Qed.
Print Assumptions C64_placement.
(** The placement never fails when the midpoint is a boundary. *)
Theorem C64_midpoint li w j :
  (forall l, In l li -> 0 <= l) -> 0 < rsum li -> (j <= List.length li)%nat -> seg_start li j = rsum li / 2 ->
  exists mi, skier_weights li (List.length li) w = Ok mi.
Proof. exact (placement_total li w j). Qed.
Print Assumptions C64_midpoint.
(** Weight in the middle of the four segments of the uncracked start configuration. *)
Example C64_example : skier_weights [5000; 0; 0; 5000] 4 80 = Ok [0; 80; 0].
Proof.
  unfold skier_weights. cbn [Nat.eqb]. unfold rsum. cbn [fold_right median_loop]. rewrite Rleb_true by lra.
  unfold Reqb. destruct (Req_EM_T 0 0); [reflexivity|lra].
Qed.
