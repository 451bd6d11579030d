(** Curves of the line plots. *)
Require Import Verif.Py Verif.MTools Verif.MEigen Verif.MFields Verif.MRaster Verif.MFigure Verif.SBvp Verif.SRaster Verif.SFigure Verif.SShow
  Verif.PSetup Verif.PRaster Verif.PRaster2 Verif.PFigure4 Verif.PropRaster.

Section Marked.
Variables (x : list (option R)) (data : list curve) (li mi : list R) (ki : list bool).
Hypotheses (F : Forall (ordinary x) data) (Nd : data <> []).
Let n := Z.of_nat (List.length (finite x)).
Let pos := (95 * n / 100)%Z.
Lemma marked_pos : exists sh ln, plot_data data None true (Some li) (Some mi) (Some ki) = (lb <- left_labels 1 pos data ;; Ok (mkNotes sh ln lb data)).
Proof.
  unfold plot_data. cbn [iterable bind]. destruct (shades_ok li ki 0) as (l & El & _). destruct (lines_ok li mi 1) as (r & Er & _).
  rewrite El. cbn [bind]. rewrite Er. cbn [bind]. exists l, (0 :: r).
  destruct data as [|c d]; [congruence|]. destruct (Forall_inv F) as (E & _). cbn [bind]. unfold pos, n. rewrite E. reflexivity.
Qed.
Lemma no_labels i p : forall d, Forall (ordinary x) d -> finite x = [] -> left_labels i p d = Ok [].
Proof.
  intros d. revert i. induction d as [|c d IH]; intros i G N; cbn [left_labels]; [reflexivity|].
  inversion G as [|? ? Oc Gd]; subst. pose proof (ordinary_test x c Oc) as T. destruct Oc as (Ex & L & _). rewrite Ex, L, Nat.eqb_refl. cbn [negb]. rewrite T, N.
  cbn [bind]. rewrite (IH (i + 1)%Z Gd N). reflexivity.
Qed.
(** Plotting fails exactly if there are points, but too few for the labels. *)
Lemma marked_result : (exists nt, plot_data data None true (Some li) (Some mi) (Some ki) = Ok nt /\ n_curves nt = data /\ (n = 0 \/ 10 * Z.of_nat (List.length data) < n + pos)%Z) \/
  (plot_data data None true (Some li) (Some mi) (Some ki) = Err IndexError /\ (0 < n /\ n + pos <= 10 * Z.of_nat (List.length data))%Z).
Proof.
  destruct marked_pos as (sh & ln & ->). destruct (finite x) as [|f0 fr] eqn:Ef.
  - left. rewrite (no_labels 1 pos data F Ef). cbn [bind]. eexists. split; [reflexivity|]. split; [reflexivity|]. left. unfold n. reflexivity.
  - assert (N : finite x <> []) by (rewrite Ef; discriminate). pose proof (pos_bounds x N) as P. cbv zeta in P.
    assert (En : n = Z.of_nat (List.length (finite x))) by (rewrite Ef; reflexivity).
    assert (Ep : pos = (95 * Z.of_nat (List.length (finite x)) / 100)%Z) by (rewrite Ef; reflexivity).
    rewrite <- Ep, <- En in P. clearbody n pos.
    assert (0 < n)%Z by (rewrite En, Ef; simpl; lia).
    destruct (Z.lt_ge_cases (10 * Z.of_nat (List.length data)) (n + pos)) as [C|C].
    + left. destruct (labels_defined x data 1 pos F N) as (l & El & _); [intros k K; rewrite <- En; lia|].
      rewrite El. cbn [bind]. eexists. split; [reflexivity|]. split; [reflexivity|]. right. exact C.
    + right. split; [|lia]. rewrite (labels_fail x data 1 pos (List.length data - 1) F N); [reflexivity|destruct data; [congruence|simpl; lia]|rewrite <- En; lia|rewrite <- En].
      assert (List.length data <> 0%nat) by (destruct data; [congruence|discriminate]). lia.
Qed.
End Marked.

Lemma cm_all xq : cm (map Some xq) = map Some (map (fun a => a / 10) xq).
Proof. unfold cm. rewrite !map_map. reflexivity. Qed.
Lemma finite_all (xs : list R) : finite (map Some xs) = xs.
Proof. unfold finite. induction xs as [|a xs IH]; cbn [map flat_map app]; [reflexivity|]. rewrite IH. reflexivity. Qed.
Lemma mapM_total {A B} (f : A -> res B) (g : A -> B) : (forall a, f a = Ok (g a)) -> forall l, mapM f l = Ok (map g l).
Proof. intros H l. induction l as [|a l IH]; cbn [mapM map]; [reflexivity|]. rewrite H, IH. reflexivity. Qed.

Section Raster.
Variables (o : obj) (phi : R) (Cs : list (list R)) (li : list R) (ki : list bool) (num : nat).
Variables (xq : list R) (zq : list vec6) (xb : list (option R)).
Hypotheses (Hn : (1 <= num)%nat)
  (E : rasterize_solution (o_par o) (o_eig o) (loads_of o phi) Cs li ki num = Ok (xq, zq, xb)).
Lemma raster_sizes : List.length zq = List.length xq /\ List.length xb = List.length xq /\ (num + 1 <= List.length xq)%nat.
Proof. destruct (C38_grid _ _ _ _ _ _ _ _ _ _ Hn E) as (_ & _ & _ & _ & H & A & B). repeat split; [exact A|exact B|lia]. Qed.
(** Curves over all points. *)
Lemma all_shown f q label : (forall z, f z = q z) -> depicts o phi li Cs ki xq q (mkCurve (cm (map Some xq)) (map f zq) label).
Proof.
  intros H. unfold depicts, points. cbn [k_x k_y]. rewrite cm_all.
  pose proof (C40_columns _ _ _ _ _ _ _ _ _ _ Hn E) as C. clear E. induction C as [|x z xs zs Hz _ IH]; cbn [map curve_points]; [constructor|].
  constructor; [|exact IH]. cbn [fst snd]. split; [reflexivity|]. destruct Hz as (b & l & C & k & Ow & ->). exists b, l, C, k. split; [exact Ow|]. apply H.
Qed.
(** Curves over the points on the foundation. *)
Lemma foundation_shown f q label : (forall z, f z = q z) ->
  let c := mkCurve (cm xb) (map f zq) label in
  (forall pt, In pt (points c) -> exists x, In x xq /\ on_foundation (combine li ki) x /\ fst pt = x / 10 /\ value_at o phi li Cs ki q x (snd pt)) /\
  (forall x, In x xq -> on_foundation (combine li ki) x -> exists v, In (x / 10, v) (points c)).
Proof.
  intros H. unfold points. cbn [k_x k_y].
  pose proof (C40_columns _ _ _ _ _ _ _ _ _ _ Hn E) as C. pose proof (C39_foundation _ _ _ _ _ _ _ _ _ _ Hn E) as B. clear E.
  revert xb B. induction C as [|x z xs zs Hz _ IH]; intros xb' B; inversion B as [|? y ? ys Hy B']; subst.
  - split; [intros pt []|intros x []].
  - destruct (IH ys B') as [I1 I2]. destruct Hy as [[Fo ->]|[Fo ->]]; cbn [cm map option_map curve_points].
    + split.
      * intros pt [<-|I]; cbn [fst snd].
        -- exists x. split; [left; reflexivity|]. split; [exact Fo|]. split; [reflexivity|]. destruct Hz as (b & l & C & k & Ow & ->). exists b, l, C, k. split; [exact Ow|]. apply H.
        -- destruct (I1 pt I) as (x' & J & R'). exists x'. split; [right; exact J|exact R'].
      * intros x' [<-|J] Fx; [eexists; left; reflexivity|]. destruct (I2 x' J Fx) as (v & V). exists v. right. exact V.
    + split.
      * intros pt I. destruct (I1 pt I) as (x' & J & R'). exists x'. split; [right; exact J|exact R'].
      * intros x' [<-|J] Fx; [contradiction|]. exact (I2 x' J Fx).
Qed.
End Raster.

Lemma count_mask (mask : list bool) : forall xq : list R, List.length xq = List.length mask ->
  List.length (finite (map2 (fun (b : bool) x => if b then Some x else None) mask xq)) = List.length (filter (fun b => b) mask).
Proof.
  induction mask as [|m mask IH]; intros [|x xq] L; cbn [List.length] in L; try discriminate; [reflexivity|].
  unfold finite in *. cbn [map2 flat_map filter]. destruct m; cbn [app List.length]; rewrite IH by lia; reflexivity.
Qed.
Lemma cm_finite x : List.length (finite (cm x)) = List.length (finite x).
Proof. unfold finite, cm. induction x as [|[a|] x IH]; cbn [map option_map flat_map app List.length]; [reflexivity| |exact IH]. rewrite IH. reflexivity. Qed.
Lemma set_at {A} (a b : list A) c v : set_nth (a ++ c :: b) (List.length a) v = a ++ v :: b.
Proof. induction a as [|x a IH]; cbn [app List.length set_nth]; [reflexivity|]. rewrite IH. reflexivity. Qed.
Lemma filter_repeat b n : List.length (filter (fun x : bool => x) (repeat b n)) = if b then n else 0%nat.
Proof. induction n as [|n IH]; cbn [repeat filter]; [destruct b; reflexivity|]. destruct b; cbn [List.length]; rewrite ?IH; reflexivity. Qed.
(** Supported points of a supported and an unsupported segment. *)
Lemma two_counts p e ld Cs a b num xq zq xb : 0 < a -> 0 < b -> (1 <= num)%nat ->
  rasterize_solution p e ld Cs [a; b] [true; false] num = Ok (xq, zq, xb) ->
  List.length (finite xb) = S (ceil_nat (a / (a + b) * INR num)).
Proof.
  intros Ha Hb Hn E. pose proof (C38_grid _ _ _ _ _ _ _ _ _ _ Hn E) as (_ & _ & _ & _ & _ & _ & Lb).
  unfold rasterize_solution in E. destruct (negb _); [discriminate|]. cbn [map] in E. rewrite !Rabs_pos_eq in E by lra.
  assert (T : forall c, 0 < c -> Rltb 0 c = true) by (intros c Hc; unfold Rltb; destruct Rlt_dec; [reflexivity|lra]).
  rewrite (T a Ha), (T b Hb) in E. cbn [select] in E.
  set (n0 := ceil_nat (a / (a + b) * INR num)).
  set (nq := raster_counts [a; b] num) in E. set (mask := raster_mask [true; false] nq) in E.
  destruct (raster_zq _ _ _ _ _ _ _) as [z|]; cbn [bind] in E; [|discriminate]. apply Ok_inj in E.
  assert (Exq : raster_xq 0 [a; b] nq = xq) by congruence. assert (Exb : xb = map2 (fun (b : bool) x => if b then Some x else None) mask xq) by congruence. clear E.
  assert (Enq : exists n1, nq = [n0; S n1]).
  { unfold nq, raster_counts. cbn [map incr_last]. replace (rsum [a; b]) with (a + b) by (simpl; ring). fold n0. eexists. reflexivity. }
  destruct Enq as (n1 & Enq). assert (Em : mask = repeat true n0 ++ true :: repeat false n1).
  { unfold mask. rewrite Enq. unfold raster_mask. cbn [raster_mask0 raster_tips app]. rewrite app_nil_r. cbn [repeat orb]. replace (0 + n0)%nat with (List.length (repeat true n0)) by (rewrite repeat_length; reflexivity). apply set_at. }
  rewrite Exb, count_mask.
  - rewrite Em, filter_app, app_length. cbn [filter List.length]. rewrite !filter_repeat. lia.
  - rewrite <- Exq, Enq. cbn [raster_xq]. rewrite app_nil_r, app_length, !map_length. unfold raster_local. rewrite !linspace_length.
    rewrite Em, app_length. cbn [List.length]. rewrite !repeat_length. lia.
Qed.
