(** Proofs about line plots. *)
From Coq Require Import Lia Lra ZArith.
Require Import Verif.Py Verif.MTools Verif.MEigen Verif.MFields Verif.MRaster Verif.MAnalysis Verif.MFigure
  Verif.SPlot Verif.SFigure Verif.PSetup Verif.PStress2 Verif.PFigure2.

(** * Strips and lines *)
Definition part (li : list R) (i : nat) : R := rsum (firstn i li).
Lemma shades_ok li : forall ki i, exists l, shades i ki (Some li) = Ok l /\
  forall a b, In (a, b) l <-> exists k, nth_error ki k = Some false /\ a = part li (i + k) / 10 /\ b = part li (S (i + k)) / 10.
Proof.
  induction ki as [|f ki IH]; intros i; cbn [shades].
  - exists []. split; [reflexivity|]. intros a b. split; [intros []|]. intros (k & E & _). destruct k; discriminate.
  - destruct (IH (S i)) as (l & El & Hl). rewrite El. destruct f; cbn [bind head_sum].
    + exists l. split; [reflexivity|]. intros a b. rewrite Hl. split.
      * intros (k & E & A & B). exists (S k). replace (i + S k)%nat with (S i + k)%nat by lia. auto.
      * intros ([|k] & E & A & B); [discriminate|]. exists k. replace (i + S k)%nat with (S i + k)%nat in A, B by lia. auto.
    + eexists. split; [reflexivity|]. intros a b. cbn [app In]. rewrite Hl. split.
      * intros [E|(k & E & A & B)].
        -- injection E as <- <-. exists 0%nat. rewrite Nat.add_0_r. auto.
        -- exists (S k). replace (i + S k)%nat with (S i + k)%nat by lia. auto.
      * intros ([|k] & E & A & B).
        -- left. rewrite Nat.add_0_r in A, B. subst. reflexivity.
        -- right. exists k. replace (i + S k)%nat with (S i + k)%nat in A, B by lia. auto.
Qed.
Lemma lines_ok li : forall mi i, exists l, skier_lines i mi (Some li) = Ok l /\
  forall v, In v l <-> exists k m, nth_error mi k = Some m /\ 0 < m /\ v = part li (i + k) / 10.
Proof.
  induction mi as [|m mi IH]; intros i; cbn [skier_lines].
  - exists []. split; [reflexivity|]. intros v. split; [intros []|]. intros (k & m & E & _). destruct k; discriminate.
  - destruct (IH (S i)) as (l & El & Hl). rewrite El. unfold Rltb. destruct (Rlt_dec 0 m) as [P|P]; cbn [bind head_sum].
    + eexists. split; [reflexivity|]. intros v. cbn [app In]. rewrite Hl. split.
      * intros [E|(k & m' & E & A & B)].
        -- subst v. exists 0%nat, m. rewrite Nat.add_0_r. auto.
        -- exists (S k), m'. replace (i + S k)%nat with (S i + k)%nat by lia. auto.
      * intros ([|k] & m' & E & A & B).
        -- left. rewrite Nat.add_0_r in B. subst. reflexivity.
        -- right. exists k, m'. replace (i + S k)%nat with (S i + k)%nat in B by lia. auto.
    + exists l. split; [reflexivity|]. intros v. rewrite Hl. split.
      * intros (k & m' & E & A & B). exists (S k), m'. replace (i + S k)%nat with (S i + k)%nat by lia. auto.
      * intros ([|k] & m' & E & A & B); [cbn in E; injection E as <-; contradiction|]. exists k, m'. replace (i + S k)%nat with (S i + k)%nat in B by lia. auto.
Qed.
Lemma part_mono li : Forall (fun l => 0 < l) li -> forall i j, (i <= j)%nat -> part li i <= part li j.
Proof.
  intros F. assert (S : forall l i, Forall (fun l => 0 < l) l -> part l i <= part l (S i)).
  { clear. induction l as [|x l IH]; intros i F; [destruct i; unfold part; simpl; lra|]. inversion F; subst. unfold part in *. destruct i as [|i].
    - simpl. lra.
    - change (firstn (S (S i)) (x :: l)) with (x :: firstn (S i) l). change (firstn (S i) (x :: l)) with (x :: firstn i l).
      unfold rsum in *. cbn [fold_right]. specialize (IH i ltac:(assumption)). lra. }
  intros i j H. induction H; [lra|]. specialize (S li m F). lra.
Qed.
Section Marks.
Variables (data : list curve) (pos : option Z) (li mi : list R) (ki : list bool) (n : annotations).
Hypothesis F : Forall (fun l => 0 < l) li.
Hypothesis E : plot_data data pos true (Some li) (Some mi) (Some ki) = Ok n.
Lemma marks : (forall a b, In (a, b) (n_shade n) <-> exists k, nth_error ki k = Some false /\ a = part li k / 10 /\ b = part li (S k) / 10) /\
  (forall v, In v (n_lines n) <-> v = 0 \/ exists k m, nth_error mi k = Some m /\ 0 < m /\ v = part li (S k) / 10).
Proof.
  unfold plot_data in E. cbn [iterable bind] in E. destruct (shades_ok li ki 0) as (l & El & Hl). destruct (lines_ok li mi 1) as (r & Er & Hr).
  rewrite El, Er in E. cbn [bind] in E. destruct (match pos with Some _ => _ | None => _ end) as [p|]; cbn [bind] in E; [|discriminate].
  destruct (left_labels 1 p data) as [lb|]; cbn [bind] in E; [|discriminate]. apply Ok_inj in E. subst n. cbn [n_shade n_lines]. split.
  - exact Hl.
  - intros v. cbn [In]. rewrite (Hr v). split; (intros [H|H]; [left; lra|right; exact H]).
Qed.
Lemma shaded i x : part li i < x < part li (S i) ->
  ((exists a b, In (a, b) (n_shade n) /\ a < x / 10 < b) <-> nth_error ki i = Some false).
Proof.
  intros X. destruct marks as [M _]. split.
  - intros (a & b & I & B). apply M in I. destruct I as (k & Ek & -> & ->). assert (k = i); [|congruence].
    destruct (Nat.lt_trichotomy k i) as [H|[H|H]]; [exfalso|exact H|exfalso].
    + pose proof (part_mono li F (S k) i ltac:(lia)). lra.
    + pose proof (part_mono li F (S i) k ltac:(lia)). lra.
  - intros Ek. exists (part li i / 10), (part li (S i) / 10). split; [|lra]. apply M. exists i. auto.
Qed.
End Marks.

(** * Labels *)
Lemma py_nth_ok {A} (l : list A) (i : Z) : let n := Z.of_nat (List.length l) in
  (- n <= i < n)%Z -> exists a, py_nth l i = Ok a /\ nth_error l (Z.to_nat (if (i <? 0)%Z then n + i else i)) = Some a.
Proof.
  intros n H. unfold py_nth. fold n. set (j := if (i <? 0)%Z then (n + i)%Z else i).
  assert (J : (0 <= j < n)%Z). { unfold j. destruct (Z.ltb_spec i 0); lia. }
  destruct (Z.ltb_spec j 0); [lia|]. destruct (nth_error l (Z.to_nat j)) as [a|] eqn:En; [eauto|].
  apply nth_error_None in En. unfold n in J. lia.
Qed.
Lemma py_nth_err {A} (l : list A) (i : Z) : let n := Z.of_nat (List.length l) in
  (i < - n \/ n <= i)%Z -> py_nth l i = Err IndexError.
Proof.
  intros n H. unfold py_nth. fold n. destruct (Z.ltb_spec i 0) as [H1|H1].
  - destruct (Z.ltb_spec (n + i) 0); [reflexivity|]. lia.
  - destruct (Z.ltb_spec i 0); [lia|]. destruct (nth_error l (Z.to_nat i)) eqn:En; [|reflexivity]. apply nth_error_some in En. unfold n in H. lia.
Qed.
Lemma label_defined x y i : List.length y = List.length x -> let n := Z.of_nat (List.length x) in
  (1 - n <= i < n)%Z -> exists p, label_at x y i = Ok p.
Proof.
  intros L n H. unfold label_at. destruct (py_nth_ok x (i - 1) ltac:(lia)) as (a & -> & _), (py_nth_ok x i ltac:(lia)) as (b & -> & _).
  destruct (py_nth_ok y (i - 1) ltac:(lia)) as (c & -> & _), (py_nth_ok y i ltac:(lia)) as (d & -> & _). eexists. reflexivity.
Qed.
Lemma label_error x y i : let n := Z.of_nat (List.length x) in
  (i < 1 - n \/ n <= i)%Z -> label_at x y i = Err IndexError.
Proof.
  intros n H. unfold label_at. destruct (Z.lt_ge_cases i (1 - n)) as [C|C].
  - rewrite py_nth_err by lia. reflexivity.
  - destruct (Z.lt_ge_cases (i - 1) n) as [C2|C2].
    + destruct (Z.lt_ge_cases (i - 1) (- n)) as [C3|C3]; [rewrite py_nth_err by lia; reflexivity|].
      destruct (py_nth_ok x (i - 1) ltac:(lia)) as (a & -> & _). cbn [bind]. rewrite py_nth_err by lia. reflexivity.
    + rewrite py_nth_err by lia. reflexivity.
Qed.
(** A label between neighbouring points. *)
Lemma label_between x y i p : List.length y = List.length x -> i <> 0%Z -> label_at x y i = Ok p ->
  exists k a b c d, nth_error x k = Some a /\ nth_error x (S k) = Some b /\ nth_error y k = Some c /\ nth_error y (S k) = Some d /\
    p = ((a + b) / 2, (c + d) / 2).
Proof.
  intros L N E. set (n := Z.of_nat (List.length x)). assert (Rg : (1 - n <= i < n)%Z).
  { destruct (Z.lt_ge_cases i (1 - n)) as [C|C]; [rewrite label_error in E by lia; discriminate|].
    destruct (Z.lt_ge_cases i n) as [C2|C2]; [lia|]. rewrite label_error in E by lia; discriminate. }
  unfold label_at in E.
  destruct (py_nth_ok x (i - 1) ltac:(lia)) as (a & Ea & Xa), (py_nth_ok x i ltac:(lia)) as (b & Eb & Xb). rewrite Ea, Eb in E.
  destruct (py_nth_ok y (i - 1) ltac:(lia)) as (c & Ec & Yc), (py_nth_ok y i ltac:(lia)) as (d & Ed & Yd). rewrite Ec, Ed in E. cbn [bind] in E. apply Ok_inj in E. subst p.
  rewrite L in Yc, Yd. fold n in Xa, Xb, Yc, Yd.
  set (k := Z.to_nat (if (i - 1 <? 0)%Z then (n + (i - 1))%Z else (i - 1)%Z)) in *.
  assert (K : Z.to_nat (if (i <? 0)%Z then (n + i)%Z else i) = S k).
  { unfold k. destruct (Z.ltb_spec i 0), (Z.ltb_spec (i - 1) 0); lia. }
  rewrite K in Xb, Yd. exists k, a, b, c, d. auto 10.
Qed.
Lemma present_length x : forall (y : list R), List.length y = List.length x -> List.length (present x y) = List.length (finite x).
Proof.
  induction x as [|a x IH]; intros [|b y] L; cbn in L; try discriminate; [reflexivity|]. unfold present, finite in *. cbn [map select flat_map].
  destruct a; cbn [app List.length]; rewrite IH by lia; reflexivity.
Qed.
(** Curves over common coordinates with ordinary labels. *)
Definition ordinary (x : list (option R)) (c : curve) : Prop :=
  k_x c = x /\ List.length (k_y c) = List.length x /\ k_label c <> ""%string /\ contains "FEA" (k_label c) = false.
Lemma ordinary_test x c : ordinary x c -> (String.eqb (k_label c) "" || contains "FEA" (k_label c))%bool = false.
Proof. intros (_ & _ & N & ->). destruct (String.eqb_spec (k_label c) ""); [contradiction|reflexivity]. Qed.
Lemma labels_defined x data : forall i pos, Forall (ordinary x) data -> finite x <> [] ->
  (forall k, (k < List.length data)%nat -> (1 - Z.of_nat (List.length (finite x)) <= pos - 10 * (i + Z.of_nat k) < Z.of_nat (List.length (finite x)))%Z) ->
  exists l, left_labels i pos data = Ok l /\
    List.length l = List.length data /\
    forall k c, nth_error data k = Some c -> exists p, nth_error l k = Some (p, k_label c) /\ label_at (finite x) (present x (k_y c)) (pos - 10 * (i + Z.of_nat k)) = Ok p.
Proof.
  induction data as [|c data IH]; intros i pos F N H; cbn [left_labels].
  - exists []. split; [reflexivity|]. split; [reflexivity|]. intros [|k] c E; discriminate.
  - inversion F as [|? ? Oc Fd]; subst. pose proof (ordinary_test x c Oc) as T. destruct Oc as (Ex & L & _). rewrite Ex, L, Nat.eqb_refl. cbn [negb]. rewrite T.
    destruct (label_defined (finite x) (present x (k_y c)) (pos - 10 * i)) as (p & Ep).
    { apply present_length. exact L. }
    { specialize (H 0%nat ltac:(simpl; lia)). rewrite Z.add_0_r in H. exact H. }
    destruct (IH (i + 1)%Z pos Fd N) as (l & El & Ll & Hl).
    { intros k K. specialize (H (S k) ltac:(simpl; lia)). replace (i + 1 + Z.of_nat k)%Z with (i + Z.of_nat (S k))%Z by lia. exact H. }
    destruct (finite x) as [|f0 fr] eqn:Ef; [congruence|]. rewrite Ep. cbn [bind]. rewrite El. cbn [bind app].
    eexists. split; [reflexivity|]. split; [simpl; lia|]. intros [|k] c' Ek; cbn [nth_error] in *.
    + injection Ek as <-. exists p. rewrite Z.add_0_r. auto.
    + destruct (Hl k c' Ek) as (p' & A & B). exists p'. replace (i + Z.of_nat (S k))%Z with (i + 1 + Z.of_nat k)%Z by lia. auto.
Qed.
Lemma labels_fail x data : forall i pos k, Forall (ordinary x) data -> finite x <> [] -> (k < List.length data)%nat -> (pos < 10 * i + Z.of_nat (List.length (finite x)))%Z ->
  (pos - 10 * (i + Z.of_nat k) < 1 - Z.of_nat (List.length (finite x)))%Z ->
  left_labels i pos data = Err IndexError.
Proof.
  induction data as [|c data IH]; intros i pos k F N K P H; cbn [left_labels]; [simpl in K; lia|].
  inversion F as [|? ? Oc Fd]; subst. pose proof (ordinary_test x c Oc) as T. destruct Oc as (Ex & L & _). rewrite Ex, L, Nat.eqb_refl. cbn [negb]. rewrite T.
  destruct (Z.lt_ge_cases (pos - 10 * i) (1 - Z.of_nat (List.length (finite x)))) as [C|C].
  - rewrite label_error by lia. destruct (finite x); [congruence|reflexivity].
  - destruct (label_defined (finite x) (present x (k_y c)) (pos - 10 * i)) as (p & Ep); [apply present_length; exact L|lia|].
    destruct k as [|k]; [lia|].
    assert (EI : left_labels (i + 1) pos data = Err IndexError). { apply (IH (i + 1)%Z pos k Fd N); [simpl in K; lia|lia|lia]. }
    destruct (finite x) as [|f0 fr] eqn:Ef; [congruence|]. rewrite Ep. cbn [bind]. rewrite EI. reflexivity.
Qed.
Lemma curve_points_nth x : forall y k, List.length y = List.length x -> nth_error (curve_points x y) k =
  match nth_error (finite x) k, nth_error (present x y) k with Some a, Some b => Some (a, b) | _, _ => None end.
Proof.
  induction x as [|a x IH]; intros [|b y] k L; cbn in L; try discriminate; [destruct k; reflexivity|].
  unfold finite, present in *. cbn [curve_points map select flat_map]. destruct a as [a|]; cbn [app]; [destruct k as [|k]; cbn [nth_error]; [reflexivity|]|]; apply IH; lia.
Qed.
Lemma curve_points_length x : forall y, List.length y = List.length x -> List.length (curve_points x y) = List.length (finite x).
Proof.
  induction x as [|a x IH]; intros [|b y] L; cbn in L; try discriminate; [reflexivity|]. unfold finite in *. cbn [curve_points flat_map]. destruct a; cbn [app List.length]; rewrite IH by lia; reflexivity.
Qed.
Lemma label_on_line x y i p : List.length y = List.length x -> i <> 0%Z -> label_at (finite x) (present x y) i = Ok p -> on_line (curve_points x y) p.
Proof.
  intros L N E. destruct (label_between _ _ _ _ (present_length x y L) N E) as (k & a & b & c & d & A & B & C & D & ->).
  exists k, (a, c), (b, d), (1 / 2). rewrite !curve_points_nth by exact L. rewrite A, B, C, D. cbn [fst snd]. repeat split; lra.
Qed.
Section Labels.
Variables (x : list (option R)) (data : list curve).
Hypotheses (F : Forall (ordinary x) data) (N : finite x <> []) (Nd : data <> []).
Let n := Z.of_nat (List.length (finite x)).
Let pos := (95 * n / 100)%Z.
Lemma plain_pos : plot_data data None false None None None = (lb <- left_labels 1 pos data ;; Ok (mkNotes [] [] lb data)).
Proof.
  unfold plot_data. cbn [bind]. destruct data as [|c d]; [congruence|]. destruct (Forall_inv F) as (E & _). cbn [bind]. unfold pos, n. rewrite E. reflexivity.
Qed.
Lemma pos_bounds : (0 <= pos < n)%Z.
Proof. assert (0 < n)%Z by (unfold n; destruct (finite x); [congruence|simpl; lia]). unfold pos. split; [apply Z.div_pos; lia|apply Z.div_lt_upper_bound; lia]. Qed.
Lemma plain_fail : plot_data data None false None None None = Err IndexError <-> (n + pos <= 10 * Z.of_nat (List.length data))%Z.
Proof.
  rewrite plain_pos. pose proof pos_bounds as P. destruct (Z.lt_ge_cases (10 * Z.of_nat (List.length data)) (n + pos)) as [C|C].
  - split; [|lia]. destruct (labels_defined x data 1 pos F N) as (l & -> & _); [|cbn [bind]; discriminate]. intros k K. fold n. lia.
  - split; [intros _; exact C|]. intros _. rewrite (labels_fail x data 1 pos (List.length data - 1) F N); [reflexivity|destruct data; [congruence|simpl; lia]|fold n; lia|fold n].
    assert (List.length data <> 0%nat) by (destruct data; [congruence|discriminate]). lia.
Qed.
Lemma plain_labels notes : plot_data data None false None None None = Ok notes ->
  forall k c, nth_error data k = Some c -> exists p, nth_error (n_labels notes) k = Some (p, k_label c) /\
    label_at (finite x) (present x (k_y c)) (pos - 10 * (1 + Z.of_nat k)) = Ok p.
Proof.
  intros E. assert (C : (10 * Z.of_nat (List.length data) < n + pos)%Z).
  { destruct (Z.lt_ge_cases (10 * Z.of_nat (List.length data)) (n + pos)) as [C|C]; [exact C|]. apply plain_fail in C. congruence. }
  pose proof pos_bounds. rewrite plain_pos in E. destruct (labels_defined x data 1 pos F N) as (l & El & _ & Hl); [intros k K; fold n; lia|].
  rewrite El in E. cbn [bind] in E. apply Ok_inj in E. subst notes. exact Hl.
Qed.
End Labels.
Lemma label_zero a x b y : label_at (a :: x) (b :: y) 0 = match py_nth (a :: x) (-1), py_nth (b :: y) (-1) with Ok u, Ok v => Ok ((u + a) / 2, (v + b) / 2) | Err e, _ => Err e | _, Err e => Err e end.
Proof.
  unfold label_at. change (0 - 1)%Z with (-1)%Z. replace (py_nth (a :: x) 0) with (Ok a) by reflexivity. replace (py_nth (b :: y) 0) with (Ok b) by reflexivity.
  destruct (py_nth (a :: x) (-1)); cbn [bind]; [|reflexivity]. destruct (py_nth (b :: y) (-1)); reflexivity.
Qed.
