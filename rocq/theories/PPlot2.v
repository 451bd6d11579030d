(** Proofs about the numerical plot helpers. *)
From Coq Require Import ZArith Lia Lra Rpower Sorting.Sorted.
Require Import Verif.Py Verif.MEnvelope Verif.MPlot Verif.SPlot.

(** Midpoint normalisation. *)
Lemma interp3 v x0 y0 x1 y1 x2 y2 : interp v [(x0, y0); (x1, y1); (x2, y2)] =
  if Rleb v x0 then y0 else if Rleb v x1 then y0 + (y1 - y0) / (x1 - x0) * (v - x0)
  else if Rleb v x2 then y1 + (y2 - y1) / (x2 - x1) * (v - x1) else y2.
Proof. reflexivity. Qed.
Ltac leb := unfold Rleb; repeat match goal with |- context [Rle_dec ?a ?b] => destruct (Rle_dec a b) end.
Lemma midpoint_diverging vmin vmax mid : vmin < mid -> mid < vmax -> diverging_colour vmin vmax mid (midpoint_normalize vmin vmax mid).
Proof.
  intros A B. set (a := mid - vmin). set (b := vmax - mid). assert (Ha : 0 < a) by (unfold a; lra). assert (Hb : 0 < b) by (unfold b; lra).
  assert (E1 : Rabs ((mid - vmin) / (mid - vmax)) = a / b).
  { replace ((mid - vmin) / (mid - vmax)) with (- (a / b)) by (unfold a, b; field; split; lra). rewrite Rabs_Ropp. apply Rabs_right. apply Rle_ge. apply Rmult_le_pos; [lra|left; apply Rinv_0_lt_compat; lra]. }
  assert (E2 : Rabs ((vmax - mid) / (mid - vmin)) = b / a).
  { fold a b. apply Rabs_right. apply Rle_ge. apply Rmult_le_pos; [lra|left; apply Rinv_0_lt_compat; lra]. }
  unfold diverging_colour, midpoint_normalize. rewrite E1, E2. clear E1 E2.
  assert (N : (Rmax 0 (1 / 2 * (1 - a / b)) = 1 / 2 - a / (2 * Rmax a b)) /\ (Rmin 1 (1 / 2 * (1 + b / a)) = 1 / 2 + b / (2 * Rmax a b)) /\ Rmax a b > 0 /\ (Rmax a b = a \/ Rmax a b = b)).
  { destruct (Rle_dec a b) as [L|L].
    - rewrite (Rmax_right a b) by lra. assert (a / b <= 1) by (apply Rmult_le_reg_r with b; [lra|]; unfold Rdiv; rewrite Rmult_assoc, Rinv_l by lra; lra).
      assert (1 <= b / a) by (apply Rmult_le_reg_r with a; [lra|]; unfold Rdiv; rewrite Rmult_assoc, Rinv_l by lra; lra).
      rewrite Rmax_right, Rmin_left by lra. split; [field; lra|split; [field; lra|split; [lra|right; reflexivity]]].
    - rewrite (Rmax_left a b) by lra. assert (1 <= a / b) by (apply Rmult_le_reg_r with b; [lra|]; unfold Rdiv; rewrite Rmult_assoc, Rinv_l by lra; lra).
      assert (b / a <= 1) by (apply Rmult_le_reg_r with a; [lra|]; unfold Rdiv; rewrite Rmult_assoc, Rinv_l by lra; lra).
      rewrite Rmax_left, Rmin_right by lra. split; [field; lra|split; [field; lra|split; [lra|left; reflexivity]]]. }
  destruct N as (N1 & N2 & P & D). rewrite N1, N2. set (mx := Rmax a b) in *.
  assert (La : a <= mx) by apply Rmax_l. assert (Lb : b <= mx) by apply Rmax_r.
  set (c := fun v => interp v [(vmin, 1 / 2 - a / (2 * mx)); (mid, 1 / 2); (vmax, 1 / 2 + b / (2 * mx))]).
  change (exists scale, 0 < scale /\ (forall v, vmin <= v <= vmax -> c v = 1 / 2 + scale * (v - mid)) /\
    (forall v, v < vmin -> c v = c vmin) /\ (forall v, vmax < v -> c v = c vmax) /\ (forall v, 0 <= c v <= 1) /\ (c vmin = 0 \/ c vmax = 1)).
  assert (F : forall v, vmin <= v <= vmax -> c v = 1 / 2 + / (2 * mx) * (v - mid)).
  { intros v V. unfold c. rewrite interp3. leb; try lra.
    - replace v with vmin by lra. unfold a. field. lra.
    - fold a. replace (v - mid) with (v - vmin - a) by (unfold a; ring). field. lra.
    - fold b. field. lra. }
  assert (Lo : forall v, v < vmin -> c v = c vmin) by (intros v V; unfold c; rewrite !interp3; leb; lra).
  assert (Hi : forall v, vmax < v -> c v = c vmax).
  { intros v V. rewrite (F vmax) by lra. unfold c. rewrite interp3. leb; try lra. fold b. field. lra. }
  assert (Pi : 0 < / (2 * mx)) by (apply Rinv_0_lt_compat; lra).
  assert (B0 : forall v, vmin <= v <= vmax -> 0 <= c v <= 1).
  { intros v V. rewrite F by lra. assert (E : / (2 * mx) * mx = 1 / 2) by (field; lra). unfold a, b in *. split; nra. }
  exists (/ (2 * mx)). repeat split.
  - exact Pi.
  - exact F.
  - exact Lo.
  - exact Hi.
  - destruct (Rlt_dec v vmin); [rewrite Lo by lra; apply B0; lra|]. destruct (Rlt_dec vmax v); [rewrite Hi by lra; apply B0; lra|]. apply B0; lra.
  - destruct (Rlt_dec v vmin); [rewrite Lo by lra; apply B0; lra|]. destruct (Rlt_dec vmax v); [rewrite Hi by lra; apply B0; lra|]. apply B0; lra.
  - rewrite !F by lra. destruct D as [D|D]; [left|right]; rewrite D; unfold a, b in *; field; lra.
Qed.

(** Significant digits. *)
Lemma ln10 : 0 < ln 10.
Proof. rewrite <- ln_1. apply ln_increasing; lra. Qed.
Lemma powerRZ_exp z : powerRZ 10 z = exp (IZR z * ln 10).
Proof. rewrite powerRZ_Rpower by lra. reflexivity. Qed.
Lemma digits_range d : 0 < d -> powerRZ 10 (- significant_digits d) <= d < powerRZ 10 (1 - significant_digits d).
Proof.
  intros D. unfold significant_digits. rewrite Z.opp_involutive. set (q := ln d / ln 10). pose proof ln10.
  destruct (base_Int_part q) as [L G]. assert (E : ln d = q * ln 10) by (unfold q; field; lra).
  replace (1 - - Int_part q)%Z with (Int_part q + 1)%Z by lia.
  rewrite !powerRZ_exp. pose proof (exp_ln d D) as X. rewrite E in X. rewrite <- X. split.
  - destruct L as [L|L]; [left; apply exp_increasing; nra|right; rewrite L; reflexivity].
  - apply exp_increasing. rewrite plus_IZR. nra.
Qed.

(** Central levels. *)
Lemma insert_in x l y : In y (insert x l) <-> y = x \/ In y l.
Proof.
  induction l as [|a l IH]; cbn [insert]; [simpl; intuition|]. unfold Rltb. destruct (Rlt_dec x a); [simpl; intuition|].
  unfold Reqb. destruct (Req_EM_T x a); [subst; simpl; intuition|]. simpl. rewrite IH. intuition.
Qed.
Lemma unique_in l y : In y (unique l) <-> In y l.
Proof. induction l as [|a l IH]; [simpl; tauto|]. unfold unique in *. cbn [fold_right]. rewrite insert_in, IH. simpl. intuition. Qed.
Lemma insert_sorted x l : StronglySorted Rlt l -> StronglySorted Rlt (insert x l).
Proof.
  induction 1 as [|a l Sl IH F]; cbn [insert]; [repeat constructor|]. unfold Rltb. destruct (Rlt_dec x a).
  - constructor; [constructor; assumption|]. constructor; [assumption|]. eapply Forall_impl; [|exact F]. intros; lra.
  - unfold Reqb. destruct (Req_EM_T x a); [constructor; assumption|]. constructor; [assumption|].
    rewrite Forall_forall in *. intros y Hy. apply insert_in in Hy. destruct Hy as [->|Hy]; [lra|auto].
Qed.
Lemma unique_sorted l : StronglySorted Rlt (unique l).
Proof. induction l as [|a l IH]; [constructor|]. unfold unique in *. cbn [fold_right]. apply insert_sorted, IH. Qed.
Lemma sorted_same l : forall l', StronglySorted Rlt l -> StronglySorted Rlt l' -> (forall y, In y l <-> In y l') -> l = l'.
Proof.
  induction l as [|a l IH]; intros [|b l'] S1 S2 E; [reflexivity|destruct (proj2 (E b) (or_introl eq_refl))|destruct (proj1 (E a) (or_introl eq_refl))|].
  inversion S1 as [|? ? T1 F1]; inversion S2 as [|? ? T2 F2]; subst. rewrite Forall_forall in F1, F2.
  assert (a = b).
  { destruct (proj1 (E a) (or_introl eq_refl)) as [H|H]; [auto|]. destruct (proj2 (E b) (or_introl eq_refl)) as [K|K]; [auto|].
    pose proof (F1 _ K). pose proof (F2 _ H). lra. }
  subst b. f_equal. apply IH; auto. intros y. split; intros Hy.
  - destruct (proj1 (E y) (or_intror Hy)) as [<-|H]; [pose proof (F1 _ Hy); lra|exact H].
  - destruct (proj2 (E y) (or_intror Hy)) as [<-|H]; [pose proof (F2 _ Hy); lra|exact H].
Qed.
Lemma sorted_map_seq (f : nat -> R) s k : (forall i j, (s <= i < j)%nat -> (j < s + k)%nat -> f i < f j) -> StronglySorted Rlt (map f (seq s k)).
Proof.
  revert s. induction k as [|k IH]; intros s H; [constructor|]. cbn [seq map]. constructor.
  - apply IH. intros i j Hi Hj. apply H; lia.
  - apply Forall_forall. intros y Hy. apply in_map_iff in Hy. destruct Hy as (i & <- & Hi). apply in_seq in Hi. apply H; lia.
Qed.

Section Levels.
Variables (limit t : R) (n : nat).
Hypothesis LP : 0 < limit.
Hypothesis TP : 0 < t.
Hypothesis N : (1 <= n)%nat.
(** The i-th level of n steps. *)
Definition lev (i : nat) : R := rpow (INR i * (rpow limit (1 / t) / INR n)) t.
Definition cen (k : nat) : R := if Nat.ltb k n then - lev (n - k) else lev (k - n).
Lemma INRn : 0 < INR n.
Proof. apply lt_0_INR. lia. Qed.
Lemma stop_pos : 0 < rpow limit (1 / t).
Proof. unfold rpow. destruct (Req_EM_T limit 0); [lra|]. apply exp_pos. Qed.
Lemma lev_0 : lev 0 = 0.
Proof. unfold lev. cbn [INR]. rewrite Rmult_0_l. unfold rpow at 1. destruct (Req_EM_T 0 0); [|lra]. destruct (Req_EM_T t 0); lra. Qed.
Lemma lev_S i : (1 <= i)%nat -> lev i = limit * Rpower (INR i / INR n) t.
Proof.
  intros I. pose proof INRn. pose proof stop_pos. assert (0 < INR i) by (apply lt_0_INR; lia).
  assert (P : 0 < INR i / INR n) by (apply Rmult_lt_0_compat; [lra|apply Rinv_0_lt_compat; lra]).
  unfold lev. replace (INR i * (rpow limit (1 / t) / INR n)) with (rpow limit (1 / t) * (INR i / INR n)) by (field; lra).
  unfold rpow at 1. destruct (Req_EM_T _ 0); [nra|]. rewrite <- Rpower_mult_distr by assumption. f_equal.
  unfold rpow. destruct (Req_EM_T limit 0); [lra|]. rewrite Rpower_mult. replace (1 / t * t) with 1 by (field; lra). apply Rpower_1. exact LP.
Qed.
Lemma lev_n : lev n = limit.
Proof. rewrite lev_S by exact N. pose proof INRn. replace (INR n / INR n) with 1 by (field; lra). unfold Rpower. rewrite ln_1, Rmult_0_r, exp_0. ring. Qed.
Lemma lev_lt i j : (i < j)%nat -> lev i < lev j.
Proof.
  intros H. pose proof INRn. assert (J : 0 < INR j) by (apply lt_0_INR; lia). rewrite (lev_S j) by lia.
  destruct i as [|i]; [rewrite lev_0; apply Rmult_lt_0_compat; [exact LP|apply exp_pos]|].
  rewrite lev_S by lia. apply Rmult_lt_compat_l; [exact LP|]. apply lt_INR in H. assert (I : 0 < INR (S i)) by (apply lt_0_INR; lia).
  unfold Rpower. apply exp_increasing. apply Rmult_lt_compat_l; [exact TP|]. apply ln_increasing.
  - apply Rmult_lt_0_compat; [lra|apply Rinv_0_lt_compat; lra].
  - apply Rmult_lt_compat_r; [apply Rinv_0_lt_compat; lra|lra].
Qed.
Lemma lev_nonneg i : 0 <= lev i.
Proof. destruct i; [rewrite lev_0; lra|]. pose proof (lev_lt 0 (S i) ltac:(lia)). rewrite lev_0 in *. lra. Qed.
Lemma cen_lt i j : (i < j)%nat -> cen i < cen j.
Proof.
  intros H. unfold cen. destruct (Nat.ltb_spec i n), (Nat.ltb_spec j n); try lia.
  - pose proof (lev_lt (n - j) (n - i) ltac:(lia)). lra.
  - pose proof (lev_lt 0 (n - i) ltac:(lia)). rewrite lev_0 in *. pose proof (lev_nonneg (j - n)). lra.
  - apply lev_lt. lia.
Qed.
Lemma tight_eq samples : Nat.div samples 2 = S n -> tight_central_distribution limit samples t = map cen (seq 0 (S (2 * n))).
Proof.
  intros E. apply sorted_same; [apply unique_sorted|apply sorted_map_seq; intros; apply cen_lt; lia|].
  intros y. unfold tight_central_distribution. rewrite unique_in, E, in_app_iff, (in_map_iff Ropp), (in_map_iff cen).
  assert (L : forall x, In x (map (fun x => rpow x t) (linspace 0 (rpow limit (1 / t)) (S n) true)) <-> exists i, x = lev i /\ (i <= n)%nat).
  { intros x. unfold linspace. replace (S n - 1)%nat with n by lia. rewrite map_map, in_map_iff. split.
    - intros (i & <- & I). apply in_seq in I. exists i. split; [|lia]. unfold lev. f_equal. rewrite Rminus_0_r. ring.
    - intros (i & -> & I). exists i. rewrite in_seq. split; [|lia]. unfold lev. f_equal. rewrite Rminus_0_r. ring. }
  rewrite L. split.
  - intros [(x & <- & X)|(i & -> & I)].
    + rewrite <- in_rev in X. apply L in X. destruct X as (i & -> & I). destruct i as [|i].
      * exists n. rewrite in_seq. split; [|lia]. unfold cen. rewrite Nat.ltb_irrefl, Nat.sub_diag, lev_0. lra.
      * exists (n - S i)%nat. rewrite in_seq. split; [|lia]. unfold cen. destruct (Nat.ltb_spec (n - S i) n); [|lia]. do 2 f_equal. lia.
    + exists (n + i)%nat. rewrite in_seq. split; [|lia]. unfold cen. destruct (Nat.ltb_spec (n + i) n); [lia|]. f_equal. lia.
  - intros (k & <- & K). apply in_seq in K. unfold cen. destruct (Nat.ltb_spec k n).
    + left. exists (lev (n - k)). split; [reflexivity|]. rewrite <- in_rev. apply L. exists (n - k)%nat. split; [reflexivity|lia].
    + right. exists (k - n)%nat. split; [reflexivity|lia].
Qed.
(** Bernoulli's inequality for real exponents. *)
Lemma bernoulli y : 1 <= t -> 0 < y -> 1 + t * (y - 1) <= Rpower y t.
Proof.
  intros T Y. destruct (Req_dec y 1) as [->|NE]; [unfold Rpower; rewrite ln_1, Rmult_0_r, exp_0; lra|].
  assert (D : forall c, 0 < c -> derivable_pt_lim (fun x => Rpower x t) c (t * Rpower c (t - 1))) by (intros; apply derivable_pt_lim_power; assumption).
  assert (O1 : Rpower 1 (t - 1) = 1) by (unfold Rpower; rewrite ln_1, Rmult_0_r, exp_0; reflexivity).
  assert (O : Rpower 1 t = 1) by (unfold Rpower; rewrite ln_1, Rmult_0_r, exp_0; reflexivity).
  destruct (Rtotal_order y 1) as [L|[L|L]]; [|lra|].
  - destruct (MVT_cor2 (fun x => Rpower x t) (fun c => t * Rpower c (t - 1)) y 1 L) as (c & E & C); [intros; apply D; lra|].
    rewrite O in E. assert (Rpower c (t - 1) <= 1).
    { pose proof (Rle_Rpower_l c 1 (t - 1) ltac:(lra) ltac:(lra)). lra. }
    set (q := Rpower c (t - 1)) in *. assert (0 <= t * (1 - y) * (1 - q)) by (apply Rmult_le_pos; [apply Rmult_le_pos|]; lra). lra.
  - destruct (MVT_cor2 (fun x => Rpower x t) (fun c => t * Rpower c (t - 1)) 1 y L) as (c & E & C); [intros; apply D; lra|].
    rewrite O in E. assert (1 <= Rpower c (t - 1)).
    { pose proof (Rle_Rpower_l 1 c (t - 1) ltac:(lra) ltac:(lra)). lra. }
    set (q := Rpower c (t - 1)) in *. assert (0 <= t * (y - 1) * (q - 1)) by (apply Rmult_le_pos; [apply Rmult_le_pos|]; lra). lra.
Qed.
Lemma lev_convex i : 1 <= t -> (1 <= i)%nat -> lev i - lev (i - 1) <= lev (S i) - lev i.
Proof.
  intros T I. pose proof INRn. assert (PI : 0 < INR i) by (apply lt_0_INR; lia).
  assert (Q : 0 < INR i / INR n) by (apply Rmult_lt_0_compat; [lra|apply Rinv_0_lt_compat; lra]).
  assert (A : lev (S i) = lev i * Rpower (1 + / INR i) t).
  { rewrite !lev_S by lia. rewrite Rmult_assoc, Rpower_mult_distr; [|exact Q|pose proof (Rinv_0_lt_compat _ PI); lra].
    f_equal. f_equal. rewrite S_INR. field. lra. }
  assert (B : lev i * (1 - t * / INR i) <= lev (i - 1)).
  { destruct (Nat.eq_dec i 1) as [->|N1].
    - rewrite Nat.sub_diag, lev_0. cbn [INR]. rewrite Rinv_1. pose proof (lev_nonneg 1). nra.
    - assert (P1 : 0 < 1 - / INR i).
      { assert (INR i > 1) by (change 1 with (INR 1); apply lt_INR; lia). pose proof (Rinv_1_lt_contravar 1 (INR i) ltac:(lra) ltac:(lra)). rewrite Rinv_1 in *. lra. }
      assert (E : lev (i - 1) = lev i * Rpower (1 - / INR i) t).
      { rewrite !lev_S by lia. rewrite Rmult_assoc, Rpower_mult_distr by assumption. f_equal. f_equal. rewrite minus_INR by lia. cbn [INR]. field. lra. }
      rewrite E. pose proof (bernoulli (1 - / INR i) T P1). pose proof (lev_nonneg i). nra. }
  pose proof (bernoulli (1 + / INR i) T ltac:(pose proof (Rinv_0_lt_compat _ PI); lra)). pose proof (lev_nonneg i). rewrite A. nra.
Qed.
Lemma cen_nth k a : nth_error (map cen (seq 0 (S (2 * n)))) k = Some a -> a = cen k /\ (k <= 2 * n)%nat.
Proof.
  intros E. assert (K : (k < S (2 * n))%nat) by (rewrite <- (seq_length (S (2 * n)) 0), <- (map_length cen); apply nth_error_Some; congruence).
  rewrite nth_error_map, (nth_error_nth' _ 0%nat) in E by (rewrite seq_length; exact K). rewrite seq_nth in E by exact K. injection E as <-. split; [reflexivity|lia].
Qed.
Lemma cen_central : 1 <= t -> central_levels limit (map cen (seq 0 (S (2 * n)))).
Proof.
  intros T. split.
  - cbn [seq map hd]. unfold cen. destruct (Nat.ltb_spec 0 n); [|lia]. rewrite Nat.sub_0_r, lev_n. reflexivity.
  - rewrite seq_S, map_app. cbn [map Nat.add]. rewrite last_last. unfold cen. destruct (Nat.ltb_spec (2 * n) n); [lia|]. replace (2 * n - n)%nat with n by lia. apply lev_n.
  - intros k a b Ea Eb. apply cen_nth in Ea, Eb. destruct Ea as [-> _], Eb as [-> _]. apply cen_lt. lia.
  - apply nth_ext with (d := 0) (d' := 0); [rewrite rev_length, !map_length; reflexivity|]. intros k. rewrite rev_length, map_length, seq_length. intros K.
    rewrite rev_nth by (rewrite map_length, seq_length; exact K). rewrite map_map, map_length, seq_length.
    rewrite (nth_indep _ 0 (cen 0)) by (rewrite map_length, seq_length; lia). rewrite map_nth, seq_nth by lia.
    rewrite (nth_indep _ 0 (- cen 0)) by (rewrite map_length, seq_length; lia). rewrite (map_nth (fun x => - cen x)), seq_nth by lia. cbn [Nat.add].
    unfold cen. destruct (Nat.ltb_spec (S (2 * n) - S k) n), (Nat.ltb_spec k n); try lia.
    + f_equal. f_equal. lia.
    + rewrite Ropp_involutive. f_equal. lia.
    + replace (S (2 * n) - S k - n)%nat with 0%nat by lia. replace (k - n)%nat with 0%nat by lia. rewrite lev_0. lra.
  - apply in_map_iff. exists n. rewrite in_seq. split; [|lia]. unfold cen. rewrite Nat.ltb_irrefl, Nat.sub_diag. apply lev_0.
  - intros k a b c Ea Eb Ec. apply cen_nth in Ea, Eb, Ec. destruct Ea as [-> _], Eb as [-> Kb], Ec as [-> _]. intros P.
    destruct (Nat.le_gt_cases (S k) n) as [H|H].
    + left. unfold cen in *. destruct (Nat.ltb_spec (S k) n); [pose proof (lev_nonneg (n - S k)); lra|]. replace (S k - n)%nat with 0%nat by lia. rewrite lev_0. lra.
    + right. unfold cen. destruct (Nat.ltb_spec k n), (Nat.ltb_spec (S k) n), (Nat.ltb_spec (S (S k)) n); try lia.
      pose proof (lev_convex (S k - n) T ltac:(lia)) as L. replace (S k - n - 1)%nat with (k - n)%nat in L by lia. replace (S (S k) - n)%nat with (S (S k - n)) by lia. exact L.
Qed.
End Levels.

(** Colour limits. *)
Lemma rint_near x : Rabs (IZR (rint x) - x) <= 1 / 2.
Proof.
  destruct (base_Int_part x) as [L G]. unfold rint, Rltb.
  destruct (Rlt_dec (x - IZR (Int_part x)) (1 / 2)); [apply Rabs_le; lra|].
  destruct (Rlt_dec (1 / 2) (x - IZR (Int_part x))); [rewrite plus_IZR; apply Rabs_le; lra|].
  destruct (Z.even (Int_part x)); [apply Rabs_le; lra|rewrite plus_IZR; apply Rabs_le; lra].
Qed.
Lemma rint_range x : 1 <= x -> x < 10 -> (1 <= rint x <= 10)%Z.
Proof.
  intros A B. pose proof (rint_near x) as N.
  assert (H : - (1 / 2) <= IZR (rint x) - x <= 1 / 2) by (unfold Rabs in N; destruct (Rcase_abs _); lra).
  split; [apply Z.lt_pred_le, lt_IZR; unfold Z.pred; rewrite plus_IZR|apply Z.lt_succ_r, lt_IZR; unfold Z.succ; rewrite plus_IZR]; lra.
Qed.
Lemma rint_ratio x : 1 <= x -> 2 / 3 * x <= IZR (rint x) <= 4 / 3 * x.
Proof.
  intros A. pose proof (rint_near x) as N.
  assert (H : - (1 / 2) <= IZR (rint x) - x <= 1 / 2) by (unfold Rabs in N; destruct (Rcase_abs _); lra).
  destruct (Rlt_dec x (3 / 2)) as [L|L]; [|lra]. assert (E : Int_part x = 1%Z).
  { destruct (base_Int_part x). assert (1 < IZR (Int_part x) + 1) by lra. assert (IZR (Int_part x) < 2) by lra.
    assert (Int_part x < 2)%Z by (apply lt_IZR; lra). assert (0 < Int_part x)%Z by (apply lt_IZR; lra). lia. }
  assert (E2 : rint x = 1%Z).
  { unfold rint. rewrite E. unfold Rltb. destruct (Rlt_dec _ _); [reflexivity|]. exfalso. apply n. lra. }
  rewrite E2. lra.
Qed.
Lemma round_digit m : 0 < m -> 2 / 3 * m <= np_round m (significant_digits m) <= 4 / 3 * m /\
  exists d n, (1 <= d <= 10)%Z /\ np_round m (significant_digits m) = IZR d * powerRZ 10 n.
Proof.
  intros M. destruct (digits_range m M) as [A B]. set (n := significant_digits m) in *.
  assert (P : 0 < powerRZ 10 n) by (apply powerRZ_lt; lra). unfold np_round. set (x := m * powerRZ 10 n).
  assert (Pn : powerRZ 10 (- n) * powerRZ 10 n = 1) by (rewrite <- powerRZ_add by lra; replace (- n + n)%Z with 0%Z by lia; reflexivity).
  assert (P1 : powerRZ 10 (1 - n) * powerRZ 10 n = 10) by (rewrite <- powerRZ_add by lra; replace (1 - n + n)%Z with 1%Z by lia; apply powerRZ_1).
  assert (X1 : 1 <= x) by (unfold x; nra). assert (X2 : x < 10) by (unfold x; nra).
  assert (E : m = x / powerRZ 10 n) by (unfold x; field; lra). pose proof (rint_ratio x X1).
  assert (I : 0 < / powerRZ 10 n) by (apply Rinv_0_lt_compat; exact P). split.
  - rewrite E. unfold Rdiv. nra.
  - exists (rint x), (- n)%Z. split; [apply rint_range; assumption|]. rewrite powerRZ_neg'. reflexivity.
Qed.
Lemma all_numbers_some l : (forall x, In x l -> x <> None) -> exists r, all_numbers l = Some r /\ map Some r = l.
Proof.
  induction l as [|[x|] l IH]; intros H; [exists []; split; reflexivity| |destruct (H None (or_introl eq_refl) eq_refl)].
  destruct IH as (r & E & M); [intros y Hy; apply H; right; exact Hy|]. exists (x :: r). cbn [all_numbers]. rewrite E. split; [reflexivity|]. cbn [map]. congruence.
Qed.
Lemma all_numbers_none l : In None l -> all_numbers l = None.
Proof. induction l as [|[x|] l IH]; intros H; [destruct H| |reflexivity]. destruct H as [H|H]; [discriminate|]. cbn [all_numbers]. rewrite (IH H). reflexivity. Qed.
Lemma fold_min l : forall a, (fold_left Rmin l a = a \/ In (fold_left Rmin l a) l) /\ fold_left Rmin l a <= a /\ forall x, In x l -> fold_left Rmin l a <= x.
Proof.
  induction l as [|b l IH]; intros a; cbn [fold_left]; [split; [left; reflexivity|split; [lra|intros x []]]|].
  destruct (IH (Rmin a b)) as (A & B & C). pose proof (Rmin_l a b). pose proof (Rmin_r a b). split; [|split; [lra|]].
  - destruct A as [->|A]; [|right; right; exact A]. unfold Rmin. destruct (Rle_dec a b); [left; reflexivity|right; left; reflexivity].
  - intros x [<-|X]; [lra|apply C; exact X].
Qed.
Lemma fold_max l : forall a, (fold_left Rmax l a = a \/ In (fold_left Rmax l a) l) /\ a <= fold_left Rmax l a /\ forall x, In x l -> x <= fold_left Rmax l a.
Proof.
  induction l as [|b l IH]; intros a; cbn [fold_left]; [split; [left; reflexivity|split; [lra|intros x []]]|].
  destruct (IH (Rmax a b)) as (A & B & C). pose proof (Rmax_l a b). pose proof (Rmax_r a b). split; [|split; [lra|]].
  - destruct A as [->|A]; [|right; right; exact A]. unfold Rmax. destruct (Rle_dec a b); [right; left; reflexivity|left; reflexivity].
  - intros x [<-|X]; [lra|apply C; exact X].
Qed.
(** Extremes of an array of numbers. *)
Lemma extremes l : l <> [] -> (forall x, In x l -> x <> None) -> exists lo hi, arr_extremum Rmin l = Ok (Some lo) /\ arr_extremum Rmax l = Ok (Some hi) /\
  In (Some lo) l /\ In (Some hi) l /\ forall x, In (Some x) l -> lo <= x <= hi.
Proof.
  intros N H. destruct (all_numbers_some l H) as (r & E & M). destruct r as [|a r]; [subst l; destruct (N eq_refl)|].
  destruct l as [|y l]; [destruct (N eq_refl)|]. unfold arr_extremum. rewrite E. exists (fold_left Rmin r a), (fold_left Rmax r a).
  destruct (fold_min r a) as (A1 & A2 & A3), (fold_max r a) as (B1 & B2 & B3). rewrite <- M.
  split; [reflexivity|]. split; [reflexivity|]. split; [|split].
  - apply in_map. destruct A1 as [A1|A1]; [left; symmetry; exact A1|right; exact A1].
  - apply in_map. destruct B1 as [B1|B1]; [left; symmetry; exact B1|right; exact B1].
  - intros x X. apply in_map_iff in X. destruct X as (x' & E' & X). injection E' as ->. destruct X as [<-|X]; [split; assumption|split; auto].
Qed.
Lemma extremes_nan pick l : In None l -> arr_extremum pick l = Ok None.
Proof. intros H. unfold arr_extremum. rewrite (all_numbers_none l H). destruct l; [destruct H|reflexivity]. Qed.
Lemma abs_between lo x hi : lo <= x <= hi -> Rabs x <= Rmax (Rabs lo) (Rabs hi).
Proof.
  intros H. unfold Rmax, Rabs. destruct (Rcase_abs x), (Rcase_abs lo), (Rcase_abs hi), (Rle_dec _ _); lra.
Qed.
Lemma colour_full slab weak c : slab <> [] -> weak <> [] -> (forall x, In x (slab ++ weak) -> x <> None) -> colour_limit slab weak = Ok c ->
  exists m, In (Some m) (slab ++ weak) /\ (forall x, In (Some x) (slab ++ weak) -> Rabs x <= Rabs m) /\ 0 < Rabs m /\ c = np_round (Rabs m) (significant_digits (Rabs m)).
Proof.
  intros NS NW H. assert (HS : forall x, In x slab -> x <> None) by (intros; apply H, in_app_iff; left; assumption).
  assert (HW : forall x, In x weak -> x <> None) by (intros; apply H, in_app_iff; right; assumption).
  destruct (extremes slab NS HS) as (a & b & E1 & E2 & I1 & I2 & B1), (extremes weak NW HW) as (u & v & E3 & E4 & I3 & I4 & B2).
  unfold colour_limit. rewrite E1, E2, E3, E4. cbn [bind map option_map nanmax fold_left].
  set (M := Rmax (Rmax (Rmax (Rabs a) (Rabs b)) (Rabs u)) (Rabs v)). unfold Reqb. destruct (Req_EM_T M 0) as [|N0]; [discriminate|]. intros E. injection E as <-.
  assert (W : exists m, M = Rabs m /\ In (Some m) (slab ++ weak)).
  { unfold M, Rmax. destruct (Rle_dec (Rabs a) (Rabs b)); destruct (Rle_dec _ (Rabs u)); destruct (Rle_dec _ (Rabs v)); eexists; (split; [reflexivity|]); apply in_app_iff; tauto. }
  destruct W as (m & Em & Im). exists m. rewrite <- Em. split; [exact Im|]. split; [|split; [pose proof (Rabs_pos m); lra|reflexivity]].
  assert (L1 : Rmax (Rabs a) (Rabs b) <= M) by (unfold M; eapply Rle_trans; [|apply Rmax_l]; apply Rmax_l).
  assert (L2 : Rabs u <= M) by (unfold M; eapply Rle_trans; [|apply Rmax_l]; apply Rmax_r). assert (L3 : Rabs v <= M) by apply Rmax_r.
  intros x X. apply in_app_iff in X. destruct X as [X|X].
  - pose proof (abs_between _ _ _ (B1 x X)). lra.
  - pose proof (abs_between _ _ _ (B2 x X)). pose proof (Rmax_lub _ _ _ L2 L3). lra.
Qed.
Lemma colour_nan slab weak weak' : In None weak -> In None weak' -> colour_limit slab weak = colour_limit slab weak'.
Proof. intros A B. unfold colour_limit. rewrite !(extremes_nan _ weak A), !(extremes_nan _ weak' B). reflexivity. Qed.
Lemma colour_one : colour_limit [Some 1] [None; Some 100] = Ok 1.
Proof.
  unfold colour_limit. rewrite !(extremes_nan _ [None; Some 100]) by (left; reflexivity). cbn [arr_extremum all_numbers option_map fold_left bind map nanmax].
  assert (A1 : Rabs 1 = 1) by (apply Rabs_right; lra). rewrite A1.
  rewrite Rmax_left by lra. unfold Reqb. destruct (Req_EM_T 1 0); [lra|]. f_equal.
  assert (S0 : significant_digits 1 = 0%Z).
  { unfold significant_digits. rewrite ln_1. unfold Rdiv. rewrite Rmult_0_l. change 0 with (IZR 0) at 1. destruct (base_Int_part 0).
    assert (Int_part 0 <= 0)%Z by (apply le_IZR; lra). assert (-1 < Int_part 0)%Z by (apply lt_IZR; lra). lia. }
  rewrite S0. unfold np_round. cbn [powerRZ]. rewrite Rmult_1_r. pose proof (rint_ratio 1 ltac:(lra)).
  assert (E : (rint 1 = 1)%Z).
  { assert (rint 1 < 2)%Z by (apply lt_IZR; lra). assert (0 < rint 1)%Z by (apply lt_IZR; lra). lia. }
  rewrite E. field.
Qed.
