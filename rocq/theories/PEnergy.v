(** Proofs about the differential energy release rate. *)
From Coquelicot Require Import Coquelicot.
Require Import Verif.Py Verif.MTools Verif.MEigen Verif.MFields Verif.MRaster Verif.MSolution Verif.MAnalysis
  Verif.SAdm Verif.SBeam Verif.SBvp Verif.SEnergy Verif.PSetup Verif.PRaster.
Require Import Sorting.Sorted.

(** * Tips and weights *)
Lemma crack_tips_in ki n j : In j (crack_tips ki n) <-> (j < n)%nat /\ is_tip ki j.
Proof.
  unfold crack_tips, is_tip. rewrite filter_In, in_seq, negb_true_iff, eqb_false_iff. intuition lia.
Qed.
Lemma filter_sorted (f : nat -> bool) s n : StronglySorted lt (filter f (seq s n)).
Proof.
  revert s. induction n as [|n IH]; intros s; simpl; [constructor|].
  destruct (f s); [|apply IH]. constructor; [apply IH|].
  apply Forall_forall. intros x I. apply filter_In in I. destruct I as [I _]. apply in_seq in I. lia.
Qed.
Lemma const_between ki a b : (a <= b)%nat -> (forall j, (a <= j < b)%nat -> ~ is_tip ki j) ->
  forall m, (a <= m <= b)%nat -> nth m ki false = nth a ki false.
Proof.
  intros Hab H m Hm. induction m as [|m IH]; [replace a with 0%nat by lia; reflexivity|].
  destruct (Nat.eq_dec a (S m)) as [->|Hn]; [reflexivity|].
  rewrite <- IH by lia. assert (G := H m ltac:(lia)). unfold is_tip in G.
  destruct (nth m ki false), (nth (S m) ki false); try reflexivity; exfalso; apply G; discriminate.
Qed.
Lemma not_tip_const ki a b : (forall m, (a <= m <= b)%nat -> nth m ki false = false) ->
  forall j, (a <= j < b)%nat -> ~ is_tip ki j.
Proof. intros H j Hj. unfold is_tip. rewrite !H by lia. auto. Qed.

Definition weight_of (b : bool) : R := if b then 1 / 2 else 1.

Lemma set_last {A} (l : list A) a v : set_nth (l ++ [a]) (List.length l) v = l ++ [v].
Proof. exact (set_nth_app l a [] v). Qed.
Lemma last_nth (ki : list bool) : last ki false = nth (List.length ki - 1) ki false.
Proof.
  induction ki as [|k [|k2 ki] IH]; [reflexivity|reflexivity|].
  change (last (k :: k2 :: ki) false) with (last (k2 :: ki) false). rewrite IH. simpl. rewrite Nat.sub_0_r. reflexivity.
Qed.

Lemma avgmask_two ki n : avgmask ki (S (S n)) = nth 0 ki false :: repeat true n ++ [last ki false].
Proof.
  unfold avgmask. change (Nat.ltb 1 (S (S n))) with true. cbv iota.
  replace (repeat true (S (S n))) with (true :: (repeat true n ++ [true])) by (rewrite <- repeat_cons; reflexivity).
  transitivity (set_nth ((nth 0 ki false :: repeat true n) ++ [true]) (List.length (nth 0 ki false :: repeat true n)) (last ki false)).
  - simpl. rewrite repeat_length. reflexivity.
  - rewrite set_last. reflexivity.
Qed.

Lemma weights_eq ki w : tip_weights ki (List.length ki) w ->
  let ict := crack_tips ki (List.length ki - 1) in
  map weight_of (avgmask ki (List.length ict)) = map w ict.
Proof.
  intros Hw ict. set (N := List.length ki) in *.
  assert (Hin : forall j, In j ict <-> (S j < N)%nat /\ is_tip ki j) by (intros j; unfold ict; rewrite crack_tips_in; intuition lia).
  assert (Hs : StronglySorted lt ict) by apply filter_sorted.
  assert (W : forall j, In j ict -> (edge_crack ki N j -> w j = 1) /\ (~ edge_crack ki N j -> w j = 1 / 2)).
  { intros j Hj. apply Hin in Hj. apply Hw; tauto. }
  destruct ict as [|j0 t] eqn:E; [reflexivity|].
  assert (Lo : forall j, In j (j0 :: t) -> (j0 <= j)%nat).
  { intros j [->|Hj]; [lia|]. inversion Hs as [|? ? _ F]; subst. rewrite Forall_forall in F. specialize (F j Hj). lia. }
  assert (Start : forall m, (m <= j0)%nat -> nth m ki false = nth 0 ki false).
  { intros m Hm. apply (const_between ki 0 j0); [lia| |lia]. intros j Hj Ht.
    assert (J : In j (j0 :: t)) by (apply Hin; split; [assert (K := proj1 (Hin j0) (or_introl eq_refl)); lia|exact Ht]).
    apply Lo in J. lia. }
  destruct t as [|j1 t'].
  - (* a single tip: the crack always reaches an end *)
    simpl. unfold weight_of. f_equal. symmetry. apply W; [left; reflexivity|].
    destruct (nth 0 ki false) eqn:E0.
    + right. intros m Hm.
      assert (Ht := proj2 (proj1 (Hin j0) (or_introl eq_refl))). unfold is_tip in Ht. rewrite (Start j0 ltac:(lia)) in Ht.
      assert (Q : nth m ki false = nth (S j0) ki false).
      { apply (const_between ki (S j0) (N - 1)); [lia| |lia]. intros j Hj Hj2.
        assert (J : In j [j0]) by (apply Hin; split; [lia|exact Hj2]). destruct J as [->|[]]. lia. }
      rewrite Q. destruct (nth (S j0) ki false); [congruence|reflexivity].
    + left. intros m Hm. rewrite Start by lia. reflexivity.
  - (* at least two tips *)
    destruct (@exists_last _ (j1 :: t') ltac:(discriminate)) as (mid & jl & Em).
    rewrite Em in *. assert (L : List.length (j0 :: mid ++ [jl]) = S (S (List.length mid))) by (simpl; rewrite app_length; simpl; lia).
    rewrite L, avgmask_two. cbn [map]. rewrite map_app. cbn [map].
    inversion Hs as [|? ? Hs' F0]; subst. rewrite Forall_forall in F0.
    assert (Jl : (j0 < jl)%nat) by (apply F0; apply in_or_app; right; left; reflexivity).
    assert (Hi : forall j, In j (j0 :: mid ++ [jl]) -> (j <= jl)%nat).
    { assert (G : forall l a, StronglySorted lt (l ++ [a]) -> forall j, In j (l ++ [a]) -> (j <= a)%nat).
      { clear. induction l as [|b l IH]; intros a Hs j Hj; [destruct Hj as [->|[]]; lia|].
        inversion Hs as [|? ? Hs' F]; subst. destruct Hj as [->|Hj]; [|apply IH; assumption].
        rewrite Forall_forall in F. assert (j < a)%nat by (apply F, in_or_app; right; left; reflexivity). lia. }
      intros j Hj. apply (G (j0 :: mid) jl); [exact Hs|exact Hj]. }
    assert (T0 := proj1 (Hin j0) (or_introl eq_refl)).
    assert (Tl : (S jl < N)%nat /\ is_tip ki jl) by (apply Hin; right; apply in_or_app; right; left; reflexivity).
    assert (End : forall m, (jl < m < N)%nat -> nth m ki false = nth (N - 1) ki false).
    { intros m Hm. rewrite (const_between ki (S jl) (N - 1) ltac:(lia)) with (m := m); [|intros j Hj Ht|lia].
      - rewrite (const_between ki (S jl) (N - 1) ltac:(lia)) with (m := (N - 1)%nat); [reflexivity| |lia].
        intros j Hj Ht. assert (J : In j (j0 :: mid ++ [jl])) by (apply Hin; split; [lia|exact Ht]). apply Hi in J. lia.
      - assert (J : In j (j0 :: mid ++ [jl])) by (apply Hin; split; [lia|exact Ht]). apply Hi in J. lia. }
    (* a tip with another tip on a side is not the edge of that side *)
    assert (NL : forall j, In j (j0 :: mid ++ [jl]) -> (j0 < j)%nat -> ~ (forall m, (m <= j)%nat -> nth m ki false = false)).
    { intros j _ Hj A. apply (not_tip_const ki 0 j (fun m Hm => A m (proj2 Hm)) j0 ltac:(lia)). apply T0. }
    assert (NR : forall j, In j (j0 :: mid ++ [jl]) -> (j < jl)%nat -> ~ (forall m, (j < m < N)%nat -> nth m ki false = false)).
    { intros j _ Hj A. apply (not_tip_const ki (S j) (N - 1) (fun m Hm => A m ltac:(lia)) jl ltac:(lia)). apply Tl. }
    cbn [map app]. f_equal; [|rewrite map_app; cbn [map]; f_equal; [|f_equal]].
    + destruct (W j0 (or_introl eq_refl)) as [W1 W2]. unfold weight_of. destruct (nth 0 ki false) eqn:E0.
      * symmetry. apply W2. intros [A|A]; [specialize (A 0%nat ltac:(lia)); congruence|].
        apply (NR j0); [left; reflexivity|exact Jl|exact A].
      * symmetry. apply W1. left. intros m Hm. rewrite Start by lia. reflexivity.
    + assert (G : forall l, (forall j, In j l -> In j mid) -> map weight_of (repeat true (List.length l)) = map w l).
      { induction l as [|j l IHl]; intros Hl; [reflexivity|]. simpl. f_equal; [|apply IHl; intros; apply Hl; right; assumption].
        assert (Hj : In j mid) by (apply Hl; left; reflexivity).
        assert (Hj2 : In j (j0 :: mid ++ [jl])) by (right; apply in_or_app; left; exact Hj).
        assert (A1 : (j0 < j)%nat) by (apply F0, in_or_app; left; exact Hj).
        assert (A2 : (j < jl)%nat).
        { clear - Hs' Hj. induction mid as [|b mid IH]; [contradiction|]. inversion Hs' as [|? ? Hs2 F]; subst.
          destruct Hj as [->|Hj]; [rewrite Forall_forall in F; apply F, in_or_app; right; left; reflexivity|apply IH; assumption]. }
        symmetry. apply W; [exact Hj2|]. intros [A|A]; [apply (NL j Hj2 A1 A)|apply (NR j Hj2 A2 A)]. }
      apply G. auto.
    + assert (Hjl : In jl (j0 :: mid ++ [jl])) by (right; apply in_or_app; right; left; reflexivity).
      destruct (W jl Hjl) as [W1 W2]. rewrite last_nth. fold N. unfold weight_of. destruct (nth (N - 1) ki false) eqn:El.
      * symmetry. apply W2. intros [A|A]; [apply (NL jl Hjl Jl A)|].
        specialize (A (N - 1)%nat ltac:(lia)). congruence.
      * symmetry. apply W1. right. intros m Hm. rewrite End by lia. reflexivity.
Qed.

(** * Values *)
Lemma conv_err_factor unit c : err_factor unit c <-> conv_err unit = Ok c.
Proof.
  unfold err_factor, conv_err. split.
  - intros [[-> ->]|[[-> ->]|[-> ->]]]; reflexivity.
  - destruct (String.eqb_spec unit "J/m^2"); [intros H; apply Ok_inj in H; auto|].
    destruct (String.eqb_spec unit "kJ/m^2"); [intros H; apply Ok_inj in H; auto|].
    destruct (String.eqb_spec unit "N/mm"); [intros H; apply Ok_inj in H; auto|discriminate].
Qed.
Lemma Gi_value p unit c z : conv_err unit = Ok c -> Gi_unit p unit z = Ok (c * GI p z).
Proof. intros H. unfold Gi_unit. rewrite H. simpl. f_equal. unfold GI, f_sig, f_w, Rdiv. ring. Qed.
Lemma Gii_value p unit c z : conv_err unit = Ok c -> Gii_unit p unit z = Ok (c * GII p z).
Proof. intros H. unfold Gii_unit. rewrite H. simpl. f_equal. unfold GII, f_tau, f_dw, f_u, f_psi, Rdiv. ring. Qed.

Lemma gdif_tip_value p e ld Cs li ki unit idx t : gdif_tip p e ld Cs li ki unit idx = Ok t ->
  exists c, conv_err unit = Ok c /\
  let z := zsol p e ld (nth idx li 0) (nth idx Cs []) (nth idx li 0) (nth idx ki false) in
  t = (c * GI p z + c * GII p z, c * GI p z, c * GII p z).
Proof.
  unfold gdif_tip. destruct (nth_error Cs idx) as [C|] eqn:E; [|discriminate].
  destruct (zsol_checked _ _ _ _ _ _ _) as [z|er] eqn:Ez; simpl; [|discriminate].
  apply zsol_checked_Ok in Ez. apply nth_error_nth with (d := []) in E. rewrite <- E in Ez.
  destruct (conv_err unit) as [c|er] eqn:Ec.
  - rewrite (Gi_value p unit c z Ec), (Gii_value p unit c z Ec). simpl. intros H. apply Ok_inj in H.
    exists c. split; [reflexivity|]. rewrite <- Ez. auto.
  - unfold Gi_unit. rewrite Ec. discriminate.
Qed.

Lemma tip_sum_filter ki n (f : nat -> R) : tip_sum ki n f = rsum (map f (crack_tips ki n)).
Proof.
  unfold tip_sum, crack_tips. generalize (seq 0 n). intros l. induction l as [|j l IH]; [reflexivity|].
  simpl. destruct (Bool.bool_dec (nth j ki false) (nth (S j) ki false)) as [E|E].
  - rewrite E, eqb_reflx. simpl. rewrite IH. lra.
  - rewrite (proj2 (eqb_false_iff _ _) E). simpl. rewrite IH. reflexivity.
Qed.

(** C42: gdif is the weighted sum over the tips. *)
Lemma gdif_value p e ld Cs li ki unit G G1 G2 w : List.length ki = List.length li ->
  tip_weights ki (List.length li) w ->
  gdif p e ld Cs li ki unit = Ok (G, G1, G2) ->
  (crack_tips ki (List.length li - 1) = [] /\ G = 0 /\ G1 = 0 /\ G2 = 0) \/
  exists c, err_factor unit c /\
  let z j := zsol p e ld (nth j li 0) (nth j Cs []) (nth j li 0) (nth j ki false) in
  let n := (List.length li - 1)%nat in
  G1 = c * tip_sum ki n (fun j => w j * GI p (z j)) /\
  G2 = c * tip_sum ki n (fun j => w j * GII p (z j)) /\ G = G1 + G2.
Proof.
  intros HL Hw H. unfold gdif in H. rewrite HL, Nat.ltb_irrefl, andb_false_l in H.
  destruct (mapM _ _) as [cols|er] eqn:E; simpl in H; [|discriminate]. apply Ok_inj in H.
  rewrite <- HL in Hw, H, E |- *.
  assert (WE := weights_eq ki w Hw). cbv zeta in WE. unfold weight_of in WE. rewrite WE in H. clear WE.
  set (ict := crack_tips ki (List.length ki - 1)) in *.
  destruct ict as [|j0 t] eqn:Ei; [left; simpl in H; injection H as <- <- <-; auto|]. right.
  rewrite <- Ei in *. apply mapM_Ok in E.
  assert (Hc : exists c, conv_err unit = Ok c).
  { rewrite Ei in E. inversion E as [|? ? ? ? A _]; subst. apply gdif_tip_value in A. destruct A as (c & A & _). exists c. exact A. }
  destruct Hc as [c Hc]. exists c. split; [apply conv_err_factor; exact Hc|].
  cbv zeta. rewrite !tip_sum_filter. fold ict.
  clear Ei. revert G G1 G2 H. induction E as [|j col js cols A E IH]; intros G G1 G2 H.
  - simpl in H. injection H as <- <- <-. simpl. lra.
  - simpl in H. destruct (fold_right tadd (0, 0, 0) (map2 tscale (map w js) cols)) as [[F F1] F2] eqn:Ef.
    destruct (IH F F1 F2 eq_refl) as (I1 & I2 & I3).
    apply gdif_tip_value in A. destruct A as (c' & A & Hcol). rewrite Hc in A. apply Ok_inj in A. subst c'.
    cbv zeta in Hcol. rewrite Hcol in H. simpl in H. injection H as <- <- <-. simpl. rewrite I3, I1, I2. lra.
Qed.

(** C41. *)
Lemma GI_nonneg p z : 0 < kn p -> 0 <= GI p z.
Proof. intros H. unfold GI. apply Rmult_le_pos; [apply pow2_ge_0|left; apply Rinv_0_lt_compat; lra]. Qed.
Lemma GII_nonneg p z : 0 < kt p -> 0 <= GII p z.
Proof. intros H. unfold GII. apply Rmult_le_pos; [apply pow2_ge_0|left; apply Rinv_0_lt_compat; lra]. Qed.
Lemma fold_nonneg w cols G G1 G2 : Forall (fun a => 0 <= a) w ->
  Forall (fun t : triple => let '(g, g1, g2) := t in g = g1 + g2 /\ 0 <= g1 /\ 0 <= g2) cols ->
  fold_right tadd (0, 0, 0) (map2 tscale w cols) = (G, G1, G2) -> G = G1 + G2 /\ 0 <= G1 /\ 0 <= G2.
Proof.
  intros Fw Fc. revert w Fw G G1 G2. induction Fc as [|[[g g1] g2] cols (A1 & A2 & A3) Fc IH]; intros [|a w] Fw G G1 G2 H;
    simpl in H; try (injection H as <- <- <-; lra).
  inversion Fw; subst. destruct (fold_right tadd (0, 0, 0) (map2 tscale w cols)) as [[F F1] F2] eqn:Ef.
  destruct (IH w ltac:(assumption) F F1 F2 Ef) as (I1 & I2 & I3). simpl in H. injection H as <- <- <-. subst. 
  split; [ring|]. split; apply Rplus_le_le_0_compat; auto; apply Rmult_le_pos; auto.
Qed.
Lemma gdif_nonneg p e ld Cs li ki unit G G1 G2 : 0 < kn p -> 0 < kt p ->
  gdif p e ld Cs li ki unit = Ok (G, G1, G2) -> G = G1 + G2 /\ 0 <= G1 /\ 0 <= G2.
Proof.
  intros Hn Ht H. unfold gdif in H. destruct (_ && _)%bool; [discriminate|].
  destruct (mapM _ _) as [cols|er] eqn:E; simpl in H; [|discriminate]. apply Ok_inj in H.
  eapply fold_nonneg; [| |exact H].
  - apply Forall_forall. intros a I. apply in_map_iff in I. destruct I as (b & <- & _). destruct b; lra.
  - apply mapM_Ok in E. clear H. induction E as [|j t js cols A E IH]; constructor; [|exact IH].
    apply gdif_tip_value in A. destruct A as (c & A & ->). apply conv_err_factor in A.
    assert (0 < c) by (destruct A as [[_ ->]|[[_ ->]|[_ ->]]]; lra).
    split; [reflexivity|]. split; apply Rmult_le_pos; try lra; [apply GI_nonneg|apply GII_nonneg]; assumption.
Qed.
Lemma filter_none {A} (f : A -> bool) l : (forall a, In a l -> f a = false) -> filter f l = [].
Proof.
  induction l as [|a l IH]; intros H; [reflexivity|]. simpl. rewrite (H a (or_introl eq_refl)). apply IH. intros; apply H; right; assumption.
Qed.
Lemma gdif_no_tips p e ld Cs li ki unit : List.length ki = List.length li ->
  (forall j, (S j < List.length li)%nat -> ~ is_tip ki j) -> gdif p e ld Cs li ki unit = Ok (0, 0, 0).
Proof.
  intros HL H. unfold gdif. rewrite HL, Nat.ltb_irrefl, andb_false_l. unfold crack_tips. rewrite filter_none; [reflexivity|].
  intros j I. apply in_seq in I. assert (G := H j ltac:(lia)). unfold is_tip in G.
  apply negb_false_iff, eqb_true_iff. destruct (nth j ki false), (nth (S j) ki false); try reflexivity; exfalso; apply G; discriminate.
Qed.
Definition res_map {A B} (f : A -> B) (r : res A) : res B := match r with Ok a => Ok (f a) | Err x => Err x end.
Lemma gdif_units p e ld Cs li ki : gdif p e ld Cs li ki "J/m^2" = res_map (tscale 1000) (gdif p e ld Cs li ki "kJ/m^2").
Proof.
  unfold gdif. destruct (_ && _)%bool; [reflexivity|].
  set (ict := crack_tips ki (List.length li - 1)). set (w := map _ (avgmask ki (List.length ict))). clearbody w.
  assert (E : mapM (gdif_tip p e ld Cs li ki "J/m^2") ict = res_map (map (tscale 1000)) (mapM (gdif_tip p e ld Cs li ki "kJ/m^2") ict)).
  { clearbody ict. induction ict as [|j l IH]; [reflexivity|]. simpl mapM. rewrite IH.
    assert (T : gdif_tip p e ld Cs li ki "J/m^2" j = res_map (tscale 1000) (gdif_tip p e ld Cs li ki "kJ/m^2" j)).
    { unfold gdif_tip. destruct (nth_error Cs j); [|reflexivity]. destruct (zsol_checked _ _ _ _ _ _ _) as [z|]; [|reflexivity].
      unfold bind at 1 4. rewrite !(Gi_value p "J/m^2" 1000 z eq_refl), !(Gii_value p "J/m^2" 1000 z eq_refl),
        !(Gi_value p "kJ/m^2" 1 z eq_refl), !(Gii_value p "kJ/m^2" 1 z eq_refl). simpl. do 2 f_equal; [f_equal|]; ring. }
    rewrite T. destruct (gdif_tip p e ld Cs li ki "kJ/m^2" j) as [t|]; [|reflexivity]. simpl.
    destruct (mapM (gdif_tip p e ld Cs li ki "kJ/m^2") l); reflexivity. }
  rewrite E. destruct (mapM (gdif_tip p e ld Cs li ki "kJ/m^2") ict) as [cols|]; [|reflexivity]. simpl. f_equal.
  clear E. revert cols. clear ict. induction w as [|a w IH]; intros [|[[g g1] g2] cols]; simpl; try (f_equal; [f_equal|]; ring).
  rewrite IH. destruct (fold_right tadd (0, 0, 0) (map2 tscale w cols)) as [[F F1] F2]. simpl. f_equal; [f_equal|]; ring.
Qed.

Lemma gdif_units_N p e ld Cs li ki : gdif p e ld Cs li ki "N/mm" = gdif p e ld Cs li ki "kJ/m^2".
Proof. reflexivity. Qed.

(** C43. *)
Lemma transition_jump o phi m zl zr : 0 < kA55 (o_par o) -> transition o phi m zl zr ->
  GI (o_par o) zl = GI (o_par o) zr /\
  s_tau (o_par o) true zr - s_tau (o_par o) true zl
    = kt (o_par o) * wt (o_par o) / 2 * (point_Fn o phi m / kA55 (o_par o)) /\
  (point_Fn o phi m = 0 -> GII (o_par o) zl = GII (o_par o) zr).
Proof.
  intros HS (Hu & Hw & Hp & _ & _ & HV).
  assert (E : sV (o_par o) zl - sV (o_par o) zr = point_Fn o phi m).
  { rewrite HV. unfold point_Fn. destruct (kind_of (o_system o)) as [[]|]; unfold Rdiv; ring. }
  assert (D : z_dw zl - z_dw zr = point_Fn o phi m / kA55 (o_par o)).
  { rewrite <- E. unfold sV. rewrite Hp. field. lra. }
  split; [unfold GI; rewrite Hw; reflexivity|]. split.
  - unfold s_tau. rewrite <- D, Hu, Hp. unfold Rdiv. ring.
  - intros H0. unfold GII. rewrite H0 in D. unfold Rdiv in D. rewrite Rmult_0_l in D.
    replace (z_dw zl) with (z_dw zr) by lra. rewrite Hu, Hp. reflexivity.
Qed.
