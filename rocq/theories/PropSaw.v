(** C126: saw tests with cuts of different lengths.
    The tip of a hanging part of length a carries forces that are quadratic polynomials of a; the states of the slab in front of
    it follow, and the energy release rates are polynomials of degree at most four. *)
Require Import Verif.Py Verif.MTools Verif.MEigen Verif.MFields Verif.MAnalysis Verif.SAdm Verif.MRaster
  Verif.MSolution Verif.SBeam Verif.SBvp Verif.SEig Verif.SMirror Verif.SSaw Verif.SEnergy Verif.PBeam Verif.PBvp Verif.PBvp2
  Verif.PWell Verif.PWell2 Verif.PWell3 Verif.PBvp6 Verif.PMirror Verif.PEnergy Verif.PEnergy2 Verif.PConvex Verif.PLinAlg Verif.PBeam2 Verif.PSaw.
Open Scope R_scope.

Section T.
Variable eig : mat6 -> list eigpair.
Variable solve : nat -> matrix -> vector -> res vector.
Variables (o : obj) (aslist : bool) (phi : R) (pre mi : list R) (kp : list bool) (a0 a1 a2 : R) (C0 C1 C2 : list (list R)).
(** Slab segments [pre] with supports [kp], then a cut: models of three different cuts. *)
Definition saw_tests : Prop :=
  sound_solver solve /\ ready o /\ stable (o_par o) /\ hanging o /\ Forall (fun l => 0 <= l) pre /\
  (exists i, (i < List.length pre)%nat /\ nth i kp false = true /\ 0 < nth i pre 0) /\
  0 <= a0 /\ 0 <= a1 /\ 0 <= a2 /\ a0 <> a1 /\ a0 <> a2 /\ a1 <> a2 /\
  assemble_and_solve eig solve o aslist phi (pre ++ [a0]) mi (kp ++ [false]) = Ok C0 /\
  assemble_and_solve eig solve o aslist phi (pre ++ [a1]) mi (kp ++ [false]) = Ok C1 /\
  assemble_and_solve eig solve o aslist phi (pre ++ [a2]) mi (kp ++ [false]) = Ok C2.

(** States of segment i of the slab. *)
Definition slab_state (C : list (list R)) (i : nat) : R -> vec6 := field o phi (nth i pre 0) (nth i kp false) (nth i C []).

Lemma same_lengths a C : assemble_and_solve eig solve o aslist phi (pre ++ [a]) mi (kp ++ [false]) = Ok C -> List.length kp = List.length pre.
Proof.
  unfold assemble_and_solve, assemble_and_solve_with. destruct (check_segments _ _ _ _) as [[]|] eqn:E; [|discriminate]. intros _.
  destruct (valid_lengths _ _ _ _ E) as [L _]. rewrite !app_length in L. simpl in L. lia.
Qed.

Theorem C126_states a C : saw_tests -> 0 <= a ->
  assemble_and_solve eig solve o aslist phi (pre ++ [a]) mi (kp ++ [false]) = Ok C ->
  forall i x, (i < List.length pre)%nat -> 0 <= x <= nth i pre 0 ->
  parabolic a0 a1 a2 (slab_state C0 i x) (slab_state C1 i x) (slab_state C2 i x) a (slab_state C i x).
Proof.
  intros (So & Rd & St & Hg & Hp & (i0 & I1 & I2 & I3) & A0 & A1 & A2 & N1 & N2 & N3 & H0 & H1 & H2) Ha H i x Hi Hx.
  pose proof (same_lengths a C H) as Lk. set (n := (List.length pre - 1)%nat).
  assert (Fb : forall b D, assemble_and_solve eig solve o aslist phi (pre ++ [b]) mi (kp ++ [false]) = Ok D -> exists z,
    fbvp o 0 phi (S n) (fun i => if Nat.leb i n then nth i pre 0 else b) (fun i => nth i mi 0) (fun i => if Nat.leb i n then nth i kp false else false) z /\
    z i = slab_state D i).
  { intros b D E. assert (L2 : List.length (pre ++ [b]) = S (S n)) by (rewrite app_length; simpl; unfold n; lia).
    assert (L3 : (2 <= List.length (pre ++ [b]))%nat) by lia.
    assert (B : bvp o 0 phi (pre ++ [b]) mi (kp ++ [false]) D).
    { destruct Hg as [[Hk Hm]|[Hk Hm]].
      - apply (solved_bvp eig solve o aslist phi (pre ++ [b]) mi (kp ++ [false]) D KPst 0 So Rd L3 Hk); [|discriminate|exact E]. intros _ E'. rewrite Hm in E'. discriminate.
      - apply (solved_bvp eig solve o aslist phi (pre ++ [b]) mi (kp ++ [false]) D KVpst 0 So Rd L3 Hk); [discriminate|intros _; exact Hm|exact E]. }
    assert (Ne : pre ++ [b] <> []) by (destruct pre; discriminate).
    pose proof (bvp_fbvp o 0 phi _ _ _ _ Rd Ne B) as F. rewrite L2 in F. replace (S (S n) - 1)%nat with (S n) in F by lia.
    eexists. split; [apply (fbvp_ext o 0 phi (S n) _ _ _ _ _ _) with (2 := F)|].
    - intros j Hj. destruct (Nat.leb_spec j n) as [G|G]; [rewrite !app_nth1 by (unfold n in G; lia); auto|].
      assert (j = List.length pre) by (unfold n in *; lia). subst j. rewrite app_nth2, app_nth2, Lk, Nat.sub_diag by lia. auto.
    - cbv beta. unfold slab_state. rewrite !app_nth1 by lia. reflexivity. }
  destruct (Fb a0 C0 H0) as (z0 & F0 & <-). destruct (Fb a1 C1 H1) as (z1 & F1 & <-). destruct (Fb a2 C2 H2) as (z2 & F2 & <-). destruct (Fb a C H) as (z & F & <-).
  destruct (weights a0 a1 a2 a N1 N2 N3) as (W0 & W1 & W2).
  assert (Hin : (i <= n)%nat) by (unfold n; lia). assert (Hi0 : (i0 <= n)%nat) by (unfold n; lia).
  rewrite (mixed o 0 phi n (fun i => nth i pre 0) (fun i => nth i mi 0) (fun i => nth i kp false) i0 _ _ _ a0 a1 a2 a z0 z1 z2 z Rd St Hg) with (5 := conj A0 (conj A1 (conj A2 Ha))) (6 := W0) (7 := W1) (8 := W2); try assumption.
  - apply mix_parabolic.
  - intros j Hj. rewrite Forall_forall in Hp. apply Hp. apply nth_In. unfold n in Hj. lia.
Qed.

Theorem C126_rates unit : saw_tests -> exists f1 f2, quartic f1 /\ quartic f2 /\
  forall a C G G1 G2, 0 <= a -> assemble_and_solve eig solve o aslist phi (pre ++ [a]) mi (kp ++ [false]) = Ok C ->
  gdif (o_par o) (o_eig o) (loads_of o phi) C (pre ++ [a]) (kp ++ [false]) unit = Ok (G, G1, G2) -> G1 = f1 a /\ G2 = f2 a.
Proof.
  intros Sw. set (p := o_par o). set (ki := kp ++ [false]). set (w := weight_at ki). set (n := List.length pre).
  assert (Lk : List.length kp = List.length pre) by (destruct Sw as (_ & _ & _ & _ & _ & _ & _ & _ & _ & _ & _ & _ & H & _); exact (same_lengths _ _ H)).
  assert (Hp : forall j, (j < n)%nat -> 0 <= nth j pre 0).
  { destruct Sw as (_ & _ & _ & _ & Hp & _). intros j Hj. rewrite Forall_forall in Hp. apply Hp, nth_In, Hj. }
  set (s := fun D j => slab_state D j (nth j pre 0)).
  set (pw := fun (f : vec6 -> R) j a => parabola a0 a1 a2 (f (s C0 j)) (f (s C1 j)) (f (s C2 j)) a).
  set (slide := fun y : vec6 => z_u y + hh p / 2 * z_psi y - wt p / 2 * z_dw y).
  set (h1 := fun a => tip_sum ki n (fun j => w j * (kn p ^ 2 / (2 * kn p) * pw z_w j a ^ 2))).
  set (h2 := fun a => tip_sum ki n (fun j => w j * (kt p ^ 2 / (2 * kt p) * pw slide j a ^ 2))).
  assert (Q1 : quartic h1).
  { apply (quartic_tips ki n (fun j a => w j * (kn p ^ 2 / (2 * kn p) * pw z_w j a ^ 2))). intros j _.
    apply (quartic_scal (w j)), (quartic_scal (kn p ^ 2 / (2 * kn p))), parabola_square. }
  assert (Q2 : quartic h2).
  { apply (quartic_tips ki n (fun j a => w j * (kt p ^ 2 / (2 * kt p) * pw slide j a ^ 2))). intros j _.
    apply (quartic_scal (w j)), (quartic_scal (kt p ^ 2 / (2 * kt p))), parabola_square. }
  set (c := if string_dec unit "J/m^2" then 1000 else 1).
  assert (Uc : forall c', err_factor unit c' -> c' = c).
  { intros c' [[-> ->]|[[-> ->]|[-> ->]]]; reflexivity. }
  exists (fun a => c * h1 a), (fun a => c * h2 a). split; [apply quartic_scal; exact Q1|]. split; [apply quartic_scal; exact Q2|].
  intros a C G G1 G2 Ha HC HG.
  assert (Ll : List.length ki = List.length (pre ++ [a])) by (unfold ki; rewrite !app_length, Lk; reflexivity).
  assert (Ln : (List.length (pre ++ [a]) - 1)%nat = n) by (rewrite app_length; simpl; unfold n; lia).
  assert (W : tip_weights ki (List.length (pre ++ [a])) w) by (rewrite <- Ll; apply weight_at_ok).
  assert (Ps : forall j, (j < n)%nat -> parabolic a0 a1 a2 (s C0 j) (s C1 j) (s C2 j) a (s C j)).
  { intros j Hj. apply (C126_states a C Sw Ha HC j (nth j pre 0) Hj). specialize (Hp j Hj). lra. }
  assert (Ext : forall f g, (forall j, (j < n)%nat -> f j = g j) -> tip_sum ki n f = tip_sum ki n g).
  { intros f g E. unfold tip_sum. f_equal. apply map_ext_in. intros j Hj. apply in_seq in Hj. rewrite E by lia. reflexivity. }
  assert (St : forall j, (j < n)%nat -> zsol p (o_eig o) (loads_of o phi) (nth j (pre ++ [a]) 0) (nth j C []) (nth j (pre ++ [a]) 0) (nth j ki false) = s C j).
  { intros j Hj. unfold s, slab_state, field, ki. rewrite !app_nth1 by (unfold n in Hj; lia). reflexivity. }
  assert (V1 : forall j, (j < n)%nat -> GI p (s C j) = kn p ^ 2 / (2 * kn p) * pw z_w j a ^ 2).
  { intros j Hj. unfold GI, pw. rewrite <- (Ps j Hj z_w) by (simpl; auto). unfold Rdiv. ring. }
  assert (V2 : forall j, (j < n)%nat -> GII p (s C j) = kt p ^ 2 / (2 * kt p) * pw slide j a ^ 2).
  { intros j Hj. unfold GII. assert (E : z_u (s C j) + hh p / 2 * z_psi (s C j) - wt p / 2 * z_dw (s C j) = pw slide j a).
    { rewrite (Ps j Hj z_u), (Ps j Hj z_psi), (Ps j Hj z_dw) by (simpl; auto 6). unfold pw, slide, parabola. ring. }
    rewrite E. unfold Rdiv. ring. }
  destruct (gdif_value2 _ _ _ _ _ _ _ _ _ _ w Ll W HG) as [(Z & _ & -> & ->)|(c' & Hc & E1 & E2 & _)].
  - assert (T0 : forall f, tip_sum ki n f = 0).
    { intros f. transitivity (tip_sum ki n (fun _ => 0)).
      - unfold tip_sum. f_equal. apply map_ext_in. intros j Hj. apply in_seq in Hj. destruct (Bool.bool_dec _ _) as [E|E]; [reflexivity|].
        exfalso. apply (Z j); [rewrite app_length; simpl; unfold n in Hj; lia|exact E].
      - unfold tip_sum. induction (seq 0 n) as [|j js IH]; [reflexivity|]. unfold rsum in IH |- *. cbn [map fold_right]. rewrite IH. destruct (Bool.bool_dec _ _); ring. }
    unfold h1, h2. rewrite !T0. split; ring.
  - rewrite (Uc _ Hc), Ln in E1, E2. rewrite E1, E2. unfold h1, h2. split; f_equal; apply Ext; intros j Hj; fold p; rewrite (St j Hj); [rewrite (V1 j Hj)|rewrite (V2 j Hj)]; reflexivity.
Qed.
End T.
Print Assumptions C126_states.
Print Assumptions C126_rates.

(** ** Cuts at the left end ("-pst"): the hanging part is the first segment. *)
Theorem C126_left eig solve o aslist phi suf mi ks a0 a1 a2 C0 C1 C2 a C :
  sound_solver solve -> ready o -> stable (o_par o) -> kind_of (o_system o) = Some KPst -> o_mode o = Some ModeA -> Forall (fun l => 0 <= l) suf ->
  (exists i, (i < List.length suf)%nat /\ nth i ks false = true /\ 0 < nth i suf 0) ->
  0 <= a0 -> 0 <= a1 -> 0 <= a2 -> 0 <= a -> a0 <> a1 -> a0 <> a2 -> a1 <> a2 ->
  assemble_and_solve eig solve o aslist phi (a0 :: suf) mi (false :: ks) = Ok C0 ->
  assemble_and_solve eig solve o aslist phi (a1 :: suf) mi (false :: ks) = Ok C1 ->
  assemble_and_solve eig solve o aslist phi (a2 :: suf) mi (false :: ks) = Ok C2 ->
  assemble_and_solve eig solve o aslist phi (a :: suf) mi (false :: ks) = Ok C ->
  forall i x, (i < List.length suf)%nat -> 0 <= x <= nth i suf 0 ->
  let z D := field o phi (nth i suf 0) (nth i ks false) (nth (S i) D []) x in
  parabolic a0 a1 a2 (z C0) (z C1) (z C2) a (z C).
Proof.
  intros So Rd St Hk Hm Hp (i0 & I1 & I2 & I3) A0 A1 A2 Ha N1 N2 N3 H0 H1 H2 H i x Hi Hx z. set (n := (List.length suf - 1)%nat).
  assert (SS : same_structure o o) by (repeat split). assert (SL : same_loading o o) by (repeat split).
  assert (Fb : forall b D, assemble_and_solve eig solve o aslist phi (b :: suf) mi (false :: ks) = Ok D -> exists y,
    fbvp o 0 (- phi) (S n) (fun i => if Nat.leb i n then nth (n - i) suf 0 else b) (fun i => nth (S n - S i) mi 0)
      (fun i => if Nat.leb i n then nth (n - i) ks false else false) y /\
    y (n - i)%nat (nth i suf 0 - x) = mirror (z D)).
  { intros b D E. assert (L2 : List.length (b :: suf) = S (S n)) by (simpl; unfold n; lia).
    assert (L3 : (2 <= List.length (b :: suf))%nat) by lia.
    assert (B : bvp o 0 phi (b :: suf) mi (false :: ks) D).
    { apply (solved_bvp eig solve o aslist phi (b :: suf) mi (false :: ks) D KPst 0 So Rd L3 Hk); [|discriminate|exact E]. intros _ E'. rewrite Hm in E'. discriminate. }
    assert (Ne : b :: suf <> []) by discriminate.
    pose proof (bvp_fbvp o 0 phi _ _ _ _ Rd Ne B) as F. rewrite L2 in F. replace (S (S n) - 1)%nat with (S n) in F by lia.
    apply (fbvp_mirror o o 0 phi KPst SS SL Hk Hk (or_introl eq_refl)) in F.
    eexists. split; [apply (fbvp_ext o 0 (- phi) (S n) _ _ _ _ _ _) with (2 := F)|].
    - intros j Hj. destruct (Nat.leb_spec j n) as [G|G]; [replace (S n - j)%nat with (S (n - j)) by lia; cbn [nth]; auto|].
      replace (S n - j)%nat with 0%nat by lia. auto.
    - cbv beta. assert (i <= n)%nat by (unfold n; lia). replace (S n - (n - i))%nat with (S i) by lia. cbn [nth].
      replace (nth i suf 0 - (nth i suf 0 - x)) with x by ring. reflexivity. }
  assert (Hin : (i <= n)%nat) by (unfold n; lia). assert (Hi0 : (i0 <= n)%nat) by (unfold n; lia).
  destruct (Fb a0 C0 H0) as (z0 & F0 & E0). destruct (Fb a1 C1 H1) as (z1 & F1 & E1). destruct (Fb a2 C2 H2) as (z2 & F2 & E2). destruct (Fb a C H) as (y & F & E).
  destruct (weights a0 a1 a2 a N1 N2 N3) as (W0 & W1 & W2).
  assert (Hl : forall j, (j <= n)%nat -> 0 <= nth (n - j) suf 0).
  { intros j Hj. rewrite Forall_forall in Hp. apply Hp. apply nth_In. unfold n. lia. }
  assert (Ei : (n - (n - i))%nat = i) by lia. assert (Ei0 : (n - (n - i0))%nat = i0) by lia.
  assert (X : y (n - i)%nat (nth i suf 0 - x) = mix ((a - a1) * (a - a2) / ((a0 - a1) * (a0 - a2))) ((a - a0) * (a - a2) / ((a1 - a0) * (a1 - a2)))
    ((a - a0) * (a - a1) / ((a2 - a0) * (a2 - a1))) (z0 (n - i)%nat (nth i suf 0 - x)) (z1 (n - i)%nat (nth i suf 0 - x)) (z2 (n - i)%nat (nth i suf 0 - x))).
  { apply (mixed o 0 (- phi) n (fun i => nth (n - i) suf 0) (fun i => nth (S n - S i) mi 0) (fun i => nth (n - i) ks false) (n - i0)%nat _ _ _ a0 a1 a2 a z0 z1 z2 y Rd St
      (or_introl (conj Hk Hm)) Hl) with (4 := conj A0 (conj A1 (conj A2 Ha))) (5 := W0) (6 := W1) (7 := W2); try assumption; try lia.
    - cbv beta. rewrite Ei0. exact I2.
    - cbv beta. rewrite Ei0. exact I3.
    - cbv beta. rewrite Ei. lra. }
  rewrite E, E0, E1, E2 in X. pose proof (mix_parabolic a0 a1 a2 (mirror (z C0)) (mirror (z C1)) (mirror (z C2)) a) as P. rewrite <- X in P.
  intros f Hf. pose proof (P f Hf) as Q. clear - Hf Q.
  repeat (destruct Hf as [<-|Hf]; [unfold parabola in Q |- *; cbn in Q |- *; lra|]). contradiction.
Qed.
Print Assumptions C126_left.

(** ** A saw test on a slope of 30 degrees: 8 mm of supported slab; every cut length has a solved model, the energy release rates
    of the cuts of 1, 2 and 3 mm fix those of all others. *)
Lemma saw_solved a : 0 <= a -> exists C, assemble_and_solve (fun _ => ex_ews) elim_solve (ex_obj "pst-" (Some ModeA) 30) true (-30) ([8] ++ [a]) [0] ([true] ++ [false]) = Ok C /\
  List.length C = 2%nat /\ Forall (fun c => List.length c = 6%nat) C.
Proof.
  intros Ha. assert (V : ~ invalid_segments "pst-" [8; a] [0] [true; false]).
  { unfold invalid_segments, finite_ends. simpl. intros [A|[A|[A|[A1 [A|A]]]]]; try discriminate; try (apply A; reflexivity); [|tauto]. specialize (A true ltac:(auto)). discriminate. }
  assert (P : proper_segments [8; a] [true; false]).
  { split; [intros i Hi; destruct i as [|[|]]; simpl; try lra; simpl in Hi; lia|]. exists 0%nat. simpl. repeat split; [lia|lra]. }
  destruct (well_posed (fun _ => ex_ews) elim_solve (ex_obj "pst-" (Some ModeA) 30) true (-30) [8; a] [0] [true; false] KPst 0 elim_sound elim_complete
    (ex_ready _ _ _) ex_stable ltac:(simpl; lia) V P eq_refl ltac:(discriminate) ltac:(discriminate) ltac:(discriminate)) as (C & H & _ & L & F & _).
  exists C. split; [exact H|]. split; assumption.
Qed.
Example C126_example : let o := ex_obj "pst-" (Some ModeA) 30 in exists C1 C2 C3,
  saw_tests (fun _ => ex_ews) elim_solve o true (-30) [8] [0] [true] 1 2 3 C1 C2 C3 /\
  exists f1 f2, quartic f1 /\ quartic f2 /\ forall a, 0 <= a -> exists C G,
    assemble_and_solve (fun _ => ex_ews) elim_solve o true (-30) [8; a] [0] [true; false] = Ok C /\
    gdif (o_par o) (o_eig o) (loads_of o (-30)) C [8; a] [true; false] "J/m^2" = Ok (G, f1 a, f2 a).
Proof.
  intros o. destruct (saw_solved 1 ltac:(lra)) as (C1 & S1 & _). destruct (saw_solved 2 ltac:(lra)) as (C2 & S2 & _). destruct (saw_solved 3 ltac:(lra)) as (C3 & S3 & _).
  exists C1, C2, C3. assert (Sw : saw_tests (fun _ => ex_ews) elim_solve o true (-30) [8] [0] [true] 1 2 3 C1 C2 C3).
  { split; [exact elim_sound|]. split; [apply ex_ready|]. split; [exact ex_stable|]. split; [left; split; reflexivity|]. split; [repeat constructor; lra|].
    split; [exists 0%nat; simpl; repeat split; [lia|lra]|]. repeat (split; [lra|]). split; [exact S1|]. split; [exact S2|exact S3]. }
  split; [exact Sw|]. destruct (C126_rates _ _ _ _ _ _ _ _ _ _ _ _ _ _ "J/m^2" Sw) as (f1 & f2 & Q1 & Q2 & H). exists f1, f2. split; [exact Q1|]. split; [exact Q2|].
  intros a Ha. destruct (saw_solved a Ha) as (C & Sa & L & F).
  assert (Lk : List.length [true; false] = List.length [8; a]) by reflexivity.
  destruct (gdif_accepts (o_par o) (o_eig o) (loads_of o (-30)) C [8; a] [true; false] "J/m^2" 1000 ltac:(left; auto) Lk) as [[[g g1] g2] Eg].
  { intros j Hj _. simpl in Hj. split; [lia|]. rewrite six_zh by (apply ready_six, ex_ready). rewrite Forall_forall in F. symmetry. apply F. apply nth_In. lia. }
  exists C, g. split; [exact Sa|]. destruct (H a C g g1 g2 Ha Sa Eg) as [<- <-]. exact Eg.
Qed.
(** The same cut from the left. *)
Example C126_left_example a : 0 <= a -> let o := ex_obj "-pst" (Some ModeA) 30 in exists C,
  kind_of (o_system o) = Some KPst /\ assemble_and_solve (fun _ => ex_ews) elim_solve o true 30 [a; 8] [0] [false; true] = Ok C.
Proof.
  intros Ha o. assert (V : ~ invalid_segments "-pst" [a; 8] [0] [false; true]).
  { unfold invalid_segments, finite_ends. simpl. intros [A|[A|[A|[A1 [A|A]]]]]; try discriminate; try (apply A; reflexivity); [|tauto]. specialize (A true ltac:(auto)). discriminate. }
  assert (P : proper_segments [a; 8] [false; true]).
  { split; [intros i Hi; destruct i as [|[|]]; simpl; try lra; simpl in Hi; lia|]. exists 1%nat. simpl. repeat split; [lia|lra]. }
  destruct (well_posed (fun _ => ex_ews) elim_solve o true 30 [a; 8] [0] [false; true] KPst 0 elim_sound elim_complete
    (ex_ready _ _ _) ex_stable ltac:(simpl; lia) V P eq_refl ltac:(discriminate) ltac:(discriminate) ltac:(discriminate)) as (C & H & _).
  exists C. split; [reflexivity|exact H].
Qed.
