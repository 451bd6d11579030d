(** Property theorems C102 and C103: response to the weight of skiers, and energy release rates against it. *)
From Coquelicot Require Import Coquelicot.
Require Import Verif.Py Verif.MTools Verif.MEigen Verif.MFields Verif.SAdm Verif.MRaster
  Verif.MSolution Verif.MAnalysis Verif.MEnvelope Verif.MCriterion Verif.SBeam Verif.SBvp Verif.SEig Verif.SMirror Verif.SSkier Verif.PBeam2 Verif.PSetup Verif.PBvp Verif.PBvp2 Verif.PLinAlg Verif.PBalance
  Verif.PWell2 Verif.PWell3 Verif.PBvp6 Verif.PMirror Verif.PropMirror Verif.PSkier
  Verif.SSlab Verif.SEnergy Verif.SContact Verif.SSelf Verif.PEnvelope Verif.PEnergy Verif.PEnergy2 Verif.PropEnergy Verif.PCreate Verif.PCreate2 Verif.PSelf Verif.PConvex Verif.PSkier2 Verif.PContact3 Verif.SExact Verif.PropExact Verif.PropSelf.

(** State of the slab at the place of skier i. *)
Definition under (o : obj) (phi : R) (li : list R) (ki : list bool) (Cs : list (list R)) (i : nat) : vec6 :=
  field o phi (nth i li 0) (nth i ki false) (nth i Cs []) (nth i li 0).

(** C102: changing the weights of skiers moves the slab under them, in total, the way the weights change: heavier
    skiers sink in, lighter ones come up. ... *)
Theorem C102_monotone o kR phi li mi mi' ki Cs Cs' :
  ready o -> stable (o_par o) -> 0 <= kR -> has_skiers o -> 0 < o_g o -> 0 < o_lski o ->
  proper_segments li ki -> bvp o kR phi li mi ki Cs -> bvp o kR phi li mi' ki Cs' ->
  let sunk i := drop (o_par o) phi (under o phi li ki Cs' i) - drop (o_par o) phi (under o phi li ki Cs i) in
  let n := (List.length li - 1)%nat in
  0 <= sumn n (fun i => (nth i mi' 0 - nth i mi 0) * sunk i) /\
  ((forall i, (i <= n)%nat -> 0 < nth i li 0) -> (exists j, (j < n)%nat /\ nth j mi' 0 <> nth j mi 0) ->
   0 < sumn n (fun i => (nth i mi' 0 - nth i mi 0) * sunk i)).
Proof.
  intros Hr Hs HR Hsk Hg Hlk (Hp & i0 & Hi0 & Hk0 & Hl0) H1 H2 sunk n.
  assert (Hn : li <> []) by (destruct li; [simpl in Hi0; lia|discriminate]).
  pose proof (bvp_fbvp _ _ _ _ _ _ _ Hr Hn H1) as F1. pose proof (bvp_fbvp _ _ _ _ _ _ _ Hr Hn H2) as F2.
  destruct Hr as (Hl & Hf & _). fold n in F1, F2.
  assert (Hp' : forall i, (i <= n)%nat -> 0 <= nth i li 0) by (intros i Hi; apply Hp; unfold n in Hi; lia).
  split.
  - exact (two_nonneg o kR phi n _ _ _ _ _ _ Hl Hf Hs HR Hsk Hg Hlk Hp' F1 F2).
  - intros Hlp (j & Hj & Hm). refine (two_pos o kR phi n _ _ _ _ _ _ Hl Hf Hs HR Hsk Hg Hlk Hp' F1 F2 i0 j Hlp _ Hk0 Hj Hm).
    unfold n. lia.
Qed.
Print Assumptions C102_monotone.

Lemma sumn_single n j f : (j < n)%nat -> (forall i, i <> j -> f i = 0) -> sumn n f = f j.
Proof.
  induction n as [|n IH]; intros Hj H; [lia|]. simpl. destruct (Nat.eq_dec j n) as [->|N].
  - rewrite sumn_zero; [ring|]. intros i Hi. apply H. lia.
  - rewrite IH, (H n) by (lia || exact H). ring.
Qed.

(** ... A single skier who gains weight sinks in further, in the direction of gravity, on every slope ... *)
Theorem C102_heavier o kR phi li mi mi' ki Cs Cs' j :
  ready o -> stable (o_par o) -> 0 <= kR -> has_skiers o -> 0 < o_g o -> 0 < o_lski o ->
  proper_segments li ki -> (forall i, (i < List.length li)%nat -> 0 < nth i li 0) ->
  bvp o kR phi li mi ki Cs -> bvp o kR phi li mi' ki Cs' ->
  same_but j mi mi' -> (S j < List.length li)%nat -> nth j mi 0 < nth j mi' 0 ->
  drop (o_par o) phi (under o phi li ki Cs j) < drop (o_par o) phi (under o phi li ki Cs' j).
Proof.
  intros Hr Hs HR Hsk Hg Hlk Hp Hlp H1 H2 Hb Hj Hm.
  destruct (C102_monotone o kR phi li mi mi' ki Cs Cs' Hr Hs HR Hsk Hg Hlk Hp H1 H2) as [_ G].
  specialize (G ltac:(intros; apply Hlp; lia) ltac:(exists j; split; [lia|lra])).
  rewrite (sumn_single _ j) in G; [|lia|intros i Hi; rewrite (Hb i Hi); ring].
  apply Rnot_le_lt. intros C. nra.
Qed.
Print Assumptions C102_heavier.

(** ... and on level ground this is more deflection and more compression of the weak layer below, in every unit. ... *)
Theorem C102_level o kR li mi mi' ki Cs Cs' j u v v' :
  ready o -> stable (o_par o) -> 0 <= kR -> has_skiers o -> 0 < o_g o -> 0 < o_lski o ->
  proper_segments li ki -> (forall i, (i < List.length li)%nat -> 0 < nth i li 0) ->
  bvp o kR 0 li mi ki Cs -> bvp o kR 0 li mi' ki Cs' ->
  same_but j mi mi' -> (S j < List.length li)%nat -> nth j mi 0 < nth j mi' 0 ->
  let z := under o 0 li ki Cs j in let z' := under o 0 li ki Cs' j in
  (w_unit u z = Ok v -> w_unit u z' = Ok v' -> v < v') /\
  (sig_unit (o_par o) u z = Ok v -> sig_unit (o_par o) u z' = Ok v' -> v' < v).
Proof.
  intros Hr Hs HR Hsk Hg Hlk Hp Hlp H1 H2 Hb Hj Hm z z'.
  pose proof (C102_heavier o kR 0 li mi mi' ki Cs Cs' j Hr Hs HR Hsk Hg Hlk Hp Hlp H1 H2 Hb Hj Hm) as D.
  unfold drop in D. cbv zeta in D. replace (0 * PI / 180) with 0 in D by (unfold Rdiv; ring). rewrite cos_0, sin_0 in D.
  fold z z' in D. assert (W : z_w z < z_w z') by lra.
  destruct Hr as (_ & (Hn & _) & _). split.
  - unfold w_unit. intros A B. destruct (conv_len u) as [c|] eqn:E; [|discriminate]. cbn [bind] in A, B.
    apply Ok_inj in A. apply Ok_inj in B. subst v v'. apply Rmult_lt_compat_l; [|exact W].
    unfold conv_len in E. repeat (destruct (String.eqb u _); [apply Ok_inj in E; lra|]). discriminate.
  - unfold sig_unit, f_w. intros A B. destruct (conv_stress u) as [c|] eqn:E; [|discriminate]. cbn [bind] in A, B.
    apply Ok_inj in A. apply Ok_inj in B. subst v v'. assert (C : 0 < c).
    { unfold conv_stress in E. repeat (destruct (String.eqb u _); [apply Ok_inj in E; lra|]). discriminate. }
    assert (P : 0 < c * kn (o_par o)) by (apply Rmult_lt_0_compat; assumption).
    pose proof (Rmult_lt_compat_l _ _ _ P W). lra.
Qed.
Print Assumptions C102_level.

(** Fields of skiers on a line between two lists of skiers. *)
Lemma between o kR phi kd li m1 m2 m3 ki C1 C2 C3 t :
  kind_of (o_system o) = Some kd -> kd = KPst \/ kd = KVpst \/ kd = KSkier ->
  ready o -> stable (o_par o) -> 0 <= kR -> proper_segments li ki ->
  bvp o kR phi li m1 ki C1 -> bvp o kR phi li m2 ki C2 -> bvp o kR phi li m3 ki C3 ->
  (forall i, nth i m3 0 = (1 - t) * nth i m1 0 + t * nth i m2 0) ->
  forall i s, (i < List.length li)%nat -> 0 <= s <= nth i li 0 ->
    field o phi (nth i li 0) (nth i ki false) (nth i C3 []) s
    = combo (1 - t) (field o phi (nth i li 0) (nth i ki false) (nth i C1 []) s)
            t (field o phi (nth i li 0) (nth i ki false) (nth i C2 []) s).
Proof.
  intros Hk Hd Hr Hs HR Hp B1 B2 B3 Hm.
  assert (SS : same_structure o o) by (repeat split; reflexivity).
  assert (Hn : li <> []) by (destruct Hp as (_ & i0 & Hi0 & _); destruct li; [simpl in Hi0; lia|discriminate]).
  apply (C56_superposition (1 - t) t o o o kR phi kd m1 m2 m3 li ki C1 C2 C3); try assumption.
  unfold combined_loading. repeat split; try ring. intros i. rewrite Hm. ring.
Qed.

(** ... The slab sinks in proportion to the weight of the skier, ... *)
Theorem C102_linear o kR phi kd li m1 m2 m3 ki C1 C2 C3 j :
  kind_of (o_system o) = Some kd -> kd = KPst \/ kd = KVpst \/ kd = KSkier ->
  ready o -> stable (o_par o) -> 0 <= kR -> proper_segments li ki ->
  bvp o kR phi li m1 ki C1 -> bvp o kR phi li m2 ki C2 -> bvp o kR phi li m3 ki C3 ->
  same_but j m1 m2 -> same_but j m1 m3 -> (j < List.length li)%nat ->
  let sunk C := drop (o_par o) phi (under o phi li ki C j) in
  (sunk C3 - sunk C1) * (nth j m2 0 - nth j m1 0) = (sunk C2 - sunk C1) * (nth j m3 0 - nth j m1 0).
Proof.
  intros Hk Hd Hr Hs HR Hp B1 B2 B3 E2 E3 Hj sunk.
  assert (Hl : 0 <= nth j li 0) by (destruct Hp as (A & _); apply A; exact Hj).
  destruct (Req_EM_T (nth j m2 0) (nth j m1 0)) as [Q|Q].
  - assert (M : forall i, nth i m2 0 = (1 - 0) * nth i m1 0 + 0 * nth i m1 0).
    { intros i. destruct (Nat.eq_dec i j) as [->|N]; [rewrite Q; ring|rewrite (E2 i N); ring]. }
    pose proof (between o kR phi kd li m1 m1 m2 ki C1 C1 C2 0 Hk Hd Hr Hs HR Hp B1 B1 B2 M j (nth j li 0) Hj ltac:(lra)) as F.
    unfold sunk, under. rewrite F, drop_combo, Q. ring.
  - set (t := (nth j m3 0 - nth j m1 0) / (nth j m2 0 - nth j m1 0)).
    assert (M : forall i, nth i m3 0 = (1 - t) * nth i m1 0 + t * nth i m2 0).
    { intros i. destruct (Nat.eq_dec i j) as [->|N]; [unfold t; field; lra|rewrite (E2 i N), (E3 i N); ring]. }
    pose proof (between o kR phi kd li m1 m2 m3 ki C1 C2 C3 t Hk Hd Hr Hs HR Hp B1 B2 B3 M j (nth j li 0) Hj ltac:(lra)) as F.
    unfold sunk, under. rewrite F, drop_combo. unfold t. field. lra.
Qed.
Print Assumptions C102_linear.

(** ... so that in the library every depth is reached by the skier of one certain weight. *)
Theorem C102_reached eig solve o aslist phi li ma mb ki D :
  sound_solver solve -> complete_solver solve -> ready o -> stable (o_par o) -> 0 < o_g o -> 0 < o_lski o ->
  kind_of (o_system o) = Some KSkier -> (2 <= List.length li)%nat -> (forall i, (i < List.length li)%nat -> 0 < nth i li 0) ->
  proper_segments li ki -> ~ invalid_segments (o_system o) li (ma ++ 0 :: mb) ki ->
  let j := List.length ma in
  let sunk m d := exists Cs, assemble_and_solve eig solve o aslist phi li (ma ++ m :: mb) ki = Ok Cs /\
                   drop (o_par o) phi (under o phi li ki Cs j) = d in
  (exists m, sunk m D /\ forall m', sunk m' D -> m' = m) /\
  (forall m d m' d', sunk m d -> sunk m' d' -> (m < m' <-> d < d')).
Proof.
  intros So Co Hr Hs Hg Hlk Hk N2 Hlp Hp Hv j sunk.
  assert (Hv' : forall m, ~ invalid_segments (o_system o) li (ma ++ m :: mb) ki).
  { intros m. unfold invalid_segments in *. replace (List.length (ma ++ m :: mb)) with (List.length (ma ++ 0 :: mb)); [exact Hv|].
    rewrite !app_length. reflexivity. }
  assert (Hsk : has_skiers o) by (unfold has_skiers; rewrite Hk; split; discriminate).
  assert (Hj : (S j < List.length li)%nat).
  { destruct (Nat.eq_dec (List.length li) (S (List.length (ma ++ 0 :: mb)))) as [L|L].
    - rewrite app_length in L. simpl in L. unfold j. lia.
    - exfalso. apply Hv. right. right. left. exact L. }
  assert (NJ : forall m, nth j (ma ++ m :: mb) 0 = m).
  { intros m. unfold j. rewrite app_nth2 by lia. rewrite Nat.sub_diag. reflexivity. }
  assert (SB : forall m m', same_but j (ma ++ m :: mb) (ma ++ m' :: mb)).
  { intros m m' i Hi. unfold j in Hi. destruct (Nat.lt_ge_cases i (List.length ma)) as [L|L]; [rewrite !app_nth1 by exact L; reflexivity|].
    rewrite !app_nth2 by exact L. destruct (i - List.length ma)%nat as [|q] eqn:Q; [lia|reflexivity]. }
  assert (EX : forall m, exists d, sunk m d).
  { intros m. destruct (well_posed eig solve o aslist phi li (ma ++ m :: mb) ki KSkier 0 So Co Hr Hs N2 (Hv' m) Hp Hk
      ltac:(discriminate) ltac:(discriminate) ltac:(discriminate)) as (Cs & E & _). eexists. exists Cs. split; [exact E|reflexivity]. }
  assert (BV : forall m Cs, assemble_and_solve eig solve o aslist phi li (ma ++ m :: mb) ki = Ok Cs -> bvp o 0 phi li (ma ++ m :: mb) ki Cs).
  { intros m Cs E. apply (solved_bvp eig solve o aslist phi li _ ki Cs KSkier 0 So Hr N2 Hk); try discriminate. exact E. }
  assert (MO : forall m d m' d', sunk m d -> sunk m' d' -> m < m' -> d < d').
  { intros m d m' d' (Cs & E & <-) (Cs' & E' & <-) L.
    apply (C102_heavier o 0 phi li (ma ++ m :: mb) (ma ++ m' :: mb) ki Cs Cs' j Hr Hs (Rle_refl 0) Hsk Hg Hlk Hp Hlp (BV _ _ E) (BV _ _ E') (SB m m') Hj).
    rewrite !NJ. exact L. }
  assert (UN : forall m d d', sunk m d -> sunk m d' -> d = d').
  { intros m d d' (Cs & E & <-) (Cs' & E' & <-). rewrite E in E'. apply Ok_inj in E'. subst Cs'. reflexivity. }
  assert (IFF : forall m d m' d', sunk m d -> sunk m' d' -> (m < m' <-> d < d')).
  { intros m d m' d' A B. split; [apply (MO _ _ _ _ A B)|]. intros L. destruct (Rtotal_order m m') as [H|[H|H]]; [exact H| |].
    - subst m'. rewrite (UN _ _ _ A B) in L. lra.
    - pose proof (MO _ _ _ _ B A H). lra. }
  split; [|exact IFF].
  destruct (EX 0) as (d0 & S0). destruct (EX 1) as (d1 & S1). pose proof (MO _ _ _ _ S0 S1 ltac:(lra)) as L.
  set (m := (D - d0) / (d1 - d0)). exists m. destruct (EX m) as (d & Sm).
  assert (Ed : d = D).
  { destruct S0 as (C0 & E0 & F0). destruct S1 as (C1 & E1 & F1). destruct Sm as (Cm & Em & Fm).
    pose proof (C102_linear o 0 phi KSkier li _ _ _ ki C0 C1 Cm j Hk ltac:(auto) Hr Hs (Rle_refl 0) Hp (BV _ _ E0) (BV _ _ E1) (BV _ _ Em) (SB 0 1) (SB 0 m) ltac:(lia)) as Q.
    cbv zeta in Q. rewrite !NJ, F0, F1, Fm in Q. unfold m in Q. assert (N : d1 - d0 <> 0) by lra.
    replace ((d1 - d0) * ((D - d0) / (d1 - d0) - 0)) with (D - d0) in Q by (field; exact N). lra. }
  split; [rewrite <- Ed; exact Sm|]. intros m' S'. rewrite Ed in Sm. destruct (Rtotal_order m' m) as [H|[H|H]]; [|exact H|].
  - pose proof (MO _ _ _ _ S' Sm H). lra.
  - pose proof (MO _ _ _ _ Sm S' H). lra.
Qed.
Print Assumptions C102_reached.

(** A skier of 80 kg on a slope of 30 degrees, another of 120 kg. *)
Example C102_example : exists C C',
  bvp (ex_off_p 2) 0 30 [4; 1; 1; 4] [0; 80; 0] [true; false; false; true] C /\
  bvp (ex_off_p 2) 0 30 [4; 1; 1; 4] [0; 120; 0] [true; false; false; true] C' /\
  drop ex_par 30 (under (ex_off_p 2) 30 [4; 1; 1; 4] [true; false; false; true] C 1)
  < drop ex_par 30 (under (ex_off_p 2) 30 [4; 1; 1; 4] [true; false; false; true] C' 1).
Proof.
  destruct (ex_p_solved 2 80) as [C B]. destruct (ex_p_solved 2 120) as [C' B']. exists C, C'. split; [exact B|]. split; [exact B'|].
  apply (C102_heavier (ex_off_p 2) 0 30 [4; 1; 1; 4] [0; 80; 0] [0; 120; 0] [true; false; false; true] C C' 1 (ex_ready "skier" None 30) ex_stable);
    try exact B; try exact B'; try lra; try (simpl; lra).
  - split; discriminate.
  - exact ex_proper_skier.
  - intros i Hi. destruct i as [|[|[|[|]]]]; simpl; try lra; simpl in Hi; lia.
  - intros i Hi. destruct i as [|[|[|[|]]]]; try reflexivity. congruence.
  - simpl. lia.
Qed.
Example C102_reached_example D : exists m Cs,
  assemble_and_solve (fun _ => ex_ews) elim_solve (ex_off_p 2) true 30 [4; 1; 1; 4] [0; m; 0] [true; false; false; true] = Ok Cs /\
  drop ex_par 30 (under (ex_off_p 2) 30 [4; 1; 1; 4] [true; false; false; true] Cs 1) = D.
Proof.
  destruct (C102_reached (fun _ => ex_ews) elim_solve (ex_off_p 2) true 30 [4; 1; 1; 4] [0] [0] [true; false; false; true] D
    elim_sound elim_complete (ex_ready "skier" None 30) ex_stable) as [(m & (Cs & E & F) & _) _]; try (simpl; lra); try reflexivity; try (simpl; lia).
  - intros i Hi. destruct i as [|[|[|[|]]]]; simpl; try lra; simpl in Hi; lia.
  - exact ex_proper_skier.
  - exact (ex_valid_m 0).
  - exists m, Cs. split; [exact E|exact F].
Qed.

(** C103: along a line of skier weights both modes of the energy release rate are quadratic, with a square that is not
    negative (so the rates are convex in the weight of a skier). *)
Theorem C103_quadratic o kR phi kd li m1 m2 ki C1 C2 unit g1 a1 b1 g2 a2 b2 :
  kind_of (o_system o) = Some kd -> kd = KPst \/ kd = KVpst \/ kd = KSkier ->
  ready o -> stable (o_par o) -> 0 <= kR -> proper_segments li ki -> List.length ki = List.length li ->
  bvp o kR phi li m1 ki C1 -> bvp o kR phi li m2 ki C2 ->
  gdif (o_par o) (o_eig o) (loads_of o phi) C1 li ki unit = Ok (g1, a1, b1) ->
  gdif (o_par o) (o_eig o) (loads_of o phi) C2 li ki unit = Ok (g2, a2, b2) ->
  exists da db, 0 <= da /\ 0 <= db /\
  forall t m3 C3 g3 a3 b3, (forall i, nth i m3 0 = (1 - t) * nth i m1 0 + t * nth i m2 0) ->
    bvp o kR phi li m3 ki C3 -> gdif (o_par o) (o_eig o) (loads_of o phi) C3 li ki unit = Ok (g3, a3, b3) ->
    a3 = (1 - t) * a1 + t * a2 - t * (1 - t) * da /\
    b3 = (1 - t) * b1 + t * b2 - t * (1 - t) * db /\
    g3 = (1 - t) * g1 + t * g2 - t * (1 - t) * (da + db).
Proof.
  intros Hk Hd Hr Hs HR Hp Lk B1 B2 E1 E2.
  pose proof (weight_at_ok ki) as W. rewrite Lk in W. set (w := weight_at ki) in *.
  pose proof Hr as (_ & (Hn & Ht & _) & _). set (p := o_par o) in *.
  set (z := fun C j => zsol p (o_eig o) (loads_of o phi) (nth j li 0) (nth j C []) (nth j li 0) (nth j ki false)).
  set (n := (List.length li - 1)%nat).
  destruct (gdif_value2 _ _ _ _ _ _ _ _ _ _ w Lk W E1) as [(N & Z1 & Z2 & Z3)|(c & Hc & V1)].
  - exists 0, 0. split; [lra|]. split; [lra|]. intros t m3 C3 g3 a3 b3 M B3 E3.
    assert (ZZ : forall C, gdif p (o_eig o) (loads_of o phi) C li ki unit = Ok (0, 0, 0)) by (intros C; apply C41_no_tips; assumption).
    rewrite ZZ in E1, E2, E3. apply Ok_inj in E1. apply Ok_inj in E2. apply Ok_inj in E3.
    injection E1 as <- <- <-. injection E2 as <- <- <-. injection E3 as <- <- <-. repeat split; ring.
  - cbv zeta in V1. destruct V1 as (A1 & A2 & A3). fold n in A1, A2.
    assert (c0 : 0 <= c) by (destruct Hc as [[_ ->]|[[_ ->]|[_ ->]]]; lra).
    exists (c * tip_sum ki n (fun j => w j * GI p (combo 1 (z C2 j) (-1) (z C1 j)))), (c * tip_sum ki n (fun j => w j * GII p (combo 1 (z C2 j) (-1) (z C1 j)))).
    split; [apply Rmult_le_pos; [exact c0|]; apply tip_sum_nonneg; intros; apply Rmult_le_pos; [apply weight_at_pos|apply GI_nonneg; exact Hn]|].
    split; [apply Rmult_le_pos; [exact c0|]; apply tip_sum_nonneg; intros; apply Rmult_le_pos; [apply weight_at_pos|apply GII_nonneg; exact Ht]|].
    intros t m3 C3 g3 a3 b3 M B3 E3.
    assert (V : forall C g a b, gdif p (o_eig o) (loads_of o phi) C li ki unit = Ok (g, a, b) ->
      a = c * tip_sum ki n (fun j => w j * GI p (z C j)) /\ b = c * tip_sum ki n (fun j => w j * GII p (z C j)) /\ g = a + b).
    { intros C g a b E. destruct (gdif_value2 _ _ _ _ _ _ _ _ _ _ w Lk W E) as [(N & Z1 & Z2 & Z3)|(c' & Hc' & X)].
      - assert (T : forall f, tip_sum ki n f = 0) by (intros f; apply tip_sum_none; intros j Hj; apply N; unfold n in Hj; lia).
        rewrite !T, Z1, Z2, Z3. repeat split; ring.
      - assert (c' = c) as ->.
        { destruct Hc as [[X1 ->]|[[X1 ->]|[X1 ->]]]; destruct Hc' as [[X2 ->]|[[X2 ->]|[X2 ->]]]; try reflexivity; rewrite X1 in X2; discriminate. }
        exact X. }
    destruct (V _ _ _ _ E2) as (P1 & P2 & P3). destruct (V _ _ _ _ E3) as (Q1 & Q2 & Q3).
    assert (F : forall j, (j < n)%nat -> z C3 j = combo (1 - t) (z C1 j) t (z C2 j)).
    { intros j Hj. unfold n in Hj. apply (between o kR phi kd li m1 m2 m3 ki C1 C2 C3 t); try assumption; [lia|].
      destruct Hp as (A & _). specialize (A j ltac:(lia)). lra. }
    assert (X1 : a3 = (1 - t) * a1 + t * a2 - t * (1 - t) * (c * tip_sum ki n (fun j => w j * GI p (combo 1 (z C2 j) (-1) (z C1 j))))).
    { rewrite Q1, P1, A1. rewrite (tip_sum_ext ki n _ (fun j => (1 - t) * (w j * GI p (z C1 j)) + t * (w j * GI p (z C2 j)) - t * (1 - t) * (w j * GI p (combo 1 (z C2 j) (-1) (z C1 j))))).
      - rewrite tip_sum_lin. unfold z. ring.
      - intros j Hj. rewrite (F j Hj), GI_combo by lra. ring. }
    assert (X2 : b3 = (1 - t) * b1 + t * b2 - t * (1 - t) * (c * tip_sum ki n (fun j => w j * GII p (combo 1 (z C2 j) (-1) (z C1 j))))).
    { rewrite Q2, P2, A2. rewrite (tip_sum_ext ki n _ (fun j => (1 - t) * (w j * GII p (z C1 j)) + t * (w j * GII p (z C2 j)) - t * (1 - t) * (w j * GII p (combo 1 (z C2 j) (-1) (z C1 j))))).
      - rewrite tip_sum_lin. unfold z. ring.
      - intros j Hj. rewrite (F j Hj), GII_combo by lra. ring. }
    split; [exact X1|]. split; [exact X2|]. rewrite Q3, P3, A3, X1, X2. ring.
Qed.
Print Assumptions C103_quadratic.

(** The toughness criterion of a crack in the solved model is convex in the weight of the skier: between two weights at which
    a crack does not propagate there is none at which it does. *)
Theorem C103_check eig solve brent maxeval layers phi (li : list R) (ki : list bool) E t w1 w2 s v1 b1 v2 b2 :
  pos_layers layers -> 0 < E -> 0 < t -> sound_solver solve -> complete_solver solve ->
  (forall o, Layered eig "skiers" (LList layers) false = Ok o ->
     let p := o_par (set_foundation_properties eig o t E (1 / 4) true) in
     stable p /\ good_eigenpairs (calc_system_matrix p) (eig (calc_system_matrix p))) ->
  (2 <= List.length li)%nat -> List.length ki = List.length li -> nth 0 ki false = true -> last ki false = true ->
  proper_segments li ki -> 0 <= s <= 1 ->
  let check w := check_crack_propagation_criterion eig solve brent maxeval (LList layers) phi li ki w E t in
  check w1 = Ok (v1, b1) -> check w2 = Ok (v2, b2) ->
  exists v3 b3, check ((1 - s) * w1 + s * w2) = Ok (v3, b3) /\ v3 <= (1 - s) * v1 + s * v2 /\
    (b1 = false -> b2 = false -> b3 = false).
Proof.
  intros P HE Ht So Co G N2 Lk K0 K1 Pr Hs check H1 H2. set (w3 := (1 - s) * w1 + s * w2).
  assert (M1 : exists m1, skier_weights li (List.length ki) w1 = Ok m1).
  { unfold check, check_crack_propagation_criterion, create_skier_object in H1.
    destruct (Layered eig "skiers" (LList layers) false); [|discriminate]. cbn [bind] in H1.
    destruct (skier_weights li (List.length ki) w1) as [m1|]; [|discriminate]. exists m1. reflexivity. }
  destruct M1 as (m1 & M1). destruct (weights_lin _ _ _ _ M1 w2) as (m2 & M2). destruct (weights_lin _ _ _ _ M1 w3) as (m3 & M3).
  pose proof (weights_between _ _ _ _ _ _ _ _ M1 M2 M3) as ML.
  destruct (check_value eig solve brent maxeval layers E t P HE Ht So Co G w1 phi li ki m1 N2 Lk K0 K1 Pr M1) as (k1 & o & u1 & A1 & A2 & A3 & A4 & A5 & A6 & _ & A8).
  destruct (check_value eig solve brent maxeval layers E t P HE Ht So Co G w2 phi li ki m2 N2 Lk K0 K1 Pr M2) as (k2 & o' & u2 & B1 & _ & _ & _ & B5 & B6 & _ & B8).
  destruct (check_value eig solve brent maxeval layers E t P HE Ht So Co G w3 phi li ki m3 N2 Lk K0 K1 Pr M3) as (k3 & o'' & u3 & D1 & _ & _ & _ & D5 & D6 & _ & D8).
  pose proof (same_obj_weight eig solve brent maxeval layers E t _ _ _ _ _ _ _ _ B1 A1) as OB.
  pose proof (same_obj_weight eig solve brent maxeval layers E t _ _ _ _ _ _ _ _ D1 A1) as OD.
  rewrite OB in B5, B8. rewrite OD in D5, D8. set (o1 := k_obj k1) in *.
  assert (CK : forall w k u, create_skier_object eig solve brent maxeval (LList layers) w phi li ki true E t = Ok k -> differential phi k = Ok u ->
    check w = Ok (u, Rleb 1 u)).
  { intros w k u X Y. unfold check, check_crack_propagation_criterion. rewrite X. cbn [bind]. rewrite Y. reflexivity. }
  rewrite (CK _ _ _ A1 A6) in H1. rewrite (CK _ _ _ B1 B6) in H2. apply Ok_inj in H1. apply Ok_inj in H2.
  injection H1 as <- <-. injection H2 as <- <-.
  exists u3, (Rleb 1 u3). split; [apply (CK _ _ _ D1 D6)|].
  assert (Kd : kind_of (o_system o1) = Some KSkier).
  { destruct A3 as (_ & _ & -> & _). unfold model_obj, set_foundation_properties. destruct (recalc_system eig (with_weak o E (1 / 4) t)) as [-> _].
    destruct (layered_system eig _ _ _ _ A2) as [X _]. change (o_system (with_weak o E (1 / 4) t)) with (o_system o). rewrite X. reflexivity. }
  assert (St : stable (o_par o1)) by (destruct A3 as (-> & _); apply (G o A2)).
  pose proof (weight_at_ok ki) as W. rewrite Lk in W. specialize (A8 _ W). specialize (B8 _ W). specialize (D8 _ W). cbv zeta in A8, B8, D8.
  set (n := (List.length li - 1)%nat) in *. set (p := o_par o1) in *.
  pose proof A4 as (_ & (Hn & Htt & _) & _). fold p in Hn, Htt.
  assert (F : forall j, (j < n)%nat -> end_state o1 phi li ki (k_C k3) j = combo (1 - s) (end_state o1 phi li ki (k_C k1) j) s (end_state o1 phi li ki (k_C k2) j)).
  { intros j Hj. unfold n in Hj. apply (between o1 0 phi KSkier li m1 m2 m3 ki); auto; [lra|lia|]. destruct Pr as (Q & _). specialize (Q j ltac:(lia)). lra. }
  assert (NN : forall f C, (forall x, 0 <= f x) -> 0 <= 1000 * tip_sum ki n (fun j => weight_at ki j * f (end_state o1 phi li ki C j))).
  { intros f C Hf. apply Rmult_le_pos; [lra|]. apply tip_sum_nonneg. intros; apply Rmult_le_pos; [apply weight_at_pos|apply Hf]. }
  assert (CV : forall f, (forall x, 0 <= f x) ->
    (forall x y, f (combo (1 - s) x s y) = (1 - s) * f x + s * f y - s * (1 - s) * f (combo 1 y (-1) x)) ->
    1000 * tip_sum ki n (fun j => weight_at ki j * f (end_state o1 phi li ki (k_C k3) j))
    <= (1 - s) * (1000 * tip_sum ki n (fun j => weight_at ki j * f (end_state o1 phi li ki (k_C k1) j)))
       + s * (1000 * tip_sum ki n (fun j => weight_at ki j * f (end_state o1 phi li ki (k_C k2) j)))).
  { intros f Hf Hc. set (d := fun j => weight_at ki j * f (combo 1 (end_state o1 phi li ki (k_C k2) j) (-1) (end_state o1 phi li ki (k_C k1) j))).
    rewrite (tip_sum_ext ki n (fun j => weight_at ki j * f (end_state o1 phi li ki (k_C k3) j))
      (fun j => (1 - s) * (weight_at ki j * f (end_state o1 phi li ki (k_C k1) j)) + s * (weight_at ki j * f (end_state o1 phi li ki (k_C k2) j)) - s * (1 - s) * d j)).
    - rewrite tip_sum_lin. assert (0 <= tip_sum ki n d) by (apply tip_sum_nonneg; intros; apply Rmult_le_pos; [apply weight_at_pos|apply Hf]).
      assert (0 <= s * (1 - s) * tip_sum ki n d) by (apply Rmult_le_pos; [apply Rmult_le_pos; lra|assumption]). lra.
    - intros j Hj. rewrite (F j Hj), Hc. unfold d. ring. }
  assert (V : u3 <= (1 - s) * u1 + s * u2).
  { rewrite A8, B8, D8. apply criterion_convex; try exact Hs; try (apply NN; intros; apply GI_nonneg; exact Hn); try (apply NN; intros; apply GII_nonneg; exact Htt).
    - apply (CV (GI p)); [intros; apply GI_nonneg; exact Hn|intros; apply GI_combo; lra].
    - apply (CV (GII p)); [intros; apply GII_nonneg; exact Htt|intros; apply GII_combo; lra]. }
  split; [exact V|]. intros X1 X2. unfold Rleb in *. destruct (Rle_dec 1 u1); [discriminate|]. destruct (Rle_dec 1 u2); [discriminate|].
  destruct (Rle_dec 1 u3); [|reflexivity]. exfalso.
  assert (0 <= (1 - s) * (1 - u1)) by (apply Rmult_le_pos; lra). assert (0 <= s * (1 - u2)) by (apply Rmult_le_pos; lra).
  assert (0 < (1 - s) * (1 - u1) \/ 0 < s * (1 - u2)).
  { destruct (Rle_dec s (1 / 2)); [left|right]; apply Rmult_lt_0_compat; lra. }
  lra.
Qed.
Print Assumptions C103_check.

(** Ice slab with a crack under the skier, weights of 0, 50 and 100 kg. *)
Example C103_example maxeval : exists v1 b1 v2 b2 v3 b3,
  let check w := check_crack_propagation_criterion exact_eig elim_solve ex_brent maxeval (LList [(917, 90)]) 30
    (middle_crack 90000 200) middle_support w (1 / 4) 30 in
  check 0 = Ok (v1, b1) /\ check 100 = Ok (v2, b2) /\ check 50 = Ok (v3, b3) /\ v3 <= (v1 + v2) / 2.
Proof.
  assert (P : pos_layers [(917, 90)]) by (constructor; [simpl; lra|constructor]).
  assert (W : forall w, exists mi, skier_weights (middle_crack 90000 200) (List.length middle_support) w = Ok mi).
  { intros w. apply (weights_lin _ _ 0 [0; 0; 0]). apply crack_weights. lra. }
  assert (Pr : proper_segments (middle_crack 90000 200) middle_support) by (apply crack_proper; lra).
  assert (CK : forall w, exists v b, check_crack_propagation_criterion exact_eig elim_solve ex_brent maxeval (LList [(917, 90)]) 30
    (middle_crack 90000 200) middle_support w (1 / 4) 30 = Ok (v, b)).
  { intros w. destruct (W w) as (mi & M).
    destruct (C88_check exact_eig elim_solve ex_brent maxeval [(917, 90)] w 30 (middle_crack 90000 200) middle_support (1 / 4) 30 mi
      P ltac:(lra) ltac:(lra) elim_sound elim_complete ice_hyps ltac:(simpl; lia) eq_refl eq_refl eq_refl Pr M) as (o & o1 & Cs & v & b & H & _).
    exists v, b. exact H. }
  destruct (CK 0) as (v1 & b1 & H1). destruct (CK 100) as (v2 & b2 & H2).
  destruct (C103_check exact_eig elim_solve ex_brent maxeval [(917, 90)] 30 (middle_crack 90000 200) middle_support (1 / 4) 30 0 100 (1 / 2) v1 b1 v2 b2
    P ltac:(lra) ltac:(lra) elim_sound elim_complete ice_hyps ltac:(simpl; lia) eq_refl eq_refl eq_refl Pr ltac:(lra) H1 H2) as (v3 & b3 & H3 & V & _).
  exists v1, b1, v2, b2, v3, b3. cbv zeta. replace ((1 - 1 / 2) * 0 + 1 / 2 * 100) with 50 in H3 by lra.
  split; [exact H1|]. split; [exact H2|]. split; [exact H3|lra].
Qed.
(** A crack under skiers of 80 and 120 kg. *)
Lemma ex_six m : exists Cs g a b, bvp (ex_off_p 2) 0 30 [4; 1; 1; 4] [0; m; 0] [true; false; false; true] Cs /\
  gdif ex_par (calc_eigensystem ex_ews) (loads_of (ex_off_p 2) 30) Cs [4; 1; 1; 4] [true; false; false; true] "J/m^2" = Ok (g, a, b).
Proof.
  destruct (well_posed (fun _ => ex_ews) elim_solve (ex_off_p 2) true 30
    [4; 1; 1; 4] [0; m; 0] [true; false; false; true] KSkier 0 elim_sound elim_complete
    (ex_ready "skier" None 30) ex_stable ltac:(simpl; lia) (ex_valid_m m) ex_proper_skier eq_refl
    ltac:(discriminate) ltac:(discriminate) ltac:(discriminate)) as (Cs & _ & HB & L & F & _).
  destruct (C41_accepted ex_par (calc_eigensystem ex_ews) (loads_of (ex_off_p 2) 30) Cs [4; 1; 1; 4] [true; false; false; true] "J/m^2" 1000
    (or_introl (conj eq_refl eq_refl)) eq_refl) as ([[g a] b] & E).
  - intros j Hj _. simpl in Hj, L. split; [lia|].
    pose proof (six_zh _ (ready_six _ (ex_ready "skier" None 30)) (nth j [4; 1; 1; 4] 0) (nth j [4; 1; 1; 4] 0) (nth j [true; false; false; true] false)) as S6.
    etransitivity; [exact S6|]. rewrite Forall_forall in F. symmetry. apply F. apply nth_In. lia.
  - exists Cs, g, a, b. split; [exact HB|exact E].
Qed.
Example C103_quadratic_example : exists a1 a2 a3 da, 0 <= da /\ a3 = (a1 + a2) / 2 - da / 4 /\
  forall m a, (m = 80 /\ a = a1) \/ (m = 120 /\ a = a2) \/ (m = 100 /\ a = a3) -> exists Cs g b,
    bvp (ex_off_p 2) 0 30 [4; 1; 1; 4] [0; m; 0] [true; false; false; true] Cs /\
    gdif ex_par (calc_eigensystem ex_ews) (loads_of (ex_off_p 2) 30) Cs [4; 1; 1; 4] [true; false; false; true] "J/m^2" = Ok (g, a, b).
Proof.
  destruct (ex_six 80) as (C1 & g1 & a1 & b1 & B1 & E1). destruct (ex_six 120) as (C2 & g2 & a2 & b2 & B2 & E2).
  destruct (ex_six 100) as (C3 & g3 & a3 & b3 & B3 & E3).
  destruct (C103_quadratic (ex_off_p 2) 0 30 KSkier [4; 1; 1; 4] [0; 80; 0] [0; 120; 0] [true; false; false; true] C1 C2 "J/m^2" g1 a1 b1 g2 a2 b2
    eq_refl ltac:(auto) (ex_ready "skier" None 30) ex_stable ltac:(lra) ex_proper_skier eq_refl B1 B2 E1 E2) as (da & db & D1 & _ & Q).
  destruct (Q (1 / 2) [0; 100; 0] C3 g3 a3 b3) as (V & _); [|exact B3|exact E3|].
  { intros [|[|[|[|i]]]]; simpl; lra. }
  exists a1, a2, a3, da. split; [exact D1|]. split; [rewrite V; lra|].
  intros m a [[-> ->]|[[-> ->]|[-> ->]]]; [exists C1, g1, b1|exists C2, g2, b2|exists C3, g3, b3]; auto.
Qed.
