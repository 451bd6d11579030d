(** C108: which columns and cracks the touchdown analysis accepts. *)
From Coq Require Import Lra Lia.
From Coquelicot Require Import Coquelicot.
Require Import Verif.Py Verif.MTools Verif.MEigen Verif.MFields Verif.MRaster Verif.MSolution Verif.MTouchdown Verif.SAdm Verif.SSlab Verif.SBeam Verif.SBvp Verif.SEig
  Verif.SExact Verif.SContact Verif.SRegular Verif.SRun Verif.SWindow Verif.PLam Verif.PSetup Verif.PLinAlg Verif.PSub Verif.PExact Verif.PExact2
  Verif.PRegular Verif.PRegular2 Verif.PropRegular Verif.PContact Verif.PCreate Verif.PropRun Verif.PExcept Verif.PropExcept Verif.PRigid Verif.PropRigid Verif.PWindow Verif.PWindow2.
Open Scope R_scope.

(** Loads below four unit forces on the whole column never hide the deflection. *)
Lemma never_hidden_light eig o L : substitute_ready eig o "supported" -> 0 <= level_load o -> level_load o * L < 4 -> never_hidden o L.
Proof.
  intros (Hr & _ & Hf & Hst & _) H0 H4 l z Hl B. change (foundation_of o "supported") with (o_par o) in *.
  pose proof (rigid_trans (o_par o) l z (proj1 Hr) Hf Hst ltac:(lra) B) as Q. pose proof (proj1 Hf) as Hn.
  assert (P : level_load o / kn (o_par o) < 4 / (kn (o_par o) * l)); [|lra].
  replace (4 / (kn (o_par o) * l)) with (4 / l / kn (o_par o)) by (field; lra).
  apply Rmult_lt_compat_r; [apply Rinv_0_lt_compat; lra|].
  apply Rmult_lt_reg_r with l; [lra|]. replace (4 / l * l) with 4 by (field; lra).
  assert (level_load o * l <= level_load o * L) by (apply Rmult_le_compat_l; lra). lra.
Qed.

(** ** Columns that are accepted *)
(** Between a shortest and a longest column both thresholds are found. All cracks up to the thresholds are accepted, and
    so are long ones; the support needs some length s beside the crack. *)
Theorem C108_accepted eig solve brent maxeval o L s phi cf ratio :
  sound_solver solve -> complete_solver solve -> finds_roots brent maxeval -> substitute_ready eig o "supported" ->
  o_touchdown o = true -> In (o_system o) ["skiers"; "pst-"; "-pst"; "vpst-"; "-vpst"; "skier"]%string ->
  let p := o_par o in let q := slope_load o phi in let tc := fall o cf in
  0 < q -> 0 < tc -> 0 <= level_load o -> never_hidden o L -> 0 < s <= 999 / 1000 * L ->
  droop o s (L / 1000) < tc / q -> 72 * bending p * tc <= q * (999 / 1000 * L) ^ 4 ->
  exists a1 a2, L / 1000 <= a1 <= 999 / 1000 * L /\ L / 1000 <= a2 <= 999 / 1000 * L /\
  forall li mi ki k0 a m, 0 < a <= L - s ->
  a <= a1 \/ a <= a2 \/ (substitute_ready eig (attributes_of o L a cf phi ratio) "rested" /\ 72 * bending p * tc <= q * (999 / 1000 * a) ^ 4) ->
  exists sg o', calc_segments eig solve brent maxeval li mi ki k0 L a m phi cf ratio o = (Ok sg, o') /\ o_mode o' = Some (stage a a1 a2).
Proof.
  intros Hso Hco Hfd Hsr Htd Hy p q tc Hq Ht H0 Hn Hs Hd Hl.
  set (o0 := attributes_of o L 0 cf phi ratio).
  destruct (find_a1 eig solve brent maxeval Hso Hco o0 L s Hsr Hn H0 Hq Ht eq_refl Hfd Hs Hd Hl) as (a1 & E1 & B1).
  destruct (find_a2 eig solve brent maxeval Hso Hco o0 L s Hsr Hn H0 Hq Ht eq_refl Hfd Hs Hd Hl) as (a2 & E2 & B2).
  exists a1, a2. split; [exact B1|]. split; [exact B2|]. intros li mi ki k0 a m Ha Hw.
  apply (run_stage eig solve brent maxeval o li mi ki k0 L a m phi cf ratio a1 a2 Htd Hy E1 E2).
  intros Hst. destruct Hw as [W|[W|[Hrs Hfar]]].
  - exfalso. unfold stage in Hst. destruct (Rle_dec a a1); [discriminate|contradiction].
  - exfalso. unfold stage in Hst. destruct (Rle_dec a a1) as [|N]; [discriminate|].
    unfold Rltb, Rleb in Hst. destruct (Rlt_dec a1 a); [|lra]. destruct (Rle_dec a a2); [discriminate|contradiction].
  - destruct (find_lC eig solve brent maxeval Hso Hco (set_mode ModeC (attributes_of o L a cf phi ratio)) L s
      Hsr Hn H0 Hq Ht eq_refl Hfd Hs Hd) as (l & El & _); [exact Hrs|exact Ha|exact Hfar|].
    exists l. exact El.
Qed.
Print Assumptions C108_accepted.

(** Complete analyses of propagation saw tests with touchdown: thresholds, contact length, both solutions, fields and
    energy release rates, for all stiffness ratios of the collapsed layer but three. *)
Theorem C108_analysis eig o : dependable eig -> built eig o -> regular (o_par o) -> In (o_system o) ["pst-"; "-pst"]%string ->
  o_touchdown o = true -> exists l : list R, (List.length l <= 3)%nat /\
  forall solve brent maxeval quad L s phi cf ratio,
  sound_solver solve -> complete_solver solve -> finds_roots brent maxeval -> stays_in_bracket brent ->
  let p := o_par o in let q := slope_load o phi in let tc := fall o cf in
  0 < q -> 0 < tc -> 0 <= level_load o -> level_load o * L < 4 -> 0 < s <= 999 / 1000 * L ->
  droop o s (L / 1000) < tc / q -> 72 * bending p * tc <= q * (999 / 1000 * L) ^ 4 ->
  0 < ratio -> ~ In ratio l -> ratio * kt p * wt p ^ 2 < 16 * kA55 p ->
  exists a1 a2, L / 1000 <= a1 <= 999 / 1000 * L /\ L / 1000 <= a2 <= 999 / 1000 * L /\
  forall li mi ki k0 a m, 0 < a <= L - s -> a <= a1 \/ a <= a2 \/ 72 * bending p * tc <= q * (999 / 1000 * a) ^ 4 ->
  exists sg o' kR, calc_segments eig solve brent maxeval li mi ki k0 L a m phi cf ratio o = (Ok sg, o') /\
    o_mode o' = Some (stage a a1 a2) /\ analysed eig solve quad o' phi kR sg.
Proof.
  intros De B Rg Sy Htd. pose proof (own_ready eig o De B Rg) as Hsr.
  destruct (C106_collapsed eig o De B (proj1 Hsr)) as (lc & Nc & Tc).
  destruct (built_object eig o B) as (_ & _ & _ & _ & F).
  exists lc. split; [exact Nc|].
  intros solve brent maxeval quad L s phi cf ratio Hso Hco Hfd Hb p q tc Hq Ht H0 H4 Hs Hd Hl Hp I St.
  destruct (C108_accepted eig solve brent maxeval o L s phi cf ratio Hso Hco Hfd Hsr Htd) as (a1 & a2 & B1 & B2 & T); trivial.
  { simpl in *. tauto. }
  { exact (never_hidden_light eig o L Hsr H0 H4). }
  exists a1, a2. split; [exact B1|]. split; [exact B2|]. intros li mi ki k0 a m Ha W.
  destruct (T li mi ki k0 a m Ha) as (sg & o' & E & Em).
  { destruct W as [W|[W|W]]; [left; exact W|right; left; exact W|]. right; right. split; [|exact W].
    exact (Tc ratio (attributes_of o L a cf phi ratio) Hp I St eq_refl eq_refl eq_refl). }
  destruct (segments_state _ _ _ _ _ _ _ _ _ _ _ _ _ _ _ _ _ F E) as (md & td & Eo & _).
  destruct (C105_calculated eig solve brent maxeval quad o li mi ki k0 L a m phi cf ratio sg o') as (kR & A); trivial; try lra.
  { left. split; [|lra]. destruct Sy as [<-|[<-|[]]]; simpl; tauto. }
  { intros V. exfalso. destruct Sy as [Sy|[Sy|[]]]; rewrite <- Sy in V; destruct V as [V|[V|[]]]; discriminate. }
  { intros _ _. apply (Tc ratio); trivial; rewrite Eo; reflexivity. }
  exists sg, o', kR. split; [exact E|]. split; [exact Em|exact A].
Qed.
Print Assumptions C108_analysis.

(** ** Columns that are too long *)
(** The search starts at a thousandth of the column. If the crack touches down before that, calc_segments raises
    ValueError, for every crack and every list. *)
Theorem C108_rejected eig solve brent maxeval o li mi ki k0 L a m phi cf ratio :
  sound_solver solve -> complete_solver solve -> rejects_equal_signs brent -> (2 <= maxeval)%nat ->
  substitute_ready eig o "supported" -> o_touchdown o = true -> 0 < L -> 0 < slope_load o phi ->
  8 * bending (o_par o) * fall o cf <= slope_load o phi * (L / 1000) ^ 4 ->
  fst (calc_segments eig solve brent maxeval li mi ki k0 L a m phi cf ratio o) = Err ValueError.
Proof.
  intros Hso Hco Hrj Hme Hsr Htd HL Hq Hf.
  exact (long_rejected eig solve brent maxeval o li mi ki k0 L a m phi cf ratio Hso Hco Hsr Hrj Hme HL Htd Hq Hf).
Qed.
Print Assumptions C108_rejected.

(** The column of touchdown_distance is 100 m long: touchdown within the first 100 mm is never found. *)
Theorem C108_distance eig solve brent maxeval la C0 C1 E t phi o :
  sound_solver solve -> complete_solver solve -> rejects_equal_signs brent -> (2 <= maxeval)%nat ->
  touchdown_model eig la C0 C1 E t = Ok o -> substitute_ready eig o "supported" -> o_touchdown o = true -> 0 < slope_load o phi ->
  8 * bending (o_par o) * fall o (1 / 2) <= slope_load o phi * 100 ^ 4 ->
  touchdown_distance eig solve brent maxeval la C0 C1 E t phi = Err ValueError.
Proof.
  intros Hso Hco Hrj Hme Hm Hsr Htd Hq Hf. unfold touchdown_distance. rewrite Hm. cbn [bind]. unfold touchdown_calls, sbind.
  pose proof (C108_rejected eig solve brent maxeval o [] [] [] [] 100000 0 0 phi (1 / 2) 1000 Hso Hco Hrj Hme Hsr Htd ltac:(lra) Hq) as X.
  replace (100000 / 1000) with 100 in X by lra. specialize (X Hf).
  destruct (calc_segments eig solve brent maxeval [] [] [] [] 100000 0 0 phi (1 / 2) 1000 o) as [r o1]. cbn [fst] in X. subst r. reflexivity.
Qed.
Print Assumptions C108_distance.

(** ** Bisection as root finder *)
Fixpoint bracket (lo hi : R) (hist : list (R * R)) : R * R :=
  match hist with
  | (x, v) :: ((_ :: _ :: _) as rest) =>
      let (l, h) := bracket lo hi rest in if Rlt_dec v 0 then (x, h) else (l, x)
  | _ => (lo, hi)
  end.
Definition bisect (n : nat) (lo hi : R) (hist : list (R * R)) : bstep :=
  match hist with
  | [] => BEval lo
  | [_] => BEval hi
  | [(_, w); (_, v)] => if Rlt_dec 0 (v * w) then BFail else BEval (Rmax lo (Rmin hi ((lo + hi) / 2)))
  | _ => let (l, h) := bracket lo hi hist in
         let m := Rmax lo (Rmin hi ((l + h) / 2)) in
         if (List.length hist <? n)%nat then BEval m else BRet m
  end.
Lemma clamp_in lo hi m : lo <= hi -> lo <= Rmax lo (Rmin hi m) <= hi.
Proof. intros H. unfold Rmax, Rmin. repeat destruct (Rle_dec _ _); lra. Qed.
Lemma bisect_rejects n : rejects_equal_signs (bisect n).
Proof.
  intros lo hi. split; [reflexivity|]. split; [reflexivity|]. intros v w H. simpl. destruct (Rlt_dec 0 (v * w)); [reflexivity|contradiction].
Qed.
Lemma bisect_stays n : stays_in_bracket (bisect n).
Proof.
  intros lo hi hist r H E. unfold bisect in E. destruct hist as [|[x v] [|[y w] [|c hist]]]; try discriminate.
  - destruct (Rlt_dec 0 (w * v)); discriminate.
  - destruct (bracket lo hi ((x, v) :: (y, w) :: c :: hist)) as [l h]. destruct (_ <? n)%nat; [discriminate|].
    injection E; intros <-. apply clamp_in, H.
Qed.
Lemma bisect_finds n : (3 <= n)%nat -> finds_roots (bisect n) n.
Proof.
  intros Hn f g lo hi o Hl Hf Hg. unfold brentq.
  assert (P : forall fuel hist, (3 <= List.length hist)%nat -> (n <= fuel + List.length hist)%nat ->
    exists r, brentq_run (bisect n) fuel f lo hi hist o = (Ok r, o) /\ lo <= r <= hi).
  { induction fuel as [|fuel IH]; intros hist H3 Hs; (destruct hist as [|[x v] [|[y w] [|c hist]]]; try (simpl in H3; lia)).
    - cbn [brentq_run]. unfold bisect. destruct (bracket lo hi ((x, v) :: (y, w) :: c :: hist)) as [l h].
      destruct (Nat.ltb_spec (List.length ((x, v) :: (y, w) :: c :: hist)) n) as [C|C]; [simpl in *; lia|].
      eexists. split; [reflexivity|]. apply clamp_in. lra.
    - cbn [brentq_run]. unfold bisect at 1. destruct (bracket lo hi ((x, v) :: (y, w) :: c :: hist)) as [l h].
      destruct (Nat.ltb_spec (List.length ((x, v) :: (y, w) :: c :: hist)) n) as [C|C].
      + rewrite Hf by (apply clamp_in; lra). apply IH; simpl in *; lia.
      + eexists. split; [reflexivity|]. apply clamp_in. lra. }
  destruct n as [|[|[|n]]]; try lia. cbn [brentq_run]. unfold bisect at 1. rewrite Hf by lra.
  unfold bisect at 1. rewrite Hf by lra. unfold bisect at 1.
  destruct (Rlt_dec 0 (g lo * g hi)) as [C|_]; [exfalso; nra|]. rewrite Hf by (apply clamp_in; lra).
  apply P; simpl; lia.
Qed.

(** ** Examples *)
Lemma light_modulus : bergfeld 240 917 (65 / 10) (44 / 10) <= 31.
Proof.
  unfold bergfeld. assert (P : Rpower (240 / 917) (44 / 10) <= (240 / 917) ^ 4); [|lra].
  rewrite <- Rpower_pow by lra. unfold Rpower.
  assert (ln (240 / 917) < 0) by (rewrite <- ln_1; apply ln_increasing; lra). apply Rlt_le, exp_increasing. simpl INR. lra.
Qed.

Lemma default_par system td o : Layered exact_eig system (LList [(240, 200)]) td = Ok o ->
  o_par o = plain_par (bergfeld 240 917 (65 / 10) (44 / 10)) 200 30 (1 / 4).
Proof.
  intros H. destruct (plain_object exact_eig system td 240 200 30 (1 / 4) ltac:(lra) ltac:(lra)) as (o2 & H2 & P).
  rewrite H in H2. apply Ok_inj in H2. subst o2. rewrite (uniform_kept _ _ _ _ _ _ H). exact P.
Qed.
(** Five metres of the default slab lie in the window. *)
Lemma default_window : exists o, Layered exact_eig "pst-" (LList []) true = Ok o /\ built exact_eig o /\ regular (o_par o) /\
  o_system o = "pst-"%string /\ o_touchdown o = true /\ slope_load o 0 = 47088 / 100000000 /\ 149 / 10 < fall o (1 / 2) < 15 /\
  droop o 300 (5000 / 1000) < fall o (1 / 2) / slope_load o 0 /\
  (forall y, 2690 <= y -> 72 * bending (o_par o) * fall o (1 / 2) <= slope_load o 0 * y ^ 4) /\
  o_par o = plain_par (bergfeld 240 917 (65 / 10) (44 / 10)) 200 30 (1 / 4).
Proof.
  change (Layered exact_eig "pst-" (LList []) true) with (Layered exact_eig "pst-" (LList [(240, 200)]) true).
  destruct (C104_uniform exact_eig "pst-" true 240 200 exact_dependable ltac:(lra) ltac:(lra)) as (o & H & Rg & Rd & _).
  assert (B : built exact_eig o)
    by (apply (built_new _ "pst-" (LList [(240, 200)]) true); [repeat constructor; simpl; lra|exact H]).
  destruct (layered_system _ _ _ _ _ H) as [Es Et].
  destruct (plain_loads _ _ _ _ _ _ 0 H) as [Ld Ph].
  assert (Q : slope_load o 0 = 47088 / 100000000).
  { unfold slope_load. rewrite Ld. cbn [qn pn]. unfold deg2rad. rewrite Rmult_0_l, cos_0. lra. }
  pose proof (default_par _ _ _ H) as P. pose proof (dense_modulus 240 ltac:(lra)) as M1. pose proof light_modulus as M2.
  set (M := bergfeld 240 917 (65 / 10) (44 / 10)) in *.
  assert (F : 149 / 10 < fall o (1 / 2) < 15).
  { unfold fall. rewrite Ph, Q, P. unfold plain_par. cbn [wt kn]. lra. }
  assert (Eb : bending (o_par o) = 32000000 / 45 * M) by (rewrite P; unfold bending, plain_par; cbn [A11 B11 D11]; field; lra).
  assert (Far : forall y, 2690 <= y -> 72 * bending (o_par o) * fall o (1 / 2) <= slope_load o 0 * y ^ 4).
  { intros y Hy. rewrite Q, Eb. assert (2690 ^ 4 <= y ^ 4) by (apply pow_incr; lra).
    assert (M * fall o (1 / 2) <= 31 * 15) by (apply Rmult_le_compat; lra).
    replace (72 * (32000000 / 45 * M) * fall o (1 / 2)) with (51200000 * (M * fall o (1 / 2))) by field. lra. }
  exists o. repeat (split; [assumption || exact H|]). split; [|split; [exact Far|exact P]].
  change (droop o 300 (5000 / 1000) < fall o (1 / 2) / slope_load o 0).
  apply Rlt_le_trans with 10000.
  - assert (D : droop o 300 (5000 / 1000) = 5 ^ 4 / (3 * bending (o_par o)) + 5 ^ 3 / 2 * turn (o_par o) 300 + 5 ^ 2 / kA55 (o_par o)
        + 15 * (sink (o_par o) 300 + slope_load o 0 / kn (o_par o))).
      { unfold droop. cbv zeta. replace (5000 / 1000) with 5 by lra. change (level_load o) with (slope_load o 0). lra. }
      rewrite D, Q. clear D.
      assert (S1 : 1 <= shearing (o_par o)) by (rewrite P; unfold shearing, plain_par; cbn [kA55 kt wt]; lra).
      assert (S2 : 1 <= bending (o_par o)) by lra.
      assert (S3 : 1 <= kA55 (o_par o)) by (rewrite P; unfold plain_par; cbn [kA55]; lra).
      assert (K : kn (o_par o) = 2 / 225) by (rewrite P; unfold plain_par; cbn [kn]; lra).
      assert (inv_le : forall u, 1 <= u -> 0 < / u <= 1).
      { intros u Hu. split; [apply Rinv_0_lt_compat; lra|]. rewrite <- Rinv_1. apply Rinv_le_contravar; lra. }
      pose proof (inv_le _ S1) as V1. pose proof (inv_le _ S2) as V2. pose proof (inv_le _ S3) as V3.
      assert (V4 : / bending (o_par o) <= / 4000000) by (apply Rinv_le_contravar; lra).
      unfold turn, sink. rewrite K.
      replace (5 ^ 4 / (3 * bending (o_par o))) with (625 / 3 * / bending (o_par o)) by (field; lra).
      replace (13 * 300 / (35 * bending (o_par o))) with (13 * 300 / 35 * / bending (o_par o)) by (field; lra).
      replace (6 / (5 * 300 * shearing (o_par o))) with (6 / (5 * 300) * / shearing (o_par o)) by (field; lra).
      replace (300 ^ 3 / (105 * bending (o_par o))) with (300 ^ 3 / 105 * / bending (o_par o)) by (field; lra).
      replace (2 * 300 / (15 * shearing (o_par o))) with (2 * 300 / 15 * / shearing (o_par o)) by (field; lra).
      replace (5 ^ 2 / kA55 (o_par o)) with (25 * / kA55 (o_par o)) by (field; lra).
      lra.
  - rewrite Q. lra.
Qed.
(** Five metres of the default slab, found by bisection: every crack up to full contact and from 2.7 m on is analysed. *)
Example C108_example : exists o ratio a1 a2, Layered exact_eig "pst-" (LList []) true = Ok o /\ In ratio [997; 998; 999; 1000] /\
  5 <= a1 <= 4995 /\ 5 <= a2 <= 4995 /\
  forall a, 0 < a <= 4700 -> a <= a1 \/ a <= a2 \/ 2700 <= a ->
  exists sg o' kR, calc_segments exact_eig elim_solve (bisect 50) 50 [] [] [] [] 5000 a 0 0 (1 / 2) ratio o = (Ok sg, o') /\
    o_mode o' = Some (stage a a1 a2) /\ analysed exact_eig elim_solve RInt o' 0 kR sg.
Proof.
  destruct default_window as (o & H & B & Rg & Es & Et & Q & F & Dr & Far & P).
  destruct (C108_analysis exact_eig o exact_dependable B Rg) as (l & N & T); [rewrite Es; simpl; tauto|exact Et|].
  destruct (four_of_three l N) as (x & I & I').
  assert (Hx : 0 < x <= 1000) by (destruct I as [<-|[<-|[<-|[<-|[]]]]]; lra).
  pose proof (dense_modulus 240 ltac:(lra)) as M1. set (M := bergfeld 240 917 (65 / 10) (44 / 10)) in *.
  destruct (T elim_solve (bisect 50) 50%nat RInt 5000 300 0 (1 / 2) x elim_sound elim_complete) as (a1 & a2 & B1 & B2 & W); trivial; try lra.
  - apply bisect_finds. lia.
  - apply bisect_stays.
  - unfold level_load. change (0 <= slope_load o 0). lra.
  - unfold level_load. change (slope_load o 0 * 5000 < 4). lra.
  - apply Far. lra.
  - rewrite P. unfold plain_par. cbn [kt wt kA55]. fold M. lra.
  - exists o, x, a1, a2. split; [exact H|]. split; [exact I|]. split; [lra|]. split; [lra|]. intros a Ha Hw.
    apply W; [lra|]. destruct Hw as [Hw|[Hw|Hw]]; [left; exact Hw|right; left; exact Hw|right; right; apply Far; lra].
Qed.
(** The same slab, three kilometres long. *)
Example C108_example_long : exists o, Layered exact_eig "pst-" (LList []) true = Ok o /\
  forall a ratio, fst (calc_segments exact_eig elim_solve (bisect 50) 50 [] [] [] [] 3000000 a 0 0 (1 / 2) ratio o) = Err ValueError.
Proof.
  change (Layered exact_eig "pst-" (LList []) true) with (Layered exact_eig "pst-" (LList [(240, 200)]) true).
  destruct (C104_uniform exact_eig "pst-" true 240 200 exact_dependable ltac:(lra) ltac:(lra)) as (o & H & Rg & Rd & _).
  assert (B : built exact_eig o)
    by (apply (built_new _ "pst-" (LList [(240, 200)]) true); [repeat constructor; simpl; lra|exact H]).
  destruct (layered_system _ _ _ _ _ H) as [Es Et]. destruct (plain_loads _ _ _ _ _ _ 0 H) as [Ld Ph].
  assert (Q : slope_load o 0 = 47088 / 100000000).
  { unfold slope_load. rewrite Ld. cbn [qn pn]. unfold deg2rad. rewrite Rmult_0_l, cos_0. lra. }
  pose proof (default_par _ _ _ H) as P. pose proof (dense_modulus 240 ltac:(lra)) as M1. pose proof light_modulus as M2.
  set (M := bergfeld 240 917 (65 / 10) (44 / 10)) in *.
  exists o. split; [exact H|]. intros a ratio.
  apply C108_rejected; trivial; [exact elim_sound|exact elim_complete|apply bisect_rejects|lia|exact (own_ready _ _ exact_dependable B Rg)|lra|lra|].
  unfold fall. rewrite Ph, Q, P. unfold bending, plain_par. cbn [A11 B11 D11 wt kn]. fold M.
  replace (4 / 45 * M * 200 ^ 3 - 0 ^ 2 / (16 / 15 * M * 200)) with (32000000 / 45 * M) by (field; lra). lra.
Qed.

(** One centimetre of snow on a thin weak layer, in touchdown_distance. *)
Lemma distance_par eig rho h C0 C1 E t : 0 < rho -> 0 < h -> 0 < C0 -> exists o, touchdown_model eig (LList [(rho, h)]) C0 C1 E t = Ok o /\
  o_par o = plain_par (bergfeld rho 917 C0 C1) h t E /\ o_touchdown o = true /\ o_phi o = 0 /\
  forall phi, loads_of o phi = mkLd (rho * (1 / 1000000000000) * 9810 * h * cos (deg2rad phi)) (- (rho * (1 / 1000000000000) * 9810 * h) * sin (deg2rad phi)) 0 0.
Proof.
  intros Hr Hh HC. unfold touchdown_model, Layered. rewrite !set_beam_list by discriminate. cbn [bind].
  rewrite set_beam_list by discriminate. eexists. split; [reflexivity|]. split; [|split; [|split]].
  - cbv zeta iota. match goal with |- o_par (o_calc_fundamental_system eig ?x) = _ =>
      destruct (fundamental_par eig x) as (P & _ & _) end.
    cbv zeta in P. rewrite P. clear P. unfold plain_par. set (M := bergfeld rho 917 C0 C1).
    assert (HM : 0 < M) by (unfold M, bergfeld; repeat apply Rmult_lt_0_compat; try lra; unfold Rpower; apply exp_pos).
    unfold user_slab, calc_laminate_stiffness_matrix, calc_center_of_gravity, get_ply_coordinates, calc_foundation_stiffness.
    simpl. fold M. f_equal; try field; lra.
  - reflexivity.
  - reflexivity.
  - intros phi. unfold loads_of, get_weight_load, get_surface_load. cbn. f_equal; ring.
Qed.
Example C108_example_distance :
  touchdown_distance exact_eig elim_solve (bisect 50) 50 (LList [(230, 10)]) (65 / 10) (44 / 10) (1 / 10) (2 / 10) 0 = Err ValueError.
Proof.
  destruct (distance_par exact_eig 230 10 (65 / 10) (44 / 10) (1 / 10) (2 / 10) ltac:(lra) ltac:(lra) ltac:(lra)) as (o & H & P & Td & Ph & Ld).
  assert (B : built exact_eig o).
  { assert (G : good_layers (LList [(230, 10)])) by (repeat constructor; simpl; lra).
    unfold touchdown_model in H. destruct (Layered exact_eig "pst-" (LList []) true) as [o0|] eqn:E0; [|discriminate]. cbn [bind] in H.
    apply (built_beam _ (set_foundation_properties exact_eig o0 (2 / 10) (1 / 10) (1 / 4) true) (LList [(230, 10)]) (65 / 10) (44 / 10) (1 / 4));
      [|exact G|lra|lra|exact H].
    apply built_weak; try lra. apply (built_new _ "pst-" (LList []) true); [constructor|exact E0]. }
  pose proof (dense_modulus 230 ltac:(lra)) as M1.
  assert (M2 : bergfeld 230 917 (65 / 10) (44 / 10) <= 26).
  { unfold bergfeld. assert (X : Rpower (230 / 917) (44 / 10) <= (230 / 917) ^ 4); [|lra].
    rewrite <- Rpower_pow by lra. unfold Rpower.
    assert (ln (230 / 917) < 0) by (rewrite <- ln_1; apply ln_increasing; lra). apply Rlt_le, exp_increasing. simpl INR. lra. }
  set (M := bergfeld 230 917 (65 / 10) (44 / 10)) in *.
  assert (Rg : regular (o_par o)) by (rewrite P; apply plain_regular; lra).
  assert (Q : slope_load o 0 = 22563 / 1000000000).
  { unfold slope_load. rewrite Ld. cbn [qn pn]. unfold deg2rad. rewrite Rmult_0_l, cos_0. lra. }
  apply (C108_distance exact_eig elim_solve (bisect 50) 50 _ _ _ _ _ 0 o elim_sound elim_complete (bisect_rejects 50) ltac:(lia) H
    (own_ready _ _ exact_dependable B Rg) Td); [lra|].
  unfold fall. rewrite Ph, Q, P. unfold bending, plain_par. cbn [A11 B11 D11 wt kn]. fold M.
  replace (4 / 45 * M * 10 ^ 3 - 0 ^ 2 / (16 / 15 * M * 10)) with (4000 / 45 * M) by (field; lra). lra.
Qed.
