(** Property theorems C123: the crack reported by the coupled criterion (examples/criterion_check.py). *)
From Coq Require Import Ranalysis5.
From Coquelicot Require Import Coquelicot.
Require Import Verif.Py Verif.MTools Verif.MEigen Verif.MFields Verif.SAdm Verif.SSlab Verif.MRaster
  Verif.MSolution Verif.MAnalysis Verif.SBeam Verif.SBvp Verif.SEig Verif.SEnergy Verif.MEnvelope Verif.MCriterion
  Verif.SSegment Verif.SExact Verif.SCoupled Verif.SLayout Verif.PLam Verif.PSetup Verif.PLinAlg Verif.PSegment Verif.PEnvelope Verif.PCoupled Verif.PCreate2
  Verif.PropExact Verif.PropCoupled Verif.PCoupled2 Verif.PropCollapse Verif.PropRoots
  Verif.PForce Verif.PCreate Verif.SCritical Verif.PCritical5 Verif.PCritical6 Verif.PCritical12 Verif.PropCritical Verif.PropSearch
  Verif.PropCollapse2 Verif.PLayout.
Open Scope R_scope.

(** What is said of a reported crack: its length is that of the unsupported segments of a layout; unless no segment is
    supported, this is the layout of the reported model, which carries the reported weight; and the layout is the first guess
    of 1 mm at 1.005 times the critical weight, or follows from the places where the stress criterion is crossed in the
    uncracked model under the reported weight. *)
Definition reported eig solve brent maxeval profile phi E t e T (c : cc) : Prop :=
  exists li ki, List.length ki = List.length li /\ c_len c = unsupported_length li ki /\
    ((exists b, In b ki /\ b = true) ->
       k_li (c_sk c) = li /\ k_ki (c_sk c) = ki /\ skier_weights li (List.length li) (c_weight c) = Ok (k_mi (c_sk c))) /\
    (c_weight c = 1005 / 1000 * c_crit c /\ c_len c = 1 /\
     li = [T / 2 - 1 / 2; 1 / 2; 1 / 2; T / 2 - 1 / 2] /\ ki = [true; false; false; true]
     \/ exists total k crossings,
       create_skier_object eig solve brent maxeval profile (c_weight c) phi [total / 2; total / 2] [true; true] false E t = Ok k /\
       find_roots_around_x brent maxeval e k [total / 2; total / 2] phi = Ok crossings /\
       between_crossings total crossings (c_len c) li ki).

Lemma laid_reported eig solve brent maxeval profile phi E t e T c li ki :
  laid (find_new_anticrack_length eig solve brent maxeval profile phi E t e) T (c_crit c * (1005 / 1000)) (c_weight c) (c_len c) li ki ->
  (any ki = true -> create_skier_object eig solve brent maxeval profile (c_weight c) phi li ki true E t = Ok (c_sk c)) ->
  reported eig solve brent maxeval profile phi E t e T c.
Proof.
  intros L K. exists li, ki.
  assert (Q : List.length ki = List.length li /\ c_len c = unsupported_length li ki).
  { destruct L as [(_ & -> & -> & ->)|(li' & ki' & F)].
    - split; [reflexivity|]. unfold unsupported_length, unsupported_sum, rsum. cbn [List.length seq map nth fold_right]. lra.
    - destruct (anticrack_lengths _ _ _ _ _ _ _ _ _ _ _ _ _ _ _ F) as (A & B & _). auto. }
  destruct Q as [Q1 Q2]. split; [exact Q1|]. split; [exact Q2|]. split.
  - intros A. apply existsb_exists in A. specialize (K A). destruct (create_keeps _ _ _ _ _ _ _ _ _ _ _ _ _ K) as (K1 & K2 & K3).
    rewrite Q1 in K2. auto.
  - destruct L as [(W & A & B & C)|(li' & ki' & F)]; [left|right].
    + split; [rewrite W; ring|]. auto.
    + destruct (anticrack_lengths _ _ _ _ _ _ _ _ _ _ _ _ _ _ _ F) as (_ & _ & k & roots & K1 & K2).
      exists (rsum li'), k, roots. split; [exact K1|]. split; [exact K2|]. split.
      { intros ->. unfold find_new_anticrack_length in F. rewrite K1 in F. cbn [bind] in F. destruct (distances e k) as [d|]; [|discriminate]. cbn [bind] in F.
        rewrite K2 in F. cbn [bind] in F. apply Ok_inj in F. injection F as F1 F2 F3. split; [auto|]. rewrite <- F3, <- F1.
        destruct (ogt (snd d) 1); [right|left]; (split; [reflexivity|]); unfold cracked_length, rsum; simpl; lra. }
      intros I R0.
      destruct (C72_anticrack eig solve brent maxeval profile phi E t e (c_weight c) li' ki' k roots (c_len c) li ki K1 K2 F I R0) as (A1 & A2 & _ & _ & A3).
      auto.
Qed.

(** C123: the damped variant, ... *)
Theorem C123_dampened eig solve brent maxeval quad layers phi damping e E t fuel c :
  criterion_dampened eig solve brent maxeval quad (LList layers) phi damping e E t fuel = Ok (Some c) ->
  c_ok c = true -> c_self c = false -> c_pure c = false ->
  reported eig solve brent maxeval (LList layers) phi E t e (100 * rsum (map snd layers)) c.
Proof.
  intros H A B C. unfold criterion_dampened in H. cbn [thickness bind] in H.
  destruct (damped_layout _ _ _ _ _ _ _ _ _ H A B C) as (li & ki & L & K). exact (laid_reported _ _ _ _ _ _ _ _ _ _ _ li ki L K).
Qed.
Print Assumptions C123_dampened.
(** ... and the criterion with its fallbacks, the first of which assumes a density of 250 and the second a thickness of 30. *)
Theorem C123_crack eig solve brent maxeval quad layers phi e E t fuel c :
  criterion eig solve brent maxeval quad (LList layers) phi e E t fuel = Ok (Some c) ->
  c_ok c = true -> c_self c = false -> c_pure c = false ->
  let th := rsum (map snd layers) in
  reported eig solve brent maxeval (LList layers) phi E t e (1000 * th) c \/
  reported eig solve brent maxeval (LList layers) phi E t (mkEnv (e_name e) (e_sf e) (e_om e) 250) (100 * th) c \/
  reported eig solve brent maxeval (LList layers) phi E 30 e (100 * th) c.
Proof.
  intros H A B C th. unfold criterion in H. cbn [thickness bind] in H.
  destruct (coupled _ _ _ _ _ _) as [[c1|w|w]|er] eqn:Ec; cbn [bind] in H; [| | |discriminate].
  - apply Ok_inj in H. injection H as ->. left.
    destruct (coupled_layout _ _ _ _ _ _ _ Ec A B C) as (li & ki & L & K). exact (laid_reported _ _ _ _ _ _ _ _ _ _ _ li ki L K).
  - right. left. exact (C123_dampened _ _ _ _ _ _ _ _ _ _ _ _ _ H A B C).
  - right. right. exact (C123_dampened _ _ _ _ _ _ _ _ _ _ _ _ _ H A B C).
Qed.
Print Assumptions C123_crack.

(** The hypotheses hold: the damped variant for 90 mm of ice, a weak layer that 1 kg just loads to its strength, and a
    quadrature (of large error) that meets the energy criterion exactly. *)
Definition flat_quad (eps v : R) (f : R -> R) (a b : R) : R := if Rle_dec (Rabs (v - RInt f a b)) eps then v else RInt f a b.
Lemma flat_accurate eps v : 0 <= eps -> accurate_quad (flat_quad eps v) eps.
Proof.
  intros H f a b _. unfold flat_quad. destruct (Rle_dec _ _) as [A|_]; [exact A|]. replace (RInt f a b - RInt f a b) with 0 by ring. rewrite Rabs_R0. exact H.
Qed.
Lemma flat_loop v p e ld l : forall A B, List.length A = List.length l -> List.length B = List.length l ->
  forall r, ginc_loop (fun f a b => RInt f a b) p e ld A B l = Ok r ->
  exists eps, forall eps', eps <= eps' -> ginc_loop (flat_quad eps' v) p e ld A B l = Ok (INR (List.length l) * v, INR (List.length l) * v).
Proof.
  induction l as [|x l IH]; intros [|a A] [|b B] L1 L2 r H; try discriminate; cbn [ginc_loop] in H |- *.
  { exists 0. intros _ _. simpl. f_equal. f_equal; ring. }
  destruct (zsol_checked p e ld 0 a x true); [|discriminate]. destruct (zsol_checked p e ld 0 b x false); [|discriminate]. cbn [bind] in H |- *.
  destruct (ginc_loop _ p e ld A B l) as [r'|] eqn:E; [|discriminate]. injection L1 as L1. injection L2 as L2.
  destruct (IH A B L1 L2 r' E) as (eps & Q).
  set (f1 := fun y => int1 p y (fun z => zsol p e ld z a x true) (fun z => zsol p e ld z b x false)).
  set (f2 := fun y => int2 p y (fun z => zsol p e ld z a x true) (fun z => zsol p e ld z b x false)).
  exists (Rmax eps (Rmax (Rabs (v - RInt f1 0 x)) (Rabs (v - RInt f2 0 x)))). intros eps' Le.
  pose proof (Rmax_l eps (Rmax (Rabs (v - RInt f1 0 x)) (Rabs (v - RInt f2 0 x)))). pose proof (Rmax_r eps (Rmax (Rabs (v - RInt f1 0 x)) (Rabs (v - RInt f2 0 x)))).
  pose proof (Rmax_l (Rabs (v - RInt f1 0 x)) (Rabs (v - RInt f2 0 x))). pose proof (Rmax_r (Rabs (v - RInt f1 0 x)) (Rabs (v - RInt f2 0 x))).
  rewrite (Q eps') by lra. cbn [bind fst snd List.length]. unfold flat_quad at 1 2. fold f1 f2.
  destruct (Rle_dec (Rabs (v - RInt f1 0 x)) eps'); [|lra]. destruct (Rle_dec (Rabs (v - RInt f2 0 x)) eps'); [|lra].
  rewrite S_INR. f_equal. f_equal; ring.
Qed.
Lemma flat_ginc v p e ld Ca Cb li k0 ki G :
  ginc (fun f a b => RInt f a b) p e ld Ca Cb li ki k0 = Ok G ->
  select (map2 (fun a b => andb a (negb b)) k0 ki) li = [1 / 2; 1 / 2] ->
  exists eps, forall eps', eps <= eps' -> ginc (flat_quad eps' v) p e ld Ca Cb li ki k0 = Ok (Some (2 * v), Some v, Some v).
Proof.
  intros H S. unfold ginc in *. destruct (negb (Nat.eqb (List.length k0) (List.length ki))); [discriminate|].
  destruct (Nat.eqb_spec (List.length Ca) (List.length ki)) as [LA|]; [|discriminate]. destruct (Nat.eqb_spec (List.length Cb) (List.length ki)) as [LB|]; [|discriminate].
  destruct (Nat.eqb_spec (List.length li) (List.length ki)) as [LL|]; [|discriminate]. cbn [andb negb] in *.
  set (msk := map2 _ k0 ki) in *.
  pose proof (select_len msk Ca li ltac:(congruence)) as SA. pose proof (select_len msk Cb li ltac:(congruence)) as SB.
  rewrite S in *. set (A := select msk Ca) in *. set (B := select msk Cb) in *. cbv zeta in *.
  destruct (ginc_loop (fun f a b => RInt f a b) p e ld A B [1 / 2; 1 / 2]) as [r|] eqn:E; [|discriminate].
  destruct (flat_loop v _ _ _ _ _ _ SA SB r E) as (eps & Q). exists eps. intros eps' Le. rewrite (Q eps' Le). cbn [bind fst snd List.length INR].
  destruct (Rlt_dec 0 (rsum [1 / 2; 1 / 2])) as [X|X]; [|exfalso; apply X; unfold rsum; simpl; lra].
  replace (rsum [1 / 2; 1 / 2]) with 1 by (unfold rsum; simpl; lra). replace ((1 + 1) * v / (2 * 1)) with v by field. replace (v + v) with (2 * v) by ring. reflexivity.
Qed.
Lemma balanced : exists v, 0 < v /\ fracture_toughness_criterion (1000 * v) (1000 * v) = 1.
Proof.
  set (c := 56 / 79). set (f := fun x => Rpower x (1 / (2 / 10)) + Rpower (c * x) (1 / (45 / 100)) - 1).
  assert (C : forall x, 1 / 2 <= x <= 1 -> continuity_pt f x).
  { intros x Hx. unfold f. apply continuity_pt_minus; [|apply continuity_pt_const; intros ? ?; reflexivity]. apply continuity_pt_plus.
    - apply derivable_continuous_pt. eexists. apply derivable_pt_lim_power. lra.
    - apply (continuity_pt_comp (fun x => c * x) (fun y => Rpower y (1 / (45 / 100)))).
      + apply continuity_pt_mult; [apply continuity_pt_const; intros ? ?; reflexivity|apply derivable_continuous_pt, derivable_pt_id].
      + apply derivable_continuous_pt. eexists. apply derivable_pt_lim_power. unfold c. lra. }
  assert (P1 : forall x y, 0 < x <= 1 / 2 -> 1 < y -> Rpower x y < 1 / 2).
  { intros x y Hx Hy. apply Rlt_le_trans with (Rpower x 1); [|rewrite Rpower_1; lra]. unfold Rpower. apply exp_increasing. pose proof (ln_lt_inv x 1) as L.
    assert (ln x < 0) by (rewrite <- ln_1; apply ln_increasing; lra). nra. }
  assert (F0 : f (1 / 2) < 0).
  { unfold f. pose proof (P1 (1 / 2) (1 / (2 / 10)) ltac:(lra) ltac:(lra)). pose proof (P1 (c * (1 / 2)) (1 / (45 / 100)) ltac:(unfold c; lra) ltac:(lra)). lra. }
  assert (F1 : 0 < f 1).
  { unfold f. assert (E : Rpower 1 (1 / (2 / 10)) = 1) by (unfold Rpower; rewrite ln_1, Rmult_0_r; apply exp_0). rewrite E.
    assert (0 < Rpower (c * 1) (1 / (45 / 100))) by (unfold Rpower; apply exp_pos). lra. }
  destruct (IVT_interv f (1 / 2) 1 C ltac:(lra) F0 F1) as (x & Hx & E). exists (56 / 100 * x / 1000). split; [lra|].
  unfold fracture_toughness_criterion. rewrite Rabs_right by lra.
  replace (1000 * (56 / 100 * x / 1000) / (56 / 100)) with x by lra. replace (1000 * (56 / 100 * x / 1000) / (79 / 100)) with (c * x) by (unfold c; lra).
  rewrite !rpow_Rpower by (unfold c; lra). unfold f in E. lra.
Qed.
Section Ice.
Variable brent : R -> R -> list (R * R) -> bstep.
Variable maxeval : nat.
Notation create := (fun w li ki crack => create_skier_object exact_eig elim_solve brent maxeval (LList [(917, 90)]) w 30 li ki crack (1 / 4) 30).
Notation cracked T := [T / 2 - 1 / 2; 1 / 2; 1 / 2; T / 2 - 1 / 2].
Lemma flat v T ws : 2 < T -> fracture_toughness_criterion (1000 * v) (1000 * v) = 1 ->
  exists eps, 0 <= eps /\ forall w, In w ws -> exists u c, create w (cracked T) [true; true; true; true] false = Ok u /\ create w (cracked T) [true; false; false; true] true = Ok c /\
    forall eps', eps <= eps' -> incremental (flat_quad eps' v) 30 u c [true; true; true; true] = Ok (Some 1).
Proof.
  intros HT Hv. induction ws as [|w ws (K & P & IH)]; [exists 0; split; [lra|intros w []]|].
  destruct (ice_released brent maxeval T w HT) as (u & c & g & G1 & G2 & H1 & H2 & H3 & H4 & H5).
  destruct (flat_ginc v _ _ _ _ _ _ _ _ _ H5) as (eps & Q). { rewrite H3, H4. reflexivity. }
  exists (Rmax K eps). pose proof (Rmax_l K eps). pose proof (Rmax_r K eps). split; [lra|]. intros w' [<-|Hw].
  - exists u, c. split; [exact H1|]. split; [exact H2|]. intros eps' Le. unfold incremental.
    match goal with |- bind ?x _ = _ => assert (EX : x = Ok (Some (2 * v), Some v, Some v)) by (apply (Q eps'); lra); rewrite EX end. cbn [bind]. rewrite Hv. reflexivity.
  - destruct (IH w' Hw) as (u' & c' & A1 & A2 & A3). exists u', c'. split; [exact A1|]. split; [exact A2|]. intros eps' Le. apply A3. lra.
Qed.
Example C123_example : exists quad eps sc c, accurate_quad quad eps /\ 0 < sc /\
  criterion_dampened exact_eig elim_solve brent maxeval quad (LList [(917, 90)]) 30 1 (strength sc) (1 / 4) 30 1 = Ok (Some c) /\
  c_ok c = true /\ c_self c = false /\ c_pure c = false /\ c_len c = 1 /\ c_weight c = 1005 / 1000.
Proof.
  set (T := 100 * rsum (map snd [(917, 90)])). assert (ET : T = 9000) by (unfold T, rsum; simpl; lra). destruct balanced as (v & V0 & V).
  destruct (ice_found brent maxeval T ltac:(lra)) as (sc & m & Hs & Em & W & d & Hd & Hd1). destruct (flat v T [f_weight m * (1005 / 1000); 3 * f_weight m * 2] ltac:(lra) V) as (K & K0 & B).
  destruct (B _ (or_introl eq_refl)) as (u & k & U1 & U2 & I). destruct (B _ (or_intror (or_introl eq_refl))) as (u' & k' & U1' & U2' & I'). specialize (I K (Rle_refl K)). specialize (I' K (Rle_refl K)).
  assert (Kw : known_envelope (e_name (strength sc))) by (unfold known_envelope; simpl; tauto).
  assert (E1 : ogt (f_min m) 1 = false) by (rewrite Hd; unfold ogt, oltb, Rltb; destruct (Rlt_dec 1 d); [lra|reflexivity]).
  assert (E2 : (oleb (f_min m) (Some 1) && Rleb 1 (f_weight m))%bool = true) by (rewrite Hd; unfold oleb, Rleb; destruct (Rle_dec d 1); [|lra]; destruct (Rle_dec 1 (f_weight m)); [reflexivity|lra]).
  destruct (create_lengths _ _ _ _ _ _ _ _ _ _ _ _ _ U1) as [L1 L2].
  destruct (distances_total (strength sc) u Kw L1) as [dd D]; [intros Z; rewrite Z in L2; simpl in L2; lia|].
  enough (H : exists c, criterion_dampened exact_eig elim_solve brent maxeval (flat_quad K v) (LList [(917, 90)]) 30 1 (strength sc) (1 / 4) 30 1 = Ok (Some c) /\
    c_ok c = true /\ c_self c = false /\ c_pure c = false /\ c_len c = 1 /\ c_weight c = 1005 / 1000).
  { destruct H as (c & H). exists (flat_quad K v), K, sc, c. split; [apply flat_accurate; exact K0|]. split; [exact Hs|exact H]. }
  unfold criterion_dampened, coupled_dampened. cbn [thickness bind]. fold T. rewrite Em. cbn [bind]. rewrite E1, E2. cbv zeta.
    cbn [raise_weight start l_li l_ki]. unfold evaluate. cbn [map]. rewrite U1'. cbn [bind]. rewrite U2'. cbn [bind]. rewrite I'. cbn [bind snd].
    replace (oltb (Some 1) (Some 1)) with false by (unfold oltb, Rltb; destruct (Rlt_dec 1 1); [lra|reflexivity]). cbn [bind].
    set (st := start _ _ _ _ _). set (step := iteration _ _ _ _ _ _ _ _).
    assert (Ct : continue 50 st = true).
    { unfold continue, st. cbn [l_err l_n l_ki start option_map any existsb orb]. unfold ogt, oltb. rewrite Rabs_right by lra. unfold Rltb. destruct (Rlt_dec _ _); [reflexivity|lra]. }
    assert (Z : Rabs (1 - 1) = 0) by (replace (1 - 1) with 0 by ring; apply Rabs_R0).
    assert (Near : ogt (option_map Rabs (Some (Rabs (1 - 1)))) (2 / 1000) = false).
    { cbn [option_map]. rewrite Z, Rabs_R0. unfold ogt, oltb, Rltb. destruct (Rlt_dec _ _); [lra|reflexivity]. }
    assert (St : exists s, step st = Ok (inr s) /\ l_err s = Some (Rabs (1 - 1)) /\ l_c s = Some k /\ l_n s = 1%nat /\ any (l_ki s) = true /\ l_len s = 1 /\ l_w s = f_weight m * (1005 / 1000)).
    { unfold step, iteration, st. cbn [l_w l_li l_ki l_n l_len start map].
      rewrite (same_uncracked brent maxeval _ _ _ U1). cbn [bind]. rewrite D. cbn [bind]. rewrite U2. cbn [bind]. rewrite I. cbn [bind option_map].
      replace (ogt (Some 1) 1) with false by (unfold ogt, oltb, Rltb; destruct (Rlt_dec 1 1); [lra|reflexivity]). cbn [Nat.eqb andb].
      cbn [option_map] in Near. rewrite Near. eexists. split; [reflexivity|]. repeat (split; [reflexivity|]). reflexivity. }
    destruct St as (s & St & S1 & S2 & S3 & S4 & S5 & S6). cbn [iterate]. rewrite Ct, St. cbn [bind].
    assert (Cf : continue 50 s = false) by (unfold continue; rewrite S1, Near; reflexivity).
    cbn [iterate]. rewrite Cf. cbn [bind]. unfold finish. rewrite S2, S3, S4. cbn [bind Nat.ltb Nat.leb andb].
    rewrite S5, S6, W. eexists. split; [reflexivity|]. cbn [c_ok c_self c_pure c_len c_weight]. repeat (split; [reflexivity|]). lra.
Qed.
End Ice.
