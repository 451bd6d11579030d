(** Property theorems C94: what a result of the coupled criterion says about the slab (examples/criterion_check.py). *)
From Coquelicot Require Import Coquelicot.
Require Import Verif.Py Verif.MTools Verif.MEigen Verif.MFields Verif.SAdm Verif.SSlab Verif.MRaster
  Verif.MSolution Verif.MAnalysis Verif.SBeam Verif.SBvp Verif.SEig Verif.SEnergy Verif.MEnvelope Verif.MCriterion
  Verif.SSegment Verif.SExact Verif.SCoupled Verif.PLam Verif.PSetup Verif.PLinAlg Verif.PSegment Verif.PEnvelope Verif.PCoupled Verif.PCreate2
  Verif.PropExact Verif.PropCoupled Verif.PCoupled2.
Open Scope R_scope.

(** C94: the criterion is evaluated for every layout with supported ends, at least one of the segments in between
    unsupported. Its value belongs to the energy released between the solved intact and the solved cracked slab, both with
    the skier at the middle, in J/m^2. *)
Theorem C94_energy eig solve brent maxeval quad eps layers E t phi w (li : list R) (ki : list bool) mi :
  accurate_quad quad eps -> pos_layers layers -> 0 < E -> 0 < t -> sound_solver solve -> complete_solver solve ->
  (forall o, Layered eig "skiers" (LList layers) false = Ok o ->
     let p := o_par (set_foundation_properties eig o t E (1 / 4) true) in
     stable p /\ good_eigenpairs (calc_system_matrix p) (eig (calc_system_matrix p))) ->
  (2 <= List.length li)%nat -> List.length ki = List.length li -> nth 0 ki false = true -> last ki false = true ->
  proper_segments li ki -> skier_weights li (List.length li) w = Ok mi -> 0 < unsupported_length li ki ->
  exists o1 o u c v, Layered eig "skiers" (LList layers) false = Ok o1 /\
    o_par o = o_par (set_foundation_properties eig o1 t E (1 / 4) true) /\ ready o /\
    evaluate (fun w li ki crack => create_skier_object eig solve brent maxeval (LList layers) w phi li ki crack E t)
      (incremental quad phi) w li ki = Ok (u, c, Some v) /\
    judged eps o phi w li ki c (Some v).
Proof.
  intros HQ P HE Ht So Co G N2 Lk K0 K1 Pr Em Pos.
  assert (G2 : forall o, Layered eig "skiers" (LList layers) false = Ok o -> stable (o_par (model_obj eig o E t))) by (intros o L; apply (G o L)).
  destruct (evaluated_judged eig solve brent maxeval quad eps HQ So layers E t P HE Ht (fun o L => proj2 (G o L))) as (o1 & o & L & SM & Rd & _ & J).
  destruct (judged_accepts eig solve brent maxeval quad So layers E t P HE Ht (fun o L => proj2 (G o L)) G2 Co phi w li ki mi Lk N2 K0 K1 Pr Em Pos) as (u & c & v & Ev & Jd).
  exists o1, o, u, c, v. split; [exact L|]. split; [apply SM|]. split; [exact Rd|]. split; [exact Ev|]. exact (J _ _ _ _ _ _ _ Jd).
Qed.
Print Assumptions C94_energy.

Lemma no_weight li mi : (forall l, In l li -> 0 <= l) -> 0 < rsum li -> skier_weights li (List.length li) 0 = Ok mi -> forall j, nth j mi 0 = 0.
Proof.
  intros A B C j. destruct (placement li 0 mi A B C) as (i & _ & _ & H1 & H2 & _). destruct (Nat.eq_dec j i) as [->|N]; [exact H1|exact (H2 j N)].
Qed.

(** C94: every outcome of the coupled criterion. Either the stress criterion exceeds its envelope everywhere without
    noticeable skier: then no weight is reported, and the value reported is that of the slab without skier whose whole length,
    extended by 50 m on both sides, loses its support. Or the value of the 1 mm long crack below the skier at 1.005 times the
    critical weight of the stress criterion already exceeds 1 or is 1 within 0.02. Or no crack is reported. Or the value
    reported is that of the reported weight, 1 within 0.002 or undefined, or else all segments lost their support. *)
Theorem C94_outcomes eig solve brent maxeval quad eps layers E t phi e c :
  accurate_quad quad eps -> pos_layers layers -> 0 < E -> 0 < t -> sound_solver solve ->
  (forall o, Layered eig "skiers" (LList layers) false = Ok o ->
     let p := o_par (set_foundation_properties eig o t E (1 / 4) true) in
     good_eigenpairs (calc_system_matrix p) (eig (calc_system_matrix p))) ->
  let total := 1000 * rsum (map snd layers) in
  0 < total ->
  coupled (fun w li ki crack => create_skier_object eig solve brent maxeval (LList layers) w phi li ki crack E t)
    (distances e) (incremental quad phi) (find_new_anticrack_length eig solve brent maxeval (LList layers) phi E t e)
    (find_minimum_force eig solve brent maxeval (LList layers) phi E t e) (rsum (map snd layers)) = Ok (Done c) ->
  exists o1 o m, Layered eig "skiers" (LList layers) false = Ok o1 /\
    o_par o = o_par (set_foundation_properties eig o1 t E (1 / 4) true) /\ ready o /\
    find_minimum_force eig solve brent maxeval (LList layers) phi E t e [total / 2; 0; 0; total / 2] [true; true; true; true] = Ok m /\
    c_crit c = f_weight m /\
    ((exists d, f_min m = Some d /\ 1 < d) /\ c_self c = true /\ c_ok c = true /\ c_weight c = 0 /\ c_len c = total /\
     (let li := [50000; total / 2; 0; 0; total / 2; 50000] in let ki := [true; false; false; false; false; true] in
      judged eps o phi 0 li ki (c_sk c) (c_g c) /\ (forall j, nth j (k_mi (c_sk c)) 0 = 0) /\ unsupported_length li ki = c_len c)
     \/
     c_self c = false /\ c_pure c = true /\ c_ok c = true /\ c_weight c = 1005 / 1000 * f_weight m /\ c_len c = 1 /\
     judged eps o phi (c_weight c) [total / 2 - 1 / 2; 1 / 2; 1 / 2; total / 2 - 1 / 2] [true; false; false; true] (c_sk c) (c_g c) /\
     (exists g, c_g c = Some g /\ (1 < g \/ Rabs (g - 1) < 2 / 100))
     \/
     c_self c = false /\ c_pure c = false /\ c_ok c = false /\ c_len c = 0 /\ (f_min m = None \/ f_weight m < 1)
     \/
     c_self c = false /\ c_pure c = false /\ c_ok c = true /\ f_weight m <= c_weight c <= 5 * (1005 / 1000 * f_weight m) /\
     exists li ki, ((c_iter c < 25)%nat /\ 0 < c_len c /\ (exists b, In b ki /\ b = true) /\ judged eps o phi (c_weight c) li ki (c_sk c) (c_g c) /\
                    (c_g c = None \/ exists g, c_g c = Some g /\ Rabs (g - 1) <= 2 / 1000)
                    \/ (forall b, In b ki -> b = false))).
Proof.
  intros HQ P HE Ht So G total T H.
  destruct (evaluated_judged eig solve brent maxeval quad eps HQ So layers E t P HE Ht G) as (o1 & o & L & SM & Rd & _ & J).
  set (create := fun w li ki crack => create_skier_object eig solve brent maxeval (LList layers) w phi li ki crack E t) in *.
  set (mf0 := find_minimum_force eig solve brent maxeval (LList layers) phi E t e) in *.
  pose proof H as H'. unfold coupled in H. fold total in H.
  destruct (mf0 [total / 2; 0; 0; total / 2] [true; true; true; true]) as [m|er] eqn:Em; [|discriminate]. cbn [bind] in H.
  exists o1, o, m. split; [exact L|]. split; [apply SM|]. split; [exact Rd|]. split; [reflexivity|].
  destruct (ogt (f_min m) 1) eqn:E1.
  - unfold self_collapse in H. cbn [map app] in H.
    destruct (evaluate create (incremental quad phi) 0 [50000; total / 2; 0; 0; total / 2; 50000] [true; false; false; false; false; true]) as [[[u k] g]|er] eqn:Ev; [|discriminate].
    cbn [bind] in H. apply Ok_inj in H. injection H as <-. cbn [c_crit c_self c_ok c_weight c_len c_sk c_g]. split; [reflexivity|]. left.
    split. { destruct (f_min m) as [d|]; [|discriminate]. exists d. split; [reflexivity|]. unfold ogt, oltb, Rltb in E1. destruct (Rlt_dec 1 d); [assumption|discriminate]. }
    split; [reflexivity|]. split; [reflexivity|]. split; [reflexivity|]. split; [reflexivity|]. cbv zeta.
    assert (Jd : judged eps o phi 0 [50000; total / 2; 0; 0; total / 2; 50000] [true; false; false; false; false; true] k g).
    { apply (J phi false). unfold evaluate in Ev. cbn [map] in Ev. unfold evaluated. fold create. cbn [map].
      destruct (create 0 [50000; total / 2; 0; 0; total / 2; 50000] [true; true; true; true; true; true] false) as [u'|er] eqn:Eu; [|discriminate]. cbn [bind] in Ev.
      destruct (create 0 [50000; total / 2; 0; 0; total / 2; 50000] [true; false; false; false; false; true] true) as [k'|er] eqn:Ek; [|discriminate]. cbn [bind] in Ev.
      destruct (incremental quad phi u' k' [true; true; true; true; true; true]) as [g'|er] eqn:Eg; [|discriminate]. cbn [bind] in Ev. apply Ok_inj in Ev. injection Ev as <- <- <-.
      exists u'. split; [exact Eu|]. split; [exact Ek|exact Eg]. }
    split; [exact Jd|]. split.
    + destruct Jd as (C0 & mi & _ & _ & _ & -> & W & _). refine (no_weight _ _ _ _ W).
      * intros l Hl. repeat (destruct Hl as [<-|Hl]; [lra|]). destruct Hl.
      * unfold rsum. simpl. lra.
    + unfold unsupported_length, unsupported_sum, rsum. cbn [List.length seq map nth fold_right]. lra.
  - destruct (oleb (f_min m) (Some 1) && Rleb 1 (f_weight m))%bool eqn:E2.
    2:{ apply Ok_inj in H. injection H as <-. cbn [c_crit c_self c_ok c_weight c_len c_sk c_g c_pure]. split; [reflexivity|]. right. right. left.
        repeat (split; [reflexivity|]). destruct (f_min m) as [d|]; [right|left; reflexivity].
        apply Bool.andb_false_iff in E2. destruct E2 as [E2|E2].
        - exfalso. unfold ogt, oltb, oleb, Rltb, Rleb in E1, E2. destruct (Rlt_dec 1 d); [discriminate|]. destruct (Rle_dec d 1); [discriminate|]. lra.
        - unfold Rleb in E2. destruct (Rle_dec 1 (f_weight m)); [discriminate|]. lra. }
    destruct (c_pure c) eqn:Pu.
    + destruct (iterate 25 _ 26 _) as [[k|s]|er] eqn:Ei in H; cbn [bind] in H; [| |discriminate].
      * apply Ok_inj in H. injection H as ->. apply iterate_first in Ei.
        2:{ intros s0 k Hk. destruct (iteration_inv _ _ _ _ _ _ _ _ _ _ Hk) as (c0 & g & _ & X & _). exact X. }
        2:{ intros s0 k Hk. destruct (iteration_inv _ _ _ _ _ _ _ _ _ _ Hk) as (c0 & g & _ & X & _). exact X. }
        assert (Ln : c_len c = 1 /\ c_crit c = f_weight m).
        { unfold iteration in Ei. cbn [l_w l_li l_ki l_n l_len start] in Ei. 
          destruct (create _ _ _ false) as [u|er]; [|discriminate]. cbn [bind] in Ei. destruct (distances e u) as [d|er]; [|discriminate]. cbn [bind] in Ei.
          destruct (create _ _ _ true) as [k|er]; [|discriminate]. cbn [bind] in Ei. destruct (incremental quad phi u k _) as [g|er]; [|discriminate]. cbn [bind] in Ei.
          match type of Ei with (if ?b then _ else _) = _ => destruct b end.
          - apply Ok_inj in Ei. injection Ei as <-. split; reflexivity.
          - match type of Ei with (if ?b then _ else _) = _ => destruct b end; [|discriminate].
            destruct (find_new_anticrack_length _ _ _ _ _ _ _ _ _ _ _ _) as [[[a b] cc']|er]; discriminate. }
        destruct Ln as [Ln Cr]. destruct (iteration_inv _ _ _ _ _ _ _ _ _ _ Ei) as (c0 & g & Ev & _ & Ea & O & Pp & Sf & W & Sk & Gk & It).
        cbn [l_w l_li l_ki start] in Ev, W. split; [exact Cr|]. right. left. split; [exact Sf|]. split; [reflexivity|]. split; [exact O|].
        split; [rewrite W; ring|]. split; [exact Ln|]. rewrite W, Sk, Gk. split; [exact (J _ _ _ _ _ _ _ Ev)|].
        destruct g as [g|]; [|discriminate]. exists g. split; [reflexivity|]. apply Bool.orb_prop in Ea. destruct Ea as [Ea|Ea].
        -- left. unfold ogt, oltb, Rltb in Ea. destruct (Rlt_dec 1 g); [assumption|discriminate].
        -- right. unfold oltb, option_map, Rltb in Ea. destruct (Rlt_dec (Rabs (g - 1)) (2 / 100)); [assumption|discriminate].
      * exfalso. assert (X : forall b s d ds, finish b (f_weight m) s d ds = Ok c -> False).
        { intros b s0 d ds. unfold finish. destruct (l_c s0); [|discriminate]. intros X. apply Ok_inj in X. subst c. discriminate. }
        destruct (Nat.ltb (l_n s) 25 && any (l_ki s))%bool.
        -- destruct (Rltb 0 (l_len s)); [|discriminate]. destruct (finish _ _ _ _ _) as [c1|er] eqn:F; [|discriminate]. cbn [bind] in H. apply Ok_inj in H. injection H as ->. exact (X _ _ _ _ F).
        -- destruct (negb (any (l_ki s))); [|discriminate]. destruct (finish _ _ _ _ _) as [c1|er] eqn:F; [|discriminate]. cbn [bind] in H. apply Ok_inj in H. injection H as ->. exact (X _ _ _ _ F).
    + assert (Q : c_ok c = true /\ c_self c = false).
      { destruct (iterate 25 _ 26 _) as [[k|s]|er] eqn:Ei in H; cbn [bind] in H; [| |discriminate].
        - apply Ok_inj in H. injection H as ->. apply iterate_first in Ei.
          2:{ intros s0 k Hk. destruct (iteration_inv _ _ _ _ _ _ _ _ _ _ Hk) as (c0 & g & _ & X & _). exact X. }
          2:{ intros s0 k Hk. destruct (iteration_inv _ _ _ _ _ _ _ _ _ _ Hk) as (c0 & g & _ & X & _). exact X. }
          destruct (iteration_inv _ _ _ _ _ _ _ _ _ _ Ei) as (c0 & g & _ & _ & _ & O & Pp & Sf & _). auto.
        - assert (X : forall s d ds, finish true (f_weight m) s d ds = Ok c -> c_ok c = true /\ c_self c = false).
          { intros s0 d ds. unfold finish. destruct (l_c s0); [|discriminate]. intros X. apply Ok_inj in X. subst c. auto. }
          destruct (Nat.ltb (l_n s) 25 && any (l_ki s))%bool.
          + destruct (Rltb 0 (l_len s)); [|discriminate]. destruct (finish _ _ _ _ _) as [c1|er] eqn:F; [|discriminate]. cbn [bind] in H. apply Ok_inj in H. injection H as ->. exact (X _ _ _ F).
          + destruct (negb (any (l_ki s))); [|discriminate]. destruct (finish _ _ _ _ _) as [c1|er] eqn:F; [|discriminate]. cbn [bind] in H. apply Ok_inj in H. injection H as ->. exact (X _ _ _ F). }
      destruct Q as [O Sf]. destruct (C62_result_partial _ _ _ _ _ _ _ H' O Sf Pu) as (m' & li & ki & M & C1 & C2 & C3 & C4 & _ & _ & C5).
      fold total in M. fold mf0 in M. assert (MM : m' = m) by (rewrite Em in M; apply Ok_inj in M; congruence). subst m'.
      split; [exact C1|]. right. right. right. split; [exact Sf|]. split; [reflexivity|]. split; [exact O|]. rewrite C1 in C4. split; [exact C4|]. exists li, ki.
      destruct C5 as [(A1 & A2 & A3 & (u & U1 & U2 & U3) & A5)|(_ & A)]; [left|right; exact A].
      split; [exact A1|]. split; [exact A2|]. split; [exact A3|]. split; [|exact A5]. apply (J phi false). exists u. auto.
Qed.
Print Assumptions C94_outcomes.

(** A layout with a crack below the skier of 80 kg on 90 mm of ice. *)
Example C94_example_energy brent maxeval : exists o u c v,
  evaluate (fun w li ki crack => create_skier_object exact_eig elim_solve brent maxeval (LList [(917, 90)]) w 30 li ki crack (1 / 4) 30)
    (incremental (fun f a b => RInt f a b) 30) 80 [5000; 100; 100; 5000] [true; false; false; true] = Ok (u, c, Some v) /\
  judged 0 o 30 80 [5000; 100; 100; 5000] [true; false; false; true] c (Some v).
Proof.
  destruct (C94_energy exact_eig elim_solve brent maxeval (fun f a b => RInt f a b) 0 [(917, 90)] (1 / 4) 30 30 80 [5000; 100; 100; 5000] [true; false; false; true] [0; 80; 0]) as (o1 & o & u & c & v & _ & _ & _ & Ev & J).
  - intros f a b _. rewrite Rminus_diag_eq, Rabs_R0 by reflexivity. lra.
  - constructor; [simpl; lra|constructor].
  - lra.
  - lra.
  - exact elim_sound.
  - exact elim_complete.
  - exact ice_hyps.
  - simpl; lia.
  - reflexivity.
  - reflexivity.
  - reflexivity.
  - split.
    + intros i Hi. do 4 (destruct i as [|i]; [simpl; lra|]). simpl in Hi. lia.
    + exists 0%nat. simpl. split; [lia|]. split; [reflexivity|lra].
  - unfold skier_weights. cbn [List.length Nat.eqb]. unfold rsum. cbn [fold_right median_loop].
    unfold Rleb, Reqb. repeat (destruct (Rle_dec _ _); try lra). repeat (destruct (Req_EM_T _ _); try lra). reflexivity.
  - unfold unsupported_length, unsupported_sum, rsum. cbn [List.length seq map nth fold_right]. lra.
  - exists o, u, c, v. auto.
Qed.

(** Self-collapse is always reported as such: the model without skier is solved. *)
Theorem C94_self_collapse eig solve brent maxeval quad layers E t phi e m d :
  pos_layers layers -> 0 < E -> 0 < t -> sound_solver solve -> complete_solver solve ->
  (forall o, Layered eig "skiers" (LList layers) false = Ok o ->
     let p := o_par (set_foundation_properties eig o t E (1 / 4) true) in
     stable p /\ good_eigenpairs (calc_system_matrix p) (eig (calc_system_matrix p))) ->
  let total := 1000 * rsum (map snd layers) in
  0 < total ->
  find_minimum_force eig solve brent maxeval (LList layers) phi E t e [total / 2; 0; 0; total / 2] [true; true; true; true] = Ok m ->
  f_min m = Some d -> 1 < d ->
  exists c v, coupled (fun w li ki crack => create_skier_object eig solve brent maxeval (LList layers) w phi li ki crack E t)
    (distances e) (incremental quad phi) (find_new_anticrack_length eig solve brent maxeval (LList layers) phi E t e)
    (find_minimum_force eig solve brent maxeval (LList layers) phi E t e) (rsum (map snd layers)) = Ok (Done c) /\
    c_self c = true /\ c_g c = Some v /\ c_iter c = 0%nat.
Proof.
  intros P HE Ht So Co G total T Em Hd H1.
  assert (G2 : forall o, Layered eig "skiers" (LList layers) false = Ok o -> stable (o_par (model_obj eig o E t))) by (intros o L; apply (G o L)).
  destruct (judged_accepts eig solve brent maxeval quad So layers E t P HE Ht (fun o L => proj2 (G o L)) G2 Co phi 0
    [50000; total / 2; 0; 0; total / 2; 50000] [true; false; false; false; false; true] [0; 0; 0; 0; 0]) as (u & c & v & Ev & _).
  - reflexivity.
  - simpl; lia.
  - reflexivity.
  - reflexivity.
  - split.
    + intros i Hi. do 6 (destruct i as [|i]; [simpl; lra|]). simpl in Hi. lia.
    + exists 0%nat. simpl. split; [lia|]. split; [reflexivity|lra].
  - unfold skier_weights. cbn [List.length Nat.eqb]. unfold rsum. cbn [fold_right median_loop].
    unfold Rleb, Reqb. repeat (destruct (Rle_dec _ _); try lra); repeat (destruct (Req_EM_T _ _); try lra); reflexivity.
  - unfold unsupported_length, unsupported_sum, rsum. cbn [List.length seq map nth fold_right]. lra.
  - unfold coupled. fold total. rewrite Em. cbn [bind]. rewrite Hd. unfold ogt, oltb, Rltb. destruct (Rlt_dec 1 d); [|lra].
    unfold self_collapse. cbn [map app]. rewrite Ev. cbn [bind]. eexists _, v. split; [reflexivity|]. split; [reflexivity|]. split; reflexivity.
Qed.
Print Assumptions C94_self_collapse.

(** The hypotheses of [C94_outcomes] hold: for 90 mm of ice, every envelope and slope there is a quadrature (of large error)
    with which the undamped search ends. *)
Lemma select_len {A B} m (x : list A) (y : list B) : List.length x = List.length y -> List.length (select m x) = List.length (select m y).
Proof.
  revert x y. induction m as [|b m IH]; intros [|a x] [|c y] H; try discriminate; try reflexivity. injection H as H. simpl.
  destruct b; simpl; rewrite (IH x y H); reflexivity.
Qed.
Lemma ginc_shift p e ld Ca Cb li k0 ki G G1 G2 K :
  ginc (fun f a b => RInt f a b) p e ld Ca Cb li ki k0 = Ok (Some G, Some G1, Some G2) ->
  select (map2 (fun a b => andb a (negb b)) k0 ki) li = [1 / 2; 1 / 2] ->
  ginc (fun f a b => RInt f a b + K) p e ld Ca Cb li ki k0 = Ok (Some (G + 2 * K), Some (G1 + K), Some (G2 + K)).
Proof.
  intros H S. unfold ginc in *. destruct (negb (Nat.eqb (List.length k0) (List.length ki))); [discriminate|].
  destruct (Nat.eqb_spec (List.length Ca) (List.length ki)) as [LA|]; [|discriminate]. destruct (Nat.eqb_spec (List.length Cb) (List.length ki)) as [LB|]; [|discriminate].
  destruct (Nat.eqb_spec (List.length li) (List.length ki)) as [LL|]; [|discriminate]. cbn [andb negb] in *.
  set (msk := map2 _ k0 ki) in *.
  pose proof (select_len msk Ca li ltac:(congruence)) as SA. pose proof (select_len msk Cb li ltac:(congruence)) as SB.
  rewrite S in *. set (A := select msk Ca) in *. set (B := select msk Cb) in *. cbv zeta in *.
  assert (Q : forall l A B r, List.length A = List.length l -> List.length B = List.length l ->
    ginc_loop (fun f a b => RInt f a b) p e ld A B l = Ok r ->
    ginc_loop (fun f a b => RInt f a b + K) p e ld A B l = Ok (fst r + INR (List.length l) * K, snd r + INR (List.length l) * K)).
  { clear. intros l. induction l as [|x l IH]; intros [|a A] [|b B] r L1 L2 H; try discriminate; cbn [ginc_loop] in H |- *.
    { apply Ok_inj in H. subst r. simpl. f_equal. f_equal; ring. }
    destruct (zsol_checked p e ld 0 a x true); [|discriminate]. destruct (zsol_checked p e ld 0 b x false); [|discriminate]. cbn [bind] in H |- *.
    destruct (ginc_loop _ p e ld A B l) as [r'|] eqn:E; [|discriminate]. cbn [bind] in H. apply Ok_inj in H. subst r. injection L1 as L1. injection L2 as L2.
    rewrite (IH A B r' L1 L2 E). cbn [bind fst snd List.length]. rewrite S_INR. f_equal. f_equal; ring. }
  destruct (ginc_loop (fun f a b => RInt f a b) p e ld A B [1 / 2; 1 / 2]) as [r|] eqn:E; [|discriminate].
  rewrite (Q _ _ _ _ SA SB E). cbn [bind fst snd List.length INR] in *.
  destruct (Rlt_dec 0 (rsum [1 / 2; 1 / 2])) as [X|X]; [|exfalso; apply X; unfold rsum; simpl; lra].
  apply Ok_inj in H. injection H as <- <- <-.
  replace (rsum [1 / 2; 1 / 2]) with 1 by (unfold rsum; simpl; lra). do 2 f_equal; [f_equal|]; f_equal; field.
Qed.
Lemma ice_pos : pos_layers [(917, 90)].
Proof. constructor; [simpl; lra|constructor]. Qed.
Example C94_example brent maxeval phi e : known_envelope (e_name e) -> exists quad eps c, accurate_quad quad eps /\
  coupled (fun w li ki crack => create_skier_object exact_eig elim_solve brent maxeval (LList [(917, 90)]) w phi li ki crack (1 / 4) 30)
    (distances e) (incremental quad phi) (find_new_anticrack_length exact_eig elim_solve brent maxeval (LList [(917, 90)]) phi (1 / 4) 30 e)
    (find_minimum_force exact_eig elim_solve brent maxeval (LList [(917, 90)]) phi (1 / 4) 30 e) (rsum (map snd [(917, 90)])) = Ok (Done c).
Proof.
  intros Kn. set (total := 1000 * rsum (map snd [(917, 90)])).
  assert (T : total = 90000) by (unfold total, rsum; simpl; lra).
  assert (HE : 0 < 1 / 4) by lra. assert (Ht : 0 < 30) by lra.
  assert (Q0 : forall K, accurate_quad (fun f a b => RInt f a b + K) (Rabs K)).
  { intros K f a b _. replace (RInt f a b + K - RInt f a b) with K by ring. lra. }
  destruct (C61_accepted exact_eig elim_solve brent maxeval [(917, 90)] phi [total / 2; 0; 0; total / 2] [true; true; true; true] (1 / 4) 30 e 1
    ice_pos HE Ht elim_sound elim_complete ice_hyps) as (m & _ & Em & _).
  { simpl; lia. } { reflexivity. } { intros l Hl. repeat (destruct Hl as [<-|Hl]; [lra|]). destruct Hl. } { unfold rsum; simpl; lra. } { simpl; lia. }
  { unfold seg_start, rsum. simpl. lra. } { exact Kn. }
  destruct (ogt (f_min m) 1) eqn:E1.
  { destruct (f_min m) as [d|] eqn:Ed; [|discriminate]. unfold ogt, oltb, Rltb in E1. destruct (Rlt_dec 1 d) as [D|]; [|discriminate].
    destruct (C94_self_collapse exact_eig elim_solve brent maxeval (fun f a b => RInt f a b + 0) [(917, 90)] (1 / 4) 30 phi e m d ice_pos HE Ht
      elim_sound elim_complete ice_hyps ltac:(fold total; lra) Em Ed D) as (c & v & H & _). exists (fun f a b => RInt f a b + 0), (Rabs 0), c. split; [apply Q0|exact H]. }
  destruct (oleb (f_min m) (Some 1) && Rleb 1 (f_weight m))%bool eqn:E2.
  2:{ exists (fun f a b => RInt f a b + 0), (Rabs 0). eexists. split; [apply Q0|]. unfold coupled. fold total. rewrite Em. cbn [bind]. rewrite E1, E2. reflexivity. }
  assert (G2 : forall o, Layered exact_eig "skiers" (LList [(917, 90)]) false = Ok o -> stable (o_par (model_obj exact_eig o (1 / 4) 30))) by (intros o L; apply (ice_hyps o L)).
  set (w := f_weight m * (1005 / 1000)).
  assert (Em2 : exists mi, skier_weights [total / 2 - 1 / 2; 1 / 2; 1 / 2; total / 2 - 1 / 2] 4 w = Ok mi).
  { unfold skier_weights. cbn [List.length Nat.eqb]. unfold rsum. cbn [fold_right median_loop].
    unfold Rleb, Reqb. repeat (destruct (Rle_dec _ _); try lra); repeat (destruct (Req_EM_T _ _); try lra); eexists; reflexivity. }
  destruct Em2 as [mi Em2].
  destruct (judged_accepts exact_eig elim_solve brent maxeval (fun f a b => RInt f a b) elim_sound [(917, 90)] (1 / 4) 30 ice_pos HE Ht
    (fun o L => proj2 (ice_hyps o L)) G2 elim_complete phi w [total / 2 - 1 / 2; 1 / 2; 1 / 2; total / 2 - 1 / 2] [true; false; false; true] mi) as (u & c & v & _ & (u' & U1 & U2 & U3)).
  { reflexivity. } { simpl; lia. } { reflexivity. } { reflexivity. }
  { split.
    - intros i Hi. do 4 (destruct i as [|i]; [simpl; lra|]). simpl in Hi. lia.
    - exists 0%nat. simpl. split; [lia|]. split; [reflexivity|lra]. }
  { exact Em2. } { unfold unsupported_length, unsupported_sum, rsum. cbn [List.length seq map nth fold_right]. lra. }
  cbn [map] in U1, U3. unfold incremental in U3.
  destruct (ginc _ _ _ _ _ _ _ _ _) as [[[G G1] G2']|er] eqn:EG; [|discriminate]. cbn [bind] in U3.
  destruct G1 as [G1|]; [|discriminate]. destruct G2' as [G2'|]; [|discriminate].
  assert (G' : exists g, G = Some g).
  { pose proof EG as EG'. unfold ginc in EG'. repeat (match type of EG' with (if ?b then _ else _) = _ => destruct b; [discriminate|] end).
    destruct (ginc_loop _ _ _ _ _ _ _) as [r|]; [|discriminate]. cbn [bind] in EG'. destruct (select _ (k_li c)).
    - apply Ok_inj in EG'. injection EG' as <-. eauto.
    - destruct (Rlt_dec _ _); [|discriminate]. apply Ok_inj in EG'. injection EG' as <-. eauto. }
  destruct G' as [g ->]. set (K := 1 + Rabs G1).
  destruct (PCreate.create_keeps _ _ _ _ _ _ _ _ _ _ _ _ _ U2) as (KL & _ & KK). cbn [map] in KK.
  apply (ginc_shift _ _ _ _ _ _ _ _ _ _ _ K) in EG. 2:{ rewrite KL, KK. reflexivity. }
  set (quad := fun f a b => RInt f a b + K) in *.
  assert (I : incremental quad phi u' c [true; true; true; true] = Ok (Some (fracture_toughness_criterion (1000 * (G1 + K)) (1000 * (G2' + K))))).
  { unfold incremental. match goal with |- bind ?x _ = _ => assert (EX : x = Ok (Some (g + 2 * K), Some (G1 + K), Some (G2' + K))) by exact EG; rewrite EX end. reflexivity. }
  assert (Big : 1 < fracture_toughness_criterion (1000 * (G1 + K)) (1000 * (G2' + K))).
  { unfold fracture_toughness_criterion. pose proof (rpow_nonneg (Rabs (1000 * (G2' + K)) / (79 / 100)) (1 / (45 / 100))) as N.
    assert (Y : 0 <= Rabs (1000 * (G2' + K)) / (79 / 100)) by (apply Rmult_le_pos; [apply Rabs_pos|lra]). specialize (N Y).
    assert (1 < rpow (Rabs (1000 * (G1 + K)) / (56 / 100)) (1 / (2 / 10))); [|lra].
    assert (1000 <= Rabs (1000 * (G1 + K))).
    { unfold K. pose proof (Rle_abs (- G1)) as H. rewrite Rabs_Ropp in H. rewrite Rabs_right by lra. lra. }
    assert (X : 1 < Rabs (1000 * (G1 + K)) / (56 / 100)) by lra.
    rewrite rpow_Rpower by lra. apply Rle_lt_trans with (Rpower (Rabs (1000 * (G1 + K)) / (56 / 100)) 0); [rewrite Rpower_O; lra|]. apply Rpower_lt; lra. }
  destruct (create_lengths _ _ _ _ _ _ _ _ _ _ _ _ _ U1) as [L1 L2].
  destruct (distances_total e u' Kn L1) as [d D]; [intros Z; rewrite Z in L2; simpl in L2; lia|].
  exists quad, (Rabs K). eexists. split; [apply Q0|]. unfold coupled. fold total. rewrite Em. cbn [bind]. rewrite E1, E2. cbv zeta.
  fold w. cbn [iterate]. 
  match goal with |- context [continue 25 ?s] => replace (continue 25 s) with true end.
  2:{ unfold continue. cbn [l_err l_n l_ki start option_map any existsb Nat.ltb Nat.leb orb]. unfold ogt, oltb. rewrite Rabs_right by lra. unfold Rltb. destruct (Rlt_dec _ _); [reflexivity|lra]. }
  unfold iteration at 1. cbn [l_w l_li l_ki l_n l_len start map]. rewrite U1. cbn [bind]. rewrite D. cbn [bind]. rewrite U2. cbn [bind]. rewrite I. cbn [bind].
  match goal with |- context [(Nat.eqb 1 1 && ?b)%bool] => replace b with true end.
  2:{ unfold ogt, oltb, Rltb. destruct (Rlt_dec 1 _); [reflexivity|contradiction]. }
  cbn [Nat.eqb andb bind]. reflexivity.
Qed.
