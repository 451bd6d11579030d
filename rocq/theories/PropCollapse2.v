(** Property theorems C94 for the damped variant and for the criterion with its fallbacks (examples/criterion_check.py). *)
From Coquelicot Require Import Coquelicot.
Require Import Verif.Py Verif.MTools Verif.MEigen Verif.MFields Verif.SAdm Verif.SSlab Verif.MRaster
  Verif.MSolution Verif.MAnalysis Verif.SBeam Verif.SBvp Verif.SEig Verif.SEnergy Verif.MEnvelope Verif.MCriterion
  Verif.SSegment Verif.SExact Verif.SCoupled Verif.PLam Verif.PSetup Verif.PLinAlg Verif.PSegment Verif.PEnvelope Verif.PCoupled Verif.PCreate2
  Verif.PropExact Verif.PropCoupled Verif.PCoupled2 Verif.PropCollapse
  Verif.PForce Verif.PCreate Verif.SCritical Verif.PCritical5 Verif.PCritical6 Verif.PCritical12 Verif.PropCritical Verif.PropSearch.
Open Scope R_scope.

(** C94: every outcome of the damped variant, whose model is only a tenth as long. As [C94_outcomes], but a pure stress
    failure needs a value above 1, any success is reached in fewer than 50 iterations, and the search may report that it has
    not converged. *)
Theorem C94_dampened eig solve brent maxeval quad eps layers E t phi e damping fuel c :
  accurate_quad quad eps -> pos_layers layers -> 0 < E -> 0 < t -> sound_solver solve ->
  (forall o, Layered eig "skiers" (LList layers) false = Ok o ->
     let p := o_par (set_foundation_properties eig o t E (1 / 4) true) in
     good_eigenpairs (calc_system_matrix p) (eig (calc_system_matrix p))) ->
  let total := 100 * rsum (map snd layers) in
  0 < total ->
  criterion_dampened eig solve brent maxeval quad (LList layers) phi damping e E t fuel = Ok (Some c) ->
  exists o1 o m, Layered eig "skiers" (LList layers) false = Ok o1 /\
    o_par o = o_par (set_foundation_properties eig o1 t E (1 / 4) true) /\ ready o /\
    find_minimum_force eig solve brent maxeval (LList layers) phi E t e [total / 2; 0; 0; total / 2] [true; true; true; true] = Ok m /\
    c_crit c = f_weight m /\
    ((exists d, f_min m = Some d /\ 1 < d) /\ c_self c = true /\ c_ok c = true /\ c_weight c = 0 /\ c_len c = total /\
     (let li := [50000; total / 2; 0; 0; total / 2; 50000] in let ki := [true; false; false; false; false; true] in
      judged eps o phi 0 li ki (c_sk c) (c_g c) /\ (forall j, nth j (k_mi (c_sk c)) 0 = 0) /\ unsupported_length li ki = c_len c)
     \/
     c_self c = false /\ c_pure c = true /\ c_ok c = true /\ c_weight c = 1005 / 1000 * f_weight m /\ c_len c = 1 /\
     judged eps o phi (c_weight c) [total / 2 - 1 / 2; 1 / 2; 1 / 2; total / 2 - 1 / 2] [true; false; false; true] (c_sk c) (c_g c) /\
     (exists g, c_g c = Some g /\ 1 < g)
     \/
     c_self c = false /\ c_pure c = false /\ c_ok c = false /\
     (c_len c = 0 /\ (f_min m = None \/ f_weight m < 1) \/ 1 <= f_weight m /\ (1 <= c_iter c)%nat)
     \/
     c_self c = false /\ c_pure c = false /\ c_ok c = true /\ 1 <= f_weight m /\ (c_iter c < 50)%nat /\
     exists li ki, (exists b, In b ki /\ b = true) /\ judged eps o phi (c_weight c) li ki (c_sk c) (c_g c) /\
                   (c_g c = None \/ exists g, c_g c = Some g /\ Rabs (g - 1) <= 2 / 1000)).
Proof.
  intros HQ P HE Ht So G total T H.
  destruct (evaluated_judged eig solve brent maxeval quad eps HQ So layers E t P HE Ht G) as (o1 & o & L & SM & Rd & _ & J).
  unfold criterion_dampened in H. cbn [thickness bind] in H.
  set (create := fun w li ki crack => create_skier_object eig solve brent maxeval (LList layers) w phi li ki crack E t) in *.
  set (mf0 := find_minimum_force eig solve brent maxeval (LList layers) phi E t e) in *.
  pose proof H as H'. unfold coupled_dampened in H. fold total in H.
  destruct (mf0 [total / 2; 0; 0; total / 2] [true; true; true; true]) as [m|er] eqn:Em; [|discriminate]. cbn [bind] in H.
  exists o1, o, m. split; [exact L|]. split; [apply SM|]. split; [exact Rd|]. split; [reflexivity|].
  destruct (ogt (f_min m) 1) eqn:E1.
  - unfold self_collapse in H. cbn [map app] in H.
    destruct (evaluate create (incremental quad phi) 0 [50000; total / 2; 0; 0; total / 2; 50000] [true; false; false; false; false; true]) as [[[u k] g]|er] eqn:Ev; [|discriminate].
    cbn [bind] in H. apply Ok_inj in H. injection H as <-. cbn [c_crit c_self c_ok c_weight c_len c_sk c_g]. split; [reflexivity|]. left.
    split. { destruct (f_min m) as [d|]; [|discriminate]. exists d. split; [reflexivity|]. unfold ogt, oltb, Rltb in E1. destruct (Rlt_dec 1 d); [assumption|discriminate]. }
    split; [reflexivity|]. split; [reflexivity|]. split; [reflexivity|]. split; [reflexivity|]. cbv zeta.
    assert (Jd : judged eps o phi 0 [50000; total / 2; 0; 0; total / 2; 50000] [true; false; false; false; false; true] k g).
    { apply (J phi false). unfold evaluate in Ev. cbn [map] in Ev. unfold evaluated. fold create. cbn [map].
      destruct (create 0 [50000; total / 2; 0; 0; total / 2; 50000] [true; true; true; true; true; true] false) as [u'|er] eqn:Eu; [|discriminate]. cbn [bind] in Ev.
      destruct (create 0 [50000; total / 2; 0; 0; total / 2; 50000] [true; false; false; false; false; true] true) as [k'|er] eqn:Ek; [|discriminate]. cbn [bind] in Ev.
      destruct (incremental quad phi u' k' [true; true; true; true; true; true]) as [g'|er] eqn:Eg; [|discriminate]. cbn [bind] in Ev. apply Ok_inj in Ev. injection Ev as <- <- <-.
      exists u'. split; [exact Eu|]. split; [exact Ek|exact Eg]. }
    split; [exact Jd|]. split.
    + destruct Jd as (C0 & mi & _ & _ & _ & -> & W & _). refine (no_weight _ _ _ _ W).
      * intros l Hl. repeat (destruct Hl as [<-|Hl]; [lra|]). destruct Hl.
      * unfold rsum. simpl. lra.
    + unfold unsupported_length, unsupported_sum, rsum. cbn [List.length seq map nth fold_right]. lra.
  - destruct (oleb (f_min m) (Some 1) && Rleb 1 (f_weight m))%bool eqn:E2.
    2:{ apply Ok_inj in H. injection H as <-. cbn [c_crit c_self c_ok c_weight c_len c_sk c_g c_pure]. split; [reflexivity|]. right. right. left.
        repeat (split; [reflexivity|]). left. split; [reflexivity|]. destruct (f_min m) as [d|]; [right|left; reflexivity].
        apply Bool.andb_false_iff in E2. destruct E2 as [E2|E2].
        - exfalso. unfold ogt, oltb, oleb, Rltb, Rleb in E1, E2. destruct (Rlt_dec 1 d); [discriminate|]. destruct (Rle_dec d 1); [discriminate|]. lra.
        - unfold Rleb in E2. destruct (Rle_dec 1 (f_weight m)); [discriminate|]. lra. }
    assert (W1 : 1 <= f_weight m). { apply andb_prop in E2 as [_ E2]. unfold Rleb in E2. destruct (Rle_dec 1 (f_weight m)); [assumption|discriminate]. }
    destruct (raise_weight _ _ _ _ _ _) as [[hi|]|er]; [|discriminate|discriminate]. cbn [bind] in H.
    destruct (iterate 50 _ 51 _) as [[k|s]|er] eqn:Ei in H; cbn [bind] in H; [| |discriminate].
    + apply Ok_inj in H. injection H as ->. apply iterate_first in Ei.
      2:{ intros s0 k Hk. destruct (iteration_inv _ _ _ _ _ _ _ _ _ _ Hk) as (c0 & g & _ & X & _). exact X. }
      2:{ intros s0 k Hk. destruct (iteration_inv _ _ _ _ _ _ _ _ _ _ Hk) as (c0 & g & _ & X & _). exact X. }
      assert (Ln : c_len c = 1 /\ c_crit c = f_weight m).
      { unfold iteration in Ei. cbn [l_w l_li l_ki l_n l_len start] in Ei.
        destruct (create _ _ _ false) as [u|er]; [|discriminate]. cbn [bind] in Ei. destruct (distances e u) as [d|er]; [|discriminate]. cbn [bind] in Ei.
        destruct (create _ _ _ true) as [k|er]; [|discriminate]. cbn [bind] in Ei. destruct (incremental quad phi u k _) as [g|er]; [|discriminate]. cbn [bind] in Ei.
        match type of Ei with (if ?b then _ else _) = _ => destruct b end.
        - apply Ok_inj in Ei. injection Ei as <-. split; reflexivity.
        - match type of Ei with (if ?b then _ else _) = _ => destruct b end; [|discriminate].
          destruct (find_new_anticrack_length _ _ _ _ _ _ _ _ _ _ _ _) as [[[a b] cc']|er]; discriminate. }
      destruct Ln as [Ln Cr]. destruct (iteration_inv _ _ _ _ _ _ _ _ _ _ Ei) as (c0 & g & Ev & _ & Ea & O & Pp & Sf & W & Sk & Gk & It).
      cbn [l_w l_li l_ki start] in Ev, W. split; [exact Cr|]. right. left. split; [exact Sf|]. split; [exact Pp|]. split; [exact O|].
      split; [rewrite W; ring|]. split; [exact Ln|]. rewrite W, Sk, Gk. split; [exact (J _ _ _ _ _ _ _ Ev)|].
      destruct g as [g|]; [|discriminate]. exists g. split; [reflexivity|]. unfold ogt, oltb, Rltb in Ea. destruct (Rlt_dec 1 g); [assumption|discriminate].
    + destruct (finish _ _ _ _ _) as [c1|er] eqn:F; [|discriminate]. cbn [bind] in H. apply Ok_inj in H. injection H as ->.
      pose proof F as F'. unfold finish in F. destruct (l_c s) as [c1|] eqn:Lc; [|discriminate]. apply Ok_inj in F.
      assert (Q : c_self c = false /\ c_pure c = false /\ c_crit c = f_weight m /\ c_iter c = l_n s) by (subst c; auto). destruct Q as (Q1 & Q2 & Q3 & Q4).
      split; [exact Q3|]. right. right. destruct (c_ok c) eqn:O.
      * right. destruct (C62_result_dampened _ _ _ _ _ _ _ _ _ H' O Q1 Q2) as (m' & li & ki & M & C1 & C2 & C3 & _ & C5 & (u & U1 & U2 & U3) & C7).
        split; [exact Q1|]. split; [exact Q2|]. split; [reflexivity|]. split; [exact W1|]. split; [exact C3|]. exists li, ki. split; [exact C5|]. split; [|exact C7].
        apply (J phi true). exists u. auto.
      * left. split; [exact Q1|]. split; [exact Q2|]. split; [reflexivity|]. right. split; [exact W1|]. rewrite Q4.
        assert (Cn : continue 50 (start total (f_weight m * (1005 / 1000)) (f_weight m) hi m) = true).
        { unfold continue. cbn [l_n l_err l_ki start any existsb]. cbn. unfold ogt, oltb, option_map, Rltb. rewrite Rabs_pos_eq by lra. destruct (Rlt_dec (2 / 1000) 1000); [reflexivity|lra]. }
        cbn [iterate] in Ei. rewrite Cn in Ei. clear - Ei.
        match type of Ei with bind ?x _ = _ => destruct x as [[k|s1]|er] eqn:E1; cbn [bind] in Ei; [discriminate| |discriminate] end.
        destruct (iteration_inv _ _ _ _ _ _ _ _ _ _ E1) as (c0 & g & _ & X & _). cbn [l_n start] in X. revert s1 X Ei E1.
        assert (forall fuel s1, (1 <= l_n s1)%nat -> iterate 50 (iteration create (distances e) (incremental quad phi) (find_new_anticrack_length eig solve brent maxeval (LList layers) phi E t e) true (fun (g : option R) (_ : option R) => ogt g 1) (damped_weight damping) (f_weight m)) fuel s1 = Ok (inr s) -> (1 <= l_n s)%nat) as Q.
        { induction fuel as [|fuel IH]; intros s1 N; cbn [iterate]; destruct (continue 50 s1); try discriminate; try (intros H; apply Ok_inj in H; injection H as <-; exact N).
          match goal with |- bind ?x _ = _ -> _ => destruct x as [[k|s2]|er] eqn:E2; cbn [bind]; [discriminate| |discriminate] end.
          destruct (iteration_inv _ _ _ _ _ _ _ _ _ _ E2) as (c1 & g1 & _ & Y & _). apply IH. lia. }
        intros s1 X Ei _. apply (Q 50%nat s1); [lia|exact Ei].
Qed.
Print Assumptions C94_dampened.

(** C94: whatever the criterion reports as a crack, undamped or after one of its fallbacks, is judged by the released energy of
    a model with the weak layer given, or with one of 30 mm; only a model all of whose segments lost their support is not. *)
Theorem C94_criterion eig solve brent maxeval quad eps layers E t phi e fuel c :
  accurate_quad quad eps -> pos_layers layers -> 0 < E -> 0 < t -> sound_solver solve ->
  (forall o t', t' = t \/ t' = 30 -> Layered eig "skiers" (LList layers) false = Ok o ->
     let p := o_par (set_foundation_properties eig o t' E (1 / 4) true) in
     good_eigenpairs (calc_system_matrix p) (eig (calc_system_matrix p))) ->
  0 < rsum (map snd layers) ->
  criterion eig solve brent maxeval quad (LList layers) phi e E t fuel = Ok (Some c) -> c_ok c = true ->
  exists o1 o t' li ki, Layered eig "skiers" (LList layers) false = Ok o1 /\ (t' = t \/ t' = 30) /\
    o_par o = o_par (set_foundation_properties eig o1 t' E (1 / 4) true) /\ ready o /\
    (judged eps o phi (c_weight c) li ki (c_sk c) (c_g c) /\
     (c_self c = true \/ c_g c = None \/ exists g, c_g c = Some g /\ (998 / 1000 <= g \/ c_pure c = true /\ 98 / 100 < g))
     \/ (forall b, In b ki -> b = false)).
Proof.
  intros HQ P HE Ht So G T H O.
  assert (damped : forall e' t', 0 < t' -> t' = t \/ t' = 30 -> criterion_dampened eig solve brent maxeval quad (LList layers) phi 1 e' E t' fuel = Ok (Some c) ->
    exists o1 o t' li ki, Layered eig "skiers" (LList layers) false = Ok o1 /\ (t' = t \/ t' = 30) /\
    o_par o = o_par (set_foundation_properties eig o1 t' E (1 / 4) true) /\ ready o /\
    (judged eps o phi (c_weight c) li ki (c_sk c) (c_g c) /\
     (c_self c = true \/ c_g c = None \/ exists g, c_g c = Some g /\ (998 / 1000 <= g \/ c_pure c = true /\ 98 / 100 < g))
     \/ (forall b, In b ki -> b = false))).
  { clear H. intros e' t' Ht' Ct H.
    destruct (C94_dampened eig solve brent maxeval quad eps layers E t' phi e' 1 fuel c HQ P HE Ht' So (fun o => G o t' Ct) ltac:(cbv zeta; lra) H) as (o1 & o & m & A & B & C & _ & _ & D).
    destruct D as [(_ & D1 & _ & D2 & _ & D3 & _)|[(_ & D1 & _ & D2 & _ & D3 & g & D4 & D5)|[(_ & _ & D & _)|(_ & D1 & _ & _ & _ & li & ki & _ & D2 & D3)]]].
    - exists o1, o, t', [50000; 100 * rsum (map snd layers) / 2; 0; 0; 100 * rsum (map snd layers) / 2; 50000], [true; false; false; false; false; true].
      split; [exact A|]. split; [exact Ct|]. split; [exact B|]. split; [exact C|]. left. rewrite D2. split; [exact D3|left; exact D1].
    - exists o1, o, t', [100 * rsum (map snd layers) / 2 - 1 / 2; 1 / 2; 1 / 2; 100 * rsum (map snd layers) / 2 - 1 / 2], [true; false; false; true].
      split; [exact A|]. split; [exact Ct|]. split; [exact B|]. split; [exact C|]. left. split; [exact D3|]. right. right. exists g. split; [exact D4|]. left. lra.
    - congruence.
    - exists o1, o, t', li, ki. split; [exact A|]. split; [exact Ct|]. split; [exact B|]. split; [exact C|]. left. split; [exact D2|]. right.
      destruct D3 as [D3|(g & D3 & D4)]; [left; exact D3|]. right. exists g. split; [exact D3|]. left. apply Rabs_le_between in D4. lra. }
  unfold criterion in H. cbn [thickness bind] in H.
  destruct (coupled _ _ _ _ _ _) as [[c1|w|w]|er] eqn:Ec; cbn [bind] in H; [| | |discriminate].
  - apply Ok_inj in H. injection H as ->.
    destruct (C94_outcomes eig solve brent maxeval quad eps layers E t phi e c HQ P HE Ht So (fun o => G o t (or_introl eq_refl)) ltac:(cbv zeta; lra) Ec) as (o1 & o & m & A & B & C & _ & _ & D).
    destruct D as [(_ & D1 & _ & D2 & _ & D3 & _)|[(_ & D1 & _ & D2 & _ & D3 & g & D4 & D5)|[(_ & _ & D & _)|(_ & D1 & _ & _ & li & ki & D2)]]].
    + exists o1, o, t, [50000; 1000 * rsum (map snd layers) / 2; 0; 0; 1000 * rsum (map snd layers) / 2; 50000], [true; false; false; false; false; true].
      split; [exact A|]. split; [left; reflexivity|]. split; [exact B|]. split; [exact C|]. left. rewrite D2. split; [exact D3|left; exact D1].
    + exists o1, o, t, [1000 * rsum (map snd layers) / 2 - 1 / 2; 1 / 2; 1 / 2; 1000 * rsum (map snd layers) / 2 - 1 / 2], [true; false; false; true].
      split; [exact A|]. split; [left; reflexivity|]. split; [exact B|]. split; [exact C|]. left. split; [exact D3|]. right. right. 
      exists g. split; [exact D4|]. destruct D5 as [D5|D5]; [left; lra|]. right. split; [exact D1|]. apply Rabs_def2 in D5. lra.
    + congruence.
    + exists o1, o, t, li, ki. split; [exact A|]. split; [left; reflexivity|]. split; [exact B|]. split; [exact C|].
      destruct D2 as [(_ & _ & _ & D2 & D3)|D2]; [left|right; exact D2]. split; [exact D2|]. right. destruct D3 as [D3|(g & D3 & D4)]; [left; exact D3|].
      right. exists g. split; [exact D3|]. left. apply Rabs_le_between in D4. lra.
  - exact (damped (mkEnv (e_name e) (e_sf e) (e_om e) 250) t Ht (or_introl eq_refl) H).
  - exact (damped e 30 ltac:(lra) (or_intror eq_refl) H).
Qed.
Print Assumptions C94_criterion.

(** Examples: 90 mm of ice on a slope of 30 degrees and a weak layer that 1 kg just loads to its strength. With a quadrature of
    large error the energy criterion is met at once. *)
Section Ice.
Variable brent : R -> R -> list (R * R) -> bstep.
Variable maxeval : nat.
Notation create := (fun w li ki crack => create_skier_object exact_eig elim_solve brent maxeval (LList [(917, 90)]) w 30 li ki crack (1 / 4) 30).
Notation search := (find_minimum_force exact_eig elim_solve brent maxeval (LList [(917, 90)]) 30 (1 / 4) 30).
Lemma ice_found T : 0 < T -> exists sc m, 0 < sc /\ search (strength sc) [T / 2; 0; 0; T / 2] [true; true; true; true] = Ok m /\ f_weight m = 1 /\ (exists d, f_min m = Some d /\ d <= 1).
Proof.
  intros HT. set (li := [T / 2; 0; 0; T / 2]). set (ki := [true; true; true; true]).
  assert (St : setting exact_eig elim_solve [(917, 90)] li ki (1 / 4) 30).
  { unfold setting. split; [constructor; [simpl; lra|constructor]|]. split; [lra|]. split; [lra|]. split; [exact elim_sound|]. split; [exact elim_complete|]. split; [exact ice_hyps|].
    split; [simpl; lia|]. split; [reflexivity|]. split; [intros l Hl; repeat (destruct Hl as [<-|Hl]; [lra|]); destruct Hl|]. split; [unfold rsum; simpl; lra|]. exists 2%nat. split; [simpl; lia|]. unfold seg_start, rsum. simpl. lra. }
  assert (Em : exists m, skier_weights li (List.length li) 1 = Ok m /\ nth 1 m 0 = 1).
  { unfold skier_weights, li. cbn [List.length Nat.eqb]. unfold rsum. cbn [fold_right median_loop].
    unfold Rleb, Reqb. repeat (destruct (Rle_dec _ _); try lra); repeat (destruct (Req_EM_T _ _); try lra); eexists; (split; [reflexivity|]); simpl; lra. }
  destruct Em as (mw & Em & Mj). pose proof cos30 as C30.
  destruct (strength_peaks exact_eig elim_solve brent maxeval _ 30 _ _ _ _ St) as (q & Q0 & _ & PE).
  destruct (symmetric_matters exact_eig elim_solve brent maxeval _ 30 _ _ _ _ St 1 mw eq_refl eq_refl Em Mj ltac:(lra)) as (k0 & k1 & i & x & y & x' & y' & K0 & K1 & S0 & S1 & D).
  assert (X : x < 0).
  { destruct (proj1 (C120_rest exact_eig elim_solve brent maxeval [(917, 90)] 30 (1 / 4) 30 li ki (strength 1) St ltac:(discriminate) (strength_quadratic 1 ltac:(lra)))) as (k & K & SA).
    cbv beta in K, K0. rewrite K0 in K. apply Ok_inj in K. subst k. destruct S0 as [S0 _].
    assert (I : (i < List.length (k_sig k0))%nat) by (apply nth_error_Some; rewrite S0; discriminate).
    destruct (SA i I) as [Y _]. rewrite S0 in Y. injection Y as Y. pose proof (weight_pos exact_eig elim_solve _ _ _ _ _ St ltac:(discriminate)) as WP.
    assert (C : 0 < cos (deg2rad 30)) by (replace (deg2rad 30) with (30 * PI / 180) by (unfold deg2rad; field); lra). nra. }
  assert (Q1 : 0 < q 1).
  { destruct (proj2 (PE 1 1 (q 1 / 1 ^ 2) ltac:(lra)) eq_refl) as (k' & K' & _ & U). cbv beta in K1, K'. rewrite K1 in K'. apply Ok_inj in K'. subst k'.
    pose proof (U i x' y' _ S1 (strength_value 1 x' y' ltac:(lra))) as V. pose proof (pow2_ge_0 (y' / (509 / 616 * 1))). replace (q 1 / 1 ^ 2) with (q 1) in V by field. replace (x' / 1) with x' in V by field. nra. }
  set (sc := sqrt (q 1)). assert (Hs : 0 < sc) by (apply sqrt_lt_R0; exact Q1). assert (S2 : sc ^ 2 = q 1) by (unfold sc; simpl; rewrite Rmult_1_r; apply sqrt_sqrt; lra).
  pose proof (strength_quadratic sc Hs) as Q. destruct (create_lengths _ _ _ _ _ _ _ _ _ _ _ _ _ K1) as [L1 L2].
  assert (Kw : known_envelope (e_name (strength sc))) by (unfold known_envelope; simpl; tauto).
  destruct (distances_total (strength sc) k1 Kw L1) as [[d mn] Di]; [intros Z; rewrite Z in L2; simpl in L2; lia|].
  destruct (create_present _ _ _ _ _ _ _ _ _ _ _ _ K1) as (_ & X1 & X2). destruct (distances_extreme (strength sc) _ _ _ X1 X2 Di) as (dd & M & m' & _ & EM & Em' & IM & Im & Bd). subst d mn.
  pose proof (proj1 (created_distance exact_eig elim_solve brent maxeval _ 30 _ _ li ki (strength sc) 1 k1 M (Some m') Q K1 Di)) as PK.
  assert (EQ : M = 1). { assert (EQ : M = q 1 / sc ^ 2) by (apply PE; [exact Hs|]; exists k1; auto). rewrite EQ, S2. field. lra. }
  exists sc, (mkMf 1 k1 (Some M) (Some m')). split; [exact Hs|]. split; [|split; [reflexivity|]].
  - unfold find_minimum_force, find_minimum_force_with, MCriterion.measure. fold li ki. rewrite K1. cbn [bind]. rewrite Di. cbn [bind fst snd f_min f_max].
    destruct (oleb (Some 1) (Some m')); [reflexivity|]. cbn [force_loop f_max]. rewrite EQ. unfold off, Rltb. destruct (Rlt_dec _ _) as [B|_]; [|reflexivity].
    exfalso. replace (1 - 1) with 0 in B by ring. rewrite Rabs_R0 in B. lra.
  - exists m'. split; [reflexivity|]. destruct (Bd _ IM) as (z & Z1 & Z2). injection Z1 as <-. lra.
Qed.
Notation cracked T := [T / 2 - 1 / 2; 1 / 2; 1 / 2; T / 2 - 1 / 2].
Lemma ice_released T w : 2 < T -> exists u c g G1 G2, create w (cracked T) [true; true; true; true] false = Ok u /\ create w (cracked T) [true; false; false; true] true = Ok c /\
  k_li c = cracked T /\ k_ki c = [true; false; false; true] /\
  ginc (fun f a b => RInt f a b) (o_par (k_obj c)) (o_eig (k_obj c)) (loads_of (k_obj c) 30) (k_C u) (k_C c) (k_li c) (k_ki c) [true; true; true; true] = Ok (Some g, Some G1, Some G2).
Proof.
  intros HT.
  assert (G2 : forall o, Layered exact_eig "skiers" (LList [(917, 90)]) false = Ok o -> stable (o_par (model_obj exact_eig o (1 / 4) 30))) by (intros o L; apply (ice_hyps o L)).
  assert (Em2 : exists mi, skier_weights (cracked T) 4 w = Ok mi).
  { unfold skier_weights. cbn [List.length Nat.eqb]. unfold rsum. cbn [fold_right median_loop].
    unfold Rleb, Reqb. repeat (destruct (Rle_dec _ _); try lra); repeat (destruct (Req_EM_T _ _); try lra); eexists; reflexivity. }
  destruct Em2 as [mi Em2].
  destruct (judged_accepts exact_eig elim_solve brent maxeval (fun f a b => RInt f a b) elim_sound [(917, 90)] (1 / 4) 30 ice_pos ltac:(lra) ltac:(lra)
    (fun o L => proj2 (ice_hyps o L)) G2 elim_complete 30 w (cracked T) [true; false; false; true] mi) as (u & c & v & _ & (u' & U1 & U2 & U3)).
  { reflexivity. } { simpl; lia. } { reflexivity. } { reflexivity. }
  { split.
    - intros i Hi. do 4 (destruct i as [|i]; [simpl; lra|]). simpl in Hi. lia.
    - exists 0%nat. simpl. split; [lia|]. split; [reflexivity|lra]. }
  { exact Em2. } { unfold unsupported_length, unsupported_sum, rsum. cbn [List.length seq map nth fold_right]. lra. }
  cbn [map] in U1, U3. unfold incremental in U3.
  destruct (ginc _ _ _ _ _ _ _ _ _) as [[[G G1] G2']|er] eqn:EG; [|discriminate]. cbn [bind] in U3.
  destruct G1 as [G1|]; [|discriminate]. destruct G2' as [G2'|]; [|discriminate].
  assert (G' : exists g, G = Some g).
  { pose proof EG as EG'. unfold ginc in EG'. repeat (match type of EG' with (if ?b then _ else _) = _ => destruct b; [discriminate|] end).
    destruct (ginc_loop _ _ _ _ _ _ _) as [r|]; [|discriminate]. cbn [bind] in EG'. destruct (select _ (k_li c)).
    - apply Ok_inj in EG'. injection EG' as <-. eauto.
    - destruct (Rlt_dec _ _); [|discriminate]. apply Ok_inj in EG'. injection EG' as <-. eauto. }
  destruct G' as [g ->]. destruct (PCreate.create_keeps _ _ _ _ _ _ _ _ _ _ _ _ _ U2) as (KL & _ & KK). cbn [map] in KK.
  exists u', c, g, G1, G2'. auto.
Qed.
(** A quadrature with a constant error. *)
Definition biased_quad (K : R) (f : R -> R) (a b : R) : R := RInt f a b + K.
Lemma biased T ws : 2 < T -> exists K, forall w, In w ws -> exists u c g, create w (cracked T) [true; true; true; true] false = Ok u /\ create w (cracked T) [true; false; false; true] true = Ok c /\
  incremental (biased_quad K) 30 u c [true; true; true; true] = Ok (Some g) /\ 1 < g.
Proof.
  intros HT. assert (B : exists K, 1 <= K /\ forall w, In w ws -> exists u c g G1 G2, create w (cracked T) [true; true; true; true] false = Ok u /\ create w (cracked T) [true; false; false; true] true = Ok c /\
    k_li c = cracked T /\ k_ki c = [true; false; false; true] /\
    ginc (fun f a b => RInt f a b) (o_par (k_obj c)) (o_eig (k_obj c)) (loads_of (k_obj c) 30) (k_C u) (k_C c) (k_li c) (k_ki c) [true; true; true; true] = Ok (Some g, Some G1, Some G2) /\ 1 <= G1 + K).
  { induction ws as [|w ws (K & P & IH)]; [exists 1; split; [lra|intros w []]|].
    destruct (ice_released T w HT) as (u & c & g & G1 & G2 & H1 & H2 & H3 & H4 & H5). exists (K + Rabs G1). pose proof (Rabs_pos G1). split; [lra|]. intros w' [<-|Hw].
    - exists u, c, g, G1, G2. repeat (split; [assumption|]). pose proof (Rle_abs (- G1)) as H'. rewrite Rabs_Ropp in H'. lra.
    - destruct (IH w' Hw) as (u' & c' & g' & G1' & G2' & A1 & A2 & A3 & A4 & A5 & A6). exists u', c', g', G1', G2'. repeat (split; [assumption|]). lra. }
  destruct B as (K & P & B). exists K. intros w Hw. destruct (B w Hw) as (u & c & g & G1 & G2' & U1 & U2 & KL & KK & EG & L).
  apply (ginc_shift _ _ _ _ _ _ _ _ _ _ _ K) in EG. 2:{ rewrite KL, KK. reflexivity. }
  exists u, c, (fracture_toughness_criterion (1000 * (G1 + K)) (1000 * (G2' + K))). split; [exact U1|]. split; [exact U2|]. split.
  - unfold incremental. match goal with |- bind ?x _ = _ => assert (EX : x = Ok (Some (g + 2 * K), Some (G1 + K), Some (G2' + K))) by exact EG; rewrite EX end. reflexivity.
  - unfold fracture_toughness_criterion. pose proof (rpow_nonneg (Rabs (1000 * (G2' + K)) / (79 / 100)) (1 / (45 / 100))) as N.
    assert (Y : 0 <= Rabs (1000 * (G2' + K)) / (79 / 100)) by (apply Rmult_le_pos; [apply Rabs_pos|lra]). specialize (N Y).
    assert (1 < rpow (Rabs (1000 * (G1 + K)) / (56 / 100)) (1 / (2 / 10))); [|lra].
    assert (1000 <= Rabs (1000 * (G1 + K))) by (rewrite Rabs_right by lra; lra).
    assert (X : 1 < Rabs (1000 * (G1 + K)) / (56 / 100)) by lra.
    rewrite rpow_Rpower by lra. apply Rle_lt_trans with (Rpower (Rabs (1000 * (G1 + K)) / (56 / 100)) 0); [rewrite Rpower_O; lra|]. apply Rpower_lt; lra.
Qed.
Lemma biased_accurate K : accurate_quad (biased_quad K) (Rabs K).
Proof. intros f a b _. unfold biased_quad. replace (RInt f a b + K - RInt f a b) with K by ring. lra. Qed.
Lemma first_above damped early update crit energy newlen e T w lo hi m u k g : known_envelope (e_name e) -> create w (cracked T) (if damped : bool then [true; false; false; true] else [true; true; true; true]) false = Ok u -> create w (cracked T) [true; false; false; true] true = Ok k ->
  energy u k [true; true; true; true] = Ok (Some g) -> early (Some g) (Some (Rabs (g - 1))) = true ->
  forall maxit fuel, (1 <= maxit)%nat -> exists c, iterate maxit (iteration create (distances e) energy newlen damped early update crit) (S fuel) (start T w lo hi m) = Ok (inl c) /\ c_ok c = true /\ c_pure c = true.
Proof.
  intros Kn U1 U2 I Ea maxit fuel Hm. destruct (create_lengths _ _ _ _ _ _ _ _ _ _ _ _ _ U1) as [L1 L2].
  destruct (distances_total e u Kn L1) as [d D]; [intros Z; rewrite Z in L2; simpl in L2; lia|].
  cbn [iterate]. match goal with |- context [continue maxit ?s] => replace (continue maxit s) with true end.
  2:{ unfold continue. cbn [l_err l_n l_ki start option_map any existsb orb]. unfold ogt, oltb. rewrite Rabs_right by lra. unfold Rltb. destruct (Rlt_dec _ _); [|lra].
      destruct maxit; [lia|]. reflexivity. }
  unfold iteration at 1. cbn [l_w l_li l_ki l_n l_len start map].
  match goal with |- context [create_skier_object _ _ _ _ _ w 30 (cracked T) ?x false _ _] => replace x with (if damped then [true; false; false; true] else [true; true; true; true]) by (destruct damped; reflexivity) end.
  rewrite U1. cbn [bind]. rewrite D. cbn [bind]. rewrite U2. cbn [bind]. rewrite I. cbn [bind option_map]. rewrite Ea. cbn [Nat.eqb andb bind].
  eexists. split; [reflexivity|]. split; reflexivity.
Qed.
Lemma same_uncracked w T u : create w (cracked T) [true; true; true; true] false = Ok u -> create w (cracked T) [true; false; false; true] false = Ok u.
Proof.
  unfold create_skier_object. destruct (Layered exact_eig "skiers" (LList [(917, 90)]) false) as [o|er] eqn:EL; [|discriminate]. cbn [bind map List.length].
  destruct (layered_system _ _ _ _ _ EL) as [S1 T1]. destruct (skier_weights (cracked T) 4 w) as [mi|er]; [|discriminate]. cbn [bind].
  set (o1 := set_foundation_properties exact_eig o 30 (1 / 4) (1 / 4) true).
  assert (S2 : o_system o1 = "skiers"%string) by (unfold o1, set_foundation_properties; destruct (recalc_system exact_eig (with_weak o (1 / 4) (1 / 4) 30)) as [-> _]; exact S1).
  assert (T2 : o_touchdown o1 = false) by (unfold o1, set_foundation_properties; destruct (recalc_system exact_eig (with_weak o (1 / 4) (1 / 4) 30)) as [_ ->]; exact T1).
  clearbody o1. assert (Seg : forall ki, calc_segments exact_eig elim_solve brent maxeval (cracked T) mi ki [true; true; true; true] 10000 0 0 0 (1 / 2) 1000 o1 =
    (Ok (mkSeg (cracked T) mi ki [true; true; true; true]), snd (calc_segments exact_eig elim_solve brent maxeval (cracked T) mi [true; true; true; true] [true; true; true; true] 10000 0 0 0 (1 / 2) 1000 o1))).
  { intros ki. unfold calc_segments, sbind, calc_touchdown_system, sbind, calc_touchdown_mode.
    assert (E : o_touchdown (set_touchdown_attributes 10000 0 (1 / 2) 0 1000 o1) = false) by exact T2.
    rewrite E. unfold calc_touchdown_length, set_mode. cbn [o_mode]. unfold segment_lists. cbn [snd]. f_equal.
    simpl. rewrite S2. reflexivity. }
  rewrite (Seg [true; true; true; true]), (Seg [true; false; false; true]). set (o2 := snd _). cbn [s_li s_mi s_ki s_k0]. intros H. exact H.
Qed.
Lemma above g : 1 < g -> ogt (Some g) 1 = true.
Proof. intros H. unfold ogt, oltb, Rltb. destruct (Rlt_dec 1 g); [reflexivity|contradiction]. Qed.
Example C94_criterion_example fuel : exists quad eps sc c, accurate_quad quad eps /\ 0 < sc /\
  criterion exact_eig elim_solve brent maxeval quad (LList [(917, 90)]) 30 (strength sc) (1 / 4) 30 fuel = Ok (Some c) /\ c_ok c = true.
Proof.
  set (T := 1000 * rsum (map snd [(917, 90)])). assert (ET : T = 90000) by (unfold T, rsum; simpl; lra).
  destruct (ice_found T ltac:(lra)) as (sc & m & Hs & Em & W & d & Hd & Hd1). destruct (biased T [f_weight m * (1005 / 1000)] ltac:(lra)) as (K & B).
  destruct (B _ (or_introl eq_refl)) as (u & k & g & U1 & U2 & I & G).
  assert (Kw : known_envelope (e_name (strength sc))) by (unfold known_envelope; simpl; tauto).
  destruct (first_above false (fun g err => ogt g 1 || oltb err (Some (2 / 100)))%bool (fun _ new _ => new) (f_weight m) (incremental (biased_quad K) 30) (find_new_anticrack_length exact_eig elim_solve brent maxeval (LList [(917, 90)]) 30 (1 / 4) 30 (strength sc))
     (strength sc) T (f_weight m * (1005 / 1000)) (f_weight m) (5 * (f_weight m * (1005 / 1000))) m u k g Kw U1 U2 I ltac:(cbv beta; rewrite above by exact G; reflexivity) 25 25 ltac:(lia)) as (c & Ec & Oc & _).
  assert (E1 : ogt (f_min m) 1 = false) by (rewrite Hd; unfold ogt, oltb, Rltb; destruct (Rlt_dec 1 d); [lra|reflexivity]).
  assert (E2 : (oleb (f_min m) (Some 1) && Rleb 1 (f_weight m))%bool = true) by (rewrite Hd; unfold oleb, Rleb; destruct (Rle_dec d 1); [|lra]; destruct (Rle_dec 1 (f_weight m)); [reflexivity|lra]).
  exists (biased_quad K), (Rabs K), sc, c. split; [apply biased_accurate|]. split; [exact Hs|]. split; [|exact Oc].
  unfold criterion, coupled. cbn [thickness bind]. fold T. rewrite Em. cbn [bind]. rewrite E1, E2. cbv zeta.
  rewrite Ec. reflexivity.
Qed.
Example C94_dampened_example : exists quad eps sc c, accurate_quad quad eps /\ 0 < sc /\
  criterion_dampened exact_eig elim_solve brent maxeval quad (LList [(917, 90)]) 30 1 (strength sc) (1 / 4) 30 1 = Ok (Some c) /\ c_ok c = true.
Proof.
  set (T := 100 * rsum (map snd [(917, 90)])). assert (ET : T = 9000) by (unfold T, rsum; simpl; lra).
  destruct (ice_found T ltac:(lra)) as (sc & m & Hs & Em & W & d & Hd & Hd1). destruct (biased T [f_weight m * (1005 / 1000); 3 * f_weight m * 2] ltac:(lra)) as (K & B).
  destruct (B _ (or_introl eq_refl)) as (u & k & g & U1 & U2 & I & G). destruct (B _ (or_intror (or_introl eq_refl))) as (u' & k' & g' & U1' & U2' & I' & G').
  assert (Kw : known_envelope (e_name (strength sc))) by (unfold known_envelope; simpl; tauto).
  destruct (first_above true (fun g _ => ogt g 1) (damped_weight 1) (f_weight m) (incremental (biased_quad K) 30) (find_new_anticrack_length exact_eig elim_solve brent maxeval (LList [(917, 90)]) 30 (1 / 4) 30 (strength sc))
     (strength sc) T (f_weight m * (1005 / 1000)) (f_weight m) (3 * f_weight m * 2) m u k g Kw (same_uncracked _ _ _ U1) U2 I (above g G) 50 50 ltac:(lia)) as (c & Ec & Oc & _).
  assert (E1 : ogt (f_min m) 1 = false) by (rewrite Hd; unfold ogt, oltb, Rltb; destruct (Rlt_dec 1 d); [lra|reflexivity]).
  assert (E2 : (oleb (f_min m) (Some 1) && Rleb 1 (f_weight m))%bool = true) by (rewrite Hd; unfold oleb, Rleb; destruct (Rle_dec d 1); [|lra]; destruct (Rle_dec 1 (f_weight m)); [reflexivity|lra]).
  exists (biased_quad K), (Rabs K), sc, c. split; [apply biased_accurate|]. split; [exact Hs|]. split; [|exact Oc].
  unfold criterion_dampened, coupled_dampened. cbn [thickness bind]. fold T. rewrite Em. cbn [bind]. rewrite E1, E2. cbv zeta.
  cbn [raise_weight start l_li l_ki]. unfold evaluate. cbn [map]. rewrite U1'. cbn [bind]. rewrite U2'. cbn [bind]. rewrite I'. cbn [bind snd]. replace (oltb (Some g') (Some 1)) with false by (unfold oltb, Rltb; destruct (Rlt_dec g' 1); [lra|reflexivity]). cbn [bind].
  rewrite Ec. reflexivity.
Qed.
End Ice.
