(** Property theorems C98, continued: plots of energy release rates and stress criteria. *)
From Coquelicot Require Import Coquelicot.
Require Import Verif.Py Verif.MTools Verif.MEigen Verif.MFields Verif.MRaster Verif.MAnalysis Verif.MFigure Verif.SBvp Verif.SRaster Verif.SFigure Verif.SShow Verif.SEnergy
  Verif.PSetup Verif.PRaster Verif.PBeam2 Verif.PBvp Verif.PBvp6 Verif.PWell2 Verif.PFigure4 Verif.PShow Verif.PropEnergy Verif.PropDepend.

Lemma Forall2_length {A B} (P : A -> B -> Prop) l m : Forall2 P l m -> List.length l = List.length m.
Proof. induction 1; cbn [List.length]; congruence. Qed.
Section Rates.
Variables (o : obj) (phi : R).
(** A model with a crack: crack length, constants, segment lengths and foundations. *)
Record cracked := mkCracked { a_len : R; a_C : list (list R); a_li : list R; a_ki : list bool }.
(** Its differential energy release rate in the unit [unit]. *)
Definition rate (unit : string) (c : cracked) (g : triple) : Prop :=
  gdif (o_par o) (o_eig o) (loads_of o phi) (a_C c) (a_li c) (a_ki c) unit = Ok g.
(** Total and parts. *)
Definition total (g : triple) : R := fst (fst g).
Definition part1 (g : triple) : R := snd (fst g).
Definition part2 (g : triple) : R := snd g.
(** The curve shows the part [sel] of the rates in J/m^2 over the crack length in cm. *)
Definition shows_rate (cs : list cracked) (sel : triple -> R) (c : curve) : Prop :=
  Forall2 (fun m pt => fst pt = a_len m / 10 /\ exists g, rate "J/m^2" m g /\ snd pt = sel g) cs (points c).

Lemma rate_shown sel cs gs l : In sel [total; part1; part2] -> Forall2 (rate "kJ/m^2") cs gs ->
  shows_rate cs sel (mkCurve (cm (map Some (map a_len cs))) (map (Rmult 1000) (map sel gs)) l).
Proof.
  intros S F. unfold shows_rate, points. cbn [k_x k_y]. rewrite cm_all.
  induction F as [|m [[g0 g1] g2] cs gs H _ IH]; cbn [map curve_points]; [constructor|].
  constructor; [|exact IH]. cbn [fst snd]. split; [reflexivity|]. exists (1000 * g0, 1000 * g1, 1000 * g2).
  split; [exact (proj1 (C41_units _ _ _ _ _ _ _ _ _ H))|]. destruct S as [<-|[<-|[<-|[]]]]; reflexivity.
Qed.
Lemma plain_ok x data : Forall (ordinary x) data -> finite x <> [] -> data <> [] ->
  let n := Z.of_nat (List.length (finite x)) in (10 * Z.of_nat (List.length data) < n + 95 * n / 100)%Z ->
  exists nt, plot_data data None false None None None = Ok nt /\ n_curves nt = data.
Proof.
  intros F N Nd n B. rewrite (plain_pos x data F Nd). pose proof (pos_bounds x N) as P. cbv zeta in P. fold n in P.
  destruct (labels_defined x data 1 (95 * n / 100)%Z F N) as (l & El & _); [intros k K; fold n; lia|].
  fold n. rewrite El. cbn [bind]. eexists. split; reflexivity.
Qed.
Lemma lengths_finite (cs : list cracked) : List.length (finite (cm (map Some (map a_len cs)))) = List.length cs.
Proof. rewrite cm_all, finite_all, !map_length. reflexivity. Qed.

(** C98: the modes of the differential energy release rate over the crack length, in J/m^2; 16 crack lengths are needed. *)
Theorem C98_modes cs gs : (16 <= List.length cs)%nat -> Forall2 (rate "kJ/m^2") cs gs ->
  exists n c2 c1 c0, plot_err_modes (map a_len cs) [map total gs; map part1 gs; map part2 gs] "dif" = Ok n /\ n_curves n = [c2; c1; c0] /\
  map k_label [c2; c1; c0] = ["$\mathcal{G}$$_\mathrm{I\!I}$"; "$\mathcal{G}$$_\mathrm{I}$"; "$\mathcal{G}$$_\mathrm{I+I\!I}$"]%string /\
  shows_rate cs part2 c2 /\ shows_rate cs part1 c1 /\ shows_rate cs total c0.
Proof.
  intros Hn F. pose proof (Forall2_length _ _ _ F) as L. unfold plot_err_modes. cbn [row nth_error bind String.eqb Ascii.eqb Bool.eqb].
  set (x := cm (map Some (map a_len cs))).
  assert (Lx : List.length x = List.length cs) by (unfold x; rewrite cm_all, !map_length; reflexivity).
  pose proof (lengths_finite cs) as Lf. fold x in Lf.
  assert (Nx : finite x <> []) by (intros X; rewrite X in Lf; cbn [List.length] in Lf; lia).
  edestruct (plain_ok x) as (nt & P & Nc); [|exact Nx| | |exists nt; do 3 eexists; split; [exact P|]; split; [exact Nc|]].
  - repeat (apply Forall_cons; [split; [reflexivity|]; cbn [k_y k_label]; rewrite !map_length, <- L, Lx; split; [reflexivity|]; split; [discriminate|reflexivity]|]). apply Forall_nil.
  - discriminate.
  - rewrite Lf. cbn [List.length]. assert (15 <= 95 * Z.of_nat (List.length cs) / 100)%Z by (apply Z.div_le_lower_bound; lia). lia.
  - split; [reflexivity|]. split; [|split]; apply rate_shown; auto; cbn; auto.
Qed.

Variable quad : (R -> R) -> R -> R -> R.
(** The comparison of the differential with the incremental rate shows both; 11 crack lengths are needed. [u] are the models before the crack. *)
Theorem C98_comparison cs us gs is sel k : (11 <= List.length cs)%nat -> nth_error [total; part1; part2] k = Some sel ->
  Forall2 (rate "kJ/m^2") cs gs ->
  Forall2 (fun mu i => ginc quad (o_par o) (o_eig o) (loads_of o phi) (a_C (snd mu)) (a_C (fst mu)) (a_li (fst mu)) (a_ki (fst mu)) (a_ki (snd mu)) =
     Ok (Some (total i), Some (part1 i), Some (part2 i))) (combine cs us) is -> List.length us = List.length cs ->
  exists n cd ci, plot_err_comp (map a_len cs) [map total gs; map part1 gs; map part2 gs] [map total is; map part1 is; map part2 is] k = Ok n /\
  n_curves n = [cd; ci] /\ map k_label [cd; ci] = ["$\mathcal{G}$"; "$\bar{\mathcal{G}}$"]%string /\
  shows_rate cs sel cd /\
  Forall2 (fun mu pt => fst pt = a_len (fst mu) / 10 /\ exists i,
     ginc quad (o_par o) (o_eig o) (loads_of o phi) (a_C (snd mu)) (a_C (fst mu)) (a_li (fst mu)) (a_ki (fst mu)) (a_ki (snd mu)) =
       Ok (Some (total i), Some (part1 i), Some (part2 i)) /\ snd pt = 1000 * sel i) (combine cs us) (points ci).
Proof.
  intros Hn Hk F Fi Lu. pose proof (Forall2_length _ _ _ F) as L. pose proof (Forall2_length _ _ _ Fi) as Li. rewrite combine_length, Lu, Nat.min_id in Li.
  assert (Sel : In sel [total; part1; part2]) by exact (nth_error_In _ _ Hk).
  assert (Rw : forall g : list triple, row [map total g; map part1 g; map part2 g] k = Ok (map sel g)).
  { intros g. unfold row. destruct k as [|[|[|k]]]; cbn in Hk |- *; [injection Hk as <-|injection Hk as <-|injection Hk as <-|destruct k; discriminate]; reflexivity. }
  unfold plot_err_comp. rewrite !Rw. cbn [bind].
  set (x := cm (map Some (map a_len cs))).
  assert (Lx : List.length x = List.length cs) by (unfold x; rewrite cm_all, !map_length; reflexivity).
  pose proof (lengths_finite cs) as Lf. fold x in Lf.
  assert (Nx : finite x <> []) by (intros X; rewrite X in Lf; cbn [List.length] in Lf; lia).
  edestruct (plain_ok x) as (nt & P & Nc); [|exact Nx| | |exists nt; do 2 eexists; split; [exact P|]; split; [exact Nc|]].
  - apply Forall_cons; [|apply Forall_cons; [|apply Forall_nil]]; (split; [reflexivity|]; cbn [k_y k_label]; rewrite !map_length, Lx; split; [congruence|]; split; [discriminate|reflexivity]).
  - discriminate.
  - rewrite Lf. cbn [List.length]. assert (10 <= 95 * Z.of_nat (List.length cs) / 100)%Z by (apply Z.div_le_lower_bound; lia). lia.
  - split; [reflexivity|]. split; [apply rate_shown; assumption|].
    unfold points. cbn [k_x k_y]. unfold x. rewrite cm_all. clear -Fi Lu.
    revert us is Lu Fi. induction cs as [|c cs IH]; intros [|u us] is Lu Fi; try discriminate; cbn [combine] in Fi |- *; inversion Fi as [|? i ? is' Hi Fi']; subst; cbn [map curve_points]; [constructor|].
    constructor; [|exact (IH us is' ltac:(cbn in Lu; lia) Fi')]. cbn [fst snd]. split; [reflexivity|]. exists i. split; [exact Hi|reflexivity].
Qed.
End Rates.
Print Assumptions C98_modes.
Print Assumptions C98_comparison.

(** The plot of a stress criterion shows the given values over the positions that are not NaN, in cm, and fails exactly for one to five of them. *)
Theorem C98_criteria x stress seg mi bed : List.length stress = List.length x ->
  let pts := curve_points x stress in
  (plot_stress_criteria x stress (Some seg) (Some mi) (Some bed) = Err IndexError <-> (1 <= List.length pts <= 5)%nat) /\
  ((1 <= List.length pts <= 5)%nat \/ exists n c, plot_stress_criteria x stress (Some seg) (Some mi) (Some bed) = Ok n /\ n_curves n = [c] /\
     k_label c = "$\sigma/\sigma_\mathrm{c}$"%string /\ points c = map (fun q => (fst q / 10, snd q)) pts).
Proof.
  intros L pts. unfold plot_stress_criteria. set (c := mkCurve (cm x) stress "$\sigma/\sigma_\mathrm{c}$").
  assert (F : Forall (ordinary (cm x)) [c]).
  { apply Forall_cons; [|apply Forall_nil]. split; [reflexivity|]. split; [unfold cm; rewrite map_length; exact L|]. split; [discriminate|reflexivity]. }
  assert (Lf : List.length (finite (cm x)) = List.length pts) by (unfold pts; rewrite cm_finite, curve_points_length by exact L; reflexivity).
  assert (T : forall k : Z, (0 < k)%Z -> (k + 95 * k / 100 <= 10 <-> k <= 5)%Z) by (intros k Hk; Z.to_euclidean_division_equations; lia).
  destruct (marked_result (cm x) [c] seg mi bed F ltac:(discriminate)) as [(nt & P & Nc & B)|[P [Bm B]]]; rewrite Lf in *; cbn [List.length] in B; rewrite P.
  - assert (Nm : ~ (1 <= List.length pts <= 5)%nat).
    { intros Hm. destruct B as [B|B]; [lia|]. destruct (T (Z.of_nat (List.length pts)) ltac:(lia)) as [_ T2]. specialize (T2 ltac:(lia)). lia. }
    split; [split; [discriminate|intros H; contradiction]|]. right. exists nt, c. split; [reflexivity|]. split; [exact Nc|]. split; [reflexivity|].
    unfold points, pts, cm. cbn [c k_x k_y]. clear. revert stress. induction x as [|[a|] x IH]; intros [|b y]; cbn [map option_map curve_points]; try reflexivity.
    + unfold cm. cbn [map option_map curve_points fst snd]. f_equal. apply IH.
    + unfold cm. cbn [map option_map curve_points fst snd]. apply IH.
  - assert (Hm : (1 <= List.length pts <= 5)%nat) by (destruct (T (Z.of_nat (List.length pts)) ltac:(lia)) as [T1 _]; specialize (T1 ltac:(lia)); lia).
    split; [split; [intros _; exact Hm|reflexivity]|left; exact Hm].
Qed.
Print Assumptions C98_criteria.
(** Sixteen cracks at the end of a slab of 20 m. *)
Definition ex_crack (k : nat) : cracked := mkCracked (INR (S k)) [[1; 0; 0; 2; 0; 0]; [1; 0; 0; 2; 0; 0]] [20000 - INR (S k); INR (S k)] [true; false].
Definition ex_uncut (k : nat) : cracked := mkCracked 0 [[1; 0; 0; 2; 0; 0]; [1; 0; 0; 2; 0; 0]] [20000 - INR (S k); INR (S k)] [true; true].
Example C98_rates_example : let o := ex_obj "pst-" None 30 in let cs := map ex_crack (seq 0 16) in let us := map ex_uncut (seq 0 16) in
  (16 <= List.length cs)%nat /\ (exists gs, Forall2 (rate o 30 "kJ/m^2") cs gs) /\
  exists is, Forall2 (fun mu i => ginc (fun f a b => RInt f a b) (o_par o) (o_eig o) (loads_of o 30) (a_C (snd mu)) (a_C (fst mu)) (a_li (fst mu)) (a_ki (fst mu)) (a_ki (snd mu)) =
     Ok (Some (total i), Some (part1 i), Some (part2 i))) (combine cs us) is.
Proof.
  intros o cs us. split; [cbn; lia|]. split.
  - assert (H : forall l, exists gs, Forall2 (rate o 30 "kJ/m^2") (map ex_crack l) gs); [|apply H].
    induction l as [|k l (gs & IH)]; [exists []; constructor|].
    destruct (C41_accepted (o_par o) (o_eig o) (loads_of o 30) (a_C (ex_crack k)) (a_li (ex_crack k)) (a_ki (ex_crack k)) "kJ/m^2" 1
      ltac:(unfold err_factor; auto) eq_refl) as (g & E).
    { intros j Hj _. cbn in Hj. split; [cbn; lia|].
      etransitivity; [exact (six_zh _ (ready_six _ (ex_ready "pst-" None 30)) (nth j (a_li (ex_crack k)) 0) (nth j (a_li (ex_crack k)) 0) (nth j (a_ki (ex_crack k)) false))|].
      assert (J : (j = 0 \/ j = 1)%nat) by lia. destruct J as [->| ->]; reflexivity. }
    exists (g :: gs). constructor; [exact E|exact IH].
  - assert (H : forall l, exists is, Forall2 (fun mu i => ginc (fun f a b => RInt f a b) (o_par o) (o_eig o) (loads_of o 30) (a_C (snd mu)) (a_C (fst mu)) (a_li (fst mu)) (a_ki (fst mu)) (a_ki (snd mu)) =
      Ok (Some (total i), Some (part1 i), Some (part2 i))) (combine (map ex_crack l) (map ex_uncut l)) is); [|apply H].
    induction l as [|k l (gs & IH)]; [exists []; constructor|].
    destruct (ginc_total (fun f a b => RInt f a b) o 30 (a_C (ex_uncut k)) (a_C (ex_crack k)) (a_li (ex_crack k)) (a_ki (ex_uncut k)) (a_ki (ex_crack k)) (ex_ready _ _ _) eq_refl eq_refl) as (G & G1 & G2 & E).
    + split; [reflexivity|]. repeat constructor.
    + split; [reflexivity|]. repeat constructor.
    + cbn [ex_crack ex_uncut a_ki a_li map2 andb negb select rsum fold_right]. assert (0 < INR (S k)) by (apply lt_0_INR; lia). lra.
    + exists ((G, G1, G2) :: gs). cbn [map combine]. constructor; [exact E|exact IH].
Qed.
Example C98_criteria_example : (1 <= List.length (curve_points [Some 0%R; None; Some 7%R] [1%R; 2%R; 3%R]) <= 5)%nat /\
  ~ (1 <= List.length (curve_points (map Some (map INR (seq 0 6))) (map INR (seq 0 6))) <= 5)%nat.
Proof. cbn. lia. Qed.
