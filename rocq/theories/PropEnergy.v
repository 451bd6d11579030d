(** Property theorems C41-C45: energy release rates. *)
From Coquelicot Require Import Coquelicot.
Require Import Verif.Py Verif.MTools Verif.MEigen Verif.MFields Verif.MRaster Verif.MSolution Verif.MAnalysis
  Verif.SAdm Verif.SBeam Verif.SBvp Verif.SEig Verif.SEnergy Verif.PBeam2 Verif.PBvp Verif.PWell2 Verif.PBvp6 Verif.PLinAlg Verif.PEnergy Verif.PEnergy2.

(** C41: sign and sum, ... *)
Theorem C41_nonneg p e ld Cs li ki unit G G1 G2 : 0 < kn p -> 0 < kt p ->
  gdif p e ld Cs li ki unit = Ok (G, G1, G2) -> G = G1 + G2 /\ 0 <= G1 /\ 0 <= G2.
Proof. exact (gdif_nonneg p e ld Cs li ki unit G G1 G2). Qed.
Print Assumptions C41_nonneg.
(** ... zero without crack tips, ... *)
Theorem C41_no_tips p e ld Cs li ki unit : List.length ki = List.length li ->
  (forall j, (S j < List.length li)%nat -> ~ is_tip ki j) -> gdif p e ld Cs li ki unit = Ok (0, 0, 0).
Proof. exact (gdif_no_tips p e ld Cs li ki unit). Qed.
Print Assumptions C41_no_tips.
(** ... and units. *)
Theorem C41_units p e ld Cs li ki G G1 G2 : gdif p e ld Cs li ki "kJ/m^2" = Ok (G, G1, G2) ->
  gdif p e ld Cs li ki "J/m^2" = Ok (1000 * G, 1000 * G1, 1000 * G2) /\
  gdif p e ld Cs li ki "N/mm" = Ok (G, G1, G2).
Proof.
  intros H. split; [rewrite gdif_units|rewrite gdif_units_N]; rewrite H; reflexivity.
Qed.
Print Assumptions C41_units.
(** Consistent lists are accepted, so the theorems are not about errors. *)
Theorem C41_accepted p e ld Cs li ki unit c : err_factor unit c -> List.length ki = List.length li ->
  (forall j, (S j < List.length li)%nat -> is_tip ki j -> (j < List.length Cs)%nat /\
     List.length (zh p e (nth j li 0) (nth j li 0) (nth j ki false)) = List.length (nth j Cs [])) ->
  exists g, gdif p e ld Cs li ki unit = Ok g.
Proof. exact (gdif_accepts p e ld Cs li ki unit c). Qed.
Print Assumptions C41_accepted.

(** C42: value as a weighted sum over the tips. *)
Theorem C42_weights p e ld Cs li ki unit G G1 G2 w : List.length ki = List.length li ->
  tip_weights ki (List.length li) w ->
  gdif p e ld Cs li ki unit = Ok (G, G1, G2) ->
  ((forall j, (S j < List.length li)%nat -> ~ is_tip ki j) /\ G = 0 /\ G1 = 0 /\ G2 = 0) \/
  exists c, err_factor unit c /\
  let z j := zsol p e ld (nth j li 0) (nth j Cs []) (nth j li 0) (nth j ki false) in
  let n := (List.length li - 1)%nat in
  G1 = c * tip_sum ki n (fun j => w j * GI p (z j)) /\
  G2 = c * tip_sum ki n (fun j => w j * GII p (z j)) /\ G = G1 + G2.
Proof. exact (gdif_value2 p e ld Cs li ki unit G G1 G2 w). Qed.
Print Assumptions C42_weights.
(** Two inner cracks and an edge crack: four half weights, one full weight. *)
Definition ex_ki : list bool := [true; false; true; false; true; false].
Definition ex_li : list R := [4; 1; 4; 2; 4; 3].
Definition ex_Cs : list (list R) := repeat [1; 0; 0; 2; 0; 0] 6.
Lemma ex_weights : tip_weights ex_ki 6 (fun j => if Nat.eqb j 4 then 1 else 1 / 2).
Proof.
  intros j Hj T. assert (J : (j = 0 \/ j = 1 \/ j = 2 \/ j = 3 \/ j = 4)%nat) by lia.
  split; intros E; destruct J as [->|[->|[->|[->| ->]]]]; simpl; try reflexivity; exfalso.
  - destruct E as [E|E]; [specialize (E 0%nat ltac:(lia))|specialize (E 2%nat ltac:(lia))]; discriminate.
  - destruct E as [E|E]; [specialize (E 0%nat ltac:(lia))|specialize (E 2%nat ltac:(lia))]; discriminate.
  - destruct E as [E|E]; [specialize (E 0%nat ltac:(lia))|specialize (E 4%nat ltac:(lia))]; discriminate.
  - destruct E as [E|E]; [specialize (E 0%nat ltac:(lia))|specialize (E 4%nat ltac:(lia))]; discriminate.
  - apply E. right. intros m Hm. replace m with 5%nat by lia. reflexivity.
Qed.
Example C41_C42_example : is_tip ex_ki 3 /\ exists G G1 G2,
  gdif ex_par (calc_eigensystem ex_ews) (loads_of (ex_obj "skiers" None 30) 30) ex_Cs ex_li ex_ki "J/m^2" = Ok (G, G1, G2).
Proof.
  split; [intros E; discriminate|].
  destruct (C41_accepted ex_par (calc_eigensystem ex_ews) (loads_of (ex_obj "skiers" None 30) 30) ex_Cs ex_li ex_ki "J/m^2" 1000
    (or_introl (conj eq_refl eq_refl)) eq_refl) as ([[G G1] G2] & E); [|exists G, G1, G2; exact E].
  intros j Hj _. simpl in Hj. split; [simpl; lia|].
  pose proof (six_zh _ (ready_six _ (ex_ready "skiers" None 30)) (nth j ex_li 0) (nth j ex_li 0) (nth j ex_ki false)) as S6.
  etransitivity; [exact S6|]. assert (J : (j = 0 \/ j = 1 \/ j = 2 \/ j = 3 \/ j = 4)%nat) by lia.
  destruct J as [->|[->|[->|[->| ->]]]]; reflexivity.
Qed.

(** C43: both sides of a tip in a solved system. *)
Theorem C43_both_sides o kR phi li mi ki Cs : 0 < kA55 (o_par o) -> bvp o kR phi li mi ki Cs ->
  let z i := field o phi (nth i li 0) (nth i ki false) (nth i Cs []) in
  forall i, (S i < List.length li)%nat ->
    GI (o_par o) (z i (nth i li 0)) = GI (o_par o) (z (S i) 0) /\
    s_tau (o_par o) true (z (S i) 0) - s_tau (o_par o) true (z i (nth i li 0))
      = kt (o_par o) * wt (o_par o) / 2 * (point_Fn o phi (nth i mi 0) / kA55 (o_par o)) /\
    (point_Fn o phi (nth i mi 0) = 0 -> GII (o_par o) (z i (nth i li 0)) = GII (o_par o) (z (S i) 0)).
Proof. exact (solved_tips o kR phi li mi ki Cs). Qed.
Print Assumptions C43_both_sides.
Example C43_example : exists Cs kR, bvp (ex_obj "skier" None 30) kR 30 [4; 1; 1; 4] [0; 80; 0] [true; false; false; true] Cs /\
  point_Fn (ex_obj "skier" None 30) 30 (nth 0 [0; 80; 0] 0) = 0.
Proof.
  destruct (well_posed (fun _ => ex_ews) elim_solve (ex_obj "skier" None 30) true 30
    [4; 1; 1; 4] [0; 80; 0] [true; false; false; true] KSkier 0 elim_sound elim_complete
    (ex_ready _ _ _) ex_stable ltac:(simpl; lia) ex_valid_skier ex_proper_skier eq_refl
    ltac:(discriminate) ltac:(discriminate) ltac:(discriminate)) as (Cs & _ & B & _).
  exists Cs, 0. split; [exact B|]. unfold point_Fn. simpl. lra.
Qed.

(** C44: incremental energy release rate, for any quadrature with absolute error eps. *)
Theorem C44_crack_opening quad eps o phi C0 C1 li ki k0 G G1 G2 : accurate_quad quad eps -> ready o ->
  ginc quad (o_par o) (o_eig o) (loads_of o phi) C0 C1 li ki k0 = Ok (Some G, Some G1, Some G2) ->
  let n := List.length li in
  let da := crack_sum k0 ki n (fun i => nth i li 0) in
  G = G1 + G2 /\
  ((forall i, cracking k0 ki i = false) -> G1 = 0 /\ G2 = 0) /\
  ((exists i, cracking k0 ki i = true) -> 0 < da /\
   Rabs (G1 - 1 / (2 * da) * crack_sum k0 ki n (fun i =>
      RInt (opening o phi (nth i li 0) (nth i C0 []) (nth i C1 [])) 0 (nth i li 0))) <= INR n * eps / (2 * da) /\
   Rabs (G2 - 1 / (2 * da) * crack_sum k0 ki n (fun i =>
      RInt (sliding o phi (nth i li 0) (nth i C0 []) (nth i C1 [])) 0 (nth i li 0))) <= INR n * eps / (2 * da)).
Proof. intros HQ. exact (ginc_value quad eps HQ o phi C0 C1 li ki k0 G G1 G2). Qed.
Print Assumptions C44_crack_opening.
Example C44_example : accurate_quad (fun f a b => RInt f a b) 0 /\ exists G G1 G2,
  ginc (fun f a b => RInt f a b) ex_par (calc_eigensystem ex_ews) (loads_of (ex_obj "pst-" None 30) 30)
    [[1; 0; 0; 2; 0; 0]; [0; 0; 1; 0; 0; 0]] [[1; 0; 0; 2; 0; 0]; [0; 3; 0; 0; 0; 1]] [4; 2] [true; false] [true; true]
  = Ok (Some G, Some G1, Some G2).
Proof.
  split; [intros f a b _; rewrite Rminus_diag_eq, Rabs_R0 by reflexivity; lra|].
  pose proof (six_zh _ (ready_six _ (ex_ready "pst-" None 30))) as S6. simpl in S6.
  unfold ginc. cbn [List.length Nat.eqb negb andb map2 select ginc_loop]. unfold zsol_checked.
  change (o_par (ex_obj "pst-" None 30)) with ex_par in S6. change (o_eig (ex_obj "pst-" None 30)) with (calc_eigensystem ex_ews) in S6.
  rewrite !S6. cbn [List.length Nat.eqb negb bind fst snd rsum fold_right].
  destruct (Rlt_dec 0 (2 + 0)) as [_|N]; [|lra]. eexists _, _, _. reflexivity.
Qed.

(** C45: mode I integrand with identical states is twice GI ... *)
Theorem C45_mode_I p x z : 0 < wt p -> 0 < kn p -> int1 p x z z = 2 * GI p (z x).
Proof. exact (int1_diag p x z). Qed.
Print Assumptions C45_mode_I.
(** ... but the mode II integrand is minus twice GII. *)
Theorem C45_mode_II p x z : 0 < wt p -> 0 < kt p -> int2 p x z z = - (2 * GII p (z x)).
Proof. exact (int2_diag p x z). Qed.
Print Assumptions C45_mode_II.
Theorem C45_refuted : exists p x z, adm p /\ int2 p x z z <> 2 * GII p (z x) /\ int2 p x z z < 0.
Proof.
  exists ex_par, 0, (fun _ => mkV 1 0 0 0 0 0).
  split; [split; [exact ex_lam_ok|split; [exact ex_fnd_ok|simpl; lra]]|].
  rewrite (int2_diag ex_par 0 (fun _ => mkV 1 0 0 0 0 0)) by (simpl; lra). unfold GII. simpl. split; lra.
Qed.
Print Assumptions C45_refuted.
