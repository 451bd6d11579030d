(** Property theorems C43 and C47 for the values the library reports. *)
From Coquelicot Require Import Coquelicot.
Require Import Verif.Py Verif.MTools Verif.MEigen Verif.MFields Verif.MRaster Verif.MSolution Verif.MAnalysis
  Verif.SAdm Verif.SBeam Verif.SBvp Verif.SEig Verif.SEnergy Verif.PBeam Verif.PBeam2 Verif.PBvp Verif.PWell2 Verif.PBvp6 Verif.PLinAlg
  Verif.PEnergy Verif.PEnergy2 Verif.SStress Verif.PSetup Verif.PropEnergy Verif.PropStress.

Lemma tip_sum_ext ki n f g : (forall j, (j < n)%nat -> is_tip ki j -> f j = g j) -> tip_sum ki n f = tip_sum ki n g.
Proof.
  intros H. unfold tip_sum. apply f_equal. apply map_ext_in. intros j I. apply in_seq in I.
  destruct (Bool.bool_dec _ _) as [_|N]; [reflexivity|]. apply H; [lia|exact N].
Qed.

(** C43: what [gdif] reports for a solved system is the energy release rate of the states just
    right of the tips, although it evaluates those just left of them: always in mode I and, without
    normal point loads at the tips, in mode II. *)
Theorem C43_reported o kR phi li mi ki Cs unit G G1 G2 w : 0 < kA55 (o_par o) -> bvp o kR phi li mi ki Cs ->
  List.length ki = List.length li -> tip_weights ki (List.length li) w ->
  gdif (o_par o) (o_eig o) (loads_of o phi) Cs li ki unit = Ok (G, G1, G2) ->
  let right j := field o phi (nth (S j) li 0) (nth (S j) ki false) (nth (S j) Cs []) 0 in
  let n := (List.length li - 1)%nat in
  (exists j, (S j < List.length li)%nat /\ is_tip ki j) ->
  exists c, err_factor unit c /\
    G1 = c * tip_sum ki n (fun j => w j * GI (o_par o) (right j)) /\
    ((forall j, (S j < List.length li)%nat -> is_tip ki j -> point_Fn o phi (nth j mi 0) = 0) ->
       G2 = c * tip_sum ki n (fun j => w j * GII (o_par o) (right j))).
Proof.
  intros HA B HL HW E right n (j0 & J0 & T0).
  destruct (C42_weights _ _ _ _ _ _ _ _ _ _ w HL HW E) as [[N _]|(c & Hc & V1 & V2 & _)]; [exfalso; exact (N j0 J0 T0)|].
  exists c. split; [exact Hc|]. pose proof (C43_both_sides o kR phi li mi ki Cs HA B) as S2. cbv zeta in S2. split.
  - rewrite V1. apply f_equal. apply tip_sum_ext. intros j Hj _. apply f_equal.
    exact (proj1 (S2 j ltac:(unfold n in Hj; lia))).
  - intros HF. rewrite V2. apply f_equal. apply tip_sum_ext. intros j Hj T. apply f_equal.
    assert (Hj' : (S j < List.length li)%nat) by (unfold n in Hj; lia).
    exact (proj2 (proj2 (S2 j Hj')) (HF j Hj' T)).
Qed.
Print Assumptions C43_reported.
(** Both tips of a crack below a skier. *)
Example C43_reported_example : exists Cs G G1 G2,
  bvp (ex_obj "skier" None 30) 0 30 [4; 1; 1; 4] [0; 80; 0] [true; false; false; true] Cs /\
  gdif ex_par (o_eig (ex_obj "skier" None 30)) (loads_of (ex_obj "skier" None 30) 30) Cs [4; 1; 1; 4]
    [true; false; false; true] "J/m^2" = Ok (G, G1, G2) /\
  tip_weights [true; false; false; true] 4 (fun _ => 1 / 2) /\
  (forall j, (S j < 4)%nat -> is_tip [true; false; false; true] j ->
     point_Fn (ex_obj "skier" None 30) 30 (nth j [0; 80; 0] 0) = 0).
Proof.
  destruct (well_posed (fun _ => ex_ews) elim_solve (ex_obj "skier" None 30) true 30
    [4; 1; 1; 4] [0; 80; 0] [true; false; false; true] KSkier 0 elim_sound elim_complete
    (ex_ready _ _ _) ex_stable ltac:(simpl; lia) ex_valid_skier ex_proper_skier eq_refl
    ltac:(discriminate) ltac:(discriminate) ltac:(discriminate)) as (Cs & _ & B & HL & H6 & _).
  destruct (C41_accepted ex_par (o_eig (ex_obj "skier" None 30)) (loads_of (ex_obj "skier" None 30) 30) Cs [4; 1; 1; 4]
    [true; false; false; true] "J/m^2" 1000 (or_introl (conj eq_refl eq_refl)) eq_refl) as ([[G G1] G2] & E).
  { intros j Hj _. cbn [List.length] in Hj, HL. assert (J : (j < List.length Cs)%nat) by lia. split; [exact J|].
    rewrite (proj1 (Forall_forall _ _) H6 (nth j Cs []) (nth_In Cs [] J)).
    exact (six_zh _ (ready_six _ (ex_ready "skier" None 30)) _ _ _). }
  exists Cs, G, G1, G2. split; [exact B|]. split; [exact E|]. split.
  - intros j Hj T. assert (J : (j = 0 \/ j = 1 \/ j = 2)%nat) by lia.
    split; intros X; [exfalso|reflexivity].
    destruct X as [X|X]; [specialize (X 0%nat ltac:(lia)); discriminate|specialize (X 3%nat ltac:(lia)); discriminate].
  - intros j Hj T. assert (J : (j = 0 \/ j = 1 \/ j = 2)%nat) by lia.
    destruct J as [->|[->| ->]].
    + unfold point_Fn. simpl. lra.
    + exfalso. apply T. reflexivity.
    + unfold point_Fn. simpl. lra.
Qed.

(** C47: the slab shear stress at the bottom in terms of the weak-layer shear stress [tau] reports. *)
Theorem C47_reported o phi dz z : laminated o -> lam_ok (o_par o) -> 0 < dz ->
  exists T t, Txz o phi dz "MPa" z = Ok T /\ tau_unit (o_par o) "MPa" z = Ok t /\
    hd 1 T = 0 /\ last T 0 = t - pt (loads_of o phi).
Proof.
  intros L A D. destruct (C47_equilibrium o phi dz z L A D) as (T & E & _ & H0 & H1).
  exists T, (f_tau (o_par o) z). split; [exact E|]. split; [|split; [exact H0|]].
  - unfold tau_unit. replace (conv_stress "MPa") with (Ok 1) by reflexivity. cbn [bind].
    apply (f_equal (@Ok R)). unfold f_tau. ring.
  - rewrite H1. f_equal. symmetry. exact (proj2 (proj2 (proj2 (proj2 (accessors (o_par o) z))))).
Qed.
Print Assumptions C47_reported.
Example C47_reported_example : forall eig, exists o T t, Layered eig "skier" (LList ex_slab_layers) true = Ok o /\
  Txz o 38 10 "MPa" (mkV 1 0 0 0 0 0) = Ok T /\ tau_unit (o_par o) "MPa" (mkV 1 0 0 0 0 0) = Ok t /\
  0 < t /\ last T 0 = t.
Proof.
  intros eig. destruct (C46_example eig) as (o & E & L & (A & F & _) & _).
  destruct (C47_reported o 38 10 (mkV 1 0 0 0 0 0) L A ltac:(lra)) as (T & t & ET & Et & _ & H1).
  exists o, T, t. split; [exact E|]. split; [exact ET|]. split; [exact Et|].
  assert (P : pt (loads_of o 38) = 0).
  { apply Ok_inj in E. subst o. unfold loads_of, get_surface_load. simpl. ring. }
  split; [|rewrite H1, P; ring].
  destruct (C47_example eig) as (o' & T' & E' & ET' & _ & P'). rewrite E in E'. apply Ok_inj in E'. subst o'.
  rewrite ET in ET'. apply Ok_inj in ET'. subst T'. rewrite H1, P in P'. lra.
Qed.
