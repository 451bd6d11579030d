(** Property theorem C129: mirrored models release the same energy. *)
From Coquelicot Require Import Coquelicot.
Require Import Verif.Py Verif.MTools Verif.MEigen Verif.MFields Verif.MAnalysis Verif.MRaster Verif.MSolution
  Verif.SAdm Verif.SBeam Verif.SBvp Verif.SEig Verif.SMirror Verif.SEnergy Verif.PBeam Verif.PBeam2 Verif.PBvp
  Verif.PLinAlg Verif.PWell2 Verif.PWell3 Verif.PBvp6 Verif.PSegment Verif.PEnergy Verif.PEnergy2 Verif.PConvex Verif.PSelf Verif.PMirror
  Verif.PropEnergy Verif.PropMirror Verif.PropTip.

Lemma rsum_rev l : rsum (rev l) = rsum l.
Proof. induction l as [|x l IH]; [reflexivity|]. simpl rev. rewrite rsum_app, IH. simpl. ring. Qed.
Lemma rev_seq0 n : rev (seq 0 n) = map (fun j => (n - 1 - j)%nat) (seq 0 n).
Proof.
  apply (nth_ext _ _ 0%nat 0%nat); rewrite rev_length; [rewrite map_length; reflexivity|].
  intros j Hj. rewrite seq_length in Hj. rewrite rev_nth by (rewrite seq_length; exact Hj).
  rewrite seq_length, seq_nth by lia.
  rewrite (nth_indep _ 0%nat (n - 1 - 0)%nat) by (rewrite map_length, seq_length; exact Hj).
  rewrite (map_nth (fun j => (n - 1 - j)%nat)), seq_nth by exact Hj. lia.
Qed.
(** Tip j of the reversed support is tip n-1-j of the original one. *)
Lemma tip_rev ki n j : List.length ki = S n -> (j < n)%nat ->
  nth j (rev ki) false = nth (S (n - 1 - j)) ki false /\ nth (S j) (rev ki) false = nth (n - 1 - j) ki false.
Proof. intros L H. split; (rewrite rev_nth by lia; f_equal; lia). Qed.
Lemma is_tip_rev ki n j : List.length ki = S n -> (j < n)%nat -> is_tip (rev ki) j <-> is_tip ki (n - 1 - j).
Proof.
  intros L H. unfold is_tip. destruct (tip_rev ki n j L H) as [A B]. rewrite A, B. split; intros X Y; apply X; symmetry; exact Y.
Qed.
Lemma tip_sum_rev ki n f : List.length ki = S n -> tip_sum (rev ki) n f = tip_sum ki n (fun j => f (n - 1 - j)%nat).
Proof.
  intros L. unfold tip_sum. rewrite <- (rsum_rev (map _ (seq 0 n))), <- map_rev, rev_seq0, map_map. apply f_equal.
  apply map_ext_in. intros j I. apply in_seq in I.
  destruct (tip_rev ki n (n - 1 - j) L ltac:(lia)) as [A B]. rewrite A, B.
  replace (n - 1 - (n - 1 - j))%nat with j by lia.
  destruct (Bool.bool_dec (nth (S j) ki false) (nth j ki false)) as [E|E];
    destruct (Bool.bool_dec (nth j ki false) (nth (S j) ki false)) as [F|F]; congruence.
Qed.
Lemma edge_rev ki n j : List.length ki = S n -> (j < n)%nat -> edge_crack (rev ki) (S n) j <-> edge_crack ki (S n) (n - 1 - j).
Proof.
  intros L H. unfold edge_crack. split; (intros [A|A]; [right|left]); intros m Hm.
  - pose proof (A (n - m)%nat ltac:(lia)) as A1. rewrite rev_nth in A1 by lia.
    replace (List.length ki - S (n - m))%nat with m in A1 by lia. exact A1.
  - pose proof (A (n - m)%nat ltac:(lia)) as A1. rewrite rev_nth in A1 by lia.
    replace (List.length ki - S (n - m))%nat with m in A1 by lia. exact A1.
  - rewrite rev_nth by lia. apply A. lia.
  - rewrite rev_nth by lia. apply A. lia.
Qed.
Lemma weights_rev ki n w : List.length ki = S n -> tip_weights ki (S n) w ->
  tip_weights (rev ki) (S n) (fun j => w (n - 1 - j)%nat).
Proof.
  intros L W j Hj T. apply (is_tip_rev ki n j L ltac:(lia)) in T. pose proof (edge_rev ki n j L ltac:(lia)) as E.
  destruct (W (n - 1 - j)%nat ltac:(lia) T) as [A B]. split; intros X; [apply A|apply B]; rewrite <- E; exact X.
Qed.
Lemma GI_mirror p z : GI p (mirror z) = GI p z.
Proof. unfold GI, mirror. cbn [z_w]. reflexivity. Qed.
Lemma GII_mirror p z : GII p (mirror z) = GII p z.
Proof. unfold GII, mirror. cbn [z_u z_psi z_dw]. f_equal. ring. Qed.

Lemma no_tip p e ld Cs li ki unit G G1 G2 w : List.length ki = List.length li -> tip_weights ki (List.length li) w ->
  gdif p e ld Cs li ki unit = Ok (G, G1, G2) -> (forall j, (S j < List.length li)%nat -> ~ is_tip ki j) ->
  G = 0 /\ G1 = 0 /\ G2 = 0.
Proof.
  intros L W E N. destruct (gdif_value2 _ _ _ _ _ _ _ _ _ _ w L W E) as [(_ & D)|(c & _ & V)]; [exact D|].
  cbv zeta in V. destruct V as (V1 & V2 & V0).
  rewrite tip_sum_none in V1 by (intros j Hj; apply N; lia). rewrite tip_sum_none in V2 by (intros j Hj; apply N; lia).
  rewrite Rmult_0_r in V1, V2. repeat split; lra.
Qed.

(** C129: a model and its mirror image release the same energy in opening and, without normal point
    loads at the tips, in sliding and in total. *)
Theorem C129_rates o o' kR phi kd li mi ki Cs Cs' unit G G1 G2 G' G1' G2' :
  same_structure o o' -> same_loading o o' ->
  kind_of (o_system o) = Some kd -> kind_of (o_system o') = Some kd -> kd = KPst \/ kd = KSkier ->
  ready o -> stable (o_par o) -> 0 <= kR -> proper_segments li ki ->
  List.length ki = List.length li -> List.length li = S (List.length mi) ->
  bvp o kR phi li mi ki Cs -> bvp o' kR (- phi) (rev li) (rev mi) (rev ki) Cs' ->
  gdif (o_par o) (o_eig o) (loads_of o phi) Cs li ki unit = Ok (G, G1, G2) ->
  gdif (o_par o') (o_eig o') (loads_of o' (- phi)) Cs' (rev li) (rev ki) unit = Ok (G', G1', G2') ->
  G1' = G1 /\
  ((forall j, (S j < List.length li)%nat -> is_tip ki j -> point_Fn o phi (nth j mi 0) = 0) -> G2' = G2 /\ G' = G).
Proof.
  intros S0 L0 K K' MK Hr Hs HR Hp Lk Lm B B' E E'.
  pose proof (C24_mirror o o' kR phi kd li mi ki Cs Cs' S0 L0 K K' MK Hr Hs HR Hp Lk Lm B B') as M.
  pose proof (weight_at_ok ki) as W. rewrite Lk, Lm in W. set (n := List.length mi) in *. set (w := weight_at ki) in *.
  assert (Ln : List.length ki = S n) by lia.
  pose proof (weights_rev ki n w Ln W) as W'.
  assert (HA : 0 < kA55 (o_par o)) by (destruct Hr as [H _]; destruct H; tauto).
  destruct (Classical_Prop.classic (exists j, (S j < List.length li)%nat /\ is_tip ki j)) as [HT|HT].
  - destruct (C43_reported o kR phi li mi ki Cs unit G G1 G2 w HA B Lk ltac:(rewrite Lm; exact W) E HT) as (c & Hc & U1 & U2).
    destruct (C42_weights _ _ _ _ _ _ _ _ _ _ w Lk ltac:(rewrite Lm; exact W) E) as [[N _]|(_ & _ & _ & _ & U0)];
      [exfalso; destruct HT as (j0 & J0 & T0); exact (N j0 J0 T0)|].
    replace (List.length li - 1)%nat with n in U1, U2 by lia.
    destruct (gdif_value2 (o_par o') (o_eig o') (loads_of o' (- phi)) Cs' (rev li) (rev ki) unit G' G1' G2' _
      ltac:(rewrite !rev_length; exact Lk) ltac:(rewrite rev_length, Lm; exact W') E')
      as [(N & _)|(c' & Hc' & V)].
    { exfalso. destruct HT as (j & Hj & T). apply (N (n - 1 - j)%nat ltac:(rewrite rev_length; lia)).
      apply (is_tip_rev ki n (n - 1 - j) Ln ltac:(lia)). replace (n - 1 - (n - 1 - j))%nat with j by lia. exact T. }
    cbv zeta in V. rewrite rev_length, Lm in V. replace (S n - 1)%nat with n in V by lia. destruct V as (V1 & V2 & V0).
    rewrite (tip_sum_rev ki n _ Ln) in V1. rewrite (tip_sum_rev ki n _ Ln) in V2.
    (* the state left of tip n-1-j of the mirror image is that right of tip j *)
    assert (Z : forall j, (j < n)%nat ->
      zsol (o_par o') (o_eig o') (loads_of o' (- phi)) (nth (n - 1 - j) (rev li) 0) (nth (n - 1 - j) Cs' [])
        (nth (n - 1 - j) (rev li) 0) (nth (n - 1 - j) (rev ki) false)
      = mirror (field o phi (nth (S j) li 0) (nth (S j) ki false) (nth (S j) Cs []) 0)).
    { intros j Hj. assert (P : 0 <= nth (S j) li 0) by (destruct Hp as [P _]; specialize (P (S j) ltac:(lia)); lra).
      specialize (M (S j) (nth (S j) li 0) ltac:(lia) ltac:(lra)). rewrite Rminus_diag_eq in M by reflexivity.
      rewrite !rev_nth by lia. replace (List.length li - S (n - 1 - j))%nat with (S j) by lia.
      replace (List.length ki - S (n - 1 - j))%nat with (S j) by lia.
      replace (List.length li - 1 - S j)%nat with (n - 1 - j)%nat in M by lia. exact M. }
    pose proof S0 as (P1 & _).
    assert (c' = c) by (destruct Hc as [[? ?]|[[? ?]|[? ?]]], Hc' as [[? ?]|[[? ?]|[? ?]]]; congruence). subst c'.
    assert (Q1 : G1' = G1).
    { rewrite V1, U1. apply f_equal. apply PropTip.tip_sum_ext. intros j Hj _. cbv beta.
      replace (n - 1 - (n - 1 - j))%nat with j by lia. rewrite (Z j Hj), GI_mirror, P1. reflexivity. }
    split; [exact Q1|]. intros HF.
    assert (Q2 : G2' = G2).
    { rewrite V2, (U2 HF). apply f_equal. apply PropTip.tip_sum_ext. intros j Hj _. cbv beta.
      replace (n - 1 - (n - 1 - j))%nat with j by lia. rewrite (Z j Hj), GII_mirror, P1. reflexivity. }
    split; [exact Q2|congruence].
  - assert (N : forall j, (S j < List.length li)%nat -> ~ is_tip ki j) by (intros j Hj T; apply HT; exists j; tauto).
    assert (N' : forall j, (S j < List.length (rev li))%nat -> ~ is_tip (rev ki) j).
    { intros j Hj T. rewrite rev_length in Hj. apply (is_tip_rev ki n j Ln ltac:(lia)) in T. exact (N (n - 1 - j)%nat ltac:(lia) T). }
    assert (W0 : tip_weights ki (List.length li) w) by (rewrite Lm; exact W).
    assert (W1 : tip_weights (rev ki) (List.length (rev li)) (fun j => w (n - 1 - j)%nat)) by (rewrite rev_length, Lm; exact W').
    assert (L1 : List.length (rev ki) = List.length (rev li)) by (rewrite !rev_length; exact Lk).
    destruct (no_tip (o_par o) (o_eig o) (loads_of o phi) Cs li ki unit G G1 G2 w Lk W0 E N) as (A0 & A1 & A2).
    destruct (no_tip (o_par o') (o_eig o') (loads_of o' (- phi)) Cs' (rev li) (rev ki) unit G' G1' G2' _ L1 W1 E' N') as (B0 & B1 & B2).
    rewrite A0, A1, A2, B0, B1, B2. split; [reflexivity|]. intros _. split; reflexivity.
Qed.
Print Assumptions C129_rates.
(** ... and so do the results of [assemble_and_solve]. *)
Theorem C129_library eig solve o o' aslist phi li mi ki Cs Cs' kd kR unit G G1 G2 G' G1' G2' :
  sound_solver solve -> ready o -> stable (o_par o) -> (2 <= List.length li)%nat -> proper_segments li ki ->
  same_structure o o' -> same_loading o o' ->
  kind_of (o_system o) = Some kd -> kind_of (o_system o') = Some kd -> kd = KPst \/ kd = KSkier ->
  (kd = KPst -> o_mode o = Some ModeC -> o_phi o = phi /\ o_phi o' = - phi /\
     fst (substitute_stiffness eig solve o (o_a o - o_td o) "rested" "rot") = Ok kR /\
     fst (substitute_stiffness eig solve o' (o_a o - o_td o) "rested" "rot") = Ok kR) ->
  assemble_and_solve eig solve o aslist phi li mi ki = Ok Cs ->
  assemble_and_solve eig solve o' aslist (- phi) (rev li) (rev mi) (rev ki) = Ok Cs' ->
  gdif (o_par o) (o_eig o) (loads_of o phi) Cs li ki unit = Ok (G, G1, G2) ->
  gdif (o_par o') (o_eig o') (loads_of o' (- phi)) Cs' (rev li) (rev ki) unit = Ok (G', G1', G2') ->
  G1' = G1 /\
  ((forall j, (S j < List.length li)%nat -> is_tip ki j -> point_Fn o phi (nth j mi 0) = 0) -> G2' = G2 /\ G' = G).
Proof.
  intros Hso Hr Hs HN Hp S0 L0 K0 K1 MK HC H H' E E'.
  destruct (solved_lengths _ _ _ _ _ _ _ _ _ H) as [Lk Lm].
  pose proof S0 as (P1 & P2 & _ & _ & P3 & P4 & P5).
  assert (Hr' : ready o') by (unfold ready; rewrite P1, P2; exact Hr).
  set (kr := match kd, o_mode o with KPst, Some ModeC => kR | _, _ => 0 end).
  assert (HR : 0 <= kr).
  { unfold kr. destruct kd; try lra. destruct (o_mode o) as [[]|] eqn:EM; try lra.
    destruct (HC eq_refl eq_refl) as (_ & _ & H1 & _). exact (substitute_nonneg _ _ _ _ _ _ _ H1). }
  assert (B : bvp o kr phi li mi ki Cs).
  { apply (solved_bvp eig solve o aslist phi li mi ki Cs kd kr Hso Hr HN K0); [|destruct MK as [-> | ->]; discriminate|exact H].
    intros E1 E2. destruct (HC E1 E2) as (Q1 & _ & Q2 & _). unfold kr. rewrite E1, E2. auto. }
  assert (B' : bvp o' kr (- phi) (rev li) (rev mi) (rev ki) Cs').
  { apply (solved_bvp eig solve o' aslist (- phi) (rev li) (rev mi) (rev ki) Cs' kd kr Hso Hr'); [rewrite rev_length; exact HN|exact K1| |destruct MK as [-> | ->]; discriminate|exact H'].
    intros E1 E2. rewrite P3 in E2. destruct (HC E1 E2) as (_ & Q1 & _ & Q2). unfold kr. rewrite E1, E2, P4, P5. auto. }
  exact (C129_rates o o' kr phi kd li mi ki Cs Cs' unit G G1 G2 G' G1' G2' S0 L0 K0 K1 MK Hr Hs HR Hp Lk Lm B B' E E').
Qed.
Print Assumptions C129_library.
(** A saw cut from the right end up the slope and its twin from the left end. *)
Example C129_example : exists Cs Cs' G G1 G2 G' G1' G2',
  assemble_and_solve (fun _ => ex_ews) elim_solve (ex_obj "pst-" (Some ModeB) (-30)) true (-30) [8; 2] [0] [true; false] = Ok Cs /\
  assemble_and_solve (fun _ => ex_ews) elim_solve (ex_obj "-pst" (Some ModeB) 30) true (- -30)
    (rev [8; 2]) (rev [0]) (rev [true; false]) = Ok Cs' /\
  bvp (ex_obj "pst-" (Some ModeB) (-30)) 0 (-30) [8; 2] [0] [true; false] Cs /\
  bvp (ex_obj "-pst" (Some ModeB) 30) 0 (- -30) (rev [8; 2]) (rev [0]) (rev [true; false]) Cs' /\
  gdif ex_par (o_eig (ex_obj "pst-" (Some ModeB) (-30))) (loads_of (ex_obj "pst-" (Some ModeB) (-30)) (-30)) Cs
    [8; 2] [true; false] "J/m^2" = Ok (G, G1, G2) /\
  gdif ex_par (o_eig (ex_obj "-pst" (Some ModeB) 30)) (loads_of (ex_obj "-pst" (Some ModeB) 30) (- -30)) Cs'
    (rev [8; 2]) (rev [true; false]) "J/m^2" = Ok (G', G1', G2') /\
  is_tip [true; false] 0 /\ G1' = G1 /\ G2' = G2 /\ G' = G.
Proof.
  destruct (well_posed (fun _ => ex_ews) elim_solve (ex_obj "pst-" (Some ModeB) (-30)) true (-30)
    [8; 2] [0] [true; false] KPst 0 elim_sound elim_complete
    (ex_ready _ _ _) ex_stable ltac:(simpl; lia) ex_valid_pst ex_proper_pst eq_refl
    ltac:(discriminate) ltac:(discriminate) ltac:(discriminate)) as (Cs & HS & B & HL & H6 & _).
  destruct (well_posed (fun _ => ex_ews) elim_solve (ex_obj "-pst" (Some ModeB) 30) true (- -30)
    [2; 8] [0] [false; true] KPst 0 elim_sound elim_complete
    (ex_ready _ _ _) ex_stable ltac:(simpl; lia) ex_valid_twin ex_proper_twin eq_refl
    ltac:(discriminate) ltac:(discriminate) ltac:(discriminate)) as (Cs' & HS' & B' & HL' & H6' & _).
  destruct (C41_accepted ex_par (o_eig (ex_obj "pst-" (Some ModeB) (-30))) (loads_of (ex_obj "pst-" (Some ModeB) (-30)) (-30)) Cs
    [8; 2] [true; false] "J/m^2" 1000 (or_introl (conj eq_refl eq_refl)) eq_refl) as ([[G G1] G2] & E).
  { intros j Hj _. cbn [List.length] in Hj, HL. assert (J : (j < List.length Cs)%nat) by lia. split; [exact J|].
    rewrite (proj1 (Forall_forall _ _) H6 (nth j Cs []) (nth_In Cs [] J)).
    exact (six_zh _ (ready_six _ (ex_ready "pst-" (Some ModeB) (-30))) _ _ _). }
  destruct (C41_accepted ex_par (o_eig (ex_obj "-pst" (Some ModeB) 30)) (loads_of (ex_obj "-pst" (Some ModeB) 30) (- -30)) Cs'
    (rev [8; 2]) (rev [true; false]) "J/m^2" 1000 (or_introl (conj eq_refl eq_refl)) eq_refl) as ([[G' G1'] G2'] & E').
  { intros j Hj _. cbn [List.length rev app] in Hj, HL'. assert (J : (j < List.length Cs')%nat) by lia. split; [exact J|].
    rewrite (proj1 (Forall_forall _ _) H6' (nth j Cs' []) (nth_In Cs' [] J)).
    exact (six_zh _ (ready_six _ (ex_ready "-pst" (Some ModeB) 30)) _ _ _). }
  exists Cs, Cs', G, G1, G2, G', G1', G2'.
  split; [exact HS|]. split; [exact HS'|]. split; [exact B|]. split; [exact B'|]. split; [exact E|]. split; [exact E'|]. split; [discriminate|].
  destruct (C129_rates (ex_obj "pst-" (Some ModeB) (-30)) (ex_obj "-pst" (Some ModeB) 30) 0 (-30) KPst [8; 2] [0] [true; false]
    Cs Cs' "J/m^2" G G1 G2 G' G1' G2' ltac:(repeat split; reflexivity) ltac:(repeat split; reflexivity) eq_refl eq_refl
    (or_introl eq_refl) (ex_ready _ _ _) ex_stable ltac:(lra) ex_proper_pst eq_refl eq_refl B B' E E') as [Q1 Q2].
  split; [exact Q1|]. apply Q2. intros j Hj _. cbn [List.length] in Hj. replace j with 0%nat by lia.
  unfold point_Fn. cbn [nth]. destruct (kind_of _) as [[]|]; lra.
Qed.

(** For a symmetric model the rates do not depend on the direction of the slope. *)
Theorem C129_even o o' kR phi kd li mi ki Cs Cs' unit G G1 G2 G' G1' G2' :
  rev li = li -> rev mi = mi -> rev ki = ki -> same_structure o o' -> same_loading o o' ->
  kind_of (o_system o) = Some kd -> kind_of (o_system o') = Some kd -> kd = KPst \/ kd = KSkier ->
  ready o -> stable (o_par o) -> 0 <= kR -> proper_segments li ki ->
  List.length ki = List.length li -> List.length li = S (List.length mi) ->
  bvp o kR phi li mi ki Cs -> bvp o' kR (- phi) li mi ki Cs' ->
  gdif (o_par o) (o_eig o) (loads_of o phi) Cs li ki unit = Ok (G, G1, G2) ->
  gdif (o_par o') (o_eig o') (loads_of o' (- phi)) Cs' li ki unit = Ok (G', G1', G2') ->
  G1' = G1 /\
  ((forall j, (S j < List.length li)%nat -> is_tip ki j -> point_Fn o phi (nth j mi 0) = 0) -> G2' = G2 /\ G' = G).
Proof.
  intros Rl Rm Rk S0 L0 K K' MK Hr Hs HR Hp Lk Lm B B' E E'.
  assert (B1 : bvp o' kR (- phi) (rev li) (rev mi) (rev ki) Cs') by (rewrite Rl, Rm, Rk; exact B').
  assert (E1 : gdif (o_par o') (o_eig o') (loads_of o' (- phi)) Cs' (rev li) (rev ki) unit = Ok (G', G1', G2'))
    by (rewrite Rl, Rk; exact E').
  exact (C129_rates o o' kR phi kd li mi ki Cs Cs' unit G G1 G2 G' G1' G2' S0 L0 K K' MK Hr Hs HR Hp Lk Lm B B1 E E1).
Qed.
Print Assumptions C129_even.
(** A skier above the middle of a crack. *)
Lemma even_case phi : exists Cs G G1 G2,
  bvp (ex_obj "skier" None 30) 0 phi [4; 1; 1; 4] [0; 80; 0] [true; false; false; true] Cs /\
  gdif ex_par (o_eig (ex_obj "skier" None 30)) (loads_of (ex_obj "skier" None 30) phi) Cs [4; 1; 1; 4]
    [true; false; false; true] "J/m^2" = Ok (G, G1, G2).
Proof.
  destruct (well_posed (fun _ => ex_ews) elim_solve (ex_obj "skier" None 30) true phi
    [4; 1; 1; 4] [0; 80; 0] [true; false; false; true] KSkier 0 elim_sound elim_complete
    (ex_ready _ _ _) ex_stable ltac:(simpl; lia) ex_valid_skier ex_proper_skier eq_refl
    ltac:(discriminate) ltac:(discriminate) ltac:(discriminate)) as (Cs & _ & B & HL & H6 & _).
  destruct (C41_accepted ex_par (o_eig (ex_obj "skier" None 30)) (loads_of (ex_obj "skier" None 30) phi) Cs [4; 1; 1; 4]
    [true; false; false; true] "J/m^2" 1000 (or_introl (conj eq_refl eq_refl)) eq_refl) as ([[G G1] G2] & E).
  { intros j Hj _. cbn [List.length] in Hj, HL. assert (J : (j < List.length Cs)%nat) by lia. split; [exact J|].
    rewrite (proj1 (Forall_forall _ _) H6 (nth j Cs []) (nth_In Cs [] J)).
    exact (six_zh _ (ready_six _ (ex_ready "skier" None 30)) _ _ _). }
  exists Cs, G, G1, G2. split; [exact B|exact E].
Qed.
Example C129_even_example : exists Cs Cs' G G1 G2 G' G1' G2',
  bvp (ex_obj "skier" None 30) 0 30 [4; 1; 1; 4] [0; 80; 0] [true; false; false; true] Cs /\
  bvp (ex_obj "skier" None 30) 0 (-30) [4; 1; 1; 4] [0; 80; 0] [true; false; false; true] Cs' /\
  gdif ex_par (o_eig (ex_obj "skier" None 30)) (loads_of (ex_obj "skier" None 30) 30) Cs [4; 1; 1; 4]
    [true; false; false; true] "J/m^2" = Ok (G, G1, G2) /\
  gdif ex_par (o_eig (ex_obj "skier" None 30)) (loads_of (ex_obj "skier" None 30) (-30)) Cs' [4; 1; 1; 4]
    [true; false; false; true] "J/m^2" = Ok (G', G1', G2') /\
  G1' = G1 /\ G2' = G2 /\ G' = G.
Proof.
  destruct (even_case 30) as (Cs & G & G1 & G2 & B & E). destruct (even_case (-30)) as (Cs' & G' & G1' & G2' & B' & E').
  exists Cs, Cs', G, G1, G2, G', G1', G2'.
  split; [exact B|]. split; [exact B'|]. split; [exact E|]. split; [exact E'|].
  destruct (C129_even (ex_obj "skier" None 30) (ex_obj "skier" None 30) 0 30 KSkier [4; 1; 1; 4] [0; 80; 0] [true; false; false; true]
    Cs Cs' "J/m^2" G G1 G2 G' G1' G2' eq_refl eq_refl eq_refl ltac:(repeat split; reflexivity) ltac:(repeat split; reflexivity)
    eq_refl eq_refl (or_intror eq_refl) (ex_ready _ _ _) ex_stable ltac:(lra) ex_proper_skier eq_refl eq_refl B B' E E') as [Q1 Q2].
  split; [exact Q1|]. apply Q2. intros j Hj T. cbn [List.length] in Hj. assert (J : (j = 0 \/ j = 1 \/ j = 2)%nat) by lia.
  destruct J as [->|[->| ->]].
  - unfold point_Fn. simpl. lra.
  - exfalso. apply T. reflexivity.
  - unfold point_Fn. simpl. lra.
Qed.
