(** Property theorems C79, C80: [touchdown_distance] and the constructor of [Inverse]. *)
From Coq Require Import Lra.
Require Import Verif.Py Verif.MTools Verif.MEigen Verif.MFields Verif.SAdm Verif.SSlab Verif.MRaster Verif.MSolution
  Verif.SBeam Verif.SBvp Verif.SEig Verif.SContact Verif.MTouchdown Verif.PSlab Verif.PCog Verif.PLam Verif.PSetup
  Verif.PContact Verif.PContact3 Verif.PTouchdown.
Open Scope R_scope.

(** Weight of the slab per area. *)
Definition slab_weight (layers : list (R * R)) : R :=
  rsum (map (fun l => fst l * (1 / 1000000000000) * 9810 * snd l) layers).
(** Height of the crack, perpendicular to the slope: half the weak layer, less the settlement. *)
Definition crack_height (layers : list (R * R)) (kn t phi : R) : R :=
  t / 2 - slab_weight layers * cos (deg2rad phi) / kn.

(** C79: what the three lengths are computed from. All belong to the model of the caller's slab and
    weak layer, a column of 100 m and the load at the caller's inclination; but only the steady state
    uses the crack height at this inclination, the other two use that of level terrain. *)
Theorem C79_lengths eig solve brent maxeval layers C0 C1 E t phi a1 a2 l :
  pos_layers layers -> layers <> [] -> 0 < C0 -> 0 < E -> 0 < t ->
  touchdown_distance eig solve brent maxeval (LList layers) C0 C1 E t phi = Ok (a1, a2, l) ->
  let q := slab_weight layers in
  let kn' := E / (1 - (1 / 4) ^ 2) / t in
  exists o1 o2,
    calc_a1 eig solve brent maxeval o1 = (Ok a1, o1) /\ calc_a2 eig solve brent maxeval o1 = (Ok a2, o1) /\
    calc_lC eig solve brent maxeval o2 = (Ok l, o2) /\
    o_par o2 = o_par o1 /\ adm (o_par o1) /\ kn (o_par o1) = kn' /\ wt (o_par o1) = t /\
    fresh eig o1 /\ fresh eig o2 /\ o_L o1 = Some 100000 /\ o_L o2 = Some 100000 /\ o_a o2 = 5 * a1 /\
    o_ratio o2 = 1000 /\
    calc_qn o1 = q * cos (deg2rad phi) /\ calc_qn o2 = q * cos (deg2rad phi) /\
    o_tc o1 = crack_height layers kn' t 0 /\ o_tc o2 = crack_height layers kn' t phi.
Proof.
  intros P N HC HE Ht H q kn'. unfold touchdown_distance in H.
  destruct (touchdown_model_ok eig solve brent maxeval layers C0 C1 E t P N HC HE Ht) as (o & Eo & F & A & Sy & Td & Ph & Pp & G & Wt & Kn & Sl).
  rewrite Eo in H. cbn [bind] in H.
  destruct (touchdown_calls_ok eig solve brent maxeval o phi a1 a2 l F H) as (o1 & o2 & E1 & E2 & E3 & (m1 & d1 & O1) & (m2 & d2 & O2)).
  assert (Q : forall f, qn (loads_of o f) + pn (loads_of o f) = q * cos (deg2rad f)).
  { intros f. unfold loads_of. rewrite Sl, weight_user, Pp, G. unfold get_surface_load. simpl. unfold q, slab_weight, areal_weight. ring. }
  assert (Q1 : calc_qn o1 = q * cos (deg2rad phi)) by (rewrite O1; exact (Q phi)).
  exists o1, o2. split; [exact E1|]. split; [exact E2|]. split; [exact E3|].
  split; [rewrite O1, O2; reflexivity|]. split; [rewrite O1; exact A|]. split; [rewrite O1; exact Kn|]. split; [rewrite O1; exact Wt|].
  split; [rewrite O1; exact F|]. split; [rewrite O2; exact F|]. split; [rewrite O1; reflexivity|]. split; [rewrite O2; reflexivity|].
  split; [rewrite O2; reflexivity|]. split; [rewrite O2; reflexivity|]. split; [exact Q1|]. split; [rewrite O2; exact (Q phi)|].
  unfold crack_height. fold q. split.
  - rewrite O1. simpl. unfold calc_qn. rewrite Ph, Q, Wt, Kn. fold kn'. field. unfold kn'.
    assert (0 < E / (1 - (1 / 4) ^ 2) / t) by (apply Rdiv_lt_0_compat; [apply Rdiv_lt_0_compat; lra|lra]). lra.
  - rewrite O2. simpl. rewrite Q1, Wt, Kn. fold kn'. field. unfold kn'.
    assert (0 < E / (1 - (1 / 4) ^ 2) / t) by (apply Rdiv_lt_0_compat; [apply Rdiv_lt_0_compat; lra|lra]). lra.
Qed.
Print Assumptions C79_lengths.
(** Refuted on slopes: the first-contact and full-contact lengths belong to a crack that is too low, by the
    same amount for every successful call. *)
Theorem C79_refuted eig solve brent maxeval layers C0 C1 E t phi a1 a2 l :
  pos_layers layers -> layers <> [] -> 0 < C0 -> 0 < E -> 0 < t -> 0 < slab_weight layers -> cos (deg2rad phi) < 1 ->
  touchdown_distance eig solve brent maxeval (LList layers) C0 C1 E t phi = Ok (a1, a2, l) ->
  let kn' := E / (1 - (1 / 4) ^ 2) / t in
  exists o1, calc_a1 eig solve brent maxeval o1 = (Ok a1, o1) /\ calc_a2 eig solve brent maxeval o1 = (Ok a2, o1) /\
    calc_qn o1 = slab_weight layers * cos (deg2rad phi) /\
    o_tc o1 < crack_height layers kn' t phi /\
    crack_height layers kn' t phi - o_tc o1 = slab_weight layers * (1 - cos (deg2rad phi)) / kn'.
Proof.
  intros P N HC HE Ht Hq Hc H kn'.
  destruct (C79_lengths eig solve brent maxeval layers C0 C1 E t phi a1 a2 l P N HC HE Ht H)
    as (o1 & o2 & E1 & E2 & _ & _ & _ & _ & _ & _ & _ & _ & _ & _ & _ & Q1 & _ & T1 & _).
  exists o1. split; [exact E1|]. split; [exact E2|]. split; [exact Q1|]. rewrite T1. fold kn'.
  assert (K : 0 < kn') by (unfold kn'; apply Rdiv_lt_0_compat; [apply Rdiv_lt_0_compat; lra|lra]).
  assert (C0' : cos (deg2rad 0) = 1) by (unfold deg2rad; rewrite Rmult_0_l; apply cos_0).
  unfold crack_height. rewrite C0'.
  assert (D : t / 2 - slab_weight layers * cos (deg2rad phi) / kn' - (t / 2 - slab_weight layers * 1 / kn')
              = slab_weight layers * (1 - cos (deg2rad phi)) / kn') by (field; lra).
  split; [|exact D].
  assert (0 < slab_weight layers * (1 - cos (deg2rad phi)) / kn'); [|lra].
  apply Rdiv_lt_0_compat; [apply Rmult_lt_0_compat; lra|exact K].
Qed.
Print Assumptions C79_refuted.
(** A run (with a root finder that always answers the lower end). *)
Example C79_example eig solve : pos_layers [(240, 200)] /\ 0 < slab_weight [(240, 200)] /\ cos (deg2rad 60) < 1 /\
  touchdown_distance eig solve ex_brent_lo 100 (LList [(240, 200)]) (65 / 10) (44 / 10) (1 / 4) 10 60
  = Ok (100000 / 1000, 100000 / 1000, 5 * (100000 / 1000) / 1000).
Proof.
  split; [constructor; [simpl; lra|constructor]|]. split; [unfold slab_weight, rsum; simpl; lra|].
  split; [unfold deg2rad; replace (60 * (PI / 180)) with (PI / 3) by field; rewrite cos_PI3; lra|].
  unfold touchdown_distance.
  destruct (touchdown_model_ok eig solve ex_brent_lo 100%nat [(240, 200)] (65 / 10) (44 / 10) (1 / 4) 10) as (o & Eo & F & A & Sy & Td & _); try lra.
  - constructor; [simpl; lra|constructor].
  - discriminate.
  - rewrite Eo. cbn [bind].
    assert (A1 : forall o', o_L o' = Some 100000 -> calc_a1 eig solve ex_brent_lo 100 o' = (Ok (100000 / 1000), o')).
    { intros o' HL. unfold calc_a1. rewrite HL. reflexivity. }
    assert (A2 : forall o', o_L o' = Some 100000 -> calc_a2 eig solve ex_brent_lo 100 o' = (Ok (100000 / 1000), o')).
    { intros o' HL. unfold calc_a2. rewrite HL. reflexivity. }
    assert (A3 : forall o', o_L o' = Some 100000 -> calc_lC eig solve ex_brent_lo 100 o' = (Ok (o_a o' / 1000), o')).
    { intros o' HL. unfold calc_lC. rewrite HL. reflexivity. }
    assert (SG : forall a o', o_touchdown o' = true -> o_system o' = "pst-"%string ->
       exists s md td tc, calc_segments eig solve ex_brent_lo 100 [] [] [] [] 100000 a 0 60 (1 / 2) 1000 o'
       = (Ok s, with_contact o' 60 a (Some 100000) tc 1000 md td)).
    { intros a o' HT HS. unfold calc_segments, calc_touchdown_system, sbind, calc_touchdown_mode. rewrite attributes_eq.
      set (oa := attributes_of o' 100000 a (1 / 2) 60 1000). change (o_touchdown oa) with (o_touchdown o'). rewrite HT.
      unfold sbind. rewrite A1 by reflexivity. rewrite A2 by reflexivity.
      set (md := stage _ _ _). unfold calc_touchdown_length. change (o_mode (set_mode md oa)) with (Some md).
      unfold segment_lists.
      destruct md; [| |unfold sbind; rewrite A3 by reflexivity];
        cbv beta iota; change (o_system (set_td _ (set_mode _ oa))) with (o_system o'); rewrite HS;
        do 4 eexists; reflexivity. }
    unfold touchdown_calls, sbind.
    destruct (SG 0 o Td Sy) as (s1 & md1 & td1 & tc1 & ->).
    rewrite A1 by reflexivity. rewrite A2 by reflexivity.
    match goal with |- context [calc_segments _ _ _ _ _ _ _ _ _ _ _ _ _ _ ?x] => destruct (SG (5 * (100000 / 1000)) x Td Sy) as (s2 & md2 & td2 & tc2 & ->) end.
    rewrite A3 by reflexivity. reflexivity.
Qed.

(** C80: an [Inverse] object is the [Layered] object whose slab and weak layer were set to the fitting
    parameters; it is admissible. *)
Theorem C80_inverse eig system layers C0 C1 E o :
  pos_layers layers -> layers <> [] -> 0 < C0 -> 0 < E ->
  Inverse eig system (Some (LList layers)) C0 C1 E = Ok o ->
  adm (o_par o) /\
  forall o0 o1, Layered eig system (LList layers) false = Ok o0 ->
    set_beam_properties eig o0 (LList layers) C0 C1 (1 / 4) true = Ok o1 ->
    set_foundation_properties eig o1 30 E (1 / 4) true = o.
Proof.
  intros P N HC HE. unfold Inverse. rewrite set_beam_list by exact N. cbn [bind]. intros H. apply Ok_inj in H.
  split.
  - destruct (set_beam_adm eig (init_obj system false) layers C0 C1 (1 / 4) _ P N HC ltac:(lra) (set_beam_list eig _ layers C0 C1 (1 / 4) true N)) as (La & Hh & _).
    cbv zeta in La, Hh. set (o1 := with_slab _ _ _ _ _) in *.
    destruct (fundamental_par eig o1) as (Pa & _ & _). cbv zeta in Pa. rewrite Pa in La, Hh.
    destruct (fundamental_par eig (set_foundation_properties eig o1 30 E (1 / 4) false)) as (Pb & _ & _). cbv zeta in Pb. subst o. rewrite Pb.
    split; [exact La|]. split; [|exact Hh].
    pose proof (foundation_pos E (1 / 4) 30 HE ltac:(lra) ltac:(lra)) as F. unfold fnd_ok. simpl in F |- *. intuition lra.
  - intros o0 o1 L0 B. unfold Layered in L0.
    replace (match LList layers with LStr "" => LList [(240, 200)] | LStr (String _ _) => LList layers
             | LList [] => LList [(240, 200)] | LList (_ :: _) => LList layers end) with (LList layers) in L0
      by (destruct layers; [congruence|reflexivity]).
    rewrite set_beam_list in L0 by exact N. cbn [bind] in L0. apply Ok_inj in L0.
    rewrite set_beam_list in B by exact N. apply Ok_inj in B. subst o o1 o0.
    unfold set_foundation_properties. cbv zeta iota.
    rewrite fundamental_slab_weak, fundamental_weak_slab_reset. reflexivity.
Qed.
Print Assumptions C80_inverse.
(** Refuted for the default arguments: without layers the constructor raises, although [Layered] has a
    default profile. *)
Theorem C80_default_refuted eig system C0 C1 E :
  Inverse eig system None C0 C1 E = Err IndexError /\
  exists o, Layered eig system (LList []) false = Ok o.
Proof. split; [reflexivity|]. eexists. reflexivity. Qed.
Print Assumptions C80_default_refuted.
Example C80_example eig : exists o, Inverse eig "pst-" (Some (LList [(240, 200); (100, 50)])) 6 (46 / 10) (1 / 4) = Ok o.
Proof. eexists. reflexivity. Qed.
