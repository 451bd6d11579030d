(** Property theorem C72 (continued): from the sampled stresses to the crossings, and the case without crossings. *)
From Coq Require Import Lia Lra.
Require Import Verif.Py Verif.MTools Verif.MEigen Verif.MFields Verif.MRaster Verif.MSolution Verif.MAnalysis Verif.MEnvelope Verif.MCriterion
  Verif.SSegment Verif.SContact Verif.SCross Verif.PSetup Verif.PCreate Verif.PContact Verif.PCross.

(** C72: one list of results per pair of neighbouring samples, in the order of the samples. Pairs on the same side of the
    limit yield nothing. A root of another pair is close to two coordinates between the samples with the criterion not
    above 1 and not below 1. For an uncracked model of two halves, a root finder that handles all sign changes finds
    exactly one root for every other pair, unless one of the samples is the middle, where the stresses jump. *)
Theorem C72_crossings brent maxeval e k li phi roots d :
  find_roots_around_x brent maxeval e k li phi = Ok roots -> envelope_of e k = Ok d ->
  exists rs, roots = List.concat rs /\ List.length rs = (List.length d - 1)%nat /\
  forall i v w, nth_error d i = Some (Some v) -> nth_error d (S i) = Some (Some w) ->
    (same_side v w -> nth_error rs i = Some []) /\
    (forall delta, returns_sign_change brent delta -> List.length li <> 1%nat ->
     nth_error rs i = Some [] \/
     exists r x y x1 x2 v1 v2, nth_error rs i = Some [r] /\ nth i (k_x k) None = Some x /\ nth (S i) (k_x k) None = Some y /\
       10 * x <= x1 <= 10 * y /\ 10 * x <= x2 <= 10 * y /\ Rabs (x1 - r) <= delta /\ Rabs (x2 - r) <= delta /\
       criterion_at e k li phi x1 v1 /\ criterion_at e k li phi x2 v2 /\ v1 <= 1 <= v2) /\
    (forall eig solve brent' maxeval' profile weight h E t, finds_crossings brent maxeval -> 0 < h -> li = [h; h] ->
     create_skier_object eig solve brent' maxeval' profile weight phi li [true; true] false E t = Ok k -> ~ same_side v w ->
     exists x y, nth i (k_x k) None = Some x /\ nth (S i) (k_x k) None = Some y /\ x < y /\
       (10 * x <> h -> 10 * y <> h -> exists r, nth_error rs i = Some [r] /\ 10 * x <= r <= 10 * y)).
Proof.
  intros H Hd. destruct (roots_tried _ _ _ _ _ _ _ _ H Hd) as [Er Hb]. cbv zeta in Er, Hb.
  set (dd := map (option_map (fun v => v - 1)) d) in *.
  eexists. split; [exact Er|]. split; [rewrite map_length, seq_length; reflexivity|]. intros i v w Hv Hw.
  assert (Li : (S i < List.length d)%nat) by (apply nth_error_Some; congruence).
  assert (Ni : nth_error (map (tried brent maxeval (root_function e k li phi) (k_obj k) (k_x k) dd) (seq 0 (List.length d - 1))) i
      = Some (tried brent maxeval (root_function e k li phi) (k_obj k) (k_x k) dd i)).
  { rewrite nth_error_map, (nth_error_nth' _ 0%nat) by (rewrite seq_length; lia). rewrite seq_nth by lia. reflexivity. }
  rewrite Ni. pose proof (crossing_sides d i v w Hv Hw) as Cs. fold dd in Cs. unfold tried.
  split; [intros S; rewrite (proj2 Cs S); reflexivity|]. split.
  - intros delta Rs Nl. destruct (crossing dd i) eqn:Ec; [|left; reflexivity]. destruct (Hb i Li Ec) as (x & y & Ex & Ey). rewrite Ex, Ey.
    destruct (brentq brent maxeval (fun x o => (root_function e k li phi x, o)) (10 * x) (10 * y) (k_obj k)) as [[r|er] o'] eqn:Eb; cbn [fst]; [right|left; reflexivity].
    unfold brentq in Eb. apply brentq_run_ok in Eb; [|intros q u o2 Q; congruence]. destruct Eb as (_ & hist & Eh & Hist).
    destruct (Rs _ _ _ _ Eh) as (x1 & v1 & x2 & v2 & I1 & I2 & V & B1 & B2 & D1 & D2).
    destruct (Hist _ _ I1) as [[]|Q1]. destruct (Hist _ _ I2) as [[]|Q2]. injection Q1 as Q1. injection Q2 as Q2.
    exists r, x, y, x1, x2, (v1 + 1), (v2 + 1). split; [reflexivity|]. split; [reflexivity|]. split; [reflexivity|].
    split; [exact B1|]. split; [exact B2|]. split; [exact D1|]. split; [exact D2|].
    split; [apply root_at; assumption|]. split; [apply root_at; assumption|lra].
  - intros eig solve brent' maxeval' profile weight h E t Fc Hh -> Hk Ns.
    destruct (sample_ok _ _ _ _ _ _ _ _ _ _ _ _ _ Hh Hk Hd i ltac:(lia)) as (x & v' & Ex & Ev & Bx & Rx). rewrite Hv in Ev. injection Ev as <-.
    destruct (sample_ok _ _ _ _ _ _ _ _ _ _ _ _ _ Hh Hk Hd (S i) Li) as (y & w' & Ey & Ew & By & Ry). rewrite Hw in Ew. injection Ew as <-.
    pose proof (samples_increase _ _ _ _ _ _ _ _ _ _ _ Hh Hk i x y Ex Ey) as Lt.
    rewrite (nth_error_nth _ _ None Ex), (nth_error_nth _ _ None Ey).
    exists x, y. split; [reflexivity|]. split; [reflexivity|]. split; [exact Lt|]. intros Nx Ny.
    destruct (crossing dd i) eqn:Ec; [|exfalso; apply Ns, Cs; reflexivity].
    set (g := fun q => match root_function e k [h; h] phi q with Ok u => u | Err _ => 0 end).
    destruct (Fc (fun q o => (root_function e k [h; h] phi q, o)) g (10 * x) (10 * y) (k_obj k)) as (r & Eq & Br).
    + lra.
    + intros q Q. unfold g. destruct (root_total _ _ _ _ _ _ _ _ _ _ _ _ _ Hh Hk Hd q ltac:(lra)) as [u ->]. reflexivity.
    + unfold g. rewrite (Rx Nx), (Ry Ny). unfold same_side in Ns.
      destruct (Rtotal_order v 1) as [V|[V|V]], (Rtotal_order w 1) as [W|[W|W]]; try (exfalso; apply Ns; lra); nra.
    + rewrite Eq. cbn [fst]. eauto.
Qed.
Print Assumptions C72_crossings.

(** The values at the samples are those of the root function, except in the middle. *)
Theorem C72_samples eig solve brent maxeval profile weight phi h E t k e d i : 0 < h ->
  create_skier_object eig solve brent maxeval profile weight phi [h; h] [true; true] false E t = Ok k -> envelope_of e k = Ok d ->
  (i < List.length d)%nat ->
  exists x v, nth_error (k_x k) i = Some (Some x) /\ nth_error d i = Some (Some v) /\ 0 <= 10 * x <= 2 * h /\
    (10 * x <> h -> root_function e k [h; h] phi (10 * x) = Ok (v - 1) /\ criterion_at e k [h; h] phi (10 * x) v).
Proof.
  intros Hh Hk Hd Hi. destruct (sample_ok _ _ _ _ _ _ _ _ _ _ _ _ _ Hh Hk Hd i Hi) as (x & v & Ex & Ev & Bx & Rx).
  exists x, v. split; [exact Ex|]. split; [exact Ev|]. split; [lra|]. intros N. split; [exact (Rx N)|].
  pose proof (root_at e k [h; h] phi (10 * x) (v - 1) ltac:(discriminate) (Rx N)) as Q. replace (v - 1 + 1) with v in Q by ring. exact Q.
Qed.
Print Assumptions C72_samples.

(** Without crossings the anticrack is the whole model if the criterion is exceeded at all samples, and empty if it is
    not exceeded at some sample. *)
Theorem C72_no_crossing eig solve brent maxeval profile phi E t e w li ki k d crack li' ki' :
  let total := rsum li in 0 < total ->
  create_skier_object eig solve brent maxeval profile w phi [total / 2; total / 2] [true; true] false E t = Ok k ->
  envelope_of e k = Ok d -> find_roots_around_x brent maxeval e k [total / 2; total / 2] phi = Ok [] ->
  find_new_anticrack_length eig solve brent maxeval profile phi E t e w li ki = Ok (crack, li', ki') ->
  li' = [total / 2; total / 2] /\
  ((forall v, In (Some v) d -> 1 < v) -> crack = total /\ ki' = [false; false]) /\
  ((exists v, In (Some v) d /\ v <= 1) -> crack = 0 /\ ki' = [true; true]).
Proof.
  intros total Ht Hk Hd Hr F. assert (Hh : 0 < total / 2) by lra. unfold find_new_anticrack_length in F. fold total in F. rewrite Hk in F. cbn [bind] in F.
  assert (Al : Forall (fun v => v <> None) d).
  { apply Forall_forall. intros y I. destruct (In_nth_error _ _ I) as [i Ei]. assert (Li : (i < List.length d)%nat) by (apply nth_error_Some; congruence).
    destruct (sample_ok _ _ _ _ _ _ _ _ _ _ _ _ _ Hh Hk Hd i Li) as (x & v & _ & Ev & _). congruence. }
  unfold distances in F. rewrite Hd in F. cbn [bind] in F. destruct d as [|[a|] d]; [discriminate| |inversion Al; congruence].
  cbn [np_max np_min bind fst snd] in F. rewrite Hr in F. cbn [bind] in F.
  assert (M : exists m, oreduce Rmin (Some a) d = Some m /\ In (Some m) (Some a :: d) /\ forall v, In (Some v) (Some a :: d) -> m <= v).
  { clear - Al. revert a Al. induction d as [|[b|] d IH]; intros a Al.
    - exists a. split; [reflexivity|]. split; [left; reflexivity|]. intros v [Q|[]]. injection Q as <-. lra.
    - cbn [oreduce]. inversion Al; subst. inversion H2; subst.
      destruct (IH (Rmin a b)) as (m & E1 & E2 & E3); [constructor; [discriminate|assumption]|].
      exists m. split; [exact E1|]. pose proof (E3 (Rmin a b) (or_introl eq_refl)) as Lm. pose proof (Rmin_l a b). pose proof (Rmin_r a b). split.
      + destruct E2 as [Q|Q]; [|right; right; exact Q]. injection Q as <-. unfold Rmin. destruct (Rle_dec a b); [left; reflexivity|right; left; reflexivity].
      + intros v [Q|[Q|Q]]; [injection Q as <-; lra|injection Q as <-; lra|apply E3; right; exact Q].
    - inversion Al; subst. inversion H2; congruence. }
  destruct M as (m & Em & Im & Lm). rewrite Em in F. unfold ogt, oltb in F. apply Ok_inj in F. injection F as <- <- <-.
  split; [reflexivity|]. unfold Rltb. destruct (Rlt_dec 1 m) as [Lt|Ge]; split.
  - intros _. split; [|reflexivity]. unfold cracked_length, rsum. simpl. lra.
  - intros (v & Iv & V). pose proof (Lm v Iv). lra.
  - intros A. pose proof (A m Im). lra.
  - intros _. split; [|reflexivity]. unfold cracked_length, rsum. simpl. lra.
Qed.
Print Assumptions C72_no_crossing.
