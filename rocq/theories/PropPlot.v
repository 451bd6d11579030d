(** Property theorems C65, C66 and C75-C78: plot helpers and the profile database. *)
From Coq Require Import ZArith Lra Lia String.
Require Import Verif.Py Verif.MTools Verif.MEigen Verif.MEnvelope Verif.MPlot Verif.SSlab Verif.SAdm Verif.SPlot
  Verif.PPlot Verif.PPlot2 Verif.PProfile.

(** C65: the outline of a grid lists the values met on one closed clockwise tour of its boundary. *)
Theorem C65_outline m n : (1 <= m)%nat -> (1 <= n)%nat ->
  exists tour, perimeter m n tour /\
    forall (A : Type) (g : list (list A)), rectangular m n g ->
      exists values, outline g = Ok values /\ map Some values = map (cell g) tour.
Proof. intros M N. exists (path m n). split; [apply path_perimeter; assumption|]. intros A g G. exact (outline_path m n M N g G). Qed.
Print Assumptions C65_outline.
(** A grid without cells raises IndexError. *)
Theorem C65_empty (A : Type) (g : list (list A)) m n : rectangular m n g -> (m * n = 0)%nat -> outline g = Err IndexError.
Proof.
  intros [L W] E. destruct g as [|r g]; [reflexivity|]. pose proof (W r (or_introl eq_refl)) as Wr. simpl in L. destruct r as [|x r]; [reflexivity|]. simpl in Wr. nia.
Qed.
Print Assumptions C65_empty.
Example C65_example : rectangular 3 3 [[1; 2; 3]; [4; 5; 6]; [7; 8; 9]]%nat /\
  outline [[1; 2; 3]; [4; 5; 6]; [7; 8; 9]]%nat = Ok [1; 2; 3; 6; 9; 8; 7; 4; 1]%nat /\ rectangular (A := nat) 2 0 [[]; []].
Proof.
  split; [split; [reflexivity|intros r [<-|[<-|[<-|[]]]]; reflexivity]|]. split; [reflexivity|].
  split; [reflexivity|intros r [<-|[<-|[]]]; reflexivity].
Qed.

(** C66: identifiers of the database, in any letter case, give admissible layers and moduli; other
    identifiers raise ValueError. *)
Theorem C66_profile s :
  ((exists k, In k profile_names /\ same_text s k) ->
     exists layers E, load_dummy_profile s = Ok (layers, E) /\ layers <> [] /\ pos_layers layers /\
       List.length E = List.length layers /\ Forall (fun e => 0 < e) E) /\
  ((forall k, In k profile_names -> ~ same_text s k) -> load_dummy_profile s = Err ValueError).
Proof.
  split; [|exact (profile_unknown s)]. intros (k & K & T). destruct (profile_known s k K T) as (v & E & V).
  destruct (database_good k v V) as [_ [Nv Fv]]. exists (map fst v), (map snd v). split; [exact E|]. split; [|split; [|split]].
  - destruct v; [exfalso; exact (Nv eq_refl)|discriminate].
  - unfold pos_layers. rewrite Forall_map. eapply Forall_impl; [|exact Fv]. cbn beta. tauto.
  - rewrite !map_length. reflexivity.
  - rewrite Forall_map. eapply Forall_impl; [|exact Fv]. cbn beta. tauto.
Qed.
Print Assumptions C66_profile.
(** Two spellings of one name give one profile. *)
Theorem C66_same_profile k s s' : In k profile_names -> same_text s k -> same_text s' k -> load_dummy_profile s = load_dummy_profile s'.
Proof.
  intros K A B. apply lower_text in A, B; try (apply names_lower; exact K). unfold load_dummy_profile. rewrite A, B. reflexivity.
Qed.
Print Assumptions C66_same_profile.
(** Layers given as text: the last word selects the profile; text without words raises IndexError. *)
Theorem C66_setter eig o s C0 C1 nu update :
  (forall w k, is_last_word s w -> In k profile_names -> same_text w k -> -1 < nu < 1 ->
     exists o', set_beam_properties eig o (LStr s) C0 C1 nu update = Ok o' /\ o_slab o' <> [] /\ Forall good_ply (o_slab o')) /\
  (forall w, is_last_word s w -> (forall k, In k profile_names -> ~ same_text w k) ->
     set_beam_properties eig o (LStr s) C0 C1 nu update = Err ValueError) /\
  (Forall blank (list_ascii_of_string s) -> set_beam_properties eig o (LStr s) C0 C1 nu update = Err IndexError).
Proof.
  split; [|split].
  - intros w k W K T V. apply last_word_spec in W. destruct (profile_known w k K T) as (v & E & D). destruct (database_good k v D) as [_ [Nv Fv]].
    unfold set_beam_properties. rewrite W, E. cbn [bind]. destruct (calc_center_of_gravity (map fst v)) as [H z].
    eexists. split; [reflexivity|].
    assert (G : build_slab (map fst v) (map snd v) nu <> [] /\ Forall good_ply (build_slab (map fst v) (map snd v) nu)).
    { split; [destruct v; [exfalso; exact (Nv eq_refl)|discriminate]|]. clear - Fv V. induction v as [|r v IH]; [constructor|]. inversion Fv; subst. cbn [map build_slab map2]. constructor.
      - unfold good_ply. cbn [p_h p_E p_G p_nu fst snd]. repeat split; try tauto; try lra. apply Rmult_lt_0_compat; [tauto|apply Rinv_0_lt_compat; lra].
      - apply IH. assumption. }
    assert (Q : forall o1, o_slab (o_calc_fundamental_system eig o1) = o_slab o1).
    { intros o1. unfold o_calc_fundamental_system, o_calc_foundation_stiffness, o_calc_laminate, o_calc_eigensystem.
      destruct (calc_foundation_stiffness _ _ _) as [n t]. unfold with_kn_kt, with_par, with_eig. cbn [o_slab o_par].
      destruct (calc_laminate_stiffness_matrix _ _ _) as [[[[A B] D'] Sk] K']. reflexivity. }
    destruct update; [rewrite Q|]; exact G.
  - intros w W K. apply last_word_spec in W. unfold set_beam_properties. rewrite W, (profile_unknown w K). reflexivity.
  - intros F. apply last_word_none in F. unfold set_beam_properties. rewrite F. reflexivity.
Qed.
Print Assumptions C66_setter.
Example C66_example : same_text "SofT" "soft" /\ In "soft"%string profile_names /\ is_last_word "Profile  H " "H" /\ same_text "H" "h" /\
  (forall k, In k profile_names -> ~ same_text "g" k) /\
  load_dummy_profile "SofT" = Ok ([(180, 120); (180, 120); (180, 120)], [5; 5; 5]) /\ Forall blank (list_ascii_of_string "  ").
Proof.
  split; [apply lower_text; [apply names_lower; cbv; tauto|reflexivity]|]. split; [cbv; tauto|].
  split; [|split; [apply lower_text; [apply names_lower; cbv; tauto|reflexivity]|]].
  - exists (list_ascii_of_string "Profile  "), (list_ascii_of_string " "). split; [reflexivity|]. split; [discriminate|]. split; [|split; [|right]].
    + constructor; [cbv; lia|constructor].
    + constructor; [cbv; tauto|constructor].
    + exists (list_ascii_of_string "Profile "), (Ascii.ascii_of_nat 32). split; [reflexivity|]. cbv. tauto.
  - split; [|split; [reflexivity|constructor; [cbv; tauto|constructor; [cbv; tauto|constructor]]]].
    intros k K T. apply lower_text in T; [|apply names_lower; exact K]. cbv in T. subst k. cbv in K. repeat (destruct K as [K|K]; [discriminate|]). exact K.
Qed.

(** C75: the colour map is centred on the midpoint, with one scale on both sides, and uses the whole range. *)
Theorem C75_midpoint vmin vmax mid : vmin < mid -> mid < vmax ->
  diverging_colour vmin vmax mid (midpoint_normalize vmin vmax mid).
Proof. exact (midpoint_diverging vmin vmax mid). Qed.
Print Assumptions C75_midpoint.
Example C75_example : -1 < 0 /\ 0 < 3 /\ midpoint_normalize (-1) 3 0 (3 / 2) = 3 / 4.
Proof.
  split; [lra|]. split; [lra|]. destruct (midpoint_diverging (-1) 3 0 ltac:(lra) ltac:(lra)) as (s & S & F & _ & _ & B & [E|E]).
  - pose proof (F (-1) ltac:(lra)). pose proof (F 3 ltac:(lra)). pose proof (B 3). lra.
  - pose proof (F 3 ltac:(lra)). pose proof (F (3 / 2) ltac:(lra)). lra.
Qed.

(** C76: the number of digits places the leading digit: 10^-n <= d < 10^(1-n). *)
Theorem C76_digits d : 0 < d -> powerRZ 10 (- significant_digits d) <= d < powerRZ 10 (1 - significant_digits d).
Proof. exact (digits_range d). Qed.
Print Assumptions C76_digits.
Example C76_example : 0 < 3 / 100 /\ significant_digits (3 / 100) = 2%Z.
Proof.
  split; [lra|]. destruct (digits_range (3 / 100) ltac:(lra)) as [A B]. set (n := significant_digits (3 / 100)) in *.
  assert (M : forall a b, (a <= b)%Z -> powerRZ 10 a <= powerRZ 10 b).
  { intros a b H. rewrite !powerRZ_exp. pose proof ln10. destruct (Z.eq_dec a b) as [->|X]; [lra|]. left. apply exp_increasing. apply Rmult_lt_compat_r; [lra|]. apply IZR_lt. lia. }
  destruct (Z_lt_le_dec n 2) as [L|L]; [|destruct (Z_lt_le_dec 2 n) as [G|G]; [|lia]].
  - pose proof (M (-1)%Z (- n)%Z ltac:(lia)) as H. assert (E : powerRZ 10 (-1) = 1 / 10) by (simpl; field). lra.
  - pose proof (M (1 - n)%Z (-2)%Z ltac:(lia)) as H. assert (E : powerRZ 10 (-2) = 1 / 100) by (simpl; field). lra.
Qed.

(** C77: the levels run symmetrically from -limit to limit through zero, with spacing that does not
    shrink away from zero; there are 2*floor(samples/2) - 1 of them. *)
Theorem C77_levels limit samples tightness : 0 < limit -> 1 <= tightness -> (4 <= samples)%nat ->
  central_levels limit (tight_central_distribution limit samples tightness) /\
  List.length (tight_central_distribution limit samples tightness) = (2 * (samples / 2) - 1)%nat.
Proof.
  intros L T S. assert (S2 : (2 <= samples / 2)%nat) by (apply Nat.div_le_lower_bound; lia).
  rewrite (tight_eq limit tightness (samples / 2 - 1) L ltac:(lra) ltac:(lia) samples) by lia. split.
  - apply cen_central; [exact L|lra|lia|exact T].
  - rewrite map_length, seq_length. lia.
Qed.
Print Assumptions C77_levels.
(** The documented number of values is never reached. *)
Theorem C77_count_refuted : exists limit samples tightness, 0 < limit /\ 1 <= tightness /\ (4 <= samples)%nat /\
  List.length (tight_central_distribution limit samples tightness) <> samples.
Proof.
  exists 1, 100%nat, (3 / 2). split; [lra|]. split; [lra|]. split; [lia|].
  rewrite (proj2 (C77_levels 1 100 (3 / 2) ltac:(lra) ltac:(lra) ltac:(lia))). cbn. lia.
Qed.
Print Assumptions C77_count_refuted.
Example C77_example : 0 < 10 /\ 1 <= 3 / 2 /\ (4 <= 100)%nat /\ List.length (tight_central_distribution 10 100 (3 / 2)) = 99%nat.
Proof. split; [lra|]. split; [lra|]. split; [lia|]. rewrite (proj2 (C77_levels 10 100 (3 / 2) ltac:(lra) ltac:(lra) ltac:(lia))). reflexivity. Qed.

(** C78: without NaN the limit of the colour scale is the largest magnitude rounded to one digit,
    hence at least two thirds of it. *)
Theorem C78_colour_limit_partial slab weak c : slab <> [] -> weak <> [] -> (forall x, In x (slab ++ weak) -> x <> None) ->
  colour_limit slab weak = Ok c ->
  exists m, In (Some m) (slab ++ weak) /\ (forall x, In (Some x) (slab ++ weak) -> Rabs x <= Rabs m) /\
    2 / 3 * Rabs m <= c <= 4 / 3 * Rabs m /\ exists d n, (1 <= d <= 10)%Z /\ c = IZR d * powerRZ 10 n.
Proof.
  intros NS NW H E. destruct (colour_full slab weak c NS NW H E) as (m & I & B & P & ->). exists m. split; [exact I|]. split; [exact B|].
  destruct (round_digit (Rabs m) P) as [A D]. split; [exact A|exact D].
Qed.
Print Assumptions C78_colour_limit_partial.
(** With a NaN on the weak layer (an unsupported segment) the weak layer does not count at all. *)
Theorem C78_weak_ignored slab weak weak' : In None weak -> In None weak' -> colour_limit slab weak = colour_limit slab weak'.
Proof. exact (colour_nan slab weak weak'). Qed.
Print Assumptions C78_weak_ignored.
Theorem C78_refuted : exists slab weak c x, colour_limit slab weak = Ok c /\ In (Some x) weak /\ 4 / 3 * c < Rabs x.
Proof.
  exists [Some 1], [None; Some 100], 1, 100. split; [exact colour_one|]. split; [right; left; reflexivity|].
  rewrite Rabs_right by lra. lra.
Qed.
Print Assumptions C78_refuted.
Example C78_example : exists c, colour_limit [Some 7; Some (-8)] [Some 2] = Ok c /\ (forall x, In x ([Some 7; Some (-8)] ++ [Some 2]) -> x <> None).
Proof.
  unfold colour_limit. cbn [arr_extremum all_numbers option_map fold_left bind map nanmax].
  unfold Reqb. destruct (Req_EM_T _ 0) as [E|_].
  - exfalso. assert (H : Rabs 2 <= 0) by (rewrite <- E; apply Rmax_r). rewrite Rabs_right in H by lra. lra.
  - eexists. split; [reflexivity|]. intros x [<-|[<-|[<-|[]]]]; discriminate.
Qed.
