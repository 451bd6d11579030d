(** Property theorem C119: the moduli of the predefined profiles follow the density laws of the library. *)
From Coq Require Import ZArith Lra Lia String.
Require Import Verif.Py Verif.MTools Verif.MEigen Verif.SSlab Verif.SAdm Verif.SPlot Verif.PProfile Verif.PStress Verif.PSetup.
Open Scope R_scope.

(** Equal up to one percent. *)
Definition percent (a b : R) : Prop := 99 / 100 * b <= a <= 101 / 100 * b.

(** Rational bounds for rational powers. *)
Lemma rpower_root x n d : 0 < x -> (0 < d)%nat -> Rpower x (INR n / INR d) ^ d = x ^ n.
Proof.
  intros Hx Hd. rewrite <- (Rpower_pow d) by apply exp_pos. rewrite Rpower_mult. rewrite <- (Rpower_pow n) by exact Hx. f_equal. field.
  apply not_0_INR. lia.
Qed.
Lemma pow_incr_le a b n : 0 <= a <= b -> a ^ n <= b ^ n.
Proof. apply pow_incr. Qed.
Lemma rpower_above (a b p q : Z) n d : (0 < a)%Z -> (0 < b)%Z -> (0 < p)%Z -> (0 < q)%Z -> (0 < d)%nat ->
  (p ^ Z.of_nat d * b ^ Z.of_nat n < a ^ Z.of_nat n * q ^ Z.of_nat d)%Z -> IZR p / IZR q < Rpower (IZR a / IZR b) (INR n / INR d).
Proof.
  intros Ha Hb Hp Hq Hd H. apply IZR_lt in Ha, Hb, Hp, Hq, H. rewrite !mult_IZR, <- !pow_IZR in H.
  assert (X : 0 < IZR a / IZR b) by (apply Rdiv_lt_0_compat; assumption).
  destruct (Rlt_le_dec (IZR p / IZR q) (Rpower (IZR a / IZR b) (INR n / INR d))) as [L|L]; [exact L|exfalso].
  assert (Q := pow_incr_le _ _ d (conj (Rlt_le _ _ (exp_pos _)) L)). change (exp (INR n / INR d * ln (IZR a / IZR b))) with (Rpower (IZR a / IZR b) (INR n / INR d)) in Q.
  rewrite rpower_root in Q by assumption. unfold Rdiv in Q. rewrite !Rpow_mult_distr in Q. rewrite !pow_inv in Q.
  pose proof (pow_lt _ d Hq). pose proof (pow_lt _ n Hb).
  apply (Rmult_le_compat_r (IZR b ^ n * IZR q ^ d)) in Q; [|left; apply Rmult_lt_0_compat; assumption].
  replace (IZR a ^ n * / IZR b ^ n * (IZR b ^ n * IZR q ^ d)) with (IZR a ^ n * IZR q ^ d) in Q by (field; lra).
  replace (IZR p ^ d * / IZR q ^ d * (IZR b ^ n * IZR q ^ d)) with (IZR p ^ d * IZR b ^ n) in Q by (field; lra). lra.
Qed.
Lemma rpower_below (a b p q : Z) n d : (0 < a)%Z -> (0 < b)%Z -> (0 < p)%Z -> (0 < q)%Z -> (0 < d)%nat ->
  (a ^ Z.of_nat n * q ^ Z.of_nat d < p ^ Z.of_nat d * b ^ Z.of_nat n)%Z -> Rpower (IZR a / IZR b) (INR n / INR d) < IZR p / IZR q.
Proof.
  intros Ha Hb Hp Hq Hd H. apply IZR_lt in Ha, Hb, Hp, Hq, H. rewrite !mult_IZR, <- !pow_IZR in H.
  assert (X : 0 < IZR a / IZR b) by (apply Rdiv_lt_0_compat; assumption).
  assert (Y : 0 < IZR p / IZR q) by (apply Rdiv_lt_0_compat; assumption).
  destruct (Rlt_le_dec (Rpower (IZR a / IZR b) (INR n / INR d)) (IZR p / IZR q)) as [L|L]; [exact L|exfalso].
  assert (Q := pow_incr_le _ _ d (conj (Rlt_le _ _ Y) L)).
  rewrite rpower_root in Q by assumption. unfold Rdiv in Q. rewrite !Rpow_mult_distr in Q. rewrite !pow_inv in Q.
  pose proof (pow_lt _ d Hq). pose proof (pow_lt _ n Hb).
  apply (Rmult_le_compat_r (IZR b ^ n * IZR q ^ d)) in Q; [|left; apply Rmult_lt_0_compat; assumption].
  replace (IZR a ^ n * / IZR b ^ n * (IZR b ^ n * IZR q ^ d)) with (IZR a ^ n * IZR q ^ d) in Q by (field; lra).
  replace (IZR p ^ d * / IZR q ^ d * (IZR b ^ n * IZR q ^ d)) with (IZR p ^ d * IZR b ^ n) in Q by (field; lra). lra.
Qed.
Ltac between a b n d pl ql ph qh e :=
  let E := fresh in assert (E : e = INR n / INR d) by (rewrite !INR_IZR_INZ; simpl Z.of_nat; lra); rewrite E; clear E;
  pose proof (rpower_above a b pl ql n d ltac:(lia) ltac:(lia) ltac:(lia) ltac:(lia) ltac:(lia) ltac:(vm_compute; reflexivity));
  pose proof (rpower_below a b ph qh n d ltac:(lia) ltac:(lia) ltac:(lia) ltac:(lia) ltac:(lia) ltac:(vm_compute; reflexivity)).
(** Young's moduli 5, 30 and 93.8 MPa at 180, 270 and 350 kg/m^3. *)
Lemma soft_modulus : percent 5 (bergfeld 180 917 (65 / 10) (44 / 10)).
Proof. unfold percent, bergfeld. between 180%Z 917%Z 22%nat 5%nat 765%Z 1000000%Z 776%Z 1000000%Z (44 / 10). lra. Qed.
Lemma medium_modulus : percent 30 (bergfeld 270 917 (65 / 10) (44 / 10)).
Proof. unfold percent, bergfeld. between 270%Z 917%Z 22%nat 5%nat 4590%Z 1000000%Z 4630%Z 1000000%Z (44 / 10). lra. Qed.
Lemma hard_modulus : percent (938 / 10) (bergfeld 350 917 (65 / 10) (44 / 10)).
Proof. unfold percent, bergfeld. between 350%Z 917%Z 22%nat 5%nat 14400%Z 1000000%Z 14500%Z 1000000%Z (44 / 10). lra. Qed.
(** 5.23 MPa at 240 kg/m^3: Scapozza's law, less than a third of Bergfeld's. *)
Lemma comp_modulus : percent (523 / 100) (scapozza 240) /\ 3 * (523 / 100) < bergfeld 240 917 (65 / 10) (44 / 10).
Proof.
  split.
  - unfold percent, scapozza. replace (240 * (1 / 1000000000000) / (917 / 1000000000000)) with (240 / 917) by field.
    between 240%Z 917%Z 513%nat 100%nat 1025%Z 1000000%Z 1038%Z 1000000%Z (513 / 100). lra.
  - unfold bergfeld. between 240%Z 917%Z 22%nat 5%nat 2700%Z 1000000%Z 2800%Z 1000000%Z (44 / 10). lra.
Qed.

(** C119: all moduli of the predefined profiles, except the one for comparison, are those of the
    default density law up to one percent. *)
Theorem C119_moduli s k layers E : In k profile_names -> k <> "comp"%string -> same_text s k -> load_dummy_profile s = Ok (layers, E) ->
  Forall2 (fun l e => percent e (bergfeld (fst l) 917 (65 / 10) (44 / 10))) layers E.
Proof.
  intros K C T H. destruct (profile_known s k K T) as (v & L & D). rewrite L in H. apply Ok_inj in H. injection H as <- <-. clear L T K.
  assert (P : Forall (fun r => percent (snd r) (bergfeld (fst (fst r)) 917 (65 / 10) (44 / 10))) v).
  { pose proof soft_modulus. pose proof medium_modulus. pose proof hard_modulus. unfold database, soft, medium, hard in D. cbn [In] in D.
    repeat (destruct D as [D|D]; [injection D as <- <-; first [congruence|repeat (apply Forall_cons; [cbn [fst snd]; assumption|]); apply Forall_nil]|]). destruct D. }
  clear - P. induction P; simpl; constructor; assumption.
Qed.
Print Assumptions C119_moduli.
(** The layer for comparison follows Scapozza's law; the default law would make it more than three times as stiff. *)
Theorem C119_comparison s : same_text s "comp" ->
  exists E, load_dummy_profile s = Ok ([(240, 200)], [E]) /\ percent E (scapozza 240) /\ 3 * E < bergfeld 240 917 (65 / 10) (44 / 10).
Proof.
  intros T. destruct (profile_known s "comp" ltac:(cbv; tauto) T) as (v & L & D). exists (523 / 100). rewrite L.
  unfold database in D. cbn [In] in D. repeat (destruct D as [D|D]; [try discriminate D|]); [|destruct D]. injection D as <-. cbn [map fst snd].
  split; [reflexivity|exact comp_modulus].
Qed.
Print Assumptions C119_comparison.
(** Upside down, profile A is B and E is F; all others are symmetric. Total thickness is 360 mm. *)
Definition flipped (k : string) : string :=
  match k with "a" => "b" | "b" => "a" | "e" => "f" | "f" => "e" | _ => k end%string.
Theorem C119_flipped s s' k layers E layers' E' : In k profile_names -> same_text s k -> same_text s' (flipped k) ->
  load_dummy_profile s = Ok (layers, E) -> load_dummy_profile s' = Ok (layers', E') ->
  layers' = rev layers /\ E' = rev E /\ (k <> "comp"%string -> fold_right Rplus 0 (map snd layers) = 360).
Proof.
  intros K T T' H H'.
  assert (K' : In (flipped k) profile_names) by (cbn [profile_names In] in K; repeat (destruct K as [<-|K]; [cbv; tauto|]); destruct K).
  destruct (profile_known s k K T) as (v & L & D). destruct (profile_known s' _ K' T') as (v' & L' & D').
  rewrite L in H. rewrite L' in H'. apply Ok_inj in H, H'. injection H as <- <-. injection H' as <- <-. clear L L' T T' K'.
  cbn [profile_names In] in K. unfold database, soft, medium, hard in D, D'.
  repeat (destruct K as [<-|K]; [
    cbn [flipped In] in D'; cbn [In] in D;
    repeat (destruct D as [D|D]; [try discriminate D|]); try contradiction; injection D as <-;
    repeat (destruct D' as [D'|D']; [try discriminate D'|]); try contradiction; injection D' as <-;
    cbn [map rev app fst snd fold_right]; split; [reflexivity|split; [reflexivity|intros C; first [congruence|lra]]] |]).
  destruct K.
Qed.
Print Assumptions C119_flipped.

(** Stiffnesses of slabs whose moduli agree up to one percent. *)
Definition near_plies (p q : ply) : Prop :=
  p_h p = p_h q /\ p_nu p = p_nu q /\ 0 < 1 - p_nu q ^ 2 /\ 0 < p_h q /\ percent (p_E p) (p_E q) /\ percent (p_G p) (p_G q).
Lemma percent_add a b c d : percent a b -> percent c d -> percent (a + c) (b + d).
Proof. unfold percent. lra. Qed.
Lemma percent_mult a b c : 0 <= c -> percent a b -> percent (a * c) (b * c).
Proof. unfold percent. intros Hc [A B]. apply (Rmult_le_compat_r c) in A; [|exact Hc]. apply (Rmult_le_compat_r c) in B; [|exact Hc]. lra. Qed.
Lemma loop_near k p q : 0 <= k -> Forall2 near_plies p q -> forall z0 A B D S A' B' D' S', percent A A' -> percent D D' -> percent S S' ->
  let '(a, _, d, s) := laminate_loop p (coords z0 p) k A B D S in
  let '(a', _, d', s') := laminate_loop q (coords z0 q) k A' B' D' S' in
  percent a a' /\ percent d d' /\ percent s s'.
Proof.
  intros Hk H. induction H as [|x y p q (E1 & E2 & N & Hh & PE & PG) H IH]; intros z0 A B D S A' B' D' S' PA PD PS; [cbn; auto|].
  simpl coords. rewrite E1. destruct (coords_head (z0 + p_h y) p) as [t Et]. destruct (coords_head (z0 + p_h y) q) as [t' Et']. rewrite Et, Et'. cbn [laminate_loop]. rewrite <- Et, <- Et'. apply IH.
  - apply percent_add; [exact PA|]. rewrite E2. unfold Rdiv. rewrite !Rmult_assoc. apply percent_mult; [|exact PE].
    apply Rmult_le_pos; [left; apply Rinv_0_lt_compat; exact N|lra].
  - apply percent_add; [exact PD|]. rewrite E2. unfold Rdiv.
    match goal with |- percent ?u ?v => replace u with (p_E x * (/ 3 * / (1 - p_nu y ^ 2) * ((z0 + p_h y) ^ 3 - z0 ^ 3))) by (field; lra);
      replace v with (p_E y * (/ 3 * / (1 - p_nu y ^ 2) * ((z0 + p_h y) ^ 3 - z0 ^ 3))) by (field; lra) end.
    apply percent_mult; [|exact PE]. apply Rmult_le_pos; [apply Rmult_le_pos; [lra|left; apply Rinv_0_lt_compat; exact N]|].
    pose proof (pow2_ge_0 (2 * z0 + p_h y)). pose proof (pow2_ge_0 z0). nra.
  - apply percent_add; [exact PS|].
    match goal with |- percent ?u ?v => replace u with (p_G x * (k * p_h y)) by ring; replace v with (p_G y * (k * p_h y)) by ring end.
    apply percent_mult; [apply Rmult_le_pos; lra|exact PG].
Qed.

Theorem C119_stiffness eig o s w k nu layers E o1 o2 : is_last_word s w -> In k profile_names -> k <> "comp"%string -> same_text w k -> -1 < nu < 1 ->
  load_dummy_profile w = Ok (layers, E) ->
  set_beam_properties eig o (LStr s) (65 / 10) (44 / 10) nu true = Ok o1 ->
  set_beam_properties eig o (LList layers) (65 / 10) (44 / 10) nu true = Ok o2 ->
  let p := o_par o1 in let q := o_par o2 in
  hh p = hh q /\ zs p = zs q /\ percent (A11 p) (A11 q) /\ percent (D11 p) (D11 q) /\ percent (kA55 p) (kA55 q).
Proof.
  intros W K C T V L H1 H2 p q. pose proof (C119_moduli w k layers E K C T L) as M. apply last_word_spec in W.
  destruct (profile_known w k K T) as (v & L' & D). rewrite L in L'. apply Ok_inj in L'. injection L' as El Ee. destruct (database_good k v D) as [_ [Nv Fv]].
  unfold set_beam_properties in H1, H2. rewrite W, L in H1. cbn [bind] in H1.
  assert (NL : layers <> []) by (rewrite El; destruct v; [exfalso; exact (Nv eq_refl)|discriminate]).
  replace (match layers with [] => Err IndexError | _ :: _ => Ok (layers, map (fun r : R * R => bergfeld (fst r) 917 (65 / 10) (44 / 10)) layers) end)
    with (Ok (layers, map (fun r : R * R => bergfeld (fst r) 917 (65 / 10) (44 / 10)) layers)) in H2 by (clear - NL; destruct layers; [congruence|reflexivity]). cbn [bind] in H2.
  destruct (calc_center_of_gravity layers) as [h z]. apply Ok_inj in H1, H2. subst o1 o2.
  set (E' := map (fun r => bergfeld (fst r) 917 (65 / 10) (44 / 10)) layers) in *.
  assert (NP : Forall2 near_plies (build_slab layers E nu) (build_slab layers E' nu)).
  { assert (HP : Forall (fun l => 0 < snd l) layers) by (rewrite El, Forall_map; eapply Forall_impl; [|exact Fv]; cbn beta; tauto).
    unfold E', build_slab. clear - M HP V. revert HP. induction M as [|l e ls es Pe M IH]; intros HP; [constructor|]. inversion HP; subst. cbn [map map2]. constructor; [|apply IH; assumption].
    unfold near_plies. cbn [p_h p_nu p_E p_G]. split; [reflexivity|]. split; [reflexivity|]. split; [nra|]. split; [assumption|]. split; [exact Pe|].
    unfold Rdiv. apply percent_mult; [left; apply Rinv_0_lt_compat; lra|exact Pe]. }
  assert (Q : forall sl, let r := o_par (o_calc_fundamental_system eig (with_slab o (5 / 6) h z sl)) in
    hh r = h /\ zs r = z /\ (let '(a, _, d, s) := laminate_loop sl (coords (- h / 2) sl) (5 / 6) 0 0 0 0 in A11 r = a /\ D11 r = d /\ kA55 r = s)).
  { intros sl. cbv zeta. unfold o_calc_fundamental_system, o_calc_foundation_stiffness, o_calc_laminate, o_calc_eigensystem.
    destruct (calc_foundation_stiffness _ _ _) as [n t]. unfold calc_laminate_stiffness_matrix. unfold with_kn_kt, with_par, with_eig, with_slab. cbn [o_slab o_par o_k hh zs]. rewrite coords_eq.
    destruct (laminate_loop sl (coords (- h / 2) sl) (5 / 6) 0 0 0 0) as [[[a b] d] sk]. cbn [o_par hh zs A11 D11 kA55]. auto 10. }
  destruct (Q (build_slab layers E nu)) as (P1 & P2 & P3). destruct (Q (build_slab layers E' nu)) as (Q1 & Q2 & Q3). clear Q. fold p in P1, P2, P3. fold q in Q1, Q2, Q3.
  assert (Z : percent 0 0) by (unfold percent; lra).
  pose proof (loop_near (5 / 6) _ _ ltac:(lra) NP (- h / 2) 0 0 0 0 0 0 0 0 Z Z Z) as R.
  destruct (laminate_loop (build_slab layers E nu) _ _ _ _ _ _) as [[[a b] d] sk]. destruct (laminate_loop (build_slab layers E' nu) _ _ _ _ _ _) as [[[a' b'] d'] sk'].
  destruct P3 as (-> & -> & ->). destruct Q3 as (-> & -> & ->). rewrite P1, P2, Q1, Q2. tauto.
Qed.
Print Assumptions C119_stiffness.
Example C119_example : In "a"%string profile_names /\ "a"%string <> "comp"%string /\ same_text "A" "a" /\ same_text "b" (flipped "a") /\ same_text "Comp" "comp" /\ is_last_word "profile A" "A" /\
  load_dummy_profile "A" = Ok ([(350, 120); (270, 120); (180, 120)], [938 / 10; 30; 5]) /\
  forall eig o, (exists o1, set_beam_properties eig o (LStr "profile A") (65 / 10) (44 / 10) (1 / 4) true = Ok o1) /\
    exists o2, set_beam_properties eig o (LList [(350, 120); (270, 120); (180, 120)]) (65 / 10) (44 / 10) (1 / 4) true = Ok o2.
Proof.
  split; [cbv; tauto|]. split; [discriminate|]. split; [apply lower_text; [apply names_lower; cbv; tauto|reflexivity]|].
  split; [apply lower_text; [apply names_lower; cbv; tauto|reflexivity]|]. split; [apply lower_text; [apply names_lower; cbv; tauto|reflexivity]|].
  split.
  { exists (list_ascii_of_string "profile "), []. split; [reflexivity|]. split; [discriminate|]. split; [|split; [|right]].
    + constructor; [cbv; lia|constructor].
    + constructor.
    + exists (list_ascii_of_string "profile"), (Ascii.ascii_of_nat 32). split; [reflexivity|]. cbv. tauto. }
  split; [reflexivity|]. intros eig o. split; unfold set_beam_properties.
  - replace (last_word "profile A") with (Some "A"%string) by reflexivity. replace (load_dummy_profile "A") with (Ok ([(350, 120); (270, 120); (180, 120)], [938 / 10; 30; 5])) by reflexivity.
    cbn [bind]. destruct (calc_center_of_gravity _) as [h z]. eexists. reflexivity.
  - cbn [bind]. destruct (calc_center_of_gravity _) as [h z]. eexists. reflexivity.
Qed.
