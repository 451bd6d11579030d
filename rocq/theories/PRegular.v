(** Soft weak layers give six different eigenvalues (C104). *)
From Coq Require Import Lra.
Require Import Verif.Py Verif.MTools Verif.MEigen Verif.SAdm Verif.SSlab Verif.SBeam Verif.SBvp Verif.SEig
  Verif.SExact Verif.SRegular Verif.PSlab Verif.PCog Verif.PLam Verif.PSetup Verif.PExact Verif.PExact2 Verif.PProfile.
Open Scope R_scope.

Lemma chi2_value p : lam_ok p ->
  chi2 (calc_system_matrix p) = - (kn p / kA55 p + kt p * reach (A11 p) (B11 p) (D11 p) (hh p) (wt p)).
Proof.
  intros (HA & HD & Hk & HK0 & HKn).
  unfold chi2, calc_system_matrix, reach; simpl.
  replace (A11 p * D11 p - B11 p * (B11 p * 1)) with (- K0 p) by lra.
  field. split; lra.
Qed.
Lemma chi1_value p : lam_ok p ->
  chi1 (calc_system_matrix p) = kn p * A11 p / (A11 p * D11 p - B11 p ^ 2)
    + kn p * kt p * (A11 p * hh p * (hh p + wt p) - 2 * B11 p * (2 * hh p + wt p) + 4 * D11 p)
      / (4 * kA55 p * (A11 p * D11 p - B11 p ^ 2)).
Proof.
  intros (HA & HD & Hk & HK0 & HKn).
  unfold chi1, calc_system_matrix; simpl.
  replace (A11 p * D11 p - B11 p * (B11 p * 1)) with (- K0 p) by lra.
  field. split; lra.
Qed.

(** The neutral axis lies inside the slab. *)
Lemma pint_between z0 l : pos_layers l ->
  0 <= pint F0 z0 l /\ z0 * pint F0 z0 l <= pint F1 z0 l <= (z0 + thickness l) * pint F0 z0 l.
Proof.
  revert z0. induction l as [|[c h] r IH]; intros z0 H; [simpl; lra|].
  inversion H as [|x y [Hc Hh] Hr]; subst; simpl in Hc, Hh. destruct (IH (z0 + h) Hr) as (P & L & U).
  cbn [pint thickness].
  assert (T : 0 <= thickness r).
  { clear - Hr. induction Hr as [|[c h] r [_ Hh] Hr IH]; simpl in *; lra. }
  unfold F0 in *. unfold F1 in *.
  set (p0 := pint (fun x => x) (z0 + h) r) in *. set (p1 := pint (fun x => x ^ 2 / 2) (z0 + h) r) in *.
  assert (Q : 0 < c * h) by (apply Rmult_lt_0_compat; assumption).
  assert (Q2 : 0 < c * h * h) by (apply Rmult_lt_0_compat; assumption).
  assert (0 <= c * h * thickness r) by (apply Rmult_le_pos; lra).
  assert (0 <= h * p0) by (apply Rmult_le_pos; lra).
  split; [lra|]. split; nra.
Qed.

Lemma regular_simple p : lam_ok p -> fnd_ok p -> 0 < hh p -> 2 * B11 p <= A11 p * hh p -> regular p ->
  simple_spectrum (calc_system_matrix p).
Proof.
  intros L (Fn & Ft & Fw) Hh HB (_ & S2) m _. pose proof (chi2_value p L) as E2. pose proof (chi1_value p L) as E1.
  destruct L as (HA & HD & Hk & HK0 & HKn). rewrite E1. 
  set (c2 := chi2 (calc_system_matrix p)) in *.
  replace (kn p / kA55 p + kt p * reach (A11 p) (B11 p) (D11 p) (hh p) (wt p)) with (- c2) in S2 by lra.
  set (De := A11 p * D11 p - B11 p ^ 2) in *. assert (HDe : 0 < De) by (unfold De; lra).
  set (X := A11 p * hh p * (hh p + wt p) - 2 * B11 p * (2 * hh p + wt p) + 4 * D11 p).
  assert (HX : 0 <= X).
  { assert (0 <= wt p * (A11 p * hh p - 2 * B11 p)) by (apply Rmult_le_pos; lra).
    assert (0 <= A11 p * hh p ^ 2 - 4 * B11 p * hh p + 4 * D11 p); [|unfold X; lra].
    apply Rmult_le_reg_l with (A11 p); [exact HA|]. rewrite Rmult_0_r.
    replace (A11 p * (A11 p * hh p ^ 2 - 4 * B11 p * hh p + 4 * D11 p)) with ((A11 p * hh p - 2 * B11 p) ^ 2 + 4 * De) by (unfold De; ring).
    pose proof (pow2_ge_0 (A11 p * hh p - 2 * B11 p)). lra. }
  assert (Y : 0 <= kn p * kt p * X / (4 * kA55 p * De)).
  { apply Rmult_le_pos; [apply Rmult_le_pos; [apply Rmult_le_pos; lra|exact HX]|].
    apply Rlt_le, Rinv_0_lt_compat. apply Rmult_lt_0_compat; lra. }
  intros E. set (y := kn p * kt p * X / (4 * kA55 p * De)) in *.
  replace (3 * kn p * A11 p / De) with (3 * (kn p * A11 p / De)) in S2 by (field; lra).
  set (x := kn p * A11 p / De) in *. pose proof (pow2_ge_0 (3 * m + c2)). nra.
Qed.

(** * Objects *)
Section O.
Variable eig : mat6 -> list eigpair.

(** A slab of admissible plies, whose thickness is stored. *)
Definition slab_set (o : obj) : Prop :=
  Forall good_ply (o_slab o) /\ o_slab o <> [] /\ hh (o_par o) = slab_h (o_slab o) /\ 0 < o_k o.

Lemma slab_h_pos s : Forall good_ply s -> s <> [] -> 0 < slab_h s.
Proof.
  intros H N. assert (G : 0 <= slab_h s /\ (s <> [] -> 0 < slab_h s)); [|tauto]. clear N.
  induction H as [|q s (Hq & _) Hs (IH & _)]; unfold slab_h in *; simpl; [split; [lra|congruence]|split; intros; lra].
Qed.

Lemma foundation_object o t E nu : slab_set o -> 0 < t -> 0 < E -> -1 < nu < 1 ->
  let o' := set_foundation_properties eig o t E nu true in
  lam_ok (o_par o') /\ fnd_ok (o_par o') /\ 0 < hh (o_par o') /\ Rabs (2 * B11 (o_par o')) <= A11 (o_par o') * hh (o_par o') /\
  o_eig o' = calc_eigensystem (eig (calc_system_matrix (o_par o'))).
Proof.
  intros (G & N & Hh & Hk) Ht HE Hnu o'. pose proof (set_foundation_adm eig o t E nu o' Ht HE Hnu eq_refl) as F.
  destruct (fundamental_par eig (with_weak o E nu t)) as (P & Q & _). cbv zeta in P, Q.
  fold (set_foundation_properties eig o t E nu true) in P, Q. 
  fold o' in P, Q.
  pose proof (laminate_pos_def (o_slab o) (hh (o_par o)) (o_k o) G N Hk) as LP.
  pose proof (slab_h_pos _ G N) as HP. pose proof (good_ps _ G) as PP.
  destruct (pint_between (- hh (o_par o) / 2) (ps (o_slab o)) PP) as (_ & B1 & B2).
  rewrite thickness_ps, <- Hh in B2.
  assert (V : A11 (o_par o') = pint F0 (- hh (o_par o) / 2) (ps (o_slab o)) /\ B11 (o_par o') = pint F1 (- hh (o_par o) / 2) (ps (o_slab o))
    /\ hh (o_par o') = hh (o_par o)).
  { rewrite P. simpl. rewrite laminate_closed. simpl. auto. }
  destruct V as (VA & VB & VH). split; [|split; [exact F|split; [rewrite VH; lra|split; [|exact Q]]]].
  - rewrite P. unfold lam_ok. simpl. rewrite laminate_closed in LP |- *. cbv zeta in LP |- *. simpl in LP |- *. tauto.
  - rewrite VA, VB, VH. apply Rabs_le. split; nra.
Qed.

(** ** Slabs set by the constructor and by the setters *)
Lemma fundamental_slab o : slab_set o -> slab_set (o_calc_fundamental_system eig o).
Proof.
  intros (G & N & H & K). destruct (fundamental_par eig o) as (P & _ & Sl). cbv zeta in P.
  unfold slab_set. rewrite P, Sl. simpl. split; [exact G|]. split; [exact N|]. split; [exact H|].
  unfold o_calc_fundamental_system, o_calc_foundation_stiffness, o_calc_laminate, o_calc_eigensystem.
  destruct (calc_foundation_stiffness _ _ _) as [n t]. unfold with_kn_kt, with_par, with_eig. simpl.
  destruct (calc_laminate_stiffness_matrix _ _ _) as [[[[A B] D] Sk] K']. exact K.
Qed.
Lemma profile_rows nu (v : list (R * R * R)) : -1 < nu < 1 ->
  Forall (fun r => (0 < fst (fst r) /\ 0 < snd (fst r)) /\ 0 < snd r) v ->
  Forall good_ply (build_slab (map fst v) (map snd v) nu) /\ slab_h (build_slab (map fst v) (map snd v) nu) = thickness (map fst v).
Proof.
  intros V F. induction F as [|[[d h] e] v [[Hd Hh] He] F [IH1 IH2]]; [split; [constructor|reflexivity]|].
  simpl in Hd, Hh, He. split.
  - constructor; [|exact IH1]. unfold good_ply. simpl. repeat split; try lra. apply Rdiv_lt_0_compat; lra.
  - unfold slab_h, build_slab in *. simpl. rewrite IH2. reflexivity.
Qed.
Lemma database_found w l E : load_dummy_profile w = Ok (l, E) -> exists k v, In (k, v) database /\ l = map fst v /\ E = map snd v.
Proof.
  unfold load_dummy_profile. destruct (find _ database) as [[k v]|] eqn:F; [|discriminate]. intros H. apply Ok_inj in H.
  apply find_some in F. inversion H. exists k, v. tauto.
Qed.
Lemma set_beam_slab o la C0 C1 nu update o' : good_layers la -> 0 < C0 -> -1 < nu < 1 ->
  set_beam_properties eig o la C0 C1 nu update = Ok o' -> slab_set o'.
Proof.
  intros G HC Hnu. destruct la as [s|l].
  - unfold set_beam_properties. destruct (last_word s) as [w|]; [|discriminate].
    destruct (load_dummy_profile w) as [[l E]|] eqn:L; [|discriminate]. cbn [bind].
    destruct (database_found _ _ _ L) as (k & v & D & -> & ->). destruct (database_good k v D) as (_ & Nv & Fv).
    destruct (profile_rows nu v Hnu) as (P & T); [eapply Forall_impl; [|exact Fv]; cbn beta; intros [[d h] e]; simpl; tauto|].
    destruct (calc_center_of_gravity (map fst v)) as [H z] eqn:C. rewrite cog_closed in C. apply pair_equal_spec in C. destruct C as [<- _].
    intros E; apply Ok_inj in E.
    assert (Q : slab_set (with_slab o (5 / 6) (thickness (map fst v)) z (build_slab (map fst v) (map snd v) nu))).
    { unfold slab_set. simpl. split; [exact P|]. split; [destruct v; [congruence|discriminate]|]. split; [congruence|lra]. }
    destruct update; subst o'; [apply fundamental_slab|]; exact Q.
  - intros E. destruct l as [|x l]; [discriminate|]. rewrite set_beam_list in E by discriminate. apply Ok_inj in E. cbv zeta in E.
    assert (Q : slab_set (with_slab o (5 / 6) (fst (calc_center_of_gravity (x :: l))) (snd (calc_center_of_gravity (x :: l))) (user_slab (x :: l) C0 C1 nu))).
    { rewrite cog_closed. unfold slab_set. split; [exact (user_slab_good (x :: l) C0 C1 nu G HC Hnu)|]. split; [discriminate|].
      split; [symmetry; exact (user_slab_h (x :: l) C0 C1 nu)|simpl; lra]. }
    destruct update; subst o'; [apply fundamental_slab|]; exact Q.
Qed.
Lemma weak_slab o E nu t : slab_set o -> slab_set (with_weak o E nu t).
Proof. intros H. exact H. Qed.

Lemma built_slab o : built eig o -> slab_set o.
Proof.
  intros B. induction B as [system la td o G H|o la C0 C1 nu o' _ IH G HC Hnu H|o t E nu _ IH Ht HE Hnu|o p _ IH].
  - unfold Layered in H.
    set (la' := match la with LList [] => _ | _ => _ end) in H.
    assert (G' : good_layers la').
    { unfold la'. destruct la as [[|c s]|[|x l]]; try exact G; simpl; repeat constructor; simpl; lra. }
    destruct (set_beam_properties eig (init_obj system td) la' (65 / 10) (44 / 10) (1 / 4) false) as [o1|e] eqn:E1; [|discriminate].
    cbn [bind] in H. apply Ok_inj in H. subst o. apply fundamental_slab. apply weak_slab.
    refine (set_beam_slab _ _ _ _ _ _ _ G' _ _ E1); lra.
  - exact (set_beam_slab _ _ _ _ _ _ _ G HC Hnu H).
  - apply fundamental_slab, weak_slab, IH.
  - exact IH.
Qed.

(** Weak layer of a built object. *)
Definition weak_set (o : obj) : Prop := 0 < wt (o_par o) /\ 0 < o_weakE o /\ -1 < o_weaknu o < 1.
Lemma fundamental_weak o : weak_set o -> weak_set (o_calc_fundamental_system eig o).
Proof.
  intros H. destruct (fundamental_par eig o) as (P & _ & _). cbv zeta in P. unfold weak_set. rewrite P. simpl.
  unfold o_calc_fundamental_system, o_calc_foundation_stiffness, o_calc_laminate, o_calc_eigensystem.
  destruct (calc_foundation_stiffness _ _ _) as [n t]. unfold with_kn_kt, with_par, with_eig. simpl.
  destruct (calc_laminate_stiffness_matrix _ _ _) as [[[[A B] D] Sk] K']. exact H.
Qed.
Lemma set_beam_weak o la C0 C1 nu update o' : set_beam_properties eig o la C0 C1 nu update = Ok o' -> weak_set o -> weak_set o'.
Proof.
  unfold set_beam_properties. match goal with |- bind ?m _ = _ -> _ => destruct m as [[l E]|e]; [|discriminate] end. cbn [bind].
  destruct (calc_center_of_gravity l) as [H z]. intros Q W. apply Ok_inj in Q. subst o'. destruct update; [apply fundamental_weak|]; exact W.
Qed.
Lemma built_weakset o : built eig o -> weak_set o.
Proof.
  intros B. induction B as [system la td o G H|o la C0 C1 nu o' _ IH G HC Hnu H|o t E nu _ IH Ht HE Hnu|o p _ IH].
  - unfold Layered in H. match type of H with bind ?m _ = _ => destruct m as [o1|e]; [|discriminate] end. cbn [bind] in H.
    apply Ok_inj in H. subst o. apply fundamental_weak. unfold weak_set; simpl. lra.
  - exact (set_beam_weak _ _ _ _ _ _ _ H IH).
  - apply fundamental_weak. unfold weak_set. simpl. tauto.
  - exact IH.
Qed.
(** Every built object is one whose fundamental system was calculated last. *)
Lemma built_last o : built eig o -> exists o1, slab_set o1 /\ weak_set o1 /\
  o_par o = o_par (o_calc_fundamental_system eig o1) /\ o_eig o = o_eig (o_calc_fundamental_system eig o1).
Proof.
  intros B. induction B as [system la td o G H|o la C0 C1 nu o' B IH G HC Hnu H|o t E nu B IH Ht HE Hnu|o p B IH].
  - unfold Layered in H. set (la' := match la with LList [] => _ | _ => _ end) in H.
    assert (G' : good_layers la').
    { unfold la'. destruct la as [[|c s]|[|x l]]; try exact G; simpl; repeat constructor; simpl; lra. }
    destruct (set_beam_properties eig (init_obj system td) la' (65 / 10) (44 / 10) (1 / 4) false) as [o1|e] eqn:E1; [|discriminate].
    cbn [bind] in H. apply Ok_inj in H. exists (set_foundation_properties eig o1 30 (1 / 4) (1 / 4) false).
    split; [apply weak_slab; refine (set_beam_slab _ _ _ _ _ _ _ G' _ _ E1); lra|].
    split; [unfold weak_set; simpl; lra|]. subst o. split; reflexivity.
  - assert (E2 : exists o1, set_beam_properties eig o la C0 C1 nu false = Ok o1 /\ o' = o_calc_fundamental_system eig o1).
    { revert H. unfold set_beam_properties. match goal with |- bind ?m _ = _ -> _ => destruct m as [[l E]|e]; [|discriminate] end. cbn [bind].
      destruct (calc_center_of_gravity l) as [h z]. intros Q. apply Ok_inj in Q. eexists. split; [reflexivity|]. symmetry. exact Q. }
    destruct E2 as (o1 & E1 & ->). exists o1. split; [exact (set_beam_slab _ _ _ _ _ _ _ G HC Hnu E1)|].
    split; [exact (set_beam_weak _ _ _ _ _ _ _ E1 (built_weakset _ B))|]. split; reflexivity.
  - exists (with_weak o E nu t). split; [apply weak_slab, built_slab, B|]. split; [unfold weak_set; simpl; tauto|]. split; reflexivity.
  - destruct IH as (o1 & S1 & W1 & P1 & E1). exists o1. tauto.
Qed.
Lemma built_object o : built eig o ->
  lam_ok (o_par o) /\ fnd_ok (o_par o) /\ 0 < hh (o_par o) /\ Rabs (2 * B11 (o_par o)) <= A11 (o_par o) * hh (o_par o) /\
  o_eig o = calc_eigensystem (eig (calc_system_matrix (o_par o))).
Proof.
  intros B. destruct (built_last o B) as (o1 & S1 & (Ht & HE & Hnu) & P & Q).
  pose proof (foundation_object o1 (wt (o_par o1)) (o_weakE o1) (o_weaknu o1) S1 Ht HE Hnu) as F. cbv zeta in F.
  assert (W : o_calc_fundamental_system eig o1 = set_foundation_properties eig o1 (wt (o_par o1)) (o_weakE o1) (o_weaknu o1) true).
  { unfold set_foundation_properties, with_weak. destruct o1 as [g lski tol sys wE wnu p0 slab k phi [q1 q2 q3 q4 q5 q6 q7 q8 q9 q10] e td a L tc ra mo tdl].
    reflexivity. }
  rewrite P, Q, W. exact F.
Qed.
Lemma built_ready o : dependable eig -> built eig o -> regular (o_par o) -> ready o /\ stable (o_par o).
Proof.
  intros De B Rg. destruct (built_object o B) as (L & F & Hh & HB & E). pose proof (Rle_abs (2 * B11 (o_par o))).
  split; [|exact (proj1 Rg)]. split; [exact L|]. split; [exact F|].
  exists (eig (calc_system_matrix (o_par o))). split; [exact E|]. apply De with (exact_eig (calc_system_matrix (o_par o))); [exact (conj L (conj F Hh))|].
  apply good_exact; [apply system_shape|apply regular_simple; trivial; lra|].
  pose proof (chi0_neg (o_par o) (conj L (conj F Hh))). lra.
Qed.
End O.
