(** Facts about the search of crossings (C72). *)
From Coq Require Import Lia Lra.
Require Import Verif.Py Verif.MTools Verif.MEigen Verif.MFields Verif.MRaster Verif.MSolution Verif.MAnalysis Verif.MEnvelope Verif.MCriterion
  Verif.SSegment Verif.SRaster Verif.SContact Verif.SCross Verif.PSetup Verif.PSegment Verif.PRaster Verif.PCreate Verif.PCreate2 Verif.PContact Verif.PropRaster.

(** ** Brackets *)
Lemma osign_same v w : osign (Some (v - 1)) = osign (Some (w - 1)) <-> same_side v w.
Proof.
  unfold osign, same_side. simpl. unfold Rltb. split.
  - repeat destruct (Rlt_dec _ _); intros H; try discriminate; lra.
  - intros H. repeat destruct (Rlt_dec _ _); try reflexivity; exfalso; lra.
Qed.
Definition crossing (d : list (option R)) (i : nat) : bool :=
  match nth_error d i, nth_error d (S i) with
  | Some a, Some b =>
      match osign a, osign b with Some x, Some y => negb (Z.eqb x y) | _, _ => true end
  | _, _ => false
  end.
Lemma transitions_filter d n : transitions d n = filter (fun i => crossing d (i - n)) (seq n (List.length d - 1)).
Proof.
  revert n. induction d as [|a d IH]; intros n; [reflexivity|]. destruct d as [|b d]; [reflexivity|].
  replace (List.length (a :: b :: d) - 1)%nat with (S (List.length (b :: d) - 1)) by (simpl; lia).
  cbn [seq filter].
  change (transitions (a :: b :: d) n) with ((match osign a, osign b with
       | Some x, Some y => if Z.eqb x y then [] else [n] | _, _ => [n] end) ++ transitions (b :: d) (S n)). rewrite IH. replace (n - n)%nat with 0%nat by lia.
  assert (E : filter (fun i => crossing (b :: d) (i - S n)) (seq (S n) (List.length (b :: d) - 1))
            = filter (fun i => crossing (a :: b :: d) (i - n)) (seq (S n) (List.length (b :: d) - 1))).
  { apply filter_ext_in. intros i I. apply in_seq in I. replace (i - n)%nat with (S (i - S n)) by lia. reflexivity. }
  rewrite E. unfold crossing at 2. cbn [nth_error].
  destruct (osign a) as [x|], (osign b) as [y|]; try reflexivity. destruct (Z.eqb x y); reflexivity.
Qed.

Section S.
Variable brent : R -> R -> list (R * R) -> bstep.
Variable maxeval : nat.
(** Result of one bracket. *)
Definition tried (f : R -> res R) (o : obj) (x : list (option R)) (d : list (option R)) (i : nat) : list R :=
  if crossing d i then
    match nth i x None, nth (S i) x None with
    | Some a, Some b =>
        match fst (brentq brent maxeval (fun x => fun o => (f x, o)) (10 * a) (10 * b) o) with Ok r => [r] | Err _ => [] end
    | _, _ => []
    end
  else [].
Lemma collect_tried f o x d is roots :
  collect_roots brent maxeval f o (map (fun i => (nth i x None, nth (S i) x None)) (filter (crossing d) is)) = Ok roots ->
  roots = List.concat (map (tried f o x d) is) /\
  forall i, In i is -> crossing d i = true -> exists a b, nth i x None = Some a /\ nth (S i) x None = Some b.
Proof.
  revert roots. induction is as [|i is IH]; intros roots H.
  - apply Ok_inj in H. subst. split; [reflexivity|intros i []].
  - cbn [filter] in H. cbn [map List.concat]. unfold tried at 1. destruct (crossing d i) eqn:Ec.
    + cbn [map collect_roots] in H. destruct (nth i x None) as [a|] eqn:Ea; [|discriminate]. destruct (nth (S i) x None) as [b|] eqn:Eb; [|discriminate].
      destruct (fst (brentq _ _ _ _ _ _)) as [r|e].
      * destruct (collect_roots _ _ _ _ _) as [rs|] eqn:Er; [|discriminate]. apply Ok_inj in H. subst roots.
        destruct (IH rs eq_refl) as [-> Hi]. split; [reflexivity|]. intros j [<-|J] Cj; [eauto|auto].
      * assert (H' : collect_roots brent maxeval f o (map (fun i => (nth i x None, nth (S i) x None)) (filter (crossing d) is)) = Ok roots)
          by (destruct e; try discriminate; exact H).
        destruct (IH roots H') as [-> Hi]. split; [reflexivity|]. intros j [<-|J] Cj; [eauto|auto].
    + destruct (IH roots H) as [-> Hi]. split; [reflexivity|]. intros j [<-|J] Cj; [congruence|auto].
Qed.
Lemma roots_tried e k li phi roots d : find_roots_around_x brent maxeval e k li phi = Ok roots -> envelope_of e k = Ok d ->
  let dd := map (option_map (fun v => v - 1)) d in
  let rs := map (tried (root_function e k li phi) (k_obj k) (k_x k) dd) (seq 0 (List.length d - 1)) in
  roots = List.concat rs /\
  forall i, (S i < List.length d)%nat -> crossing dd i = true -> exists a b, nth i (k_x k) None = Some a /\ nth (S i) (k_x k) None = Some b.
Proof.
  intros H Ed dd rs. unfold find_roots_around_x in H. rewrite Ed in H. cbn [bind] in H. fold dd in H.
  rewrite transitions_filter in H. unfold dd in H at 2. rewrite map_length in H.
  assert (E : filter (fun i => crossing dd (i - 0)) (seq 0 (List.length d - 1)) = filter (crossing dd) (seq 0 (List.length d - 1)))
    by (apply filter_ext; intros i; rewrite Nat.sub_0_r; reflexivity).
  rewrite E in H. apply collect_tried in H. destruct H as [H1 H2]. split; [exact H1|]. intros i I C. apply H2; [apply in_seq; lia|exact C].
Qed.
End S.

Lemma crossing_sides d i v w : nth_error d i = Some (Some v) -> nth_error d (S i) = Some (Some w) ->
  (crossing (map (option_map (fun v => v - 1)) d) i = false <-> same_side v w).
Proof.
  intros A B. unfold crossing. rewrite !nth_error_map, A, B. unfold option_map at 1 2 3 4. rewrite <- osign_same.
  destruct (osign (Some (v - 1))) as [x|] eqn:Ex; [|discriminate]. destruct (osign (Some (w - 1))) as [y|] eqn:Ey; [|discriminate].
  destruct (Z.eqb_spec x y) as [E|E]; simpl; split; intros H; try reflexivity; try discriminate; congruence.
Qed.

(** ** The root function *)
Lemma kpa_tau p z : tau_unit p "kPa" z = Ok (1000 * f_tau p z).
Proof. unfold tau_unit, f_tau. unfold conv_stress. simpl. f_equal. ring. Qed.
Lemma kpa_sig p z : sig_unit p "kPa" z = Ok (1000 * f_sig p z).
Proof. unfold sig_unit, f_sig. unfold conv_stress. simpl. f_equal. ring. Qed.
Lemma envelope_flip n sf om rho s t : stress_envelope1 n sf om rho s (- t) = stress_envelope1 n sf om rho s t.
Proof. unfold stress_envelope1. rewrite Rabs_Ropp. reflexivity. Qed.
Lemma root_at e k li phi x v : List.length li <> 1%nat -> root_function e k li phi x = Ok v -> criterion_at e k li phi x (v + 1).
Proof.
  intros N H. unfold root_function, calculate_sigma_tau in H. destruct (find_segment_index li x) as [[j xi]|] eqn:F; [|discriminate].
  destruct (nth_error (k_C k) j) as [C|] eqn:EC; [|discriminate]. unfold zsol_checked in H. destruct (Nat.eqb _ _); [|discriminate]. cbn [bind] in H.
  rewrite kpa_tau, kpa_sig in H. cbn [bind fst snd] in H. rewrite envelope_flip in H.
  apply (find_lookup li x j xi N) in F. destruct F as (J & A & B & ->).
  match type of H with bind ?m _ = _ => destruct m as [u|] eqn:E; [|discriminate] end. cbn [bind] in H. apply Ok_inj in H.
  exists j, C. split; [exact J|]. split; [exact A|]. split; [exact B|]. split; [exact EC|]. cbv zeta. rewrite E. f_equal. lra.
Qed.
Lemma envelope_all n sf om rho s t v : stress_envelope1 n sf om rho 0 0 = Ok v -> exists u, stress_envelope1 n sf om rho s t = Ok u.
Proof. unfold stress_envelope1. repeat destruct (String.eqb _ _); intros H; try discriminate; eauto. Qed.

(** ** Samples of an uncracked model of two halves *)
Lemma zh_length p e x y l bed : List.length (zh p e x l bed) = List.length (zh p e y l bed).
Proof. destruct bed; [|reflexivity]. unfold zh, zh_bedded. rewrite !app_length, !map_length. reflexivity. Qed.
Lemma checked_length p e ld x C l bed z : zsol_checked p e ld x C l bed = Ok z -> forall y, List.length (zh p e y l bed) = List.length C.
Proof. unfold zsol_checked. destruct (Nat.eqb_spec (List.length (zh p e x l bed)) (List.length C)) as [E|]; [|discriminate]. intros _ y. rewrite (zh_length p e y x). exact E. Qed.
Lemma local_first l n b : (1 <= n)%nat -> exists x xs, raster_local l n b = x :: xs.
Proof.
  intros H. unfold raster_local, linspace. destruct n as [|n]; [lia|]. cbn [seq map]. destruct b, n; simpl; eauto.
Qed.
Lemma raster_two p e ld Cs h num xq zq xb : 0 < h -> (1 <= num)%nat ->
  rasterize_solution p e ld Cs [h; h] [true; true] num = Ok (xq, zq, xb) ->
  exists C1 C2, Cs = [C1; C2] /\ (forall y, List.length (zh p e y h true) = List.length C1 /\ List.length (zh p e y h true) = List.length C2) /\
    xb = map Some xq /\ xq = raster_xq 0 [h; h] (raster_counts [h; h] num) /\ List.length zq = List.length xq /\
    Forall2 (fun x z => 0 <= x < h /\ z = zsol p e ld x C1 h true \/ h <= x <= h + h /\ z = zsol p e ld (x - h) C2 h true) xq zq.
Proof.
  intros Hh Hn H. pose proof (C40_columns _ _ _ _ _ _ _ _ _ _ Hn H) as F. pose proof (C39_foundation _ _ _ _ _ _ _ _ _ _ Hn H) as Fb.
  pose proof (raster_present p e ld Cs [h; h] [true; true] num xq zq xb ltac:(auto) H) as Pr.
  pose proof (C38_grid _ _ _ _ _ _ _ _ _ _ Hn H) as (_ & _ & _ & _ & _ & Lz & _).
  unfold rasterize_solution in H.
  destruct Cs as [|C1 [|C2 [|C3 Cs]]]; try discriminate.
  cbn [List.length Nat.eqb andb negb map] in H. rewrite !(Rabs_pos_eq h) in H by lra. assert (Rt : Rltb 0 h = true) by (unfold Rltb; destruct (Rlt_dec 0 h); [reflexivity|lra]). rewrite Rt in H.
  cbn [select] in H.
  pose proof (counts_positive [h; h] num ltac:(auto) Hn) as Hc.
  destruct (raster_counts [h; h] num) as [|n1 [|n2 [|n3 nq]]] eqn:En;
    try (apply (f_equal (@List.length nat)) in En; rewrite counts_length in En; discriminate).
  destruct Hc as [H1 H2]. cbn [counts_ok] in H2. cbn [raster_zq] in H.
  destruct (local_first h n1 false H1) as (x1 & xs1 & E1). destruct (local_first h n2 true ltac:(lia)) as (x2 & xs2 & E2).
  rewrite E1, E2 in H. cbn [mapM] in H.
  destruct (zsol_checked p e ld x1 C1 h true) as [z1|] eqn:Z1; [|discriminate]. cbn [bind] in H.
  destruct (mapM _ xs1) as [zs1|]; [|discriminate]. cbn [bind] in H.
  destruct (zsol_checked p e ld x2 C2 h true) as [z2|] eqn:Z2; [|discriminate]. cbn [bind] in H.
  destruct (mapM _ xs2) as [zs2|]; [|discriminate]. cbn [bind] in H. apply Ok_inj in H. injection H as Hx _ _.
  exists C1, C2. split; [reflexivity|]. split; [intros y; split; [exact (checked_length _ _ _ _ _ _ _ _ Z1 y)|exact (checked_length _ _ _ _ _ _ _ _ Z2 y)]|].
  split.
  { clear - Fb Pr. induction Fb as [|x y xs ys [[_ ->]|[_ ->]] F IH]; [reflexivity| |]; inversion Pr; subst; [|congruence]. simpl. rewrite <- IH by assumption. reflexivity. }
  split; [symmetry; exact Hx|]. split; [exact Lz|]. clear - F Hh. induction F as [|x z xs zs (b & l & C & k & Ho & ->) F IH]; constructor; [|exact IH].
  destruct Ho as (Hs & _ & Hx). unfold chain_length, rsum in Hx. simpl in Hx. rewrite !(Rabs_pos_eq h) in Hx by lra.
  inversion Hs; subst; [|match goal with A : seg_at _ _ _ _ _ |- _ => inversion A; subst; [|match goal with B : seg_at _ [] _ _ _ |- _ => inversion B end] end].
  - rewrite !Rabs_pos_eq in Hx by lra. rewrite Rabs_pos_eq by lra. left. split; [lra|]. f_equal. lra.
  - rewrite !Rabs_pos_eq in * by lra. right. split; [lra|]. f_equal. lra.
Qed.
Lemma F2_len {A B} (P : A -> B -> Prop) l m : Forall2 P l m -> List.length l = List.length m.
Proof. induction 1; simpl; congruence. Qed.
Lemma F2_nth {A B} (P : A -> B -> Prop) l m i a : Forall2 P l m -> nth_error l i = Some a -> exists b, nth_error m i = Some b /\ P a b.
Proof. intros F. revert i. induction F as [|x y l m H F IH]; intros [|i] E; try discriminate; simpl in E |- *; [injection E as <-; eauto|auto]. Qed.
Lemma stress_entries f x z xs g : (forall c, f c = Ok (g c)) -> weaklayer_stress f (map Some x) z false = Ok xs -> List.length z = List.length x ->
  fst xs = map (fun a => Some (a / 10)) x /\ snd xs = map (fun c => Some (g c)) z.
Proof.
  intros Hg. unfold weaklayer_stress, columns. rewrite Hg. cbn [bind].
  assert (E : mapM f z = Ok (map g z)).
  { clear - Hg. induction z as [|a z IH]; [reflexivity|]. cbn [mapM map]. rewrite Hg. cbn [bind]. rewrite IH. reflexivity. }
  rewrite E. cbn [bind]. rewrite map_length. intros H L. rewrite L, Nat.eqb_refl in H. cbn [negb] in H. apply Ok_inj in H. subst xs. cbn [fst snd].
  unfold to_cm. rewrite map_map. split; [reflexivity|]. clear - L. revert x L. induction z as [|a z IH]; intros [|b x] L; try discriminate; simpl; [reflexivity|].
  rewrite IH by (simpl in L; lia). reflexivity.
Qed.
Lemma create_samples eig solve brent maxeval profile w phi h E t k : 0 < h ->
  create_skier_object eig solve brent maxeval profile w phi [h; h] [true; true] false E t = Ok k ->
  let o := k_obj k in let p := o_par o in let es := o_eig o in let ld := loads_of o phi in
  exists C1 C2 xq zq, k_C k = [C1; C2] /\
    (forall y, List.length (zh p es y h true) = List.length C1 /\ List.length (zh p es y h true) = List.length C2) /\
    k_x k = map (fun a => Some (a / 10)) xq /\ k_sig k = map (fun z => Some (1000 * f_sig p z)) zq /\ k_tau k = map (fun z => Some (1000 * f_tau p z)) zq /\
    strictly_increasing xq /\ xq = raster_xq 0 [h; h] (raster_counts [h; h] 800) /\
    Forall2 (fun x z => 0 <= x < h /\ z = zsol p es ld x C1 h true \/ h <= x <= h + h /\ z = zsol p es ld (x - h) C2 h true) xq zq.
Proof.
  intros Hh. unfold create_skier_object. destruct (Layered eig "skiers" profile false) as [o|e] eqn:EL; [|discriminate]. cbn [bind].
  destruct (layered_system _ _ _ _ _ EL) as [S T].
  destruct (skier_weights [h; h] (List.length [true; true]) w) as [mi|e]; [|discriminate]. cbn [bind].
  match goal with |- context [calc_segments ?a ?b ?c ?d ?e ?f ?g ?h ?i ?j ?k0 ?l ?m ?n ?o] => destruct (calc_segments a b c d e f g h i j k0 l m n o) as [[s|e'] o'] eqn:EC; [|discriminate] end.
  assert (Es : s = mkSeg [h; h] mi [true; true] [true; true]).
  { refine (skiers_segments _ _ _ _ _ _ _ _ _ _ _ _ _ _ _ _ _ _ _ EC).
    - unfold set_foundation_properties. destruct (recalc_system eig (with_weak o E (1 / 4) t)) as [-> _]. exact S.
    - unfold set_foundation_properties. destruct (recalc_system eig (with_weak o E (1 / 4) t)) as [_ ->]. exact T. }
  subst s. cbn [s_li s_mi s_ki s_k0]. clear EC.
  destruct (assemble_and_solve _ _ _ _ _ _ _ _) as [C|e]; [|discriminate]. cbn [bind].
  destruct (rasterize_solution _ _ _ _ _ _ _) as [[[xq z] xb]|e] eqn:ER; [|discriminate]. cbn [bind].
  assert (N8 : (1 <= 800)%nat) by (apply Nat.leb_le; reflexivity).
  pose proof (C38_grid _ _ _ _ _ _ _ _ _ _ N8 ER) as (Inc & _).
  destruct (raster_two _ _ _ _ _ _ _ _ _ Hh N8 ER) as (C1 & C2 & EC & Lh & -> & Eg & Lz & F).
  destruct (get_weaklayer_shearstress _ _ _ _ _) as [xt|e] eqn:ET; [|discriminate]. cbn [bind].
  destruct (get_weaklayer_normalstress _ _ _ _ _) as [xs|e] eqn:ES; [|discriminate]. cbn [bind].
  destruct (stress_entries _ _ _ _ _ (kpa_tau (o_par o')) ET Lz) as [_ T2].
  destruct (stress_entries _ _ _ _ _ (kpa_sig (o_par o')) ES Lz) as [S1 S2].
  intros H. apply Ok_inj in H. subst k. cbn [k_obj k_C k_x k_sig k_tau]. exists C1, C2, xq, z. auto 10.
Qed.

(** ** Root function and samples *)
Lemma seg_two h : seg_start [h; h] 0 = 0 /\ seg_start [h; h] 1 = h /\ seg_start [h; h] 2 = h + h.
Proof. unfold seg_start, rsum. simpl. lra. Qed.
Lemma mapM_nth {A B} (f : A -> res B) l ys i y : mapM f l = Ok ys -> nth_error ys i = Some y -> exists x, nth_error l i = Some x /\ f x = Ok y.
Proof.
  intros H E. apply mapM_Ok in H. revert i E. induction H as [|a b l m P F IH]; intros [|i] E; try discriminate; simpl in E |- *; [injection E as <-; eauto|auto].
Qed.
Lemma combine_nth_error {A B} (l : list A) (m : list B) i a b : nth_error (combine l m) i = Some (a, b) -> nth_error l i = Some a /\ nth_error m i = Some b.
Proof.
  revert m i. induction l as [|x l IH]; intros [|y m] [|i] E; try discriminate; simpl in E |- *; [injection E as <- <-; auto|auto].
Qed.
Section Created.
Variable eig : mat6 -> list eigpair.
Variable solve : nat -> matrix -> vector -> res vector.
Variable brent : R -> R -> list (R * R) -> bstep.
Variable maxeval : nat.
Variables (profile : layers_arg) (w phi h E t : R) (k : sk) (e : envp) (d : list (option R)).
Hypothesis Hh : 0 < h.
Hypothesis Hk : create_skier_object eig solve brent maxeval profile w phi [h; h] [true; true] false E t = Ok k.
Hypothesis Hd : envelope_of e k = Ok d.
Lemma root_total x : 0 <= x <= h + h -> exists v, root_function e k [h; h] phi x = Ok v.
Proof.
  intros Hx. destruct (create_samples _ _ _ _ _ _ _ _ _ _ _ Hh Hk) as (C1 & C2 & xq & zq & EC & L & _).
  destruct (seg_two h) as (S0 & S1 & S2).
  unfold envelope_of, stress_envelope in Hd. destruct (stress_envelope1 (e_name e) (e_sf e) (e_om e) (e_rho e) 0 0) as [v0|] eqn:E0; [|discriminate].
  unfold root_function, calculate_sigma_tau. destruct (Rle_dec x h) as [B|B].
  - rewrite (proj2 (find_lookup [h; h] x 0%nat x ltac:(discriminate))) by (repeat split; [simpl; lia|lra|intros m M; lia|lra]).
    rewrite EC. cbn [nth_error nth]. unfold zsol_checked. rewrite (proj1 (L x)), Nat.eqb_refl. cbn [bind]. rewrite kpa_tau, kpa_sig. cbn [bind fst snd].
    rewrite envelope_flip. match goal with |- context [stress_envelope1 _ _ _ _ ?s ?u] => destruct (envelope_all _ _ _ _ s u _ E0) as [v ->] end. cbn [bind]. eauto.
  - rewrite (proj2 (find_lookup [h; h] x 1%nat (x - h) ltac:(discriminate))).
    2: { split; [simpl; lia|]. split; [lra|]. split; [|lra]. intros m M. destruct m; [lra|lia]. }
    rewrite EC. cbn [nth_error nth]. unfold zsol_checked. rewrite (proj2 (L (x - h))), Nat.eqb_refl. cbn [bind]. rewrite kpa_tau, kpa_sig. cbn [bind fst snd].
    rewrite envelope_flip. match goal with |- context [stress_envelope1 _ _ _ _ ?s ?u] => destruct (envelope_all _ _ _ _ s u _ E0) as [v ->] end. cbn [bind]. eauto.
Qed.
(** Positions and values of the samples. *)
Lemma sample_ok i : (i < List.length d)%nat -> exists x v, nth_error (k_x k) i = Some (Some x) /\ nth_error d i = Some (Some v) /\ 0 <= 10 * x <= h + h /\
  (10 * x <> h -> root_function e k [h; h] phi (10 * x) = Ok (v - 1)).
Proof.
  intros Hi. destruct (create_samples _ _ _ _ _ _ _ _ _ _ _ Hh Hk) as (C1 & C2 & xq & zq & EC & L & Ex & Es & Et & _ & _ & F).
  destruct (seg_two h) as (S0 & S1 & S2).
  unfold envelope_of, stress_envelope in Hd. destruct (stress_envelope1 (e_name e) (e_sf e) (e_om e) (e_rho e) 0 0) as [v0|] eqn:E0; [|discriminate].
  cbn [bind] in Hd. destruct (nth_error d i) as [y|] eqn:Ey; [|apply nth_error_None in Ey; lia].
  destruct (mapM_nth _ _ _ _ _ Hd Ey) as ([s u] & Eq & V). apply combine_nth_error in Eq. destruct Eq as [Qs Qt].
  rewrite Es, nth_error_map in Qs. rewrite Et, nth_error_map in Qt. destruct (nth_error zq i) as [z|] eqn:Ez; [|discriminate].
  injection Qs as <-. injection Qt as <-. destruct (nth_error xq i) as [x|] eqn:Eqx.
  2: { apply nth_error_None in Eqx. assert (i < List.length zq)%nat by (apply nth_error_Some; congruence). apply F2_len in F. lia. }
  destruct (F2_nth _ _ _ _ _ F Eqx) as (z' & Ez' & Q). rewrite Ez in Ez'. injection Ez' as <-.
  match type of V with bind ?m _ = _ => destruct m as [v|] eqn:Ev; [|discriminate] end. cbn [bind] in V. apply Ok_inj in V. subst y.
  exists (x / 10), v. rewrite Ex, nth_error_map, Eqx. split; [reflexivity|]. split; [reflexivity|]. replace (10 * (x / 10)) with x by field.
  split; [destruct Q as [[Q _]|[Q _]]; lra|]. intros Nx. unfold root_function, calculate_sigma_tau. destruct Q as [[Q Qz]|[Q Qz]].
  - rewrite (proj2 (find_lookup [h; h] x 0%nat x ltac:(discriminate))) by (repeat split; [simpl; lia|lra|intros m M; lia|lra]).
    rewrite EC. cbn [nth_error nth]. unfold zsol_checked. rewrite (proj1 (L x)), Nat.eqb_refl. cbn [bind]. rewrite <- Qz, kpa_tau, kpa_sig. cbn [bind fst snd].
    rewrite envelope_flip, Ev. reflexivity.
  - rewrite (proj2 (find_lookup [h; h] x 1%nat (x - h) ltac:(discriminate))).
    2: { split; [simpl; lia|]. split; [lra|]. split; [|lra]. intros m M. destruct m; [lra|lia]. }
    rewrite EC. cbn [nth_error nth]. unfold zsol_checked. rewrite (proj2 (L (x - h))), Nat.eqb_refl. cbn [bind]. rewrite <- Qz, kpa_tau, kpa_sig. cbn [bind fst snd].
    rewrite envelope_flip, Ev. reflexivity.
Qed.
Lemma samples_increase i x y : nth_error (k_x k) i = Some (Some x) -> nth_error (k_x k) (S i) = Some (Some y) -> x < y.
Proof.
  destruct (create_samples _ _ _ _ _ _ _ _ _ _ _ Hh Hk) as (C1 & C2 & xq & zq & EC & L & Ex & Es & Et & Inc & _ & F). rewrite Ex, !nth_error_map.
  intros A B. destruct (nth_error xq i) as [a|] eqn:Ea; [|discriminate]. destruct (nth_error xq (S i)) as [b|] eqn:Eb; [|discriminate].
  injection A as <-. injection B as <-. clear - Inc Ea Eb. revert i Ea Eb. unfold strictly_increasing in Inc.
  induction Inc as [|c l Hs IH Hf]; intros [|i] Ea Eb; try discriminate; [|exact (IH i Ea Eb)].
  injection Ea as <-. change (nth_error l 0 = Some b) in Eb. apply nth_error_In in Eb. rewrite Forall_forall in Hf. specialize (Hf b Eb). lra.
Qed.
End Created.
