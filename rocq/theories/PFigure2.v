(** Proofs about the picture of the deformed slab: coordinates and limits. *)
From Coq Require Import Lia Lra.
Require Import Verif.Py Verif.MTools Verif.MEigen Verif.MFields Verif.MRaster Verif.MAnalysis Verif.MEnvelope Verif.MPlot Verif.MFigure
  Verif.SSlab Verif.SAdm Verif.SStress Verif.SPlot Verif.SFigure Verif.PSetup Verif.PLam Verif.PRaster Verif.PStress Verif.PStress2 Verif.PPlot2 Verif.PFigure.

Lemma mem_skier s : mem_str s ["skier"; "skiers"]%string = true <-> skier_system s.
Proof.
  unfold mem_str, skier_system. cbn [existsb]. rewrite Bool.orb_false_r, Bool.orb_true_iff, !String.eqb_eq. tauto.
Qed.
(** Builtin [max]. *)
Lemma fold_larger l : forall a, exists m, fold_left larger l (Some a) = Some m /\ (m = a \/ In (Some m) l) /\ a <= m /\ forall x, In (Some x) l -> x <= m.
Proof.
  induction l as [|x l IH]; intros a; cbn [fold_left].
  - exists a. repeat split; [left; reflexivity|lra|intros x []].
  - destruct x as [b|]; cbn [larger].
    + unfold Rltb. destruct (Rlt_dec a b) as [L|L].
      * destruct (IH b) as (m & E & I & B & U). exists m. split; [exact E|]. split; [right; destruct I as [->|I]; [left; reflexivity|right; exact I]|]. split; [lra|].
        intros y [Y|Y]; [injection Y as <-; exact B|exact (U y Y)].
      * destruct (IH a) as (m & E & I & B & U). exists m. split; [exact E|]. split; [destruct I as [->|I]; [left; reflexivity|right; right; exact I]|]. split; [exact B|].
        intros y [Y|Y]; [injection Y as <-; lra|exact (U y Y)].
    + destruct (IH a) as (m & E & I & B & U). exists m. split; [exact E|]. split; [destruct I as [->|I]; [left; reflexivity|right; right; exact I]|]. split; [exact B|].
      intros y [Y|Y]; [discriminate|exact (U y Y)].
Qed.
Lemma fold_larger_nan l : fold_left larger l None = None.
Proof. induction l as [|x l IH]; [reflexivity|exact IH]. Qed.
Lemma centred_slab system xsl : xsl <> [] -> exists c, origin system xsl c /\ centred system (map Some xsl) = Ok (map (fun x => Some (x - c)) xsl).
Proof.
  intros N. destruct (mem_str system ["skier"; "skiers"]%string) eqn:E; unfold centred; rewrite E.
  - destruct xsl as [|x l]; [congruence|]. cbn [map py_max bind]. destruct (fold_larger (map Some l) x) as (m & Em & I & B & U). rewrite Em. exists (m / 2). split.
    + split; [|intros H; exfalso; apply H, mem_skier; exact E]. intros _. replace (2 * (m / 2)) with m by lra. split.
      * destruct I as [->|I]; [left; reflexivity|]. right. apply in_map_iff in I. destruct I as (y & Y & I). injection Y as <-. exact I.
      * intros y [<-|Y]; [exact B|]. apply U. apply in_map. exact Y.
    + f_equal. rewrite map_map. reflexivity.
  - exists 0. split.
    + split; [intros H; apply mem_skier in H; congruence|reflexivity].
    + f_equal. apply map_ext. intros a. f_equal. lra.
Qed.
(** The weak layer is centred with its own largest number. *)
Lemma centred_weak_skier system y l : skier_system system -> exists m, In (Some m) (Some y :: l) /\ (forall x, In (Some x) (Some y :: l) -> x <= m) /\
  centred system (Some y :: l) = Ok (map (option_map (fun x => x - m / 2)) (Some y :: l)).
Proof.
  intros H. apply mem_skier in H. unfold centred. rewrite H. cbn [py_max bind].
  destruct (fold_larger l y) as (m & Em & I & B & U). rewrite Em. exists m. split; [destruct I as [->|I]; [left|right]; auto|]. split.
  - intros x [X|X]; [injection X as <-; exact B|exact (U x X)].
  - reflexivity.
Qed.
Lemma centred_weak_nan system l : skier_system system -> centred system (None :: l) = Ok (map (fun _ => None) (None :: l)).
Proof.
  intros H. apply mem_skier in H. unfold centred. rewrite H. cbn [py_max bind]. rewrite fold_larger_nan. f_equal. apply map_ext. intros [a|]; reflexivity.
Qed.
Lemma weak_points_in xsl xwl x : weak_points xsl xwl -> In (Some x) xwl -> In x xsl.
Proof.
  induction 1 as [|a b la lb H F IH]; intros I; [destruct I|]. destruct I as [->|I]; [left; destruct H as [H|H]; [discriminate|congruence]|right; auto].
Qed.
Lemma origin_unique system xsl c c' : origin system xsl c -> origin system xsl c' -> c = c'.
Proof.
  intros [A B] [A' B']. destruct (mem_str system ["skier"; "skiers"]%string) eqn:E.
  - apply mem_skier in E. destruct (A E) as [I U], (A' E) as [I' U']. apply U in I'. apply U' in I. lra.
  - assert (N : ~ skier_system system) by (intros H; apply mem_skier in H; congruence). rewrite (B N), (B' N). reflexivity.
Qed.
Lemma centred_weak system xsl xwl c : weak_points xsl xwl -> origin system xsl c ->
  (~ skier_system system \/ (hd None xwl <> None /\ In (Some (2 * c)) xwl)) ->
  centred system xwl = Ok (map (option_map (fun x => x - c)) xwl).
Proof.
  intros W O [N|[H I]].
  - unfold centred. destruct (mem_str system ["skier"; "skiers"]%string) eqn:E; [exfalso; apply N, mem_skier; exact E|]. f_equal.
    rewrite (proj2 O N). rewrite <- (map_id xwl) at 1. apply map_ext. intros [a|]; cbn [option_map]; [f_equal; lra|reflexivity].
  - destruct (mem_str system ["skier"; "skiers"]%string) eqn:E.
    + apply mem_skier in E. destruct xwl as [|[y|] l]; [destruct I| |simpl in H; congruence].
      destruct (centred_weak_skier system y l E) as (m & Im & U & ->). f_equal.
      assert (m / 2 = c) as ->; [|reflexivity]. apply U in I. apply (weak_points_in xsl) in Im; [|exact W].
      destruct O as [O _]. destruct (O E) as [_ O2]. apply O2 in Im. lra.
    + unfold centred. rewrite E. assert (N : ~ skier_system system) by (intros X; apply mem_skier in X; congruence). f_equal.
      rewrite (proj2 O N). rewrite <- (map_id xwl) at 1. apply map_ext. intros [a|]; cbn [option_map]; [f_equal; lra|reflexivity].
Qed.

(** * The figure in closed form *)
Definition zs_ (o : obj) (dz : R) : list R := map m_z (get_zmesh o dz).
Definition U_ (o : obj) (dz : R) (z : list vec6) : list (list R) :=
  map (fun z0 => map (fun q => 1 / 10 * (z_u q + z0 * z_psi q)) z) (zs_ o dz).
Definition W_ (o : obj) (dz : R) (z : list vec6) : list (list R) := map (fun _ => map (fun q => 1 / 10 * z_w q) z) (zs_ o dz).
Definition X_ (c : R) (xsl : list R) : list R := map (fun x => 1 / 10 * (x - c)) xsl.
Definition Z_ (o : obj) (dz : R) : list R := map (fun z0 => 1 / 10 * (z0 + hh (o_par o) / 2)) (zs_ o dz).
Definition DX_ o dz z c xsl scale := map (map2 (fun x u => x + scale * u) (X_ c xsl)) (U_ o dz z).
Definition DZ_ o dz z scale := map2 (fun d row => map (fun w => d + scale * w) row) (Z_ o dz) (W_ o dz z).
Definition focus_ z c xsl := nth (argmax (map (fun q => 1 / 10 * z_w q) z)) (X_ c xsl) 0.
Definition hi_ o dz z c xsl scale pad := top_of (X_ c xsl ++ List.concat (DX_ o dz z c xsl scale)) + pad.
Definition lo_ o dz z c xsl scale pad := bottom_of (X_ c xsl ++ List.concat (DX_ o dz z c xsl scale)) - pad.
Definition zmax_ o dz z scale pad := top_of (List.concat (DZ_ o dz z scale)) + pad.
Definition closed o xsl z dz scale window pad levels c (xw : list (option R)) slab weak clim : figure :=
  let XW := map (option_map (Rmult (1 / 10))) xw in
  let shift := fun row => map2 (fun x u => option_map (fun x => x + scale * u) x) XW row in
  mkFigure (DX_ o dz z c xsl scale) (DZ_ o dz z scale) (X_ c xsl) (Z_ o dz)
    [shift (last (U_ o dz z) []); shift (map (fun _ => 0) XW)]
    [map (fun w => 1 / 10 * (last (zs_ o dz) 0 + hh (o_par o) / 2) + scale * w) (last (W_ o dz z) []); map (fun _ => zmax_ o dz z scale pad + scale * 0) XW]
    (match window with Some v => Rmax (lo_ o dz z c xsl scale pad) (focus_ z c xsl - v / 2) | None => lo_ o dz z c xsl scale pad end,
     match window with Some v => Rmin (hi_ o dz z c xsl scale pad) (focus_ z c xsl + v / 2) | None => hi_ o dz z c xsl scale pad end)
    (bottom_of (Z_ o dz) - pad, zmax_ o dz z scale pad) (zmax_ o dz z scale pad) slab weak (linspace (- clim) clim (S levels) true).
Lemma deformed_eq o xsl xwl z phi dz scale window pad levels field normalize : laminated o -> 0 < dz -> z <> [] ->
  List.length xsl = List.length z -> List.length xwl = List.length z ->
  exists c, origin (o_system o) xsl c /\
  deformed o xsl xwl z phi dz scale window pad levels field normalize =
  (xw <- centred (o_system o) xwl ;; fl <- figure_field o phi dz field normalize xw z (U_ o dz z) (W_ o dz z) ;;
   clim <- colour_limit (map Some (List.concat (fst fl))) (snd fl ++ snd fl) ;;
   Ok (closed o xsl z dz scale window pad levels c xw (fst fl) (snd fl) clim)).
Proof.
  intros La Hd Nz L1 L2. destruct (mesh_head o dz La Hd) as (M & _). 
  destruct (centred_slab (o_system o) xsl) as (c & Oc & Ec). { destruct xsl; [destruct z; [congruence|discriminate]|discriminate]. }
  exists c. split; [exact Oc|]. unfold deformed. rewrite L1, L2, Nat.eqb_refl. cbn [negb orb].
  assert (EU : mapM (fun z0 => mapM (u_unit z0 "cm") z) (map m_z (get_zmesh o dz)) = Ok (U_ o dz z)).
  { apply mapM_map. intros z0. apply mapM_map. intros q. reflexivity. }
  assert (EW : mapM (fun _ => mapM (w_unit "cm") z) (map m_z (get_zmesh o dz)) = Ok (W_ o dz z)).
  { apply mapM_map. intros z0. apply mapM_map. intros q. reflexivity. }
  destruct (map m_z (get_zmesh o dz)) as [|m ms] eqn:Em; [congruence|]. destruct z as [|q z'] eqn:Ez; [congruence|]. rewrite <- Ez in *. cbn [orb negb].
  rewrite EU, EW. cbn [bind]. rewrite Ec. cbn [bind].
  destruct (centred (o_system o) xwl) as [xw|]; cbn [bind]; [|reflexivity].
  destruct (figure_field o phi dz field normalize xw z (U_ o dz z) (W_ o dz z)) as [[slab weak]|]; cbn [bind fst snd]; [|reflexivity].
  destruct (colour_limit (map Some (List.concat slab)) (weak ++ weak)) as [clim|]; cbn [bind]; [|reflexivity].
  f_equal. unfold closed, hi_, lo_, focus_, zmax_, DX_, DZ_, X_, Z_, zs_. rewrite Em. rewrite map_map.
  assert (HW : hd [] (W_ o dz z) = map (fun q => 1 / 10 * z_w q) z). { unfold W_, zs_. rewrite Em. reflexivity. }
  rewrite HW. reflexivity.
Qed.

(** * Entries of the grids *)
Lemma nth_error_map2 {A B C} (f : A -> B -> C) la : forall lb i a b, nth_error la i = Some a -> nth_error lb i = Some b -> nth_error (map2 f la lb) i = Some (f a b).
Proof.
  induction la as [|x la IH]; intros [|y lb] [|i] a b E1 E2; cbn [nth_error map2] in *; try discriminate.
  - injection E1 as <-. injection E2 as <-. reflexivity.
  - apply IH; assumption.
Qed.
Lemma map2_length' {A B C} (f : A -> B -> C) la : forall lb, List.length la = List.length lb -> List.length (map2 f la lb) = List.length lb.
Proof. induction la as [|x la IH]; intros [|y lb] E; cbn [map2 List.length] in *; [reflexivity|discriminate|discriminate|]. f_equal. apply IH. lia. Qed.
Lemma nth_error_some {A} (l : list A) i a : nth_error l i = Some a -> (i < List.length l)%nat.
Proof. intros E. apply nth_error_Some. congruence. Qed.
Lemma map2_in {A B C} (f : A -> B -> C) la : forall lb v, In v (map2 f la lb) -> exists i a b, nth_error la i = Some a /\ nth_error lb i = Some b /\ v = f a b.
Proof.
  induction la as [|x la IH]; intros [|y lb] v I; cbn [map2] in I; try (destruct I; fail). destruct I as [<-|I].
  - exists 0%nat, x, y. auto.
  - destruct (IH _ _ I) as (i & a & b & E1 & E2 & E). exists (S i), a, b. auto.
Qed.
Lemma zs_last o dz : laminated o -> 0 < dz -> last (zs_ o dz) 0 = hh (o_par o) / 2 /\ zs_ o dz <> [].
Proof. intros L D. destruct (mesh_head o dz L D) as (A & _ & B & _). split; assumption. Qed.
Section Shown.
Variables (o : obj) (xsl : list R) (xwl : list (option R)) (z : list vec6) (phi dz scale : R) (window : option R) (pad : R)
  (levels : nat) (field : string) (normalize : bool) (f : figure).
Hypotheses (La : laminated o) (Hd : 0 < dz) (Nz : z <> []) (L1 : List.length xsl = List.length z) (L2 : List.length xwl = List.length z).
Hypothesis E : deformed o xsl xwl z phi dz scale window pad levels field normalize = Ok f.

Lemma deformed_inv : exists c xw slab weak clim, origin (o_system o) xsl c /\ centred (o_system o) xwl = Ok xw /\
  figure_field o phi dz field normalize xw z (U_ o dz z) (W_ o dz z) = Ok (slab, weak) /\
  colour_limit (map Some (List.concat slab)) (weak ++ weak) = Ok clim /\ f = closed o xsl z dz scale window pad levels c xw slab weak clim.
Proof.
  destruct (deformed_eq o xsl xwl z phi dz scale window pad levels field normalize La Hd Nz L1 L2) as (c & O & Eq). rewrite Eq in E. clear Eq.
  destruct (centred (o_system o) xwl) as [xw|]; cbn [bind] in E; [|discriminate].
  destruct (figure_field _ _ _ _ _ _ _ _ _) as [[slab weak]|] eqn:Ef; cbn [bind fst snd] in E; [|discriminate].
  destruct (colour_limit _ _) as [clim|] eqn:Ec; cbn [bind] in E; [|discriminate]. apply Ok_inj in E.
  exists c, xw, slab, weak, clim. auto 10.
Qed.
Lemma depths : hd 1 (Z_ o dz) = 0 /\ last (Z_ o dz) 0 = hh (o_par o) / 10 /\ ordered (Z_ o dz).
Proof.
  destruct (mesh_head o dz La Hd) as (A & B & C & D). unfold Z_, zs_. set (l := map m_z (get_zmesh o dz)) in *. clearbody l.
  split; [destruct l; [congruence|]; cbn [hd map] in *; rewrite B; field|]. split.
  - rewrite (last_map (fun z0 => 1 / 10 * (z0 + hh (o_par o) / 2)) l 0 0) by exact A. rewrite C. field.
  - intros i j Hij Hj. rewrite map_length in Hj. assert (G : forall k, (k < List.length l)%nat -> nth k (map (fun z0 => 1 / 10 * (z0 + hh (o_par o) / 2)) l) 0 = 1 / 10 * (nth k l 0 + hh (o_par o) / 2)).
    { intros k K. rewrite nth_indep with (d' := 1 / 10 * (0 + hh (o_par o) / 2)) by (rewrite map_length; exact K).
      apply (map_nth (fun z0 => 1 / 10 * (z0 + hh (o_par o) / 2))). }
    rewrite !G by lia. specialize (D i j Hij Hj). lra.
Qed.
Lemma slab_shown : exists c, origin (o_system o) xsl c /\
  (hd 1 (g_z0 f) = 0 /\ last (g_z0 f) 0 = hh (o_par o) / 10 /\ ordered (g_z0 f)) /\
  rectangular (List.length (g_z0 f)) (List.length z) (g_x f) /\ rectangular (List.length (g_z0 f)) (List.length z) (g_z f) /\
  forall j x q, nth_error xsl j = Some x -> nth_error z j = Some q -> nth_error (g_x0 f) j = Some ((x - c) / 10) /\
    forall i d, nth_error (g_z0 f) i = Some d ->
      cell (g_x f) (i, j) = Some (shown_x (o_par o) c x scale d q) /\ cell (g_z f) (i, j) = Some (shown_z scale d q).
Proof.
  destruct deformed_inv as (c & xw & slab & weak & clim & O & _ & _ & _ & ->). exists c. split; [exact O|].
  cbn [closed g_x g_z g_x0 g_z0]. split; [exact depths|]. split; [|split].
  - split; [unfold DX_, U_, Z_; rewrite !map_length; reflexivity|]. intros r I. unfold DX_ in I. apply in_map_iff in I. destruct I as (u & <- & I).
    unfold U_ in I. apply in_map_iff in I. destruct I as (z0 & <- & _). rewrite map2_length'; unfold X_; rewrite !map_length; [reflexivity|exact L1].
  - split; [unfold DZ_, W_, Z_; rewrite map2_length'; rewrite !map_length; reflexivity|]. intros r I. unfold DZ_ in I. apply map2_in in I.
    destruct I as (i & d & w & E1 & E2 & ->). rewrite map_length. unfold W_ in E2. rewrite nth_error_map in E2. destruct (nth_error (zs_ o dz) i); [|discriminate].
    cbn [option_map] in E2. injection E2 as <-. apply map_length.
  - intros j x q Ex Eq. assert (EX : nth_error (X_ c xsl) j = Some ((x - c) / 10)).
    { unfold X_. rewrite nth_error_map, Ex. cbn [option_map]. f_equal. field. }
    split; [exact EX|]. intros i d Ed. unfold Z_ in Ed. rewrite nth_error_map in Ed. destruct (nth_error (zs_ o dz) i) as [z0|] eqn:E0; [|discriminate].
    cbn [option_map] in Ed. injection Ed as <-. unfold cell. cbn [fst snd]. split.
    + unfold DX_, U_. rewrite !nth_error_map, E0. cbn [option_map].
      rewrite (nth_error_map2 _ _ _ _ ((x - c) / 10) (1 / 10 * (z_u q + z0 * z_psi q))); [|exact EX|rewrite nth_error_map, Eq; reflexivity].
      unfold shown_x. f_equal. field.
    + unfold DZ_. rewrite (nth_error_map2 _ _ _ _ (1 / 10 * (z0 + hh (o_par o) / 2)) (map (fun q => 1 / 10 * z_w q) z)).
      * rewrite !nth_error_map, Eq. cbn [option_map]. unfold shown_z. f_equal. field.
      * unfold Z_. rewrite nth_error_map, E0. reflexivity.
      * unfold W_. rewrite nth_error_map, E0. reflexivity.
Qed.
Lemma last_U : last (U_ o dz z) [] = map (fun q => 1 / 10 * (z_u q + hh (o_par o) / 2 * z_psi q)) z.
Proof. destruct (zs_last o dz La Hd) as [A B]. unfold U_. rewrite (last_map _ _ 0 []) by exact B. rewrite A. reflexivity. Qed.
Lemma last_W : last (W_ o dz z) [] = map (fun q => 1 / 10 * z_w q) z.
Proof. destruct (zs_last o dz La Hd) as [A B]. unfold W_. rewrite (last_map _ _ 0 []) by exact B. reflexivity. Qed.
Lemma weak_shown c xw : origin (o_system o) xsl c -> centred (o_system o) xwl = Ok xw ->
  snd (g_zlim f) = g_base f /\
  forall j y q, nth_error xw j = Some y -> nth_error z j = Some q ->
    cell (g_weak_x f) (0, j)%nat = Some (option_map (fun x => shown_x (o_par o) 0 x scale (hh (o_par o) / 10) q) y) /\
    cell (g_weak_z f) (0, j)%nat = Some (shown_z scale (hh (o_par o) / 10) q) /\
    cell (g_weak_x f) (1, j)%nat = Some (option_map (fun x => x / 10) y) /\ cell (g_weak_z f) (1, j)%nat = Some (g_base f).
Proof.
  intros O Ew. destruct deformed_inv as (c' & xw' & slab & weak & clim & O' & Ew' & _ & _ & ->). rewrite Ew in Ew'. apply Ok_inj in Ew'. subst xw'.
  cbn [closed g_zlim g_base g_weak_x g_weak_z snd]. split; [reflexivity|]. intros j y q Ey Eq. unfold cell. cbn [fst snd nth_error].
  destruct (zs_last o dz La Hd) as [ZL _]. repeat split.
  - rewrite last_U. rewrite (nth_error_map2 _ _ _ _ (option_map (Rmult (1 / 10)) y) (1 / 10 * (z_u q + hh (o_par o) / 2 * z_psi q))).
    + f_equal. destruct y as [x|]; [|reflexivity]. cbn [option_map]. unfold shown_x. f_equal. field.
    + rewrite nth_error_map, Ey. reflexivity.
    + rewrite nth_error_map, Eq. reflexivity.
  - rewrite last_W, ZL. rewrite !nth_error_map, Eq. cbn [option_map]. unfold shown_z. f_equal. field.
  - rewrite (nth_error_map2 _ _ _ _ (option_map (Rmult (1 / 10)) y) 0).
    + f_equal. destruct y as [x|]; [|reflexivity]. cbn [option_map]. f_equal. field.
    + rewrite nth_error_map, Ey. reflexivity.
    + rewrite !nth_error_map, Ey. reflexivity.
  - rewrite !nth_error_map, Ey. cbn [option_map]. f_equal. ring.
Qed.
(** Bounds of arrays. *)
Lemma top_of_in l x : In x l -> x <= top_of l.
Proof. destruct l as [|a l]; intros I; [destruct I|]. unfold top_of. destruct (fold_max l a) as (_ & A & B). destruct I as [<-|I]; [exact A|exact (B x I)]. Qed.
Lemma bottom_of_in l x : In x l -> bottom_of l <= x.
Proof. destruct l as [|a l]; intros I; [destruct I|]. unfold bottom_of. destruct (fold_min l a) as (_ & A & B). destruct I as [<-|I]; [exact A|exact (B x I)]. Qed.
Lemma argmax_from_spec l : forall pre best top, nth_error pre best = Some top -> (forall x, In x pre -> x <= top) ->
  exists m, nth_error (pre ++ l) (argmax_from (List.length pre) best top l) = Some m /\ forall x, In x (pre ++ l) -> x <= m.
Proof.
  induction l as [|x l IH]; intros pre best top T B; cbn [argmax_from].
  - rewrite app_nil_r. exists top. auto.
  - replace (pre ++ x :: l) with ((pre ++ [x]) ++ l) by (rewrite <- app_assoc; reflexivity).
    replace (S (List.length pre)) with (List.length (pre ++ [x])) by (rewrite app_length; simpl; lia).
    unfold Rltb. destruct (Rlt_dec top x) as [H|H]; apply IH.
    + rewrite nth_error_app2, Nat.sub_diag by lia. reflexivity.
    + intros y I. apply in_app_or in I. destruct I as [I|[<-|[]]]; [apply B in I|]; lra.
    + rewrite nth_error_app1; [exact T|apply nth_error_some in T; exact T].
    + intros y I. apply in_app_or in I. destruct I as [I|[<-|[]]]; [apply B in I|]; lra.
Qed.
Lemma argmax_spec l : l <> [] -> exists m, nth_error l (argmax l) = Some m /\ forall x, In x l -> x <= m.
Proof.
  destruct l as [|a l]; [congruence|]. intros _. unfold argmax. apply (argmax_from_spec l [a] 0 a); [reflexivity|]. intros x [<-|[]]. lra.
Qed.
Lemma limits_shown : 0 <= pad ->
  (exists j q x0, nth_error z j = Some q /\ (forall q', In q' z -> z_w q' <= z_w q) /\ nth_error (g_x0 f) j = Some x0 /\
     ((forall v, window = Some v -> 0 <= v) -> fst (g_xlim f) <= x0 <= snd (g_xlim f)) /\
     forall v, window = Some v -> x0 - v / 2 <= fst (g_xlim f) /\ snd (g_xlim f) <= x0 + v / 2) /\
  (window = None -> forall r x, In r (g_x0 f :: g_x f) -> In x r -> fst (g_xlim f) + pad <= x <= snd (g_xlim f) - pad) /\
  (forall r d, In r (g_z f) -> In d r -> d <= snd (g_zlim f) - pad) /\
  (forall d, In d (g_z0 f) -> fst (g_zlim f) + pad <= d).
Proof.
  intros Hp. destruct deformed_inv as (c & xw & slab & weak & clim & O & _ & _ & _ & ->). cbn [closed g_x0 g_x g_z g_z0 g_xlim g_zlim fst snd].
  assert (XI : forall x, In x (X_ c xsl) -> lo_ o dz z c xsl scale pad + pad <= x <= hi_ o dz z c xsl scale pad - pad).
  { intros x I. unfold lo_, hi_. pose proof (top_of_in (X_ c xsl ++ List.concat (DX_ o dz z c xsl scale)) x) as A.
    pose proof (bottom_of_in (X_ c xsl ++ List.concat (DX_ o dz z c xsl scale)) x) as B.
    assert (J : In x (X_ c xsl ++ List.concat (DX_ o dz z c xsl scale))) by (apply in_or_app; left; exact I). specialize (A J). specialize (B J). lra. }
  split; [|split; [|split]].
  - destruct (argmax_spec (map (fun q => 1 / 10 * z_w q) z)) as (m & Em & Um); [destruct z; [congruence|discriminate]|].
    set (j := argmax (map (fun q => 1 / 10 * z_w q) z)) in *. rewrite nth_error_map in Em. destruct (nth_error z j) as [q|] eqn:Eq; [|discriminate].
    cbn [option_map] in Em. injection Em as <-.
    assert (J : (j < List.length xsl)%nat) by (rewrite L1; exact (nth_error_some _ _ _ Eq)).
    destruct (nth_error (X_ c xsl) j) as [x0|] eqn:Ex; [|apply nth_error_None in Ex; unfold X_ in Ex; rewrite map_length in Ex; lia].
    exists j, q, x0. split; [exact Eq|]. split.
    { intros q' I. specialize (Um (1 / 10 * z_w q')). assert (1 / 10 * z_w q' <= 1 / 10 * z_w q); [|lra]. apply Um. apply (in_map (fun q => 1 / 10 * z_w q)). exact I. }
    split; [exact Ex|]. assert (F0 : focus_ z c xsl = x0). { unfold focus_. fold j. exact (nth_error_nth _ _ _ Ex). }
    rewrite F0. pose proof (XI x0 (nth_error_In _ _ Ex)) as B. split.
    + destruct window as [v|]; intros V; [|lra]. specialize (V v eq_refl). split; [apply Rmax_lub; lra|apply Rmin_glb; lra].
    + intros v ->. split; [apply Rmax_r|apply Rmin_r].
  - intros ->. intros r x [<-|I] J; [apply XI; exact J|]. unfold lo_, hi_.
    assert (K : In x (X_ c xsl ++ List.concat (DX_ o dz z c xsl scale))). { apply in_or_app. right. apply in_concat. exists r. auto. }
    pose proof (top_of_in _ _ K). pose proof (bottom_of_in _ _ K). lra.
  - intros r d I J. unfold zmax_. assert (K : In d (List.concat (DZ_ o dz z scale))) by (apply in_concat; exists r; auto). pose proof (top_of_in _ _ K). lra.
  - intros d I. pose proof (bottom_of_in _ _ I). lra.
Qed.
Lemma top_edge : fst (g_zlim f) = - pad.
Proof.
  destruct deformed_inv as (c & xw & slab & weak & clim & O & _ & _ & _ & ->). cbn [closed g_zlim fst].
  destruct depths as (A & B & C). destruct (Z_ o dz) as [|d l] eqn:EZ; [simpl in A; lra|]. cbn [hd] in A. subst d.
  unfold bottom_of. destruct (fold_min l 0) as (I & J & _). destruct I as [->|I]; [lra|].
  apply (In_nth _ _ 0) in I. destruct I as (k & K & Ek). pose proof (C 0%nat (S k) ltac:(lia) ltac:(simpl; lia)) as M. cbn [nth] in M. rewrite Ek in M. lra.
Qed.
End Shown.
