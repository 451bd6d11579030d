(** Property theorems C84-C87: data of the figures. *)
From Coq Require Import Lia Lra ZArith.
Require Import Verif.Py Verif.MTools Verif.MEigen Verif.MFields Verif.MRaster Verif.MAnalysis Verif.MEnvelope Verif.MPlot Verif.MFigure
  Verif.SSlab Verif.SAdm Verif.SStress Verif.SPlot Verif.SFigure Verif.PSetup Verif.PLam Verif.PRaster Verif.PStress Verif.PStress2 Verif.PPlot2
  Verif.PFigure Verif.PFigure2 Verif.PFigure3 Verif.PFigure4 Verif.PRoots Verif.PropStress.

(** C84: the slab is drawn from the surface to its bottom, each point at its place moved by the scaled
    displacement of that point. *)
Theorem C84_slab o xsl xwl z phi dz scale window pad levels field normalize f :
  laminated o -> 0 < dz -> z <> [] -> List.length xsl = List.length z -> List.length xwl = List.length z ->
  deformed o xsl xwl z phi dz scale window pad levels field normalize = Ok f ->
  exists c, origin (o_system o) xsl c /\
  (hd 1 (g_z0 f) = 0 /\ last (g_z0 f) 0 = hh (o_par o) / 10 /\ ordered (g_z0 f)) /\
  rectangular (List.length (g_z0 f)) (List.length z) (g_x f) /\ rectangular (List.length (g_z0 f)) (List.length z) (g_z f) /\
  forall j x q, nth_error xsl j = Some x -> nth_error z j = Some q -> nth_error (g_x0 f) j = Some ((x - c) / 10) /\
    forall i d, nth_error (g_z0 f) i = Some d ->
      cell (g_x f) (i, j) = Some (shown_x (o_par o) c x scale d q) /\ cell (g_z f) (i, j) = Some (shown_z scale d q).
Proof. exact (slab_shown o xsl xwl z phi dz scale window pad levels field normalize f). Qed.
Print Assumptions C84_slab.

(** The weak layer is drawn from the deformed bottom of the slab to the base line. *)
Lemma bottom_row o xsl xwl z phi dz scale window pad levels field normalize f :
  laminated o -> 0 < dz -> z <> [] -> List.length xsl = List.length z -> List.length xwl = List.length z ->
  deformed o xsl xwl z phi dz scale window pad levels field normalize = Ok f ->
  exists c, origin (o_system o) xsl c /\ forall j x q, nth_error xsl j = Some x -> nth_error z j = Some q ->
    nth_error (g_x0 f) j = Some ((x - c) / 10) /\
    cell (g_x f) (List.length (g_z0 f) - 1, j)%nat = Some (shown_x (o_par o) c x scale (hh (o_par o) / 10) q) /\
    cell (g_z f) (List.length (g_z0 f) - 1, j)%nat = Some (shown_z scale (hh (o_par o) / 10) q).
Proof.
  intros La Hd Nz L1 L2 E. destruct (C84_slab _ _ _ _ _ _ _ _ _ _ _ _ _ La Hd Nz L1 L2 E) as (c & O & (A & B & _) & _ & _ & G).
  exists c. split; [exact O|]. intros j x q Ex Eq. destruct (G j x q Ex Eq) as [G1 G2]. split; [exact G1|]. apply G2.
  rewrite <- B. rewrite last_nthR. apply nth_error_nth'. destruct (g_z0 f); [simpl in A; lra|simpl; lia].
Qed.
Theorem C84_weak_layer o xsl xwl z phi dz scale window pad levels field normalize f :
  laminated o -> 0 < dz -> z <> [] -> List.length xsl = List.length z -> weak_points xsl xwl ->
  (~ skier_system (o_system o) \/ hd None xwl <> None /\ exists m, In (Some m) xwl /\ forall x, In x xsl -> x <= m) ->
  deformed o xsl xwl z phi dz scale window pad levels field normalize = Ok f ->
  snd (g_zlim f) = g_base f /\
  forall j y q, nth_error xwl j = Some y -> nth_error z j = Some q ->
    (y = None -> cell (g_weak_x f) (0, j)%nat = Some None /\ cell (g_weak_x f) (1, j)%nat = Some None) /\
    (forall x, y = Some x ->
      cell (g_weak_x f) (0, j)%nat = option_map Some (cell (g_x f) (List.length (g_z0 f) - 1, j)%nat) /\
      cell (g_weak_x f) (1, j)%nat = option_map Some (nth_error (g_x0 f) j)) /\
    cell (g_weak_z f) (0, j)%nat = cell (g_z f) (List.length (g_z0 f) - 1, j)%nat /\
    cell (g_weak_z f) (1, j)%nat = Some (g_base f) /\
    (0 < pad -> exists d, cell (g_weak_z f) (0, j)%nat = Some d /\ d < g_base f).
Proof.
  intros La Hd Nz L1 W Cond E. assert (L2 : List.length xwl = List.length z) by (rewrite <- L1; symmetry; clear -W; induction W; simpl; congruence).
  destruct (bottom_row _ _ _ _ _ _ _ _ _ _ _ _ _ La Hd Nz L1 L2 E) as (c & O & G).
  assert (Ew : centred (o_system o) xwl = Ok (map (option_map (fun x => x - c)) xwl)).
  { apply (centred_weak _ xsl); [exact W|exact O|]. destruct Cond as [N|(H & m & I & U)]; [left; exact N|].
    destruct (mem_str (o_system o) ["skier"; "skiers"]%string) eqn:Es; [|left; intros X; apply mem_skier in X; congruence].
    right. split; [exact H|]. apply mem_skier in Es. destruct (proj1 O Es) as [I2 U2]. assert (2 * c = m) as ->; [|exact I].
    apply U in I2. apply (weak_points_in xsl) in I; [|exact W]. apply U2 in I. lra. }
  destruct (weak_shown _ _ _ _ _ _ _ _ _ _ _ _ _ La Hd Nz L1 L2 E c _ O Ew) as (B & V). split; [exact B|]. intros j y q Ey Eq.
  destruct (nth_error xsl j) as [x0|] eqn:Ex; [|apply nth_error_None in Ex; apply nth_error_some in Eq; lia].
  destruct (G j x0 q Ex Eq) as (G1 & G2 & G3).
  destruct (V j (option_map (fun x => x - c) y) q ltac:(rewrite nth_error_map, Ey; reflexivity) Eq) as (V1 & V2 & V3 & V4).
  split; [intros ->; split; assumption|]. split; [|split; [congruence|split; [exact V4|]]].
  - intros x ->. assert (x = x0) as ->.
    { clear -W Ey Ex. revert j Ey Ex. induction W as [|a b la lb H W IH]; intros [|j] Ey Ex; cbn [nth_error] in *; try discriminate.
      - injection Ex as ->. injection Ey as ->. destruct H as [H|H]; [discriminate|congruence].
      - eapply IH; eassumption. }
    rewrite V1, V3, G1, G2. cbn [option_map]. split; do 2 f_equal. unfold shown_x. field.
  - intros P. exists (shown_z scale (hh (o_par o) / 10) q). split; [exact V2|]. rewrite <- B.
    destruct (limits_shown _ _ _ _ _ _ _ _ _ _ _ _ _ La Hd Nz L1 L2 E ltac:(lra)) as (_ & _ & M & _).
    unfold cell in G3. cbn [fst snd] in G3. destruct (nth_error (g_z f) (List.length (g_z0 f) - 1)) as [r|] eqn:Er; [|discriminate].
    specialize (M r _ (nth_error_In _ _ Er) (nth_error_In _ _ G3)). lra.
Qed.
Print Assumptions C84_weak_layer.

(** The limits of the picture enclose it, and a window is centred where the slab sinks most; the upper limit
    only holds without uplift by more than the padding. *)
Theorem C84_limits_partial o xsl xwl z phi dz scale window pad levels field normalize f :
  laminated o -> 0 < dz -> z <> [] -> List.length xsl = List.length z -> List.length xwl = List.length z -> 0 <= pad ->
  deformed o xsl xwl z phi dz scale window pad levels field normalize = Ok f ->
  (exists j q x0, nth_error z j = Some q /\ (forall q', In q' z -> z_w q' <= z_w q) /\ nth_error (g_x0 f) j = Some x0 /\
     ((forall v, window = Some v -> 0 <= v) -> fst (g_xlim f) <= x0 <= snd (g_xlim f)) /\
     forall v, window = Some v -> x0 - v / 2 <= fst (g_xlim f) /\ snd (g_xlim f) <= x0 + v / 2) /\
  (window = None -> forall r x, In r (g_x0 f :: g_x f) -> In x r -> fst (g_xlim f) + pad <= x <= snd (g_xlim f) - pad) /\
  (forall r d, In r (g_z f) -> In d r -> d <= snd (g_zlim f) - pad) /\
  ((forall q, In q z -> - pad <= scale * (z_w q / 10)) -> forall r d, In r (g_z0 f :: g_z f) -> In d r -> fst (g_zlim f) <= d).
Proof.
  intros La Hd Nz L1 L2 P E. destruct (limits_shown _ _ _ _ _ _ _ _ _ _ _ _ _ La Hd Nz L1 L2 E P) as (A & B & C & D).
  split; [exact A|]. split; [exact B|]. split; [exact C|]. intros Up r d [<-|I] J; [specialize (D d J); lra|].
  destruct (C84_slab _ _ _ _ _ _ _ _ _ _ _ _ _ La Hd Nz L1 L2 E) as (c & O & (Z0 & _ & Zo) & _ & (R1 & R2) & G).
  rewrite (top_edge _ _ _ _ _ _ _ _ _ _ _ _ _ La Hd Nz L1 L2 E).
  apply In_nth_error in I. destruct I as (i & Ei). apply In_nth_error in J. destruct J as (j & Ej).
  assert (Hi : (i < List.length (g_z0 f))%nat) by (rewrite <- R1; exact (nth_error_some _ _ _ Ei)).
  assert (Hj : (j < List.length z)%nat) by (rewrite <- (R2 r (nth_error_In _ _ Ei)); exact (nth_error_some _ _ _ Ej)).
  destruct (nth_error (g_z0 f) i) as [d0|] eqn:Ed; [|apply nth_error_None in Ed; lia].
  destruct (nth_error z j) as [q|] eqn:Eq; [|apply nth_error_None in Eq; lia].
  destruct (nth_error xsl j) as [x|] eqn:Ex; [|apply nth_error_None in Ex; lia].
  destruct (G j x q Ex Eq) as [_ G2]. destruct (G2 i d0 Ed) as [_ G3]. unfold cell in G3. cbn [fst snd] in G3. rewrite Ei, Ej in G3. injection G3 as ->.
  specialize (Up q (nth_error_In _ _ Eq)). unfold shown_z.
  assert (0 <= d0); [|lra]. specialize (Zo 0%nat i ltac:(lia) Hi). rewrite (nth_error_nth _ _ 0 Ed) in Zo.
  destruct (g_z0 f); [simpl in Hi; lia|]. cbn [hd nth] in *. lra.
Qed.
Print Assumptions C84_limits_partial.

(** When the picture exists: deflection field. *)
Lemma deflection_picture o xsl xwl z phi dz scale window pad levels normalize q : laminated o -> 0 < dz -> In q z -> z_w q <> 0 ->
  List.length xsl = List.length z -> List.length xwl = List.length z ->
  exists f, deformed o xsl xwl z phi dz scale window pad levels "w" normalize = Ok f.
Proof.
  intros La Hd I Q L1 L2. assert (Nz : z <> []) by (intros ->; destruct I).
  destruct (deformed_eq o xsl xwl z phi dz scale window pad levels "w" normalize La Hd Nz L1 L2) as (c & _ & ->).
  destruct (centred_defined (o_system o) xwl) as (xw & Ew); [destruct xwl; [destruct z; [congruence|discriminate]|discriminate]|]. rewrite Ew. cbn [bind].
  pose proof (length_centred _ _ _ Ew) as Lw. destruct (figure_field _ _ _ _ _ _ _ _ _) as [[slab weak]|] eqn:Ef; [|discriminate]. cbn [bind fst snd].
  apply In_nth_error in I. destruct I as (j & Eq).
  destruct (field_w o phi dz "w" normalize xw z La Hd slab weak Ef eq_refl j q Eq) as [Fw _].
  unfold figure_field in Ef. cbn [String.eqb Ascii.eqb Bool.eqb] in Ef. apply Ok_inj in Ef. injection Ef as <- <-.
  destruct (colour_ok (map Some (List.concat (map (map (Rmult 10000)) (W_ o dz z)))) (map Some (map (Rmult 10000) (last (W_ o dz z) [])) ++ map Some (map (Rmult 10000) (last (W_ o dz z) []))) (1000 * z_w q)) as (c' & ->).
  - destruct (mesh_head o dz La Hd) as (M & _). unfold W_, zs_. destruct (map m_z (get_zmesh o dz)); [congruence|]. destruct z; [congruence|discriminate].
  - apply nth_error_In in Fw. intros X. apply app_eq_nil in X. destruct X as [X _]. rewrite X in Fw. destruct Fw.
  - intros v V. rewrite !in_app_iff in V. destruct V as [V|[V|V]]; apply in_map_iff in V; destruct V as (a & <- & _); discriminate.
  - rewrite !in_app_iff. right. left. exact (nth_error_In _ _ Fw).
  - nra.
  - eexists. reflexivity.
Qed.
(** Uplift is cut off at the upper limit of the picture. *)
Theorem C84_refuted : forall eig, exists o f r d, Layered eig "skier" (LList ex_slab_layers) true = Ok o /\
  deformed o [0; 100] [Some 0; Some 100] [mkV 0 0 (-1) 0 0 0; mkV 0 0 1 0 0 0] 0 2 100 None 2 300 "w" true = Ok f /\
  In r (g_z f) /\ In d r /\ d < fst (g_zlim f).
Proof.
  intros eig. destruct (C46_example eig) as (o & Eo & La & _).
  destruct (deflection_picture o [0; 100] [Some 0; Some 100] [mkV 0 0 (-1) 0 0 0; mkV 0 0 1 0 0 0] 0 2 100 None 2 300 true (mkV 0 0 (-1) 0 0 0) La
    ltac:(lra) ltac:(left; reflexivity) ltac:(cbn; lra) eq_refl eq_refl) as (f & E).
  destruct (C84_slab o [0; 100] [Some 0; Some 100] [mkV 0 0 (-1) 0 0 0; mkV 0 0 1 0 0 0] 0 2 100 None 2 300%nat "w" true f La ltac:(lra) ltac:(discriminate) eq_refl eq_refl E) as (c & O & (Z0 & _) & _ & _ & G).
  destruct (g_z0 f) as [|d0 ds] eqn:Ez; [simpl in Z0; lra|]. cbn [hd] in Z0. subst d0.
  destruct (G 0%nat 0 (mkV 0 0 (-1) 0 0 0) eq_refl eq_refl) as [_ G2]. destruct (G2 0%nat 0 eq_refl) as [_ G3]. unfold cell in G3. cbn [fst snd] in G3.
  destruct (nth_error (g_z f) 0) as [r|] eqn:Er; [|discriminate]. exists o, f, r, (shown_z 100 0 (mkV 0 0 (-1) 0 0 0)).
  split; [exact Eo|]. split; [exact E|]. split; [exact (nth_error_In _ _ Er)|]. split; [exact (nth_error_In _ _ G3)|].
  rewrite (top_edge o [0; 100] [Some 0; Some 100] [mkV 0 0 (-1) 0 0 0; mkV 0 0 1 0 0 0] 0 2 100 None 2 300%nat "w" true f La ltac:(lra) ltac:(discriminate) eq_refl eq_refl E). unfold shown_z. cbn [z_w]. lra.
Qed.
Print Assumptions C84_refuted.
(** For skiers the weak layer is centred on its own: the drawing of a weak layer whose last supported point
    m lies before the end M of the slab is displaced against the slab by half the difference, ... *)
Theorem C84_shift o xsl y xwl z phi dz scale window pad levels field normalize f M :
  laminated o -> 0 < dz -> z <> [] -> List.length xsl = List.length z -> weak_points xsl (Some y :: xwl) -> skier_system (o_system o) ->
  In M xsl -> (forall x, In x xsl -> x <= M) ->
  deformed o xsl (Some y :: xwl) z phi dz scale window pad levels field normalize = Ok f ->
  exists m, In (Some m) (Some y :: xwl) /\ (forall x, In (Some x) (Some y :: xwl) -> x <= m) /\
  forall j x q, nth_error (Some y :: xwl) j = Some (Some x) -> nth_error z j = Some q ->
    exists a, cell (g_x f) (List.length (g_z0 f) - 1, j)%nat = Some a /\ cell (g_weak_x f) (0, j)%nat = Some (Some (a + (M - m) / 20)).
Proof.
  intros La Hd Nz L1 W Sk IM UM E. assert (L2 : List.length (Some y :: xwl) = List.length z) by (rewrite <- L1; symmetry; clear -W; induction W; simpl; congruence).
  destruct (bottom_row _ _ _ _ _ _ _ _ _ _ _ _ _ La Hd Nz L1 L2 E) as (c & O & G).
  destruct (centred_weak_skier (o_system o) y xwl Sk) as (m & Im & Um & Ew).
  destruct (weak_shown _ _ _ _ _ _ _ _ _ _ _ _ _ La Hd Nz L1 L2 E c _ O Ew) as (_ & V). exists m. split; [exact Im|]. split; [exact Um|]. intros j x q Ey Eq.
  assert (Ex : nth_error xsl j = Some x).
  { clear -W Ey. revert j Ey. induction W as [|a b la lb H W IH]; intros [|j] Ey; cbn [nth_error] in *; try discriminate; [|apply IH; exact Ey].
    injection Ey as ->. destruct H as [H|H]; [discriminate|congruence]. }
  destruct (G j x q Ex Eq) as (_ & G2 & _). eexists. split; [exact G2|].
  destruct (V j (Some (x - m / 2)) q ltac:(rewrite nth_error_map, Ey; reflexivity) Eq) as (V1 & _). rewrite V1. cbn [option_map]. do 2 f_equal.
  destruct (proj1 O Sk) as [I2 U2]. apply U2 in IM. apply UM in I2. unfold shown_x. replace c with (M / 2) by lra. field.
Qed.
Print Assumptions C84_shift.
(** ... and without support at the first point nothing of it is drawn. *)
Theorem C84_lost o xsl xwl z phi dz scale window pad levels field normalize f :
  laminated o -> 0 < dz -> z <> [] -> List.length xsl = List.length z -> List.length (None :: xwl) = List.length z -> skier_system (o_system o) ->
  deformed o xsl (None :: xwl) z phi dz scale window pad levels field normalize = Ok f ->
  forall i r v, (i < 2)%nat -> nth_error (g_weak_x f) i = Some r -> In v r -> v = None.
Proof.
  intros La Hd Nz L1 L2 Sk E i r v Hi Er I. apply In_nth_error in I. destruct I as (j & Ej).
  destruct (C84_slab _ _ _ _ _ _ _ _ _ _ _ _ _ La Hd Nz L1 L2 E) as (c & O & _).
  pose proof (weak_shown _ _ _ _ _ _ _ _ _ _ _ _ _ La Hd Nz L1 L2 E c _ O (centred_weak_nan _ _ Sk)) as (_ & V).
  destruct (deformed_inv _ _ _ _ _ _ _ _ _ _ _ _ _ La Hd Nz L1 L2 E) as (c' & xw & slab & weak & clim & _ & Ew & _ & _ & Ef).
  pose proof (length_centred _ _ _ Ew) as Lw. rewrite L2 in Lw. clear Ew.
  assert (J : (j < List.length z)%nat).
  { assert (Lr : List.length r = List.length z); [|rewrite <- Lr; exact (nth_error_some _ _ _ Ej)].
    rewrite Ef in Er. unfold closed in Er. cbn [g_weak_x] in Er. destruct i as [|[|i]]; [| |lia]; cbn [nth_error] in Er; apply some_inj in Er; rewrite <- Er.
    - rewrite map2_length'; rewrite (last_U o z dz La Hd), !map_length; [reflexivity|exact Lw].
    - rewrite map2_length'; rewrite !map_length; [exact Lw|reflexivity]. }
  destruct (nth_error z j) as [q|] eqn:Eq; [|apply nth_error_None in Eq; lia].
  assert (Ey : nth_error (map (fun _ : option R => @None R) (None :: xwl)) j = Some None).
  { rewrite nth_error_map. destruct (nth_error (None :: xwl) j) eqn:En; [reflexivity|]. apply nth_error_None in En. lia. }
  destruct (V j None q Ey Eq) as (V1 & _ & V3 & _). unfold cell in V1, V3. cbn [fst snd option_map] in V1, V3.
  destruct i as [|[|i]]; [| |lia]; rewrite Er in *; congruence.
Qed.
Print Assumptions C84_lost.
Theorem C84_shift_refuted : forall eig, exists o f a b, Layered eig "skiers" (LList ex_slab_layers) true = Ok o /\
  weak_points [0; 100; 200] [Some 0; Some 100; None] /\
  deformed o [0; 100; 200] [Some 0; Some 100; None] [mkV 0 0 1 0 0 0; mkV 0 0 1 0 0 0; mkV 0 0 2 0 0 0] 0 2 100 None 2 300 "w" true = Ok f /\
  cell (g_x f) (List.length (g_z0 f) - 1, 1)%nat = Some a /\ cell (g_weak_x f) (0, 1)%nat = Some (Some b) /\ b = a + 5.
Proof.
  intros eig. destruct (Layered eig "skiers" (LList ex_slab_layers) true) as [o|] eqn:Eo; [|discriminate].
  pose proof (C46_laminated eig _ _ _ o ex_slab_pos Eo) as La.
  assert (Sk : skier_system (o_system o)) by (apply Ok_inj in Eo; subst o; right; reflexivity).
  set (z := [mkV 0 0 1 0 0 0; mkV 0 0 1 0 0 0; mkV 0 0 2 0 0 0]).
  assert (W : weak_points [0; 100; 200] [Some 0; Some 100; None]) by (unfold weak_points; repeat (apply Forall2_cons; [auto|]); apply Forall2_nil).
  destruct (deflection_picture o [0; 100; 200] [Some 0; Some 100; None] z 0 2 100 None 2 300 true (mkV 0 0 1 0 0 0) La
    ltac:(lra) ltac:(left; reflexivity) ltac:(cbn; lra) eq_refl eq_refl) as (f & E).
  destruct (C84_shift o [0; 100; 200] 0 [Some 100; None] z 0 2 100 None 2 300 "w" true f 200 La ltac:(lra) ltac:(discriminate) eq_refl W Sk
    ltac:(right; right; left; reflexivity) ltac:(intros x [<-|[<-|[<-|[]]]]; lra) E) as (m & Im & Um & V).
  assert (m = 100) as ->.
  { destruct Im as [Im|[Im|[Im|[]]]]; try discriminate; injection Im as <-; [|reflexivity]. specialize (Um 100 ltac:(right; left; reflexivity)). lra. }
  destruct (V 1%nat 100 (mkV 0 0 1 0 0 0) eq_refl eq_refl) as (a & A & B). exists o, f, a, (a + (200 - 100) / 20).
  split; [reflexivity|]. split; [exact W|]. split; [exact E|]. split; [exact A|]. split; [exact B|]. lra.
Qed.
Print Assumptions C84_shift_refuted.
Example C84_example : forall eig, exists o f, Layered eig "skier" (LList ex_slab_layers) true = Ok o /\ laminated o /\
  weak_points [0; 100; 200] [Some 0; None; Some 200] /\ hd None [Some 0; None; Some 200] <> None /\
  (In (Some 200) [Some 0; None; Some 200] /\ forall x, In x [0; 100; 200] -> x <= 200) /\
  deformed o [0; 100; 200] [Some 0; None; Some 200] [mkV 0 0 1 0 0 0; mkV 0 0 2 0 0 0; mkV 0 0 1 0 0 0] 0 2 100 (Some 30) 2 300 "w" true = Ok f.
Proof.
  intros eig. destruct (C46_example eig) as (o & Eo & La & _).
  destruct (deflection_picture o [0; 100; 200] [Some 0; None; Some 200] [mkV 0 0 1 0 0 0; mkV 0 0 2 0 0 0; mkV 0 0 1 0 0 0] 0 2 100 (Some 30) 2 300 true (mkV 0 0 1 0 0 0) La
    ltac:(lra) ltac:(left; reflexivity) ltac:(cbn; lra) eq_refl eq_refl) as (f & E).
  exists o, f. split; [exact Eo|]. split; [exact La|]. split; [unfold weak_points; repeat (apply Forall2_cons; [auto|]); apply Forall2_nil|]. split; [discriminate|]. split; [|exact E].
  split; [right; right; left; reflexivity|]. intros x [<-|[<-|[<-|[]]]]; lra.
Qed.

(** C85: what the colours show: displacements in micrometres on the slab and at its bottom, ... *)
Theorem C85_displacements o xsl xwl z phi dz scale window pad levels field normalize f :
  laminated o -> 0 < dz -> z <> [] -> List.length xsl = List.length z -> List.length xwl = List.length z ->
  deformed o xsl xwl z phi dz scale window pad levels field normalize = Ok f ->
  forall j q, nth_error z j = Some q ->
  (field = "u"%string -> nth_error (g_weak f) j = Some (Some (1000 * (z_u q + hh (o_par o) / 2 * z_psi q))) /\
     forall i d, nth_error (g_z0 f) i = Some d -> cell (g_slab f) (i, j) = Some (1000 * (z_u q + (10 * d - hh (o_par o) / 2) * z_psi q))) /\
  (field = "w"%string -> nth_error (g_weak f) j = Some (Some (1000 * z_w q)) /\
     forall i d, nth_error (g_z0 f) i = Some d -> cell (g_slab f) (i, j) = Some (1000 * z_w q)).
Proof.
  intros La Hd Nz L1 L2 E j q Eq. destruct (deformed_inv _ _ _ _ _ _ _ _ _ _ _ _ _ La Hd Nz L1 L2 E) as (c & xw & slab & weak & clim & _ & Ew & Ef & _ & ->).
  cbn [closed g_weak g_slab g_z0]. split; intros Hf.
  - exact (field_u o phi dz field normalize xw z La Hd slab weak Ef Hf j q Eq).
  - exact (field_w o phi dz field normalize xw z La Hd slab weak Ef Hf j q Eq).
Qed.
Print Assumptions C85_displacements.
(** ... and stresses in kPa over the thickness with those of the weak layer, NaN off the foundation for the
    shear and normal stress. *)
Theorem C85_stresses o xsl xwl z phi dz scale window pad levels field normalize f :
  laminated o -> 0 < dz -> z <> [] -> List.length xsl = List.length z -> List.length xwl = List.length z ->
  (~ skier_system (o_system o) \/ hd None xwl <> None) ->
  deformed o xsl xwl z phi dz scale window pad levels field normalize = Ok f ->
  forall j y q, nth_error xwl j = Some y -> nth_error z j = Some q ->
  (field = "Sxx"%string -> nth_error (g_weak f) j = Some (Some 0) /\
     exists col, nth_error (g_slab f) j = Some col /\ Sxx o phi dz "kPa" q = Ok col) /\
  (field = "Txz"%string -> nth_error (g_weak f) j = Some (option_map (fun _ => 1000 * f_tau (o_par o) q) y) /\
     exists col, nth_error (g_slab f) j = Some col /\ Txz o phi dz "kPa" q = Ok col) /\
  (field = "Szz"%string -> nth_error (g_weak f) j = Some (option_map (fun _ => 1000 * f_sig (o_par o) q) y) /\
     exists col, nth_error (g_slab f) j = Some col /\ Szz o phi dz "kPa" q = Ok col) /\
  (field = "principal"%string -> exists v col, nth_error (g_weak f) j = Some (Some v) /\
     principal_stress_weaklayer o (26 / 10) "kPa" "min" normalize q = Ok v /\
     nth_error (g_slab f) j = Some col /\ principal_stress_slab o phi dz "kPa" "max" normalize q = Ok col).
Proof.
  intros La Hd Nz L1 L2 Sk E j y q Ey Eq. destruct (deformed_inv _ _ _ _ _ _ _ _ _ _ _ _ _ La Hd Nz L1 L2 E) as (c & xw & slab & weak & clim & _ & Ew & Ef & _ & ->).
  cbn [closed g_weak g_slab]. pose proof (length_centred _ _ _ Ew) as Lw. rewrite L2 in Lw.
  assert (M : exists g, xw = map (option_map g) xwl).
  { destruct (mem_str (o_system o) ["skier"; "skiers"]%string) eqn:Es.
    - apply mem_skier in Es. destruct Sk as [Sk|Sk]; [contradiction|]. destruct xwl as [|[a|] l]; [destruct z; [congruence|discriminate]| |cbn in Sk; congruence].
      destruct (centred_weak_skier (o_system o) a l Es) as (m & _ & _ & Em). rewrite Em in Ew. apply Ok_inj in Ew. eauto.
    - unfold centred in Ew. rewrite Es in Ew. apply Ok_inj in Ew. exists (fun x => x). subst xw. rewrite <- (map_id xwl) at 1. apply map_ext. intros [a|]; reflexivity. }
  destruct M as (g & Eg). assert (Eyw : nth_error xw j = Some (option_map g y)) by (rewrite Eg, nth_error_map, Ey; reflexivity).
  split; [intros Hf; exact (field_Sxx o phi dz field normalize xw z Lw slab weak Ef Hf j q Eq)|].
  assert (T : forall v : R, option_map (fun _ : R => v) (option_map g y) = option_map (fun _ => v) y) by (intros v; destruct y; reflexivity).
  split; [intros Hf; rewrite <- T; exact (field_Txz o phi dz field normalize xw z Lw slab weak Ef Hf j _ q Eyw Eq)|].
  split; [intros Hf; rewrite <- T; exact (field_Szz o phi dz field normalize xw z Lw slab weak Ef Hf j _ q Eyw Eq)|].
  intros Hf. exact (field_principal o phi dz field normalize xw z slab weak Ef Hf j q Eq).
Qed.
Print Assumptions C85_stresses.
(** Other fields are rejected. *)
Theorem C85_invalid o xsl xwl z phi dz scale window pad levels field normalize :
  laminated o -> 0 < dz -> z <> [] -> List.length xsl = List.length z -> List.length xwl = List.length z ->
  ~ In field ["u"; "w"; "Sxx"; "Txz"; "Szz"; "principal"]%string ->
  deformed o xsl xwl z phi dz scale window pad levels field normalize = Err ValueError.
Proof.
  intros La Hd Nz L1 L2 N. destruct (deformed_eq o xsl xwl z phi dz scale window pad levels field normalize La Hd Nz L1 L2) as (c & _ & ->).
  destruct (centred_defined (o_system o) xwl) as (xw & Ew); [destruct xwl; [destruct z; [congruence|discriminate]|discriminate]|]. rewrite Ew. cbn [bind].
  assert (Ef : figure_field o phi dz field normalize xw z (U_ o dz z) (W_ o dz z) = Err ValueError); [|rewrite Ef; reflexivity].
  cbn [In] in N. unfold figure_field.
  destruct (String.eqb_spec field "u") as [->|]; [exfalso; tauto|]. destruct (String.eqb_spec field "w") as [->|]; [exfalso; tauto|].
  destruct (String.eqb_spec field "Sxx") as [->|]; [exfalso; tauto|]. destruct (String.eqb_spec field "Txz") as [->|]; [exfalso; tauto|].
  destruct (String.eqb_spec field "Szz") as [->|]; [exfalso; tauto|]. destruct (String.eqb_spec field "principal") as [->|]; [exfalso; tauto|]. reflexivity.
Qed.
Print Assumptions C85_invalid.
(** The contour levels run symmetrically to the largest magnitude of the field rounded to one digit; weak-layer
    values count unless one of them is NaN. *)
Theorem C85_scale o xsl xwl z phi dz scale window pad levels field normalize f :
  laminated o -> 0 < dz -> z <> [] -> List.length xsl = List.length z -> List.length xwl = List.length z -> (0 < levels)%nat ->
  deformed o xsl xwl z phi dz scale window pad levels field normalize = Ok f ->
  exists m, let shown := List.concat (g_slab f) in
    (In m shown \/ In (Some m) (g_weak f)) /\ (forall x, In x shown -> Rabs x <= Rabs m) /\
    (~ In None (g_weak f) -> forall x, In (Some x) (g_weak f) -> Rabs x <= Rabs m) /\
    0 < Rabs m /\ 2 / 3 * Rabs m <= last (g_levels f) 0 <= 4 / 3 * Rabs m /\ hd 0 (g_levels f) = - last (g_levels f) 0.
Proof.
  intros La Hd Nz L1 L2 N E. destruct (deformed_inv _ _ _ _ _ _ _ _ _ _ _ _ _ La Hd Nz L1 L2 E) as (c & xw & slab & weak & clim & _ & Ew & Ef & Ec & ->).
  cbn [closed g_weak g_slab g_levels]. destruct (levels_ends clim levels N) as [H1 H2]. rewrite H1, H2.
  assert (NS : map Some (List.concat slab) <> []). { intros X. rewrite X in Ec. discriminate. }
  assert (NW : weak ++ weak <> []). { intros X. rewrite X in Ec. unfold colour_limit in Ec. destruct (arr_extremum Rmin _); [|discriminate]. destruct (arr_extremum Rmax _); discriminate. }
  assert (HS : forall x, In x (map Some (List.concat slab)) -> x <> None) by (intros x X; apply in_map_iff in X; destruct X as (a & <- & _); discriminate).
  assert (SI : forall m, In (Some m) (map Some (List.concat slab)) <-> In m (List.concat slab)).
  { intros m. rewrite in_map_iff. split; [intros (a & X & I); injection X as <-; exact I|eauto]. }
  destruct (in_dec (fun a b : option R => ltac:(decide equality; apply Req_EM_T)) None weak) as [Y|Y].
  - assert (Y2 : In None (weak ++ weak)) by (apply in_or_app; left; exact Y).
    destruct (colour_slab _ _ _ NS Y2 HS Ec) as (m & I & U & P & ->). exists m. cbv zeta. split; [left; apply SI; exact I|].
    split; [intros x X; apply U, SI; exact X|]. split; [intros Z; contradiction|]. split; [exact P|]. split; [exact (proj1 (round_digit (Rabs m) P))|reflexivity].
  - assert (HA : forall x, In x (map Some (List.concat slab) ++ (weak ++ weak)) -> x <> None).
    { intros x X. rewrite !in_app_iff in X. destruct X as [X|[X|X]]; [apply HS; exact X| |]; intros ->; contradiction. }
    destruct (colour_full _ _ _ NS NW HA Ec) as (m & I & U & P & ->). exists m. cbv zeta. rewrite !in_app_iff in I. rewrite SI in I. split; [tauto|].
    split; [intros x X; apply U; rewrite !in_app_iff; left; apply SI; exact X|]. split; [intros _ x X; apply U; rewrite !in_app_iff; tauto|].
    split; [exact P|]. split; [exact (proj1 (round_digit (Rabs m) P))|reflexivity].
Qed.
Print Assumptions C85_scale.
(** Principal stresses of a weak layer that is not there count as well: the only weak-layer value that is drawn
    is zero, but the scale extends to the value computed for the unsupported point. *)
Theorem C85_refuted : forall eig, exists o f v, Layered eig "pst-" (LList ex_slab_layers) true = Ok o /\
  deformed o [0; 100] [Some 0; None] [mkV 0 0 0 0 0 0; mkV 0 0 1 0 0 0] 0 2 100 None 2 300 "principal" true = Ok f /\
  nth_error (g_weak f) 0 = Some (Some 0) /\ nth_error (g_weak f) 1 = Some (Some v) /\ cell (g_weak_x f) (0, 1)%nat = Some None /\
  v <> 0 /\ 2 / 3 * Rabs v <= last (g_levels f) 0.
Proof.
  intros eig. destruct (Layered eig "pst-" (LList ex_slab_layers) true) as [o|] eqn:Eo; [|discriminate].
  pose proof (C46_laminated eig _ _ _ o ex_slab_pos Eo) as La. destruct (Layered_adm eig _ _ _ o ex_slab_pos Eo) as [(_ & (K & _) & _) _].
  assert (Sk : ~ skier_system (o_system o)) by (apply Ok_inj in Eo; subst o; intros [X|X]; discriminate).
  set (z := [mkV 0 0 0 0 0 0; mkV 0 0 1 0 0 0]). set (xwl := [Some 0; None]).
  assert (D : 0 < 2) by lra. assert (Nz : z <> []) by discriminate.
  assert (W : forall q, exists v, principal_stress_weaklayer o (26 / 10) "kPa" "min" true q = Ok v /\
     v = 1000 * ((f_sig (o_par o) q / 2 - sqrt (f_sig (o_par o) q ^ 2 + 4 * f_tau (o_par o) q ^ 2) / 2) / (26 / 10))).
  { intros q. destruct (normalised_weak o (26 / 10) q) as (a & b & A & _ & -> & ->). eauto. }
  assert (V0 : principal_stress_weaklayer o (26 / 10) "kPa" "min" true (mkV 0 0 0 0 0 0) = Ok 0).
  { destruct (W (mkV 0 0 0 0 0 0)) as (v & -> & ->). f_equal. unfold f_sig, f_tau, f_w, f_dw, f_u, f_psi. cbn [z_w z_dw z_u z_psi].
    match goal with |- context [sqrt ?e] => replace e with 0 by (unfold Rdiv; ring) end. rewrite sqrt_0. unfold Rdiv. ring. }
  destruct (W (mkV 0 0 1 0 0 0)) as (v & V1 & Vv).
  assert (Nv : v <> 0).
  { rewrite Vv. pose proof (sqrt_pos (f_sig (o_par o) (mkV 0 0 1 0 0 0) ^ 2 + 4 * f_tau (o_par o) (mkV 0 0 1 0 0 0) ^ 2)).
    assert (f_sig (o_par o) (mkV 0 0 1 0 0 0) < 0) by (unfold f_sig, f_w; cbn [z_w]; lra). apply Rlt_not_eq. lra. }
  assert (Ew : centred (o_system o) xwl = Ok xwl).
  { unfold centred. destruct (mem_str _ _) eqn:Em; [apply mem_skier in Em; contradiction|reflexivity]. }
  destruct (deformed_eq o [0; 100] xwl z 0 2 100 None 2 300 "principal" true La D Nz eq_refl eq_refl) as (c & _ & Eq). rewrite Ew in Eq. cbn [bind] in Eq.
  destruct (field_total o 0 2 "principal" true xwl z (U_ o 2 z) (W_ o 2 z) La D eq_refl) as ([slab weak] & Ef); [cbn [In]; tauto|].
  rewrite Ef in Eq. cbn [bind fst snd] in Eq.
  destruct (field_principal o 0 2 "principal" true xwl z slab weak Ef eq_refl 0%nat _ eq_refl) as (v0 & c0 & A1 & A2 & A3 & A4).
  destruct (field_principal o 0 2 "principal" true xwl z slab weak Ef eq_refl 1%nat _ eq_refl) as (v1 & c1 & B1 & B2 & B3 & B4).
  rewrite V0 in A2. apply Ok_inj in A2. subst v0. rewrite V1 in B2. apply Ok_inj in B2. subst v1.
  assert (Nw : ~ In None weak).
  { unfold figure_field in Ef. cbn [String.eqb Ascii.eqb Bool.eqb] in Ef. destruct (mapM (principal_stress_slab _ _ _ _ _ _) z); [|discriminate]. cbn [bind] in Ef.
    destruct (mapM (principal_stress_weaklayer _ _ _ _ _) z); [|discriminate]. cbn [bind] in Ef. apply Ok_inj in Ef. injection Ef as _ <-.
    intros X. apply in_map_iff in X. destruct X as (aa & X & _). discriminate. }
  assert (Ns : map Some (List.concat slab) <> []).
  { apply (principal_nonempty o 0 2 _ c0 La D) in A4. apply nth_error_In in A3. destruct c0 as [|y c0]; [congruence|]. intros X. apply map_eq_nil in X.
    assert (Y : In y (List.concat slab)) by (apply in_concat; exists (y :: c0); split; [exact A3|left; reflexivity]). rewrite X in Y. destruct Y. }
  destruct (colour_ok (map Some (List.concat slab)) (weak ++ weak) v) as (clim & Ec); [exact Ns| | | |exact Nv|].
  { intros X. apply app_eq_nil in X. destruct X as [X _]. rewrite X in A1. discriminate. }
  { intros x X. rewrite !in_app_iff in X. destruct X as [X|[X|X]]; [apply in_map_iff in X; destruct X as (a & <- & _); discriminate| |]; intros ->; contradiction. }
  { rewrite !in_app_iff. right. left. exact (nth_error_In _ _ B1). }
  rewrite Ec in Eq. cbn [bind] in Eq. eexists o, _, v. split; [reflexivity|]. split; [exact Eq|].
  destruct (C85_scale o [0; 100] xwl z 0 2 100 None 2 300%nat "principal" true _ La D Nz eq_refl eq_refl ltac:(lia) Eq) as (m & _ & _ & U & _ & Lv & _).
  cbn [closed g_weak] in *. split; [exact A1|]. split; [exact B1|]. split; [|split; [exact Nv|]].
  - destruct (C84_weak_layer o [0; 100] xwl z 0 2 100 None 2 300%nat "principal" true _ La D Nz eq_refl
      ltac:(unfold weak_points, xwl; repeat (apply Forall2_cons; [auto|]); apply Forall2_nil) (or_introl Sk) Eq) as (_ & G).
    destruct (G 1%nat None _ eq_refl eq_refl) as (G1 & _). apply G1. reflexivity.
  - specialize (U Nw v (nth_error_In _ _ B1)). lra.
Qed.
Print Assumptions C85_refuted.
Example C85_example : forall eig, exists o f, Layered eig "pst-" (LList ex_slab_layers) true = Ok o /\ laminated o /\ ~ skier_system (o_system o) /\
  deformed o [0; 100] [Some 0; None] [mkV 0 0 0 0 0 0; mkV 0 0 1 0 0 0] 0 2 100 None 2 300 "principal" true = Ok f.
Proof.
  intros eig. destruct (C85_refuted eig) as (o & f & v & Eo & E & _). exists o, f. split; [exact Eo|]. split; [exact (C46_laminated eig _ _ _ o ex_slab_pos Eo)|].
  split; [|exact E]. apply Ok_inj in Eo. subst o. intros [X|X]; discriminate.
Qed.

(** C86: at every height inside a layer the profile shows the density of that layer, ... *)
Theorem C86_profile o above q below y x : Forall good_ply (o_slab o) -> o_slab o = above ++ q :: below ->
  rsum (map p_h below) < y < rsum (map p_h below) + p_h q -> (on_line (slab_profile o) (x, y) <-> x = p_rho q).
Proof. exact (slab_profile_line o above q below y x). Qed.
Print Assumptions C86_profile.
(** ... no corner is outside the slab, and the axis shows it completely if no layer is denser than 500. *)
Theorem C86_range_partial o c : laminated o -> In c (slab_profile o) ->
  0 <= snd c <= hh (o_par o) /\ ((forall q, In q (o_slab o) -> 0 <= p_rho q <= 500) -> snd profile_limits <= fst c <= fst profile_limits).
Proof.
  intros (_ & F & H & _) I. destruct (slab_profile_corner o c F H I) as ((q & Q & E) & B). split; [exact B|]. intros G. unfold profile_limits. cbn [fst snd]. rewrite E. apply G. exact Q.
Qed.
Print Assumptions C86_range_partial.
(** Densities above 500 are cut off. *)
Theorem C86_refuted : forall eig, exists o c, Layered eig "skier" (LList [(600, 100)]) true = Ok o /\ In c (slab_profile o) /\ fst profile_limits < fst c.
Proof.
  intros eig. destruct (Layered eig "skier" (LList [(600, 100)]) true) as [o|] eqn:Eo; [|discriminate]. exists o.
  apply Ok_inj in Eo. subst o. eexists. split; [reflexivity|]. split; [left; reflexivity|]. cbn. lra.
Qed.
Print Assumptions C86_refuted.
Example C86_example : forall eig, exists o q1 q2, Layered eig "skier" (LList ex_slab_layers) true = Ok o /\ laminated o /\ o_slab o = [q1] ++ q2 :: [] /\
  rsum (map p_h []) < 20 < rsum (map p_h []) + p_h q2 /\ p_rho q2 = 300.
Proof.
  intros eig. destruct (C46_example eig) as (o & Eo & La & _). exists o. pose proof Eo as Eo'. apply Ok_inj in Eo'. subst o. eexists _, _. split; [exact Eo|]. split; [exact La|].
  split; [reflexivity|]. cbn. lra.
Qed.

(** C87: exactly the unsupported segments are shaded, ... *)
Theorem C87_shading data pos li mi ki n i x : Forall (fun l => 0 < l) li ->
  plot_data data pos true (Some li) (Some mi) (Some ki) = Ok n ->
  rsum (firstn i li) < x < rsum (firstn (S i) li) ->
  ((exists a b, In (a, b) (n_shade n) /\ a < x / 10 < b) <-> nth_error ki i = Some false).
Proof. intros F E X. exact (shaded data pos li mi ki n F E i x X). Qed.
Print Assumptions C87_shading.
(** ... the origin and the skiers are marked, ... *)
Theorem C87_lines data pos li mi ki n : plot_data data pos true (Some li) (Some mi) (Some ki) = Ok n ->
  forall v, In v (n_lines n) <-> v = 0 \/ exists k m, nth_error mi k = Some m /\ 0 < m /\ v = rsum (firstn (S k) li) / 10.
Proof. intros E. exact (proj2 (marks data pos li mi ki n E)). Qed.
Print Assumptions C87_lines.
(** ... and a label lies on its curve unless it is placed across the ends; with few points plotting fails: *)
Theorem C87_labels_partial x data : Forall (ordinary x) data -> data <> [] ->
  (exists v, In (Some v) x) ->
  let n := Z.of_nat (List.length (curve_points x (map (fun _ => 0) x))) in
  let pos := (95 * n / 100)%Z in
  (plot_data data None false None None None = Err IndexError <-> (n + pos <= 10 * Z.of_nat (List.length data))%Z) /\
  forall notes, plot_data data None false None None None = Ok notes ->
  forall k c, nth_error data k = Some c -> exists p, nth_error (n_labels notes) k = Some (p, k_label c) /\
    (pos <> 10 * Z.of_nat (S k) -> on_line (curve_points x (k_y c)) p)%Z.
Proof.
  intros F Nd (v & H) n pos. assert (N : finite x <> []).
  { clear -H. intros X. induction x as [|[w|] x IH]; simpl in *; [tauto|discriminate|]. destruct H as [H|H]; [discriminate|]. exact (IH H X). }
  assert (En : n = Z.of_nat (List.length (finite x))) by (unfold n; rewrite curve_points_length by apply map_length; reflexivity).
  unfold pos. rewrite En. split; [exact (plain_fail x data F N Nd)|]. intros notes E k c Ek.
  destruct (plain_labels x data F N Nd notes E k c Ek) as (p & P1 & P2). exists p. split; [exact P1|]. intros Hz.
  refine (label_on_line x (k_y c) (95 * Z.of_nat (List.length (finite x)) / 100 - 10 * (1 + Z.of_nat k))%Z p _ _ P2); [|lia]. rewrite Forall_forall in F. apply nth_error_In in Ek. destruct (F c Ek) as (_ & L & _). exact L.
Qed.
Print Assumptions C87_labels_partial.
(** The plot of the modes of the energy release rate needs 16 crack lengths, the comparison 11. *)
Theorem C87_few_points da G kind Gdif Ginc mode : da <> [] -> (3 <= List.length G)%nat -> (forall r, In r G -> List.length r = List.length da) ->
  (mode < List.length Gdif)%nat -> (mode < List.length Ginc)%nat -> (forall r, In r (Gdif ++ Ginc) -> List.length r = List.length da) ->
  (plot_err_modes da G kind = Err IndexError <-> (List.length da < 16)%nat) /\
  (plot_err_comp da Gdif Ginc mode = Err IndexError <-> (List.length da < 11)%nat).
Proof.
  intros Nd LG HG M1 M2 HD. set (x := cm (map Some da)).
  assert (Fx : List.length (finite x) = List.length da). { unfold x, cm, finite. clear. induction da; simpl; congruence. }
  assert (Nx : finite x <> []) by (intros X; rewrite X in Fx; destruct da; [congruence|discriminate]).
  assert (Lx : List.length x = List.length da) by (unfold x, cm; rewrite !map_length; reflexivity).
  assert (O : forall r l, List.length r = List.length da -> l <> ""%string -> contains "FEA" l = false -> ordinary x (mkCurve x (map (Rmult 1000) r) l)).
  { intros r l L A B. split; [reflexivity|]. cbn [k_y k_label]. rewrite map_length, Lx. auto. }
  split.
  - destruct G as [|g0 [|g1 [|g2 G]]]; [simpl in LG; lia|simpl in LG; lia|simpl in LG; lia|]. unfold plot_err_modes. cbn [row nth_error bind]. fold x.
    assert (L0 : List.length g0 = List.length da) by (apply HG; left; reflexivity). assert (L1 : List.length g1 = List.length da) by (apply HG; right; left; reflexivity).
    assert (L2 : List.length g2 = List.length da) by (apply HG; right; right; left; reflexivity).
    rewrite (plain_fail x).
    + rewrite Fx. cbn [List.length]. Z.to_euclidean_division_equations. lia.
    + destruct (String.eqb kind "inc"); repeat (apply Forall_cons; [apply O; [assumption|discriminate|reflexivity]|]); apply Forall_nil.
    + exact Nx.
    + discriminate.
  - unfold plot_err_comp, row. destruct (nth_error Gdif mode) as [d|] eqn:Ed; [|apply nth_error_None in Ed; lia]. destruct (nth_error Ginc mode) as [g|] eqn:Eg; [|apply nth_error_None in Eg; lia].
    cbn [bind]. fold x. apply nth_error_In in Ed. apply nth_error_In in Eg.
    rewrite (plain_fail x).
    + rewrite Fx. cbn [List.length]. Z.to_euclidean_division_equations. lia.
    + repeat (apply Forall_cons; [apply O; [apply HD, in_app_iff; auto|discriminate|reflexivity]|]); apply Forall_nil.
    + exact Nx.
    + discriminate.
Qed.
Print Assumptions C87_few_points.
(** Plots with results of finite elements never succeed: the segments are not handed on. *)
Theorem C87_fea_refuted o x z fea xb zb :
  (forall n, plot_fea_disp x z fea <> Ok n) /\ (forall n, plot_fea_stress o xb zb fea <> Ok n).
Proof.
  split; intros n.
  - unfold plot_fea_disp. destruct (column fea 0), (column fea 1), (column fea 2), (column fea 5); cbn [bind]; discriminate.
  - unfold plot_fea_stress. destruct (column fea 0), (column fea 2), (column fea 3); cbn [bind]; try discriminate.
    destruct (mapM (tau_unit (o_par o) "kPa") zb); cbn [bind]; [|discriminate]. destruct (mapM (sig_unit (o_par o) "kPa") zb); cbn [bind]; discriminate.
Qed.
Print Assumptions C87_fea_refuted.
(** A label off its curve: 32 points, third curve. *)
Definition flat_x : list (option R) := map Some (map INR (seq 0 32)).
Definition flat_y : list R := map (fun _ => 0) (seq 0 31) ++ [2].
Lemma flat_point k a : nth_error (curve_points flat_x flat_y) k = Some a -> (k < 32)%nat /\ fst a = INR k /\ snd a = (if Nat.eqb k 31 then 2 else 0).
Proof.
  intros E. assert (K : (k < 32)%nat). { apply nth_error_some in E. cbn in E. exact E. }
  rewrite curve_points_nth in E by reflexivity.
  assert (Ex : nth_error (finite flat_x) k = Some (INR k)).
  { assert (FX : finite flat_x = map INR (seq 0 32)) by reflexivity. rewrite FX, nth_error_map, nth_error_nth' with (d := 0%nat) by (rewrite seq_length; exact K).
    rewrite seq_nth by exact K. reflexivity. }
  assert (Ey : nth_error (present flat_x flat_y) k = Some (if Nat.eqb k 31 then 2 else 0)).
  { do 32 (destruct k as [|k]; [reflexivity|]). lia. }
  rewrite Ex, Ey in E. injection E as <-. cbn [fst snd]. auto.
Qed.
Theorem C87_refuted : exists data notes p, Forall (ordinary flat_x) data /\ nth_error data 2 = Some (mkCurve flat_x flat_y "c") /\
  plot_data data None false None None None = Ok notes /\ nth_error (n_labels notes) 2 = Some (p, "c"%string) /\ ~ on_line (curve_points flat_x flat_y) p.
Proof.
  set (c := mkCurve flat_x flat_y "c"). exists [c; c; c].
  assert (Oc : ordinary flat_x c) by (split; [reflexivity|]; split; [reflexivity|]; split; [discriminate|reflexivity]).
  assert (F : Forall (ordinary flat_x) [c; c; c]) by (repeat (apply Forall_cons; [exact Oc|]); apply Forall_nil).
  assert (N : finite flat_x <> []) by discriminate. assert (Nd : [c; c; c] <> []) by discriminate.
  assert (L32 : List.length (finite flat_x) = 32%nat) by reflexivity.
  destruct (plot_data [c; c; c] None false None None None) as [notes|e] eqn:E.
  - destruct (plain_labels flat_x _ F N Nd notes E 2%nat c eq_refl) as (p & P1 & P2). exists notes, p. split; [exact F|]. split; [reflexivity|]. split; [reflexivity|]. split; [exact P1|].
    rewrite L32 in P2. change (95 * Z.of_nat 32 / 100 - 10 * (1 + Z.of_nat 2))%Z with 0%Z in P2.
    assert (Ep : p = ((INR 31 + INR 0) / 2, (2 + 0) / 2)).
    { assert (PX : py_nth (finite flat_x) (-1) = Ok (INR 31)) by reflexivity. assert (PY : py_nth (present flat_x (k_y c)) (-1) = Ok 2) by reflexivity.
      assert (QX : py_nth (finite flat_x) 0 = Ok (INR 0)) by reflexivity. assert (QY : py_nth (present flat_x (k_y c)) 0 = Ok 0) by reflexivity.
      unfold label_at in P2. change (0 - 1)%Z with (-1)%Z in P2. rewrite PX, PY, QX, QY in P2. cbn [bind] in P2. apply Ok_inj in P2. symmetry. exact P2. }
    rewrite Ep. intros (k & a & b & t & A & B & T & X & Y). apply flat_point in A. apply flat_point in B. destruct A as (K1 & A1 & A2), B as (K2 & B1 & B2).
    cbn [fst snd] in X, Y. rewrite A1, B1 in X. rewrite A2, B2 in Y. rewrite S_INR in X.
    replace (Nat.eqb k 31) with false in Y by (symmetry; apply Nat.eqb_neq; lia). destruct (Nat.eqb_spec (S k) 31) as [H|H].
    + assert (k = 30%nat) as -> by lia. replace (INR 30) with 30 in X by (simpl; lra). replace (INR 31) with 31 in X by (simpl; lra). simpl in X. lra.
    + lra.
  - exfalso. assert (E2 : e = IndexError).
    { rewrite plain_pos with (x := flat_x) in E by assumption. rewrite L32 in E. destruct (labels_defined flat_x [c; c; c] 1 (95 * Z.of_nat 32 / 100) F N) as (l & El & _).
      - intros k K. rewrite L32. cbn [List.length] in K. assert (95 * Z.of_nat 32 / 100 = 30)%Z as -> by reflexivity. lia.
      - rewrite El in E. discriminate. }
    subst e. apply (plain_fail flat_x _ F N Nd) in E. rewrite L32 in E. vm_compute in E. destruct (E eq_refl).
Qed.
Print Assumptions C87_refuted.
Example C87_example : exists n, plot_data [mkCurve flat_x flat_y "c"] None true (Some [100; 210]) (Some [80]) (Some [true; false]) = Ok n /\
  Forall (fun l => 0 < l) [100; 210] /\ In (100 / 10) (n_lines n) /\ rsum (firstn 1 [100; 210]) < 200 < rsum (firstn 2 [100; 210]) /\
  Forall (ordinary flat_x) [mkCurve flat_x flat_y "c"].
Proof.
  assert (O : ordinary flat_x (mkCurve flat_x flat_y "c")) by (split; [reflexivity|]; split; [reflexivity|]; split; [discriminate|reflexivity]).
  assert (N : finite flat_x <> []) by discriminate. assert (L32 : List.length (finite flat_x) = 32%nat) by reflexivity.
  destruct (plot_data [mkCurve flat_x flat_y "c"] None true (Some [100; 210]) (Some [80]) (Some [true; false])) as [n|e] eqn:E.
  - exists n. split; [reflexivity|]. split; [repeat constructor; lra|]. split; [|split; [cbn; lra|constructor; [exact O|constructor]]].
    apply (C87_lines _ _ _ _ _ _ E). right. exists 0%nat, 80. split; [reflexivity|]. split; [lra|]. cbn. lra.
  - exfalso. unfold plot_data in E. cbn [iterable bind] in E. destruct (shades_ok [100; 210] [true; false] 0) as (l & El & _). destruct (lines_ok [100; 210] [80] 1) as (r & Er & _).
    rewrite El, Er in E. cbn [bind k_x] in E. rewrite L32 in E.
    destruct (labels_defined flat_x [mkCurve flat_x flat_y "c"] 1 (95 * Z.of_nat 32 / 100) ltac:(constructor; [exact O|constructor]) N) as (lb & Elb & _).
    + intros k K. rewrite L32. cbn [List.length] in K. assert (95 * Z.of_nat 32 / 100 = 30)%Z as -> by reflexivity. lia.
    + rewrite Elb in E. discriminate.
Qed.
