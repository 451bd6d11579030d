(** Proofs about the colours of the deformed slab and about line plots. *)
From Coq Require Import Lia Lra ZArith.
Require Import Verif.Py Verif.MTools Verif.MEigen Verif.MFields Verif.MRaster Verif.MAnalysis Verif.MEnvelope Verif.MPlot Verif.MFigure
  Verif.SSlab Verif.SAdm Verif.SStress Verif.SPlot Verif.SFigure Verif.PSetup Verif.PLam Verif.PRaster Verif.PStress Verif.PStress2 Verif.PPlot2 Verif.PFigure Verif.PFigure2.

(** * Colour limit *)
Lemma colour_ok slab weak x : slab <> [] -> weak <> [] -> (forall x, In x (slab ++ weak) -> x <> None) -> In (Some x) (slab ++ weak) -> x <> 0 ->
  exists c, colour_limit slab weak = Ok c.
Proof.
  intros NS NW H I X. assert (HS : forall x, In x slab -> x <> None) by (intros; apply H, in_app_iff; left; assumption).
  assert (HW : forall x, In x weak -> x <> None) by (intros; apply H, in_app_iff; right; assumption).
  destruct (extremes slab NS HS) as (a & b & E1 & E2 & I1 & I2 & B1), (extremes weak NW HW) as (u & v & E3 & E4 & I3 & I4 & B2).
  unfold colour_limit. rewrite E1, E2, E3, E4. cbn [bind map option_map nanmax fold_left].
  set (M := Rmax (Rmax (Rmax (Rabs a) (Rabs b)) (Rabs u)) (Rabs v)). unfold Reqb. destruct (Req_EM_T M 0) as [Z|N0]; [exfalso|eexists; reflexivity].
  assert (L1 : Rmax (Rabs a) (Rabs b) <= M) by (unfold M; eapply Rle_trans; [|apply Rmax_l]; apply Rmax_l).
  assert (L2 : Rabs u <= M) by (unfold M; eapply Rle_trans; [|apply Rmax_l]; apply Rmax_r). assert (L3 : Rabs v <= M) by apply Rmax_r.
  pose proof (Rabs_pos_lt x X). apply in_app_iff in I. destruct I as [I|I].
  - pose proof (abs_between _ _ _ (B1 x I)). lra.
  - pose proof (abs_between _ _ _ (B2 x I)). pose proof (Rmax_lub _ _ _ L2 L3). lra.
Qed.
Lemma colour_slab slab weak c : slab <> [] -> In None weak -> (forall x, In x slab -> x <> None) -> colour_limit slab weak = Ok c ->
  exists m, In (Some m) slab /\ (forall x, In (Some x) slab -> Rabs x <= Rabs m) /\ 0 < Rabs m /\ c = np_round (Rabs m) (significant_digits (Rabs m)).
Proof.
  intros NS NW HS. destruct (extremes slab NS HS) as (a & b & E1 & E2 & I1 & I2 & B1).
  unfold colour_limit. rewrite E1, E2, !(extremes_nan _ weak NW). cbn [bind map option_map nanmax fold_left].
  set (M := Rmax (Rabs a) (Rabs b)). unfold Reqb. destruct (Req_EM_T M 0) as [|N0]; [discriminate|]. intros E. injection E as <-.
  assert (W : exists m, M = Rabs m /\ In (Some m) slab) by (unfold M, Rmax; destruct (Rle_dec (Rabs a) (Rabs b)); eexists; (split; [reflexivity|]); assumption).
  destruct W as (m & Em & Im). exists m. rewrite <- Em. split; [exact Im|]. split; [|split; [pose proof (Rabs_pos m); lra|reflexivity]].
  intros x X. exact (abs_between _ _ _ (B1 x X)).
Qed.
Lemma colour_slab_ok slab weak x : slab <> [] -> In None weak -> (forall x, In x slab -> x <> None) -> In (Some x) slab -> x <> 0 ->
  exists c, colour_limit slab weak = Ok c.
Proof.
  intros NS NW HS I X. destruct (extremes slab NS HS) as (a & b & E1 & E2 & I1 & I2 & B1).
  unfold colour_limit. rewrite E1, E2, !(extremes_nan _ weak NW). cbn [bind map option_map nanmax fold_left].
  set (M := Rmax (Rabs a) (Rabs b)). unfold Reqb. destruct (Req_EM_T M 0) as [Z|N0]; [exfalso|eexists; reflexivity].
  pose proof (abs_between _ _ _ (B1 x I)). pose proof (Rabs_pos_lt x X). unfold M in Z. lra.
Qed.

(** * Fields *)
Lemma tau_kPa p q : tau_unit p "kPa" q = Ok (1000 * f_tau p q).
Proof. unfold tau_unit, conv_stress. cbn [String.eqb Ascii.eqb Bool.eqb bind]. f_equal. unfold f_tau. ring. Qed.
Lemma sig_kPa p q : sig_unit p "kPa" q = Ok (1000 * f_sig p q).
Proof. unfold sig_unit, conv_stress. cbn [String.eqb Ascii.eqb Bool.eqb bind]. f_equal. unfold f_sig. ring. Qed.
Lemma weak_stress_eq f x z : List.length x = List.length z -> forall g, (forall q, f q = Ok (g q)) ->
  weaklayer_stress f x z false = Ok (to_cm x, map2 (fun a b => match a with Some _ => Some b | None => None end) (to_cm x) (map g z)).
Proof.
  intros L g G. unfold weaklayer_stress, columns. rewrite G. cbn [bind]. rewrite (mapM_map _ g) by exact G. cbn [bind]. rewrite L, Nat.eqb_refl. reflexivity.
Qed.
Lemma mapM_nth {A B} (f : A -> res B) l ys j a : mapM f l = Ok ys -> nth_error l j = Some a -> exists y, nth_error ys j = Some y /\ f a = Ok y.
Proof.
  intros E. apply mapM_Ok in E. revert j. induction E as [|x y l ys H F IH]; intros [|j] J; cbn [nth_error] in *; try discriminate.
  - injection J as <-. eauto.
  - exact (IH j J).
Qed.
Lemma mapM_defined {A B} (f : A -> res B) l : (forall a, In a l -> exists b, f a = Ok b) -> exists ys, mapM f l = Ok ys.
Proof.
  induction l as [|a l IH]; intros H; cbn [mapM]; [eexists; reflexivity|]. destruct (H a ltac:(left; reflexivity)) as (b & ->).
  destruct IH as (ys & ->); [intros; apply H; right; assumption|]. eexists. reflexivity.
Qed.
Section Field.
Variables (o : obj) (phi dz : R) (field : string) (normalize : bool) (xw : list (option R)) (z : list vec6).
Hypotheses (La : laminated o) (Hd : 0 < dz) (L2 : List.length xw = List.length z).
Variables (slab : list (list R)) (weak : list (option R)).
Hypothesis E : figure_field o phi dz field normalize xw z (U_ o dz z) (W_ o dz z) = Ok (slab, weak).
Lemma field_u : field = "u"%string -> forall j q, nth_error z j = Some q ->
  nth_error weak j = Some (Some (1000 * (z_u q + hh (o_par o) / 2 * z_psi q))) /\
  forall i d, nth_error (Z_ o dz) i = Some d -> cell slab (i, j) = Some (1000 * (z_u q + (10 * d - hh (o_par o) / 2) * z_psi q)).
Proof.
  intros -> j q Eq. unfold figure_field in E. cbn [String.eqb Ascii.eqb Bool.eqb] in E. apply Ok_inj in E. injection E as <- <-. split.
  - rewrite last_U by assumption. rewrite !nth_error_map, Eq. cbn [option_map]. do 2 f_equal. field.
  - intros i d Ed. unfold cell. cbn [fst snd]. unfold Z_ in Ed. unfold U_. rewrite nth_error_map in Ed. rewrite !nth_error_map.
    destruct (nth_error (zs_ o dz) i) as [z0|]; [|discriminate]. cbn [option_map] in *. injection Ed as <-. rewrite !nth_error_map, Eq. cbn [option_map]. f_equal. field.
Qed.
Lemma field_w : field = "w"%string -> forall j q, nth_error z j = Some q ->
  nth_error weak j = Some (Some (1000 * z_w q)) /\ forall i d, nth_error (Z_ o dz) i = Some d -> cell slab (i, j) = Some (1000 * z_w q).
Proof.
  intros -> j q Eq. unfold figure_field in E. cbn [String.eqb Ascii.eqb Bool.eqb] in E. apply Ok_inj in E. injection E as <- <-. split.
  - rewrite last_W by assumption. rewrite !nth_error_map, Eq. cbn [option_map]. do 2 f_equal. field.
  - intros i d Ed. unfold cell. cbn [fst snd]. unfold Z_ in Ed. unfold W_. rewrite nth_error_map in Ed. rewrite !nth_error_map.
    destruct (nth_error (zs_ o dz) i) as [z0|]; [|discriminate]. cbn [option_map] in *. rewrite !nth_error_map, Eq. cbn [option_map]. f_equal. field.
Qed.
Lemma xw_nth j q : nth_error z j = Some q -> exists y, nth_error xw j = Some y.
Proof. intros Eq. destruct (nth_error xw j) as [y|] eqn:Ey; [eauto|]. apply nth_error_None in Ey. apply nth_error_some in Eq. lia. Qed.
Lemma field_Sxx : field = "Sxx"%string -> forall j q, nth_error z j = Some q ->
  nth_error weak j = Some (Some 0) /\ exists col, nth_error slab j = Some col /\ Sxx o phi dz "kPa" q = Ok col.
Proof.
  intros -> j q Eq. unfold figure_field in E. cbn [String.eqb Ascii.eqb Bool.eqb] in E. destruct (mapM _ z) as [s|] eqn:Es; cbn [bind] in E; [|discriminate].
  apply Ok_inj in E. injection E as <- <-. destruct (mapM_nth _ _ _ _ _ Es Eq) as (col & C1 & C2). split; [|eauto].
  destruct (xw_nth j q Eq) as (y & Ey). rewrite nth_error_map, Ey. reflexivity.
Qed.
Lemma weak_masked (g : vec6 -> R) f w : (forall q, f q = Ok (g q)) -> weaklayer_stress f xw z false = Ok w ->
  forall j y q, nth_error xw j = Some y -> nth_error z j = Some q -> nth_error (snd w) j = Some (option_map (fun _ => g q) y).
Proof.
  intros G Ew j y q Ey Eq. rewrite (weak_stress_eq f xw z L2 g G) in Ew. apply Ok_inj in Ew. subst w. cbn [snd].
  rewrite (nth_error_map2 _ _ _ _ (option_map (fun a => a / 10) y) (g q)).
  - destruct y; reflexivity.
  - unfold to_cm. rewrite nth_error_map, Ey. reflexivity.
  - rewrite nth_error_map, Eq. reflexivity.
Qed.
Lemma field_Txz : field = "Txz"%string -> forall j y q, nth_error xw j = Some y -> nth_error z j = Some q ->
  nth_error weak j = Some (option_map (fun _ => 1000 * f_tau (o_par o) q) y) /\ exists col, nth_error slab j = Some col /\ Txz o phi dz "kPa" q = Ok col.
Proof.
  intros -> j y q Ey Eq. unfold figure_field in E. cbn [String.eqb Ascii.eqb Bool.eqb] in E. destruct (mapM _ z) as [s|] eqn:Es; cbn [bind] in E; [|discriminate].
  unfold get_weaklayer_shearstress in E. destruct (weaklayer_stress _ xw z false) as [w|] eqn:Ew; cbn [bind] in E; [|discriminate].
  apply Ok_inj in E. injection E as <- <-. destruct (mapM_nth _ _ _ _ _ Es Eq) as (col & C1 & C2). split; [|eauto].
  refine (weak_masked (fun q => 1000 * f_tau (o_par o) q) _ w _ Ew j y q Ey Eq). apply tau_kPa.
Qed.
Lemma field_Szz : field = "Szz"%string -> forall j y q, nth_error xw j = Some y -> nth_error z j = Some q ->
  nth_error weak j = Some (option_map (fun _ => 1000 * f_sig (o_par o) q) y) /\ exists col, nth_error slab j = Some col /\ Szz o phi dz "kPa" q = Ok col.
Proof.
  intros -> j y q Ey Eq. unfold figure_field in E. cbn [String.eqb Ascii.eqb Bool.eqb] in E. destruct (mapM _ z) as [s|] eqn:Es; cbn [bind] in E; [|discriminate].
  unfold get_weaklayer_normalstress in E. destruct (weaklayer_stress _ xw z false) as [w|] eqn:Ew; cbn [bind] in E; [|discriminate].
  apply Ok_inj in E. injection E as <- <-. destruct (mapM_nth _ _ _ _ _ Es Eq) as (col & C1 & C2). split; [|eauto].
  refine (weak_masked (fun q => 1000 * f_sig (o_par o) q) _ w _ Ew j y q Ey Eq). apply sig_kPa.
Qed.
Lemma field_principal : field = "principal"%string -> forall j q, nth_error z j = Some q ->
  exists v col, nth_error weak j = Some (Some v) /\ principal_stress_weaklayer o (26 / 10) "kPa" "min" normalize q = Ok v /\
    nth_error slab j = Some col /\ principal_stress_slab o phi dz "kPa" "max" normalize q = Ok col.
Proof.
  intros -> j q Eq. unfold figure_field in E. cbn [String.eqb Ascii.eqb Bool.eqb] in E. destruct (mapM (principal_stress_slab _ _ _ _ _ _) z) as [s|] eqn:Es; cbn [bind] in E; [|discriminate].
  destruct (mapM (principal_stress_weaklayer _ _ _ _ _) z) as [w|] eqn:Ew; cbn [bind] in E; [|discriminate].
  apply Ok_inj in E. injection E as <- <-. destruct (mapM_nth _ _ _ _ _ Es Eq) as (col & C1 & C2). destruct (mapM_nth _ _ _ _ _ Ew Eq) as (v & V1 & V2).
  exists v, col. rewrite nth_error_map, V1. auto.
Qed.
Lemma field_valid : In field ["u"; "w"; "Sxx"; "Txz"; "Szz"; "principal"]%string.
Proof.
  unfold figure_field in E. cbn [In].
  destruct (String.eqb_spec field "u") as [->|]; [auto|]. destruct (String.eqb_spec field "w") as [->|]; [auto|].
  destruct (String.eqb_spec field "Sxx") as [->|]; [auto|]. destruct (String.eqb_spec field "Txz") as [->|]; [auto|].
  destruct (String.eqb_spec field "Szz") as [->|]; [tauto|]. destruct (String.eqb_spec field "principal") as [->|]; [tauto|]. discriminate.
Qed.
End Field.
Lemma field_total o phi dz field normalize xw z U W : laminated o -> 0 < dz -> List.length xw = List.length z ->
  In field ["u"; "w"; "Sxx"; "Txz"; "Szz"; "principal"]%string -> exists r, figure_field o phi dz field normalize xw z U W = Ok r.
Proof.
  intros La Hd L2 I. unfold figure_field.
  assert (St : forall q, exists a b c, Sxx o phi dz "kPa" q = Ok a /\ Txz o phi dz "kPa" q = Ok b /\ Szz o phi dz "kPa" q = Ok c).
  { intros q. destruct (stress_kPa o phi dz q La Hd) as (X & T & Z & _ & (H1 & H2 & H3) & _). eauto 10. }
  cbn [In] in I. destruct I as [<-|[<-|[<-|[<-|[<-|[<-|[]]]]]]]; cbn [String.eqb Ascii.eqb Bool.eqb]; try (eexists; reflexivity).
  - destruct (mapM_defined (Sxx o phi dz "kPa") z) as (s & ->); [intros q _; destruct (St q) as (a & b & c & A & B & C); eauto|]. eexists. reflexivity.
  - destruct (mapM_defined (Txz o phi dz "kPa") z) as (s & ->); [intros q _; destruct (St q) as (a & b & c & A & B & C); eauto|]. cbn [bind].
    unfold get_weaklayer_shearstress. rewrite (weak_stress_eq _ xw z L2 _ (tau_kPa (o_par o))). eexists. reflexivity.
  - destruct (mapM_defined (Szz o phi dz "kPa") z) as (s & ->); [intros q _; destruct (St q) as (a & b & c & A & B & C); eauto|]. cbn [bind].
    unfold get_weaklayer_normalstress. rewrite (weak_stress_eq _ xw z L2 _ (sig_kPa (o_par o))). eexists. reflexivity.
  - destruct (mapM_defined (principal_stress_slab o phi dz "kPa" "max" normalize) z) as (s & ->).
    { intros q _. destruct normalize.
      - destruct (normalised_slab o phi dz "max" q La Hd) as (A & P & B). rewrite A. eauto.
      - destruct (St q) as (a & b & c & A & B & C). destruct (principal_roots _ _ _ _ _ _ _ _ A B C) as (P & _ & H & _). eauto. }
    cbn [bind]. destruct (mapM_defined (principal_stress_weaklayer o (26 / 10) "kPa" "min" normalize) z) as (w & ->).
    { intros q _. destruct normalize.
      - destruct (normalised_weak o (26 / 10) q) as (a & _ & A & _). eauto.
      - destruct (weak_principal o (26 / 10) "kPa" q _ _ eq_refl eq_refl) as (_ & Q & _ & H & _). eauto. }
    eexists. reflexivity.
Qed.
(** Levels. *)
Lemma levels_ends c n : (0 < n)%nat -> hd 0 (linspace (- c) c (S n) true) = - c /\ last (linspace (- c) c (S n) true) 0 = c.
Proof.
  intros N. split.
  - unfold linspace. cbn [seq map hd INR]. ring.
  - rewrite last_nthR, linspace_length, linspace_nth by lia. replace (S n - 1)%nat with n by lia. field. apply not_0_INR. lia.
Qed.
Lemma length_centred system x y : centred system x = Ok y -> List.length y = List.length x.
Proof.
  unfold centred. destruct (mem_str _ _); [|intros E; apply Ok_inj in E; subst; reflexivity]. destruct (py_max x); cbn [bind]; [|discriminate].
  intros E. apply Ok_inj in E. subst. apply map_length.
Qed.
Lemma centred_defined system x : x <> [] -> exists y, centred system x = Ok y.
Proof. intros N. unfold centred. destruct (mem_str _ _); [|eauto]. destruct x; [congruence|]. cbn [py_max bind]. eauto. Qed.
Lemma principal_nonempty o phi dz z P : laminated o -> 0 < dz -> principal_stress_slab o phi dz "kPa" "max" true z = Ok P -> P <> [].
Proof.
  intros La Hd. destruct (stress_kPa o phi dz z La Hd) as (X & T & Z & _ & (H1 & H2 & H3) & _).
  destruct (stress_lengths _ _ _ _ _ _ _ _ H1 H2 H3) as (M1 & M2 & M3). destruct La as (Hne & F & _). destruct (mesh_ok o dz Hd F Hne) as [_ M].
  unfold principal_stress_slab. rewrite H1, H2, H3. cbn [val_sign bind String.eqb Ascii.eqb Bool.eqb andb].
  rewrite (mapM_map _ (fun q => 1 * 240 * Rpower (m_rho q / 917) (244 / 100))) by reflexivity. cbn [bind]. intros E. apply Ok_inj in E. subst P.
  destruct (get_zmesh o dz) as [|m ms]; [simpl in M; lia|]. destruct (map (Rmult 1000) X), (map (Rmult 1000) T), (map (Rmult 1000) Z); try discriminate.
Qed.
