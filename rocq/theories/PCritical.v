(** Weak-layer stresses of [create_skier_object] are affine in the weight of the skier (C120). *)
From Coquelicot Require Import Coquelicot.
Require Import Verif.Py Verif.MTools Verif.MEigen Verif.MFields Verif.SAdm Verif.SSlab Verif.MRaster
  Verif.MSolution Verif.MAnalysis Verif.SBeam Verif.SBvp Verif.SEig Verif.SRaster Verif.SOutput Verif.MEnvelope Verif.MCriterion
  Verif.SSegment Verif.SMirror Verif.PLam Verif.PSetup Verif.PBeam Verif.PBvp Verif.PWell2 Verif.PBvp6 Verif.PRaster Verif.PRaster2 Verif.PropRaster Verif.PropOutput Verif.PropBvp
  Verif.PSegment Verif.PropMirror Verif.PCreate Verif.PCreate2.
Open Scope R_scope.

(** Constants between two lists of constants. *)
Definition mix (w : R) : list R -> list R -> list R := map2 (fun c d => (1 - w) * c + w * d).
Definition mixes (w : R) : list (list R) -> list (list R) -> list (list R) := map2 (mix w).
Definition zmix (w : R) (x y : vec6) : vec6 := combo (1 - w) x w y.

Lemma zsol_mix p e ld x C1 C2 l k w : lam_ok p -> fnd_ok p -> List.length C1 = List.length C2 ->
  zsol p e ld x (mix w C1 C2) l k = zmix w (zsol p e ld x C1 l k) (zsol p e ld x C2 l k).
Proof.
  intros L F H. unfold mix, zmix. rewrite <- (C56_segment p e ld ld x C1 C2 l k (1 - w) w L F H). f_equal. destruct ld as [a b c d]. cbn [qn qt pn pt]. f_equal; ring.
Qed.
Lemma map2_len {A B D} (f : A -> B -> D) X Y : List.length X = List.length Y -> List.length (map2 f X Y) = List.length X.
Proof. revert Y. induction X as [|x X IH]; intros [|y Y] H; simpl in *; try reflexivity; try discriminate. rewrite IH by lia. reflexivity. Qed.
Lemma map2_nth {A B D} (f : A -> B -> D) X Y i a b d : List.length X = List.length Y -> (i < List.length X)%nat -> nth i (map2 f X Y) d = f (nth i X a) (nth i Y b).
Proof. revert Y i. induction X as [|x X IH]; intros [|y Y] i H Hi; simpl in *; try lia; try discriminate. destruct i as [|i]; [reflexivity|]. apply IH; lia. Qed.
Lemma mixes_six w n C1 C2 : List.length C1 = n -> List.length C2 = n -> Forall (fun C => List.length C = 6%nat) C1 -> Forall (fun C => List.length C = 6%nat) C2 ->
  List.length (mixes w C1 C2) = n /\ Forall (fun C => List.length C = 6%nat) (mixes w C1 C2).
Proof.
  intros L1 L2 F1 F2. unfold mixes. split; [rewrite map2_len; congruence|]. subst n. symmetry in L2. revert C2 L2 F2. induction F1 as [|c C1 H F1 IH]; intros [|d C2] L2 F2; simpl; try constructor.
  - unfold mix. inversion F2; subst. rewrite map2_len; congruence.
  - inversion F2; subst. apply IH; [simpl in L2; lia|assumption].
Qed.

Lemma sN_mix p w x y : sN p (zmix w x y) = (1 - w) * sN p x + w * sN p y.
Proof. unfold sN, zmix, combo; simpl; ring. Qed.
Lemma sM_mix p w x y : sM p (zmix w x y) = (1 - w) * sM p x + w * sM p y.
Proof. unfold sM, zmix, combo; simpl; ring. Qed.
Lemma sV_mix p w x y : sV p (zmix w x y) = (1 - w) * sV p x + w * sV p y.
Proof. unfold sV, zmix, combo; simpl; ring. Qed.

(** Problems that differ in the weights only. *)
Lemma bvp_mix o phi li ki m0 m1 m C0 C1 w : ready o -> kind_of (o_system o) = Some KSkier -> (1 <= List.length li)%nat ->
  List.length C0 = List.length li -> List.length C1 = List.length li ->
  Forall (fun C => List.length C = 6%nat) C0 -> Forall (fun C => List.length C = 6%nat) C1 ->
  (forall i, nth i m 0 = (1 - w) * nth i m0 0 + w * nth i m1 0) ->
  bvp o 0 phi li m0 ki C0 -> bvp o 0 phi li m1 ki C1 -> bvp o 0 phi li m ki (mixes w C0 C1).
Proof.
  intros Rd Kd N L0 L1 F0 F1 Hm (A1 & A2 & A3) (B1 & B2 & B3). destruct Rd as (Hl & Hf & _).
  assert (Z : forall i s, (i < List.length li)%nat -> field o phi (nth i li 0) (nth i ki false) (nth i (mixes w C0 C1) []) s =
     zmix w (field o phi (nth i li 0) (nth i ki false) (nth i C0 []) s) (field o phi (nth i li 0) (nth i ki false) (nth i C1 []) s)).
  { intros i s Hi. unfold mixes. rewrite (map2_nth _ _ _ i [] []) by lia. unfold field. apply zsol_mix; [exact Hl|exact Hf|].
    rewrite Forall_forall in F0, F1. rewrite (F0 (nth i C0 [])), (F1 (nth i C1 [])) by (apply nth_In; lia). reflexivity. }
  unfold bvp in *. cbv zeta in *. unfold left_end, right_end in *. rewrite Kd in *. split; [|split].
  - rewrite Z by lia. unfold far_field in *. cbv zeta in *. unfold zmix, combo. cbn [z_u z_w z_psi]. destruct A1 as (-> & -> & ->). destruct B1 as (-> & -> & ->). repeat split; ring.
  - rewrite Z by lia. unfold far_field in *. cbv zeta in *. unfold zmix, combo. cbn [z_u z_w z_psi]. destruct A2 as (-> & -> & ->). destruct B2 as (-> & -> & ->). repeat split; ring.
  - intros i Hi. specialize (A3 i Hi). specialize (B3 i Hi). rewrite !Z by lia. unfold transition in *. rewrite Kd in *. cbv zeta in *. cbv iota in *.
    rewrite !sN_mix, !sM_mix, !sV_mix. unfold zmix, combo. cbn [z_u z_w z_psi]. rewrite Hm.
    destruct A3 as (a1 & a2 & a3 & a4 & a5 & a6). destruct B3 as (b1 & b2 & b3 & b4 & b5 & b6). rewrite a1, a2, a3, b1, b2, b3.
    split; [reflexivity|]. split; [reflexivity|]. split; [reflexivity|].
    split; [|split];
      match goal with |- (1 - w) * ?a + w * ?b - ((1 - w) * ?c + w * ?d) = _ => replace ((1 - w) * a + w * b - ((1 - w) * c + w * d)) with ((1 - w) * (a - c) + w * (b - d)) by ring end.
    + rewrite a4, b4. unfold Rdiv. ring.
    + rewrite a5, b5. unfold Rdiv. ring.
    + rewrite a6, b6. unfold Rdiv. ring.
Qed.

(** Samples of mixed constants. *)
Lemma mapM_mix {A} w (f0 f1 f : A -> res vec6) l r0 r1 : (forall a z0 z1, f0 a = Ok z0 -> f1 a = Ok z1 -> f a = Ok (zmix w z0 z1)) ->
  mapM f0 l = Ok r0 -> mapM f1 l = Ok r1 -> mapM f l = Ok (map2 (zmix w) r0 r1) /\ List.length r0 = List.length r1.
Proof.
  intros H. revert r0 r1. induction l as [|a l IH]; intros r0 r1 E0 E1; simpl in *; [apply Ok_inj in E0, E1; subst; split; reflexivity|].
  destruct (f0 a) as [z0|] eqn:F0; [|discriminate]. destruct (f1 a) as [z1|] eqn:F1; [|discriminate]. cbn [bind] in *.
  destruct (mapM f0 l) as [s0|] eqn:M0; [|discriminate]. destruct (mapM f1 l) as [s1|] eqn:M1; [|discriminate]. cbn [bind] in *.
  apply Ok_inj in E0, E1. subst r0 r1. rewrite (H a z0 z1 F0 F1). destruct (IH s0 s1 eq_refl eq_refl) as [-> L]. cbn [bind]. split; [reflexivity|simpl; congruence].
Qed.
Lemma map2_app {A B D} (f : A -> B -> D) X Y X' Y' : List.length X = List.length Y -> map2 f (X ++ X') (Y ++ Y') = map2 f X Y ++ map2 f X' Y'.
Proof. revert Y. induction X as [|x X IH]; intros [|y Y] H; simpl in *; try reflexivity; try discriminate. rewrite IH by lia. reflexivity. Qed.
Lemma raster_zq_mix p e ld w : lam_ok p -> fnd_ok p -> forall C0 C1 li ki nq r0 r1,
  Forall2 (fun a b => List.length a = List.length b) C0 C1 ->
  raster_zq p e ld C0 li ki nq = Ok r0 -> raster_zq p e ld C1 li ki nq = Ok r1 ->
  raster_zq p e ld (mixes w C0 C1) li ki nq = Ok (map2 (zmix w) r0 r1) /\ List.length r0 = List.length r1.
Proof.
  intros Hl Hf C0 C1 li ki nq r0 r1 H. revert li ki nq r0 r1. induction H as [|c d C0 C1 Hc H IH]; intros li ki nq r0 r1 E0 E1.
  - simpl in *. apply Ok_inj in E0, E1. subst. split; reflexivity.
  - destruct li as [|l li]; [simpl in *; apply Ok_inj in E0, E1; subst; split; reflexivity|].
    destruct ki as [|k ki]; [simpl in *; apply Ok_inj in E0, E1; subst; split; reflexivity|].
    destruct nq as [|n nq]; [simpl in *; apply Ok_inj in E0, E1; subst; split; reflexivity|].
    unfold mixes. cbn [raster_zq map2] in *. fold (mixes w C0 C1).
    destruct (mapM _ _) as [z0|] eqn:M0 in E0; [|discriminate]. cbn [bind] in E0. destruct (raster_zq p e ld C0 li ki nq) as [s0|] eqn:R0; [|discriminate]. cbn [bind] in E0.
    destruct (mapM _ _) as [z1|] eqn:M1 in E1; [|discriminate]. cbn [bind] in E1. destruct (raster_zq p e ld C1 li ki nq) as [s1|] eqn:R1; [|discriminate]. cbn [bind] in E1.
    apply Ok_inj in E0, E1. subst r0 r1.
    assert (Hs : forall a u v, zsol_checked p e ld a c l k = Ok u -> zsol_checked p e ld a d l k = Ok v -> zsol_checked p e ld a (mix w c d) l k = Ok (zmix w u v)).
    { intros a u v Hu Hv. unfold zsol_checked in *. unfold mix at 1. rewrite map2_len by exact Hc. destruct (Nat.eqb _ (List.length c)); [|discriminate].
      destruct (Nat.eqb _ (List.length d)); [|discriminate]. apply Ok_inj in Hu, Hv. subst. rewrite zsol_mix by assumption. reflexivity. }
    destruct (mapM_mix w _ _ _ _ _ _ Hs M0 M1) as [-> L]. destruct (IH li ki nq s0 s1 R0 R1) as [-> L']. cbn [bind]. rewrite map2_app by exact L.
    split; [reflexivity|]. rewrite !app_length. congruence.
Qed.
Lemma select_map2 {A B D} (f : A -> B -> D) m X Y : List.length X = List.length Y -> select m (map2 f X Y) = map2 f (select m X) (select m Y).
Proof. revert X Y. induction m as [|b m IH]; intros [|x X] [|y Y] H; simpl in *; try reflexivity; try discriminate. destruct b; simpl; rewrite IH by lia; reflexivity. Qed.
Lemma select_F2 {A B} (P : A -> B -> Prop) m X Y : Forall2 P X Y -> Forall2 P (select m X) (select m Y).
Proof. intros H. revert m. induction H as [|x y X Y Hp H IH]; intros [|b m]; simpl; try constructor. destruct b; [constructor; [exact Hp|apply IH]|apply IH]. Qed.
Lemma raster_mix p e ld w C0 C1 li ki num x0 z0 b0 x1 z1 b1 : lam_ok p -> fnd_ok p -> List.length C0 = List.length li -> List.length C1 = List.length li ->
  Forall2 (fun a b => List.length a = List.length b) C0 C1 ->
  rasterize_solution p e ld C0 li ki num = Ok (x0, z0, b0) -> rasterize_solution p e ld C1 li ki num = Ok (x1, z1, b1) ->
  rasterize_solution p e ld (mixes w C0 C1) li ki num = Ok (x0, map2 (zmix w) z0 z1, b0) /\ List.length z0 = List.length z1 /\ b0 = b1 /\ x0 = x1.
Proof.
  intros Hl Hf L0 L1 F E0 E1. unfold rasterize_solution in *. unfold mixes at 1. rewrite map2_len, L0 by congruence. rewrite L0 in E0. rewrite L1 in E1.
  destruct (negb _); [discriminate|]. cbv zeta in *. unfold mixes. rewrite select_map2 by congruence. fold (mixes w (select (map (Rltb 0) (map Rabs li)) C0) (select (map (Rltb 0) (map Rabs li)) C1)).
  destruct (select _ (map Rabs li)) as [|l0 ls]; [discriminate|].
  destruct (raster_zq p e ld (select _ C0) _ _ _) as [s0|] eqn:Z0; [|discriminate]. destruct (raster_zq p e ld (select _ C1) _ _ _) as [s1|] eqn:Z1; [|discriminate].
  cbn [bind] in E0, E1. destruct (raster_zq_mix p e ld w Hl Hf _ _ _ _ _ _ _ (select_F2 _ _ _ _ F) Z0 Z1) as [-> L]. cbn [bind].
  apply Ok_inj in E0, E1. inversion E0. inversion E1. subst. auto 10.
Qed.

(** Stresses of mixed samples. *)
Lemma stress_values (f : vec6 -> res R) (g : vec6 -> R) x z xs : (forall a, f a = Ok (g a)) -> present_all x -> weaklayer_stress f x z false = Ok xs ->
  snd xs = map (fun a => Some (g a)) z.
Proof.
  intros H P. unfold weaklayer_stress, columns. rewrite H. cbn [bind]. rewrite (mapM_total f g) by (intros; apply H). cbn [bind].
  destruct (Nat.eqb_spec (List.length x) (List.length z)) as [L|L]; [|discriminate]. cbn [negb]. intros E. apply Ok_inj in E. subst xs. cbn [snd].
  clear H. revert z L. induction P as [|a x A P IH]; intros [|b z] L; simpl in *; try reflexivity; try discriminate.
  destruct a as [a|]; [|congruence]. cbn [option_map]. f_equal. apply IH. lia.
Qed.

Lemma kpa_sig p z : sig_unit p "kPa" z = Ok (1000 * f_sig p z).
Proof. unfold sig_unit. replace (conv_stress "kPa") with (Ok 1000) by reflexivity. cbn [bind]. apply (f_equal (@Ok R)). unfold f_sig. ring. Qed.
Lemma kpa_tau p z : tau_unit p "kPa" z = Ok (1000 * f_tau p z).
Proof. unfold tau_unit. replace (conv_stress "kPa") with (Ok 1000) by reflexivity. cbn [bind]. apply (f_equal (@Ok R)). unfold f_tau. ring. Qed.

Section S.
Variable eig : mat6 -> list eigpair.
Variable solve : nat -> matrix -> vector -> res vector.
Variable brent : R -> R -> list (R * R) -> bstep.
Variable maxeval : nat.

(** The object does not depend on the weights. *)
Lemma skiers_run_all li ki k0 o : o_system o = "skiers"%string -> o_touchdown o = false ->
  exists o', (forall mi, calc_segments eig solve brent maxeval li mi ki k0 10000 0 0 0 (1 / 2) 1000 o = (Ok (mkSeg li mi ki k0), o')) /\ same_model o o' /\ o_lski o' = o_lski o.
Proof.
  intros S T.
  assert (E : o_touchdown (set_touchdown_attributes 10000 0 (1 / 2) 0 1000 o) = false) by exact T.
  eexists. split.
  - intros mi. unfold calc_segments, sbind, calc_touchdown_system, sbind, calc_touchdown_mode.
    rewrite E. unfold calc_touchdown_length, set_mode. cbn [o_mode]. unfold segment_lists. simpl. rewrite S. reflexivity.
  - unfold same_model. simpl. auto 10.
Qed.
Lemma weights_mix li n w0 m0 : skier_weights li n w0 = Ok m0 -> exists j, (j < n - 1)%nat /\ forall w, skier_weights li n w = Ok (set_nth (repeat 0 (n - 1)) j w).
Proof.
  unfold skier_weights. destruct (Nat.eqb n 0); [discriminate|]. destruct (median_loop _ _ _ _) as [m|e]; [|discriminate]. cbn [bind].
  destruct (Nat.ltb_spec (match m with Some i => i | None => (n - 1 - 1)%nat end) (n - 1)) as [M|M]; [|discriminate]. intros _. eexists. split; [exact M|]. intros w. reflexivity.
Qed.

Lemma create_affine layers phi (li : list R) (ki : list bool) E t w0 m0 :
  let ks := map (fun _ => true) ki in
  pos_layers layers -> 0 < E -> 0 < t -> sound_solver solve -> complete_solver solve ->
  (forall o, Layered eig "skiers" (LList layers) false = Ok o -> stable (o_par (model_obj eig o E t)) /\
     good_eigenpairs (calc_system_matrix (o_par (model_obj eig o E t))) (eig (calc_system_matrix (o_par (model_obj eig o E t))))) ->
  (2 <= List.length li)%nat -> List.length ki = List.length li -> proper_segments li ks -> skier_weights li (List.length ki) w0 = Ok m0 ->
  exists o j C0 C1 z0 z1, ready o /\ stable (o_par o) /\ o_system o = "skiers"%string /\ (exists o0, Layered eig "skiers" (LList layers) false = Ok o0 /\ same_model (model_obj eig o0 E t) o /\ o_lski o = o_lski (model_obj eig o0 E t)) /\ (j < List.length li - 1)%nat /\
    (let m w := set_nth (repeat 0 (List.length li - 1)) j w in
     bvp o 0 phi li (m 0) ks C0 /\ bvp o 0 phi li (m 1) ks C1 /\
     List.length C0 = List.length li /\ List.length C1 = List.length li /\ Forall (fun C => List.length C = 6%nat) C0 /\ Forall (fun C => List.length C = 6%nat) C1 /\
     (exists x b, rasterize_solution (o_par o) (o_eig o) (loads_of o phi) C0 li ks 800 = Ok (x, z0, b) /\
        rasterize_solution (o_par o) (o_eig o) (loads_of o phi) C1 li ks 800 = Ok (x, z1, b)) /\
     List.length z0 = List.length z1 /\
     forall w, skier_weights li (List.length ki) w = Ok (m w) /\
       exists k, create_skier_object eig solve brent maxeval (LList layers) w phi li ki false E t = Ok k /\ k_C k = mixes w C0 C1 /\ k_mi k = m w /\ k_obj k = o /\
       k_sig k = map (fun z => Some (1000 * f_sig (o_par o) z)) (map2 (zmix w) z0 z1) /\
       k_tau k = map (fun z => Some (1000 * f_tau (o_par o) z)) (map2 (zmix w) z0 z1)).
Proof.
  intros ks P HE Ht So Co G N2 Lk Pr Em0.
  destruct (layered_some eig "skiers" layers false) as [o L]. destruct (layered_system _ _ _ _ _ L) as [S T].
  destruct (G o L) as [St Ge]. destruct (model_adm eig solve brent maxeval layers o E t P HE Ht L) as (La & Fn & Ei & Sl).
  assert (S1 : o_system (model_obj eig o E t) = "skiers"%string).
  { unfold model_obj, set_foundation_properties. destruct (recalc_system eig (with_weak o E (1 / 4) t)) as [-> _]. exact S. }
  assert (T1 : o_touchdown (model_obj eig o E t) = false).
  { unfold model_obj, set_foundation_properties. destruct (recalc_system eig (with_weak o E (1 / 4) t)) as [_ ->]. exact T. }
  destruct (skiers_run_all li ki ks (model_obj eig o E t) S1 T1) as (o' & Rn & SM & Ls).
  pose proof SM as (M1 & M2 & M3 & M4 & M5 & M6).
  assert (Rd : ready o').
  { unfold ready. rewrite M1, M2. split; [exact La|]. split; [exact Fn|]. eexists. split; [exact Ei|exact Ge]. }
  assert (Lks : List.length ks = List.length li) by (unfold ks; rewrite map_length; exact Lk).
  destruct (weights_mix _ _ _ _ Em0) as (j & Hj & W). rewrite Lk in Hj, W.
  set (m := fun w => set_nth (repeat 0 (List.length li - 1)) j w).
  assert (Lm : forall w, List.length (m w) = (List.length li - 1)%nat) by (intros w; exact (proj1 (set_nth_repeat _ _ w Hj))).
  assert (Kt : forall i, (i < List.length li)%nat -> nth i ks false = true).
  { intros i Hi. rewrite <- Lks in Hi. pose proof (nth_In ks false Hi) as I. unfold ks in I. apply in_map_iff in I. destruct I as (b & I & _). symmetry. exact I. }
  assert (A : forall w, exists C xq zq xb, assemble_and_solve eig solve o' false phi li (m w) ks = Ok C /\ bvp o' 0 phi li (m w) ks C /\
     List.length C = List.length li /\ Forall (fun C => List.length C = 6%nat) C /\
     (forall C', List.length C' = List.length li -> Forall (fun C => List.length C = 6%nat) C' -> bvp o' 0 phi li (m w) ks C' -> C' = C) /\
     rasterize_solution (o_par o') (o_eig o') (loads_of o' phi) C li ks 800 = Ok (xq, zq, xb) /\ List.length xb = List.length zq).
  { intros w.
    destruct (C67_well_posed eig solve o' false phi li (m w) ks KSkier 0 So Co Rd) as (Cs & ES & HB & LC & L6 & U).
    - rewrite M1. exact St.
    - exact N2.
    - rewrite M3, S1. intros [A|[A|[A|[A B]]]].
      + assert (H := A true). assert (I : In true ks) by (rewrite <- (Kt 0%nat ltac:(lia)); apply nth_In; lia). specialize (H I). discriminate.
      + congruence.
      + apply A. rewrite Lm. lia.
      + rewrite (Kt 0%nat ltac:(lia)), PBvp3.last_nth, Lks, (Kt (List.length li - 1)%nat ltac:(lia)) in B. destruct B; discriminate.
    - exact Pr.
    - rewrite M3, S1. reflexivity.
    - discriminate.
    - discriminate.
    - discriminate.
    - destruct (C38_accepted (o_par o') (o_eig o') (loads_of o' phi) Cs li ks 800 LC Lks) as [[[xq zq] xb] ER].
      + destruct Pr as [_ (i & I1 & I2 & I3)]. exists (nth i li 0). split; [apply nth_In; exact I1|lra].
      + intros b l C k Hs _ x. rewrite six_zh by (apply ready_six; exact Rd).
        assert (In C Cs).
        { assert (Q : forall x0 s b l0 d, seg_at (A := list R * bool) x0 s b l0 d -> In d (map snd s)).
          { clear. intros x0 s b l0 d H. induction H; simpl; auto. }
          pose proof (Q _ _ _ _ _ Hs) as I. apply in_map_iff in I. destruct I as ([l1 d1] & E1 & I1). simpl in E1. subst d1.
          apply in_combine_r in I1. apply in_combine_l in I1. exact I1. }
        symmetry. exact (proj1 (Forall_forall _ _) L6 C H).
      + assert (LZ : List.length xb = List.length zq).
        { pose proof (fun h => C38_grid _ _ _ _ _ _ _ _ _ _ h ER) as G0. destruct (G0 ltac:(apply Nat.leb_le; reflexivity)) as (_ & _ & _ & _ & _ & Q & B). congruence. }
        exists Cs, xq, zq, xb. auto 10. }
  destruct (A 0) as (C0 & x0 & z0 & b0 & A01 & A02 & A03 & A04 & A05 & A06 & A07).
  destruct (A 1) as (C1 & x1 & z1 & b1 & A11 & A12 & A13 & A14 & A15 & A16 & A17).
  assert (F2 : Forall2 (fun a b : list R => List.length a = List.length b) C0 C1).
  { assert (LL : List.length C0 = List.length C1) by congruence. clear - A04 A14 LL. revert C1 A14 LL. induction A04 as [|c C0 H F IH]; intros [|d C1] F1 LL; try discriminate; constructor.
    - inversion F1; congruence.
    - inversion F1; subst. apply IH; [assumption|simpl in LL; lia]. }
  exists o', j, C0, C1, z0, z1. split; [exact Rd|]. split; [rewrite M1; exact St|]. split; [rewrite M3; exact S1|]. split; [exists o; split; [exact L|split; [exact SM|exact Ls]]|]. split; [exact Hj|]. cbv zeta. fold m.
  change (set_nth (repeat 0 (List.length li - 1)) j 0) with (m 0). change (set_nth (repeat 0 (List.length li - 1)) j 1) with (m 1).
  split; [exact A02|]. split; [exact A12|]. split; [exact A03|]. split; [exact A13|]. split; [exact A04|]. split; [exact A14|].
  destruct (raster_mix (o_par o') (o_eig o') (loads_of o' phi) 0 C0 C1 li ks 800 _ _ _ _ _ _ (proj1 Rd) (proj1 (proj2 Rd)) A03 A13 F2 A06 A16) as (_ & Lz & Eb & Ex).
  split; [exists x0, b0; subst; auto|].
  split; [exact Lz|]. intros w. rewrite Lk. change (set_nth (repeat 0 (List.length li - 1)) j w) with (m w). split; [apply W|].
  destruct (A w) as (C & xq & zq & xb & Aw1 & Aw2 & Aw3 & Aw4 & Aw5 & Aw6 & Aw7).
  assert (EC : mixes w C0 C1 = C).
  { destruct (mixes_six w _ C0 C1 A03 A13 A04 A14) as [X1 X2]. apply Aw5; [exact X1|exact X2|].
    apply (bvp_mix o' phi li ks (m 0) (m 1) (m w) C0 C1 w); try assumption; [rewrite M3, S1; reflexivity|lia|].
    intros i. unfold m. destruct (set_nth_repeat _ _ 0 Hj) as (_ & Q1 & Q2). destruct (set_nth_repeat _ _ 1 Hj) as (_ & Q3 & Q4). destruct (set_nth_repeat _ _ w Hj) as (_ & Q5 & Q6).
    destruct (Nat.eq_dec i j) as [->|Nij]; [rewrite Q1, Q3, Q5; ring|rewrite Q2, Q4, Q6 by exact Nij; ring]. }
  destruct (raster_mix (o_par o') (o_eig o') (loads_of o' phi) w C0 C1 li ks 800 _ _ _ _ _ _ (proj1 Rd) (proj1 (proj2 Rd)) A03 A13 F2 A06 A16) as (Rm & _).
  rewrite EC, Aw6 in Rm. apply Ok_inj in Rm. injection Rm as _ Ez _.
  destruct (C52_accepted o' "kPa" 1000 xb zq false ltac:(constructor) Aw7) as [(xa & s1 & E1) (xc & s2 & E2)].
  assert (Px : present_all xb).
  { refine (raster_present _ _ _ _ _ _ _ _ _ _ _ Aw6). unfold ks. clear. induction ki; simpl; constructor; auto. }
  eexists. split; [|split; [|split; [|split; [|split]]]].
  - unfold create_skier_object. rewrite L. cbn [bind]. fold (model_obj eig o E t). rewrite Lk, W. fold (m w). cbn [bind]. rewrite Rn. cbv zeta. cbn [s_li s_mi s_ki s_k0].
    rewrite Aw1. cbn [bind]. rewrite Aw6. cbn [bind]. rewrite E1. cbn [bind]. rewrite E2. cbn [bind]. reflexivity.
  - cbn [k_C]. symmetry. exact EC.
  - reflexivity.
  - reflexivity.
  - cbn [k_sig]. unfold get_weaklayer_normalstress in E2. rewrite (stress_values _ (fun z => 1000 * f_sig (o_par o') z) _ _ _ (kpa_sig (o_par o')) Px E2), Ez. reflexivity.
  - cbn [k_tau]. unfold get_weaklayer_shearstress in E1. rewrite (stress_values _ (fun z => 1000 * f_tau (o_par o') z) _ _ _ (kpa_tau (o_par o')) Px E1), Ez. reflexivity.
Qed.
End S.
