(** Without a skier the weak layer carries the slab evenly (C120). *)
From Coquelicot Require Import Coquelicot.
Require Import Verif.Py Verif.MTools Verif.MEigen Verif.MFields Verif.SAdm Verif.SSlab Verif.MRaster Verif.MSolution Verif.MAnalysis Verif.SBeam Verif.SBvp Verif.SEig Verif.SRaster Verif.SMirror Verif.SSegment
  Verif.MEnvelope Verif.MCriterion Verif.SCritical Verif.PLam Verif.PSetup Verif.PRaster Verif.PCreate Verif.PCreate2 Verif.PropSegment Verif.PWork Verif.PBvp6 Verif.PMirror
  Verif.PropRaster Verif.PSegment Verif.PCritical Verif.PCritical2 Verif.PCritical5 Verif.PCritical6.
Open Scope R_scope.

Lemma layered_loads eig layers system td o phi : layers <> [] -> Layered eig system (LList layers) td = Ok o ->
  get_weight_load (o_g o) (o_slab o) phi = (weight_per_area layers * cos (deg2rad phi), - weight_per_area layers * sin (deg2rad phi)) /\ o_p o = 0.
Proof.
  intros N H. destruct layers as [|l ls]; [congruence|]. unfold Layered in H. rewrite set_beam_list in H by discriminate. cbn [bind] in H. apply Ok_inj in H. subst o.
  match goal with |- context [o_calc_fundamental_system eig ?x] => destruct (fundamental_misc eig x) as (-> & -> & -> & _) end.
  unfold set_foundation_properties, with_weak, with_slab. cbn [o_g o_slab o_p]. rewrite weight_user. split; reflexivity.
Qed.

Section S.
Variable eig : mat6 -> list eigpair.
Variable solve : nat -> matrix -> vector -> res vector.
Variable brent : R -> R -> list (R * R) -> bstep.
Variable maxeval : nat.
Variables (layers : list layer) (phi E t : R) (li : list R) (ki : list bool).
Hypothesis St : setting eig solve layers li ki E t.
Notation create := (fun w => create_skier_object eig solve brent maxeval (LList layers) w phi li ki false E t).
Lemma rest_samples k i a b : layers <> [] -> create 0 = Ok k -> sample k i a b ->
  a = - (1000 * (weight_per_area layers * cos (deg2rad phi))) /\ b = - (1000 * (weight_per_area layers * sin (deg2rad phi))).
Proof.
  intros NL HK HS. destruct (setting_weights _ _ _ _ _ _ _ 0 St) as [m Em].
  pose proof (setting_proper _ _ _ _ _ _ _ St) as Pr. destruct St as (P & HE & Ht & So & Co & G & N2 & Lk & Nn & Pos & _).
  destruct (create_affine eig solve brent maxeval layers phi li ki E t 0 m P HE Ht So Co G N2 Lk Pr Em) as (o & j & C0 & C1 & z0 & z1 & Rd & Sb & Sys & (o0 & Lo & SM & Ls) & Hj & H). cbv zeta in H.
  set (ks := map (fun _ => true) ki) in *.
  destruct H as (B0 & B1 & LC0 & LC1 & _ & _ & (x & bb & ER0 & ER1) & Lz & W).
  assert (Lks : List.length ks = List.length li) by (unfold ks; rewrite map_length; exact Lk).
  assert (Kt : forall i, (i < List.length li)%nat -> nth i ks false = true).
  { intros i' Hi. rewrite <- Lks in Hi. pose proof (nth_In ks false Hi) as I. unfold ks in I. apply in_map_iff in I. destruct I as (b' & I & _). symmetry. exact I. }
  assert (Kd : kind_of (o_system o) = Some KSkier) by (rewrite Sys; reflexivity).
  assert (Nl : li <> []) by (intros Z; rewrite Z in N2; simpl in N2; lia).
  set (Z := zp (o_par o) (loads_of o phi) 0 true).
  assert (U : bvp o 0 phi li (set_nth (repeat 0 (List.length li - 1)) j 0) ks (repeat zeros (List.length li))).
  { assert (Fz : forall q s, (q < List.length li)%nat -> field o phi (nth q li 0) (nth q ks false) (nth q (repeat zeros (List.length li)) []) s = Z).
    { intros q s Hq. rewrite Kt by exact Hq. rewrite (nth_indep _ [] zeros) by (rewrite repeat_length; exact Hq). rewrite nth_repeat. apply uniform_field. }
    split; [|split].
    - rewrite Fz by lia. unfold left_end. rewrite Kd. unfold far_field, Z. auto.
    - rewrite Fz by lia. unfold right_end. rewrite Kd. unfold far_field, Z. auto.
    - intros q Hq. rewrite !Fz by lia. unfold transition. rewrite Kd. cbv zeta.
      assert (E0 : nth q (set_nth (repeat 0 (List.length li - 1)) j 0) 0 = 0). { destruct (set_nth_repeat _ _ 0 Hj) as (_ & Q1 & Q2). destruct (Nat.eq_dec q j) as [->|?]; [exact Q1|apply Q2; assumption]. }
      rewrite E0. repeat split; try reflexivity; unfold Rdiv; ring. }
  assert (FF : forall q s, (q < List.length li)%nat -> 0 <= s <= nth q li 0 -> field o phi (nth q li 0) (nth q ks false) (nth q C0 []) s = Z).
  { intros q s Hq Hs. apply bvp_fbvp in B0; [|assumption|assumption]. apply bvp_fbvp in U; [|assumption|assumption].
    destruct Pr as [Hp (i0 & I1 & I2 & I3)]. destruct Rd as (Hl & Hf & _).
    pose proof (fbvp_unique o 0 phi (List.length li - 1) (fun i => nth i li 0) _ (fun i => nth i ks false) _ _ i0 Hl Hf Sb (Rle_refl 0) ltac:(intros; apply Hp; lia) ltac:(lia) I2 I3 B0 U q s ltac:(lia) Hs) as E1. cbv beta in E1. rewrite E1, Kt by exact Hq. rewrite (nth_indep _ [] zeros) by (rewrite repeat_length; exact Hq). rewrite nth_repeat. apply uniform_field. }
  assert (ZZ : forall v, In v z0 -> v = Z).
  { pose proof (C40_columns _ _ _ _ _ _ _ _ _ _ (proj1 (Nat.leb_le 1 800) eq_refl) ER0) as F2. clear - F2 FF Nn LC0 Lks. intros v Iv. induction F2 as [|x' v' x zq Hv F2 IH]; [destruct Iv|].
    destruct Iv as [->|Iv]; [|exact (IH Iv)]. destruct Hv as (b0 & l & C' & k & (SA & Nz & Ow) & ->).
    destruct (chain_index li Nn (combine C0 ks) 0 b0 l (C', k) ([], false) SA) as (q & Q & Eb & E_l & Ek). rewrite Rplus_0_l in Eb. subst b0 l.
    rewrite combine_nth in Ek by congruence. injection Ek as -> ->.
    assert (Pq : 0 <= nth q li 0) by (apply Nn; apply nth_In; exact Q). rewrite (Rabs_pos_eq _ Pq) in *. apply FF; [exact Q|]. destruct Ow as [Ow|[Ow _]]; lra. }
  destruct (W 0) as (_ & k' & K' & _ & _ & _ & S0 & T0). cbv beta in HK. rewrite K' in HK. apply Ok_inj in HK. subst k'.
  destruct HS as [HS HT]. rewrite S0 in HS. rewrite T0 in HT. rewrite nth_error_map in HS, HT. destruct (nth_error (map2 (zmix 0) z0 z1) i) as [v|] eqn:Ev; [|discriminate].
  cbn [option_map] in HS, HT. injection HS as <-. injection HT as <-.
  destruct (nth_error_map2 _ _ _ _ _ Ev) as (v0 & v1 & V0 & V1 & ->). rewrite (ZZ v0) by (eapply nth_error_In; exact V0).
  assert (Ez : forall v1, f_sig (o_par o) (zmix 0 Z v1) = f_sig (o_par o) Z /\ f_tau (o_par o) (zmix 0 Z v1) = f_tau (o_par o) Z).
  { intros y. unfold f_sig, f_tau, f_u, f_w, f_dw, f_psi, zmix, combo. cbn [z_w z_dw z_u z_psi]. unfold Rdiv. split; ring. }
  destruct (Ez v1) as [-> ->].
  destruct (layered_loads eig layers _ _ _ phi NL Lo) as [LD LP]. destruct SM as (M1 & M2 & M3 & M4 & M5 & M6).
  assert (LQ : loads_of o phi = mkLd (weight_per_area layers * cos (deg2rad phi)) (- weight_per_area layers * sin (deg2rad phi)) 0 0).
  { unfold loads_of. rewrite M4, M5, M6. unfold model_obj, set_foundation_properties. destruct (fundamental_misc eig (with_weak o0 E (1 / 4) t)) as (-> & -> & -> & _).
    change (o_g (with_weak o0 E (1 / 4) t)) with (o_g o0). change (o_slab (with_weak o0 E (1 / 4) t)) with (o_slab o0). change (o_p (with_weak o0 E (1 / 4) t)) with (o_p o0). rewrite LD, LP. unfold get_surface_load. f_equal; ring. }
  destruct Rd as (Hl & (Hn & Hk & Hw) & _). assert (kA55 (o_par o) <> 0) by (unfold lam_ok in Hl; decompose [and] Hl; lra).
  unfold Z, zp. rewrite LQ. unfold f_sig, f_tau, f_u, f_w, f_dw, f_psi. cbn [z_w z_dw z_u z_psi qn qt pn pt]. split; field; lra.
Qed.
End S.
