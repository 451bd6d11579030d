(** Proofs for C02, C04-C10 on top of the closed forms. *)
From Coquelicot Require Import Coquelicot.
Require Import Verif.Py Verif.MTools Verif.MEigen Verif.SSlab Verif.PSlab
  Verif.PCog Verif.SAdm Verif.PLam Verif.SWedge Verif.PWedge.

Local Opaque calc_center_of_gravity calc_laminate_stiffness_matrix.

Lemma Ok_inj {A} (a b : A) : Ok a = Ok b -> a = b.
Proof. congruence. Qed.

(** * C06, C07 *)
Lemma pint_W0_pos H z0 ls :
  pos_layers ls -> ls <> [] -> z0 + thickness ls = H / 2 ->
  0 < pint (W0 H) z0 ls.
Proof.
  revert z0; induction ls as [|[c h] r IH]; intros z0 Hp Hn Hz; [congruence|].
  inversion Hp as [|x y [Hc Hh] Hr]; subst; simpl in Hc, Hh, Hz |- *.
  pose proof (thickness_nonneg r (pos_layers_thick r Hr)) as Ht.
  assert (0 < c * (W0 H (z0 + h) - W0 H z0)).
  { unfold W0.
    replace (H / 2 * (z0 + h) - (z0 + h) ^ 2 / 2 - (H / 2 * z0 - z0 ^ 2 / 2))
      with (h * (H / 2 - z0 - h / 2)) by field.
    apply Rmult_lt_0_compat; [lra|]. apply Rmult_lt_0_compat; lra. }
  destruct r as [|l r'].
  - simpl; lra.
  - specialize (IH (z0 + h) Hr ltac:(discriminate) ltac:(lra)). lra.
Qed.

Lemma rl_pos slab : Forall (fun q => 0 < p_rho q /\ 0 < p_h q) slab ->
  pos_layers (rl slab).
Proof.
  intros H; unfold rl. apply Forall_map. eapply Forall_impl; [|exact H].
  intros q [A B]; simpl; split; [lra|exact B].
Qed.

Lemma wedge_correct slab phi :
  Forall (fun q => 0 < p_rho q /\ 0 < p_h q) slab -> slab <> [] ->
  phi <> 0 ->
  let W := wedge_integral (rl slab) (deg2rad phi) in
  exists xs, calc_vertical_bc_center_of_gravity slab phi
  = (xs, W (fun _ z => z) / W (fun _ _ => 1), W (fun _ _ => 1)).
Proof.
  intros Hp Hn Hphi W.
  assert (Hd : deg2rad phi <> 0).
  { unfold deg2rad. pose proof PI_RGT_0. apply Rmult_integral_contrapositive; split; lra. }
  assert (Ht : Forall (fun q => 0 < p_h q) slab)
    by (eapply Forall_impl; [|exact Hp]; intros q [_ ?]; assumption).
  assert (Hr : pos_thick (rl slab)) by (apply pos_layers_thick, rl_pos; exact Hp).
  unfold W. rewrite wedge_mass, wedge_zmom by exact Hr.
  rewrite !thickness_rl, (wedge_closed slab phi Ht Hd). cbv zeta.
  eexists; reflexivity.
Qed.

Lemma tan_pos_quarter a : 0 < a < PI / 2 -> 0 < tan a.
Proof. intros; apply tan_gt_0; lra. Qed.

Lemma wedge_mass_pos slab phi :
  Forall (fun q => 0 < p_rho q /\ 0 < p_h q) slab -> slab <> [] ->
  0 < phi < 90 ->
  0 < snd (calc_vertical_bc_center_of_gravity slab phi).
Proof.
  intros Hp Hn Hphi.
  pose proof PI_RGT_0 as Hpi.
  assert (Hd : 0 < deg2rad phi < PI / 2) by (unfold deg2rad; split; nra).
  assert (Ht : Forall (fun q => 0 < p_h q) slab)
    by (eapply Forall_impl; [|exact Hp]; intros q [_ ?]; assumption).
  rewrite (wedge_closed slab phi Ht) by lra. cbv zeta. simpl.
  apply Rmult_lt_0_compat; [apply tan_pos_quarter; exact Hd|].
  apply pint_W0_pos; [apply rl_pos; exact Hp|destruct slab; [congruence|discriminate]|].
  rewrite thickness_rl. field.
Qed.

Lemma wedge_flat slab : calc_vertical_bc_center_of_gravity slab 0 = (0, 0, 0).
Proof.
  unfold calc_vertical_bc_center_of_gravity.
  destruct (Req_EM_T (deg2rad 0) 0) as [_|E]; [reflexivity|].
  exfalso; apply E; unfold deg2rad; ring.
Qed.

(** tan(phi/2) against tan(phi)/2. *)
Lemma tan_half a : - PI / 2 < a < PI / 2 ->
  tan (a / 2) = tan a / 2 * (1 - tan (a / 2) ^ 2).
Proof.
  intros Ha.
  assert (C1 : 0 < cos a) by (apply cos_gt_0; lra).
  assert (C2 : 0 < cos (a / 2)) by (apply cos_gt_0; lra).
  assert (Ea : a = 2 * (a / 2)) by field.
  set (b := a / 2) in *. rewrite Ea in C1 |- *.
  unfold tan. rewrite sin_2a. rewrite cos_2a in *.
  assert (cos b * cos b - sin b * sin b <> 0) by lra.
  field. split; lra.
Qed.

Lemma wedge_xs_ratio slab phi :
  Forall (fun q => 0 < p_rho q /\ 0 < p_h q) slab -> slab <> [] ->
  -90 < phi < 90 -> phi <> 0 ->
  let W := wedge_integral (rl slab) (deg2rad phi) in
  fst (fst (calc_vertical_bc_center_of_gravity slab phi))
  = (1 - tan (deg2rad phi / 2) ^ 2) * (W (fun x _ => x) / W (fun _ _ => 1))
  /\ W (fun x _ => x) / W (fun _ _ => 1) <> 0.
Proof.
  intros Hp Hn Hphi Hnz W.
  pose proof PI_RGT_0 as Hpi.
  assert (Hd : - PI / 2 < deg2rad phi < PI / 2) by (unfold deg2rad; split; nra).
  assert (Hd0 : deg2rad phi <> 0).
  { unfold deg2rad. apply Rmult_integral_contrapositive; split; lra. }
  assert (Ht : Forall (fun q => 0 < p_h q) slab)
    by (eapply Forall_impl; [|exact Hp]; intros q [_ ?]; assumption).
  assert (Hr : pos_layers (rl slab)) by (apply rl_pos; exact Hp).
  assert (Hrt : pos_thick (rl slab)) by (apply pos_layers_thick; exact Hr).
  assert (Hrn : rl slab <> []) by (destruct slab; [congruence|discriminate]).
  assert (HT : tan (deg2rad phi) <> 0).
  { destruct (Rlt_dec 0 (deg2rad phi)).
    - pose proof (tan_gt_0 (deg2rad phi)); lra.
    - pose proof (tan_lt_0 (deg2rad phi)); lra. }
  unfold W. rewrite wedge_mass, wedge_xmom by exact Hrt.
  rewrite (wedge_closed slab phi Ht Hd0). cbv zeta. cbn [fst snd].
  rewrite !thickness_rl, pint_W2.
  set (H := slab_h slab). set (T := tan (deg2rad phi)) in *.
  assert (E0 : - H / 2 + thickness (rl slab) = H / 2)
    by (unfold H; rewrite thickness_rl; field).
  pose proof (pint_W0_pos H (- H / 2) (rl slab) Hr Hrn E0) as P0.
  rewrite (tan_half (deg2rad phi)) at 1 by exact Hd. fold T.
  clearbody T. split.
  - field. split; [lra|exact HT].
  - rewrite <- pint_W2.
    assert (P2 : 0 < pint (W2 H) (- H / 2) (rl slab)).
    { clear - Hr Hrn E0. revert E0. generalize (- H / 2).
      induction (rl slab) as [|[c h] r IH]; intros z0 E0; [congruence|].
      inversion Hr as [|x y [Hc Hh] Hr']; subst; simpl in Hc, Hh, E0 |- *.
      pose proof (thickness_nonneg r (pos_layers_thick r Hr')) as Htn.
      assert (0 < c * (W2 H (z0 + h) - W2 H z0)).
      { apply Rmult_lt_0_compat; [lra|]. unfold W2.
        assert (0 <= H / 2 - (z0 + h)) by lra.
        set (y := H / 2 - (z0 + h)) in *.
        replace (H / 2 - z0) with (y + h) by (unfold y; ring).
        assert (0 <= y * y) by nra. assert (0 < h * h) by nra.
        assert (0 <= y * y * h) by nra. assert (0 <= y * h * h) by nra.
        assert (0 < h * h * h) by nra. nra. }
      destruct r as [|l r'].
      - simpl; lra.
      - specialize (IH Hr' ltac:(discriminate) (z0 + h) ltac:(lra)). lra. }
    replace (T ^ 2 * pint (W2 H) (- H / 2) (rl slab) / (T * pint (W0 H) (- H / 2) (rl slab)))
      with (T * (pint (W2 H) (- H / 2) (rl slab) / pint (W0 H) (- H / 2) (rl slab)))
      by (field; split; [lra|exact HT]).
    apply Rmult_integral_contrapositive_currified; [exact HT|].
    apply Rgt_not_eq, Rdiv_lt_0_compat; assumption.
Qed.

(** * C02 *)
Lemma pint_split F z0 l1 c a b l2 :
  pint F z0 (l1 ++ (c, a + b) :: l2) = pint F z0 (l1 ++ (c, a) :: (c, b) :: l2).
Proof.
  rewrite !pint_app; simpl.
  replace (z0 + thickness l1 + (a + b)) with (z0 + thickness l1 + a + b) by ring. ring.
Qed.
Lemma thickness_split l1 (c a b : R) l2 :
  thickness (l1 ++ (c, a + b) :: l2) = thickness (l1 ++ (c, a) :: (c, b) :: l2).
Proof. rewrite !thickness_app; simpl; ring. Qed.

Lemma cog_split l1 (c a b : R) l2 :
  calc_center_of_gravity (l1 ++ (c, a + b) :: l2)
  = calc_center_of_gravity (l1 ++ (c, a) :: (c, b) :: l2).
Proof. rewrite !cog_closed, !pint_split, !thickness_split. reflexivity. Qed.

Lemma ps_user layers C0 C1 nu :
  ps (user_slab layers C0 C1 nu)
  = map (fun l => (bergfeld (fst l) 917 C0 C1 / (1 - nu ^ 2), snd l)) layers.
Proof. unfold ps, user_slab. rewrite map_map. reflexivity. Qed.
Lemma sh_user layers C0 C1 nu :
  sh (user_slab layers C0 C1 nu)
  = map (fun l => (bergfeld (fst l) 917 C0 C1 / (2 * (1 + nu)), snd l)) layers.
Proof. unfold sh, user_slab. rewrite map_map. reflexivity. Qed.

Lemma lam_split l1 c a b l2 C0 C1 nu h k :
  calc_laminate_stiffness_matrix (user_slab (l1 ++ (c, a + b) :: l2) C0 C1 nu) h k
  = calc_laminate_stiffness_matrix (user_slab (l1 ++ (c, a) :: (c, b) :: l2) C0 C1 nu) h k.
Proof.
  rewrite !laminate_closed. cbv zeta. rewrite !ps_user, !sh_user, !map_app.
  cbn [map fst snd]. rewrite !pint_split. reflexivity.
Qed.

Definition areal_weight (g : R) (layers : list (R * R)) : R :=
  rsum (map (fun l => fst l * (1 / 1000000000000) * g * snd l) layers).

Lemma weight_user g layers C0 C1 nu phi :
  get_weight_load g (user_slab layers C0 C1 nu) phi
  = (areal_weight g layers * cos (deg2rad phi),
     - areal_weight g layers * sin (deg2rad phi)).
Proof.
  unfold get_weight_load, areal_weight, user_slab. rewrite map_map. reflexivity.
Qed.

Lemma areal_split g l1 (c a b : R) l2 :
  areal_weight g (l1 ++ (c, a + b) :: l2) = areal_weight g (l1 ++ (c, a) :: (c, b) :: l2).
Proof.
  unfold areal_weight. rewrite !map_app, !rsum_app. simpl. ring.
Qed.

Section O.
Variable eig : mat6 -> list eigpair.

Lemma fundamental_misc o :
  let o' := o_calc_fundamental_system eig o in
  o_g o' = o_g o /\ o_p o' = o_p o /\ o_slab o' = o_slab o /\ o_lski o' = o_lski o
  /\ o_system o' = o_system o /\ o_k o' = o_k o /\ o_phi o' = o_phi o.
Proof.
  destruct o as [g lski tol sys wE wnu p0 slab k phi q e td a L tc ra mo tdl].
  cbv zeta. unfold o_calc_fundamental_system, o_calc_laminate, o_calc_foundation_stiffness.
  simpl.
  destruct (calc_foundation_stiffness wE wnu (wt q)) as [n t] eqn:EF. simpl.
  destruct (calc_laminate_stiffness_matrix slab (hh q) k) as [[[[A B] D] Sk] K] eqn:EL.
  simpl. repeat split.
Qed.

Lemma split_invariant o l1 rho a b l2 C0 C1 nu o1 o2 :
  set_beam_properties eig o (LList (l1 ++ (rho, a + b) :: l2)) C0 C1 nu true = Ok o1 ->
  set_beam_properties eig o (LList (l1 ++ (rho, a) :: (rho, b) :: l2)) C0 C1 nu true = Ok o2 ->
  o_par o1 = o_par o2 /\ o_eig o1 = o_eig o2 /\
  forall phi, loads_of o1 phi = loads_of o2 phi.
Proof.
  rewrite !set_beam_list by (destruct l1; discriminate).
  intros E1 E2. apply Ok_inj in E1. apply Ok_inj in E2.
  subst o1 o2.
  unfold layer in *. rewrite <- (cog_split l1 rho a b l2).
  set (u := with_slab o _ _ _ (user_slab (l1 ++ (rho, a + b) :: l2) C0 C1 nu)).
  set (v := with_slab o _ _ _ (user_slab (l1 ++ (rho, a) :: (rho, b) :: l2) C0 C1 nu)).
  destruct (fundamental_par eig u) as (Pu & Eu & _).
  destruct (fundamental_par eig v) as (Pv & Ev & _).
  destruct (fundamental_misc u) as (Gu & qu & Su & _).
  destruct (fundamental_misc v) as (Gv & qv & Sv & _).
  cbv zeta in *.
  assert (EP : o_par (o_calc_fundamental_system eig u)
               = o_par (o_calc_fundamental_system eig v)).
  { rewrite Pu, Pv. subst u v; simpl. rewrite lam_split. reflexivity. }
  split; [exact EP|split].
  - rewrite Eu, Ev, EP. reflexivity.
  - intros phi. unfold loads_of. rewrite Gu, Gv, qu, qv, Su, Sv.
    subst u v; cbn [with_slab o_slab o_g o_p]. rewrite !weight_user, areal_split. reflexivity.
Qed.

(** * C04 object level *)
Lemma bergfeld_pos rho C0 C1 : 0 < C0 -> 0 < bergfeld rho 917 C0 C1.
Proof.
  intros H. unfold bergfeld. apply Rmult_lt_0_compat; [lra|].
  unfold Rpower. apply exp_pos.
Qed.

Lemma user_slab_good layers C0 C1 nu :
  pos_layers layers -> 0 < C0 -> -1 < nu < 1 ->
  Forall good_ply (user_slab layers C0 C1 nu).
Proof.
  intros Hp HC Hnu. unfold user_slab. apply Forall_map. eapply Forall_impl; [|exact Hp].
  intros l [Hr Hh]. unfold good_ply; simpl.
  pose proof (bergfeld_pos (fst l) C0 C1 HC).
  repeat split; try lra.
  apply Rdiv_lt_0_compat; lra.
Qed.

Lemma set_beam_adm o layers C0 C1 nu o' :
  pos_layers layers -> layers <> [] -> 0 < C0 -> -1 < nu < 1 ->
  set_beam_properties eig o (LList layers) C0 C1 nu true = Ok o' ->
  lam_ok (o_par o') /\ 0 < hh (o_par o') /\
  - hh (o_par o') / 2 < zs (o_par o') < hh (o_par o') / 2.
Proof.
  intros Hp Hn HC Hnu. rewrite set_beam_list by exact Hn.
  intros E; apply Ok_inj in E; subst o'. cbv beta iota zeta.
  set (u := with_slab o _ _ _ _).
  destruct (fundamental_par eig u) as (Pu & _ & _). cbv zeta in Pu. rewrite Pu.
  unfold lam_ok; simpl.
  pose proof (user_slab_good layers C0 C1 nu Hp HC Hnu) as Hg.
  assert (Hsn : user_slab layers C0 C1 nu <> []) by (destruct layers; [congruence|discriminate]).
  pose proof (laminate_pos_def (user_slab layers C0 C1 nu)
                (fst (calc_center_of_gravity layers)) (5 / 6) Hg Hsn ltac:(lra)) as L.
  rewrite laminate_closed in L |- *. cbv zeta in L |- *. simpl in L |- *.
  pose proof (cog_inside layers Hp Hn) as Hin.
  pose proof (thickness_pos layers Hn (pos_layers_thick _ Hp)) as Hth.
  assert (EH : fst (calc_center_of_gravity layers) = thickness layers)
    by (rewrite cog_closed; reflexivity).
  rewrite EH in *.
  intuition.
Qed.

Lemma foundation_pos E nu t : 0 < E -> -1 < nu < 1 -> 0 < t ->
  let n := fst (calc_foundation_stiffness E nu t) in
  let s := snd (calc_foundation_stiffness E nu t) in
  0 < n /\ 0 < s /\ n / s = 2 / (1 - nu).
Proof.
  intros HE Hn Ht. unfold calc_foundation_stiffness; cbn [fst snd].
  assert (0 < 1 - nu ^ 2) by nra.
  split; [|split].
  - repeat apply Rdiv_lt_0_compat; lra.
  - repeat apply Rdiv_lt_0_compat; lra.
  - field. repeat split; try lra; nra.
Qed.

Lemma set_foundation_adm o t E nu o' :
  0 < t -> 0 < E -> -1 < nu < 1 ->
  set_foundation_properties eig o t E nu true = o' ->
  fnd_ok (o_par o').
Proof.
  intros Ht HE Hnu Eo. subst o'. unfold set_foundation_properties.
  destruct (fundamental_par eig (with_weak o E nu t)) as (P & _ & _).
  cbv zeta in P. rewrite P. unfold fnd_ok; simpl.
  pose proof (foundation_pos E nu t HE Hnu Ht) as F. simpl in F. intuition.
Qed.

Lemma Layered_adm system layers touchdown o :
  pos_layers layers -> Layered eig system (LList layers) touchdown = Ok o ->
  adm (o_par o) /\ Forall good_ply (o_slab o) /\ o_slab o <> [].
Proof.
  intros Hp. unfold Layered.
  set (ly := match layers with [] => [(240, 200)] | _ => layers end).
  assert (Ely : match layers with [] => LList [(240, 200)] | _ => LList layers end = LList ly)
    by (unfold ly; destruct layers; reflexivity).
  assert (Hpl : pos_layers ly).
  { unfold ly; destruct layers; [|exact Hp]. repeat constructor; simpl; lra. }
  assert (Hnl : ly <> []) by (unfold ly; destruct layers; discriminate).
  cbn beta iota. 
  replace (match LList layers with
           | LStr "" => LList [(240, 200)]
           | LStr (String _ _) => LList layers
           | LList [] => LList [(240, 200)]
           | LList (_ :: _) => LList layers end) with (LList ly)
    by (simpl; symmetry; exact Ely).
  rewrite set_beam_list by exact Hnl. cbn [bind].
  intros E; apply Ok_inj in E; subst o.
  set (u := set_foundation_properties _ _ _ _ _ _).
  destruct (fundamental_par eig u) as (P & _ & S). cbv zeta in P. rewrite P, S.
  subst u; simpl.
  pose proof (user_slab_good ly (65 / 10) (44 / 10) (1 / 4) Hpl ltac:(lra) ltac:(lra)) as Hg.
  assert (Hsn : user_slab ly (65 / 10) (44 / 10) (1 / 4) <> [])
    by (destruct ly; [congruence|discriminate]).
  split; [|split; assumption].
  pose proof (laminate_pos_def _ (fst (calc_center_of_gravity ly)) (5 / 6) Hg Hsn ltac:(lra)) as L.
  pose proof (foundation_pos (1 / 4) (1 / 4) 30 ltac:(lra) ltac:(lra) ltac:(lra)) as F.
  simpl in F.
  unfold adm, lam_ok, fnd_ok; simpl.
  rewrite laminate_closed in L |- *. cbv zeta in L |- *. simpl in L |- *.
  assert (EH : fst (calc_center_of_gravity ly) = thickness ly)
    by (rewrite cog_closed; reflexivity).
  rewrite EH in *.
  pose proof (thickness_pos ly Hnl (pos_layers_thick _ Hpl)) as Hth.
  intuition lra.
Qed.

(** * C05 *)
Lemma pint_homog F c z0 ls : Forall (fun l => fst l = c) ls ->
  pint F z0 ls = c * (F (z0 + thickness ls) - F z0).
Proof.
  intros H; revert z0; induction H as [|[d h] r Hd Hr IH]; intros z0; simpl.
  - replace (z0 + 0) with z0 by ring; ring.
  - simpl in Hd; subst d. rewrite IH.
    replace (z0 + h + thickness r) with (z0 + (h + thickness r)) by ring. ring.
Qed.

Lemma Forall_const_map (rho : R) (f : R -> R) layers :
  Forall (fun l : R * R => fst l = rho) layers ->
  Forall (fun l : R * R => fst l = f rho) (map (fun l => (f (fst l), snd l)) layers).
Proof.
  intros H; apply Forall_map. eapply Forall_impl; [|exact H].
  intros a Ha; simpl; congruence.
Qed.

Lemma thickness_map f layers :
  thickness (map (fun l : R * R => (f (fst l), snd l)) layers) = thickness layers.
Proof. induction layers as [|[c h] r IH]; simpl; congruence. Qed.

Lemma homogeneous_slab o layers rho C0 C1 nu o' :
  layers <> [] -> Forall (fun l => fst l = rho) layers -> pos_layers layers ->
  -1 < nu < 1 ->
  set_beam_properties eig o (LList layers) C0 C1 nu true = Ok o' ->
  let p := o_par o' in
  let E := bergfeld rho 917 C0 C1 in
  let h := thickness layers in
  hh p = h /\ zs p = 0 /\ B11 p = 0 /\ A11 p = E * h / (1 - nu ^ 2) /\
  D11 p = E * h ^ 3 / (12 * (1 - nu ^ 2)) /\
  kA55 p = 5 / 6 * (E / (2 * (1 + nu))) * h.
Proof.
  intros Hn Hh Hp Hnu. rewrite set_beam_list by exact Hn.
  intros Eo; apply Ok_inj in Eo; subst o'. cbv beta iota zeta.
  set (u := with_slab o _ _ _ _).
  destruct (fundamental_par eig u) as (Pu & _ & _). cbv zeta in Pu |- *. rewrite Pu.
  subst u; simpl.
  rewrite laminate_closed. cbv zeta; simpl.
  rewrite ps_user, sh_user.
  rewrite !(pint_homog _ _ _ _ (Forall_const_map rho (fun c => bergfeld c 917 C0 C1 / (1 - nu ^ 2)) layers Hh)).
  rewrite !(pint_homog _ _ _ _ (Forall_const_map rho (fun c => bergfeld c 917 C0 C1 / (2 * (1 + nu))) layers Hh)).
  rewrite !(thickness_map (fun c => bergfeld c 917 C0 C1 / (1 - nu ^ 2))),
    !(thickness_map (fun c => bergfeld c 917 C0 C1 / (2 * (1 + nu)))).
  rewrite cog_closed; simpl.
  rewrite !(pint_homog _ _ _ _ Hh).
  set (h := thickness layers). unfold F0, F1, F2.
  split; [reflexivity|]. split.
  { replace ((- h / 2 + h) ^ 2 / 2 - (- h / 2) ^ 2 / 2) with 0 by field.
    unfold Rdiv; ring. }
  split.
  { replace ((- h / 2 + h) ^ 2 / 2 - (- h / 2) ^ 2 / 2) with 0 by field. ring. }
  assert (1 - nu ^ 2 <> 0) by nra.
  split; [field; nra|]. split; field; repeat split; try lra; nra.
Qed.

Lemma ps_rev slab : ps (rev slab) = rev (ps slab).
Proof. unfold ps. apply map_rev. Qed.
Lemma sh_rev slab : sh (rev slab) = rev (sh slab).
Proof. unfold sh. apply map_rev. Qed.
Lemma user_slab_rev layers C0 C1 nu :
  user_slab (rev layers) C0 C1 nu = rev (user_slab layers C0 C1 nu).
Proof. unfold user_slab. apply map_rev. Qed.

Lemma quint_eq (a b c d e a' b' c' d' e' : R) :
  a = a' -> b = b' -> c = c' -> d = d' -> e = e' -> (a, b, c, d, e) = (a', b', c', d', e').
Proof. congruence. Qed.

Lemma lam_rev slab k :
  let h := slab_h slab in
  let '(A, B, D, Sk, K) := calc_laminate_stiffness_matrix slab h k in
  calc_laminate_stiffness_matrix (rev slab) h k = (A, - B, D, Sk, K).
Proof.
  cbv zeta. rewrite !laminate_closed. cbv zeta.
  rewrite ps_rev, sh_rev.
  rewrite (pint_F0_rev _ (- slab_h slab / 2)), (pint_F0_rev _ (- slab_h slab / 2)).
  rewrite (pint_rev_odd F1 1), (pint_rev_odd F2 (-1)).
  2: ring. 2: intros; unfold F2; field. 2: ring. 2: intros; unfold F1; field.
  rewrite !thickness_ps.
  replace (- (- slab_h slab / 2) - slab_h slab) with (- slab_h slab / 2) by field.
  apply quint_eq; ring.
Qed.

Lemma reversed_slab o layers C0 C1 nu o1 o2 :
  layers <> [] -> pos_layers layers ->
  set_beam_properties eig o (LList layers) C0 C1 nu true = Ok o1 ->
  set_beam_properties eig o (LList (rev layers)) C0 C1 nu true = Ok o2 ->
  let p := o_par o1 in let q := o_par o2 in
  hh q = hh p /\ zs q = - zs p /\ A11 q = A11 p /\ B11 q = - B11 p /\
  D11 q = D11 p /\ kA55 q = kA55 p.
Proof.
  intros Hn Hp.
  assert (Hr : rev layers <> []).
  { intros E; apply Hn. rewrite <- (rev_involutive layers), E; reflexivity. }
  rewrite !set_beam_list by assumption.
  intros E1 E2. apply Ok_inj in E1. apply Ok_inj in E2. subst o1 o2.
  cbv beta iota zeta.
  set (u := with_slab o (5 / 6) _ _ (user_slab layers _ _ _)).
  set (v := with_slab o (5 / 6) _ _ (user_slab (rev layers) _ _ _)).
  destruct (fundamental_par eig u) as (Pu & _ & _). cbv zeta in Pu.
  destruct (fundamental_par eig v) as (Pv & _ & _). cbv zeta in Pv.
  rewrite Pu, Pv. subst u v; cbn [with_slab o_par o_slab o_k hh zs A11 B11 D11 kA55].
  rewrite user_slab_rev, !(cog_rev layers Hp Hn). cbn [fst snd].
  pose proof (lam_rev (user_slab layers C0 C1 nu) (5 / 6)) as L. cbv zeta in L.
  rewrite user_slab_h in L.
  assert (EH : fst (calc_center_of_gravity layers) = thickness layers)
    by (rewrite cog_closed; reflexivity).
  rewrite EH.
  destruct (calc_laminate_stiffness_matrix (user_slab layers C0 C1 nu)
              (thickness layers) (5 / 6)) as [[[[A B] D] Sk] K].
  rewrite L. simpl. auto 10.
Qed.
End O.

(** * C08 *)
Lemma load_decomposition :
  (forall g slab phi,
     let q := rsum (map (fun p => p_rho p * (1 / 1000000000000) * g * p_h p) slab) in
     let '(n, t) := get_weight_load g slab phi in
     n ^ 2 + t ^ 2 = q ^ 2 /\
     get_weight_load g slab (- phi) = (n, - t) /\
     get_weight_load g slab 0 = (q, 0)) /\
  (forall p phi,
     let '(n, t) := get_surface_load p phi in
     n ^ 2 + t ^ 2 = p ^ 2 /\
     get_surface_load p (- phi) = (n, - t) /\ get_surface_load p 0 = (p, 0)) /\
  (forall g lski m phi,
     let F := m * g / 1000 / lski in
     let '(n, t) := get_skier_load g lski m phi in
     n ^ 2 + t ^ 2 = F ^ 2 /\
     get_skier_load g lski m (- phi) = (n, - t) /\
     get_skier_load g lski m 0 = (F, 0)).
Proof.
  assert (N : forall x, deg2rad (- x) = - deg2rad x) by (intros; unfold deg2rad; ring).
  assert (Z : deg2rad 0 = 0) by (unfold deg2rad; ring).
  assert (P : forall q a, (q * cos a) ^ 2 + (- q * sin a) ^ 2 = q ^ 2).
  { intros q a. pose proof (sin2_cos2 a) as SC. unfold Rsqr in SC.
    replace ((q * cos a) ^ 2 + (- q * sin a) ^ 2)
      with (q ^ 2 * (sin a * sin a + cos a * cos a)) by ring.
    rewrite SC; ring. }
  assert (M : forall q a, (q * cos (- a), - q * sin (- a)) = (q * cos a, - (- q * sin a))).
  { intros q a. rewrite cos_neg, sin_neg. f_equal; ring. }
  split; [|split].
  - intros g slab phi. cbv zeta. unfold get_weight_load. cbv zeta.
    split; [apply P|split]; [rewrite N; apply M|].
    rewrite Z, cos_0, sin_0. f_equal; ring.
  - intros p phi. unfold get_surface_load. cbv zeta.
    split; [apply P|split]; [rewrite N; apply M|].
    rewrite Z, cos_0, sin_0. f_equal; ring.
  - intros g lski m phi. cbv zeta. unfold get_skier_load. cbv zeta.
    replace (m * g / 1000 / lski) with (1 / 1000 * m * g / lski) by (unfold Rdiv; ring).
    split; [apply P|split]; [rewrite N; apply M|].
    rewrite Z, cos_0, sin_0. f_equal; ring.
Qed.

(** * C09 (second part) *)
Lemma foundation_thickness E nu t c : 0 < t -> 0 < c ->
  calc_foundation_stiffness E nu (c * t)
  = (fst (calc_foundation_stiffness E nu t) / c,
     snd (calc_foundation_stiffness E nu t) / c).
Proof.
  intros Ht Hc. unfold calc_foundation_stiffness; cbn [fst snd].
  unfold Rdiv. rewrite Rinv_mult. f_equal; ring.
Qed.

(** * C10 *)
Lemma Rpower_incr a b c : 0 < a < b -> 0 < c -> Rpower a c < Rpower b c.
Proof.
  intros [Ha Hab] Hc. unfold Rpower. apply exp_increasing.
  apply Rmult_lt_compat_l; [exact Hc|]. apply ln_increasing; lra.
Qed.

Lemma parametrisations :
  (forall r1 r2, 0 < r1 < r2 -> 0 < scapozza r1 < scapozza r2) /\
  (forall r1 r2 C0 C1, 0 < r1 < r2 -> 0 < C0 -> 0 < C1 ->
     0 < gerling r1 C0 C1 < gerling r2 C0 C1) /\
  (forall r1 r2 r0 C0 C1, 0 < r1 < r2 -> 0 < r0 -> 0 < C0 -> 0 < C1 ->
     0 < bergfeld r1 r0 C0 C1 < bergfeld r2 r0 C0 C1) /\
  (forall r1 r2 unit s1 s2, 0 < r1 < r2 ->
     tensile_strength_slab r1 unit = Ok s1 -> tensile_strength_slab r2 unit = Ok s2 ->
     0 < s1 < s2) /\
  (forall r a b, tensile_strength_slab r "kPa" = Ok a ->
     tensile_strength_slab r "MPa" = Ok b -> a = 1000 * b).
Proof.
  assert (PP : forall x y, 0 < Rpower x y) by (intros; apply exp_pos).
  assert (DV : forall a b c, 0 < a < b -> 0 < c -> 0 < a / c < b / c).
  { intros a b c [H1 H2] H3. split; [apply Rdiv_lt_0_compat; lra|].
    apply Rmult_lt_compat_r; [apply Rinv_0_lt_compat|]; lra. }
  repeat split.
  - intros. unfold scapozza. cbv zeta. apply Rmult_lt_0_compat; [lra|apply PP].
  - unfold scapozza. cbv zeta. apply Rmult_lt_compat_l; [lra|].
    apply Rpower_incr; [|lra]. apply DV; lra.
  - unfold gerling. apply Rmult_lt_0_compat; [lra|apply PP].
  - unfold gerling. apply Rmult_lt_compat_l; [lra|]. apply Rpower_incr; lra.
  - unfold bergfeld. apply Rmult_lt_0_compat; [lra|apply PP].
  - unfold bergfeld. apply Rmult_lt_compat_l; [lra|].
    apply Rpower_incr; [|lra]. apply DV; lra.
  - unfold tensile_strength_slab in *.
    destruct (String.eqb unit "kPa"); [|destruct (String.eqb unit "MPa"); [|discriminate]];
    apply Ok_inj in H0; subst s1; apply Rmult_lt_0_compat; try apply PP; lra.
  - unfold tensile_strength_slab in *.
    pose proof (Rpower_incr (r1 / 917) (r2 / 917) (244 / 100) ltac:(apply DV; lra) ltac:(lra)).
    destruct (String.eqb unit "kPa"); [|destruct (String.eqb unit "MPa"); [|discriminate]];
    apply Ok_inj in H0; apply Ok_inj in H1; subst s1 s2; apply Rmult_lt_compat_l; lra.
  - intros r a b Ha Hb. simpl in Ha, Hb. apply Ok_inj in Ha. apply Ok_inj in Hb.
    subst. lra.
Qed.
