(** C54: a solved system in contact stage C with negative stored energy. *)
Require Import Verif.Py Verif.MTools Verif.MEigen Verif.MFields Verif.MRaster Verif.MSolution Verif.MAnalysis
  Verif.SAdm Verif.SBeam Verif.SBvp Verif.SEig Verif.SRaster Verif.SOutput Verif.SContact Verif.SMirror Verif.PSetup Verif.PBeam Verif.PBeam2 Verif.PBvp Verif.PWell Verif.PWell2 Verif.PBvp6
  Verif.PRaster Verif.PRaster2 Verif.PPotential Verif.PLinAlg Verif.PMirror Verif.PSub Verif.PContact3 Verif.PComplete Verif.PropComplete Verif.PropContact.

(** * Scaling of loads and constants *)
(** Loads [ld'] that give [q] times the field of [ld] when the constants are scaled by [q]. *)
Definition scales (p : params) (e : eigsys) (ld ld' : loads) (q : R) : Prop :=
  forall x C l k, zsol p e ld' x (map (Rmult q) C) l k = vscale q (zsol p e ld x C l k).
(** On level ground only the sum of weight and surface load matters. *)
Lemma level_scales p e a b a' b' q : lam_ok p -> fnd_ok p -> a' + b' = q * (a + b) -> scales p e (mkLd a 0 b 0) (mkLd a' 0 b' 0) q.
Proof.
  intros Hl Hf E x C l k.
  pose proof (zsol_combo p e (mkLd a 0 b 0) (mkLd a 0 b 0) x C C l k q 0 Hl Hf eq_refl) as H.
  replace (map2 (fun c d => q * c + 0 * d) C C) with (map (Rmult q) C) in H
    by (clear; induction C as [|c C IH]; [reflexivity|]; simpl; rewrite IH; f_equal; ring).
  replace (vscale q (zsol p e (mkLd a 0 b 0) x C l k)) with (combo q (zsol p e (mkLd a 0 b 0) x C l k) 0 (zsol p e (mkLd a 0 b 0) x C l k))
    by (apply vec6_ext; simpl; ring).
  rewrite <- H. unfold zsol. f_equal. cbn [qn qt pn pt]. rewrite !Rmult_0_r, !Rmult_0_l, !Rplus_0_r. unfold zp. cbn [qn qt pn pt].
  rewrite E. replace (q * a + q * b) with (q * (a + b)) by ring. reflexivity.
Qed.
Lemma mapM_scale {A} q (f g : A -> res vec6) l r : (forall a z, f a = Ok z -> g a = Ok (vscale q z)) -> mapM f l = Ok r -> mapM g l = Ok (map (vscale q) r).
Proof.
  intros H. revert r. induction l as [|a l IH]; intros r E; simpl in *; [apply Ok_inj in E; subst r; reflexivity|].
  destruct (f a) as [z|] eqn:Ef; [|discriminate]. cbn [bind] in *. destruct (mapM f l) as [s|] eqn:Em; [|discriminate]. cbn [bind] in *.
  apply Ok_inj in E. subst r. rewrite (H a z Ef), (IH s eq_refl). reflexivity.
Qed.
Lemma raster_zq_scale p e ld ld' q : scales p e ld ld' q -> forall C li ki nq r, raster_zq p e ld C li ki nq = Ok r ->
  raster_zq p e ld' (map (map (Rmult q)) C) li ki nq = Ok (map (vscale q) r).
Proof.
  intros Hq. induction C as [|c C IH]; intros li ki nq r E; [simpl in *; apply Ok_inj in E; subst r; reflexivity|].
  destruct li as [|l li]; [simpl in *; apply Ok_inj in E; subst r; reflexivity|].
  destruct ki as [|k ki]; [simpl in *; apply Ok_inj in E; subst r; reflexivity|].
  destruct nq as [|n nq]; [simpl in *; apply Ok_inj in E; subst r; reflexivity|].
  cbn [raster_zq map] in *. destruct (mapM _ _) as [zi|] eqn:E1 in E; [|discriminate]. cbn [bind] in E.
  destruct (raster_zq p e ld C li ki nq) as [s|] eqn:E2; [|discriminate]. cbn [bind] in E. apply Ok_inj in E. subst r.
  assert (Hs : forall a z, zsol_checked p e ld a c l k = Ok z -> zsol_checked p e ld' a (map (Rmult q) c) l k = Ok (vscale q z)).
  { intros a z H. unfold zsol_checked in *. rewrite map_length. destruct (Nat.eqb _ _); [|discriminate]. apply Ok_inj in H. subst z. rewrite Hq. reflexivity. }
  rewrite (mapM_scale q _ _ _ _ Hs E1), (IH _ _ _ _ E2). cbn [bind]. rewrite map_app. reflexivity.
Qed.
Lemma select_map {A B} (f : A -> B) m l : select m (map f l) = map f (select m l).
Proof. revert l. induction m as [|b m IH]; intros [|a l]; simpl; try reflexivity. destruct b; simpl; rewrite IH; reflexivity. Qed.
Lemma raster_scale p e ld ld' q Cs li ki num xq zq xb : scales p e ld ld' q ->
  rasterize_solution p e ld Cs li ki num = Ok (xq, zq, xb) ->
  rasterize_solution p e ld' (map (map (Rmult q)) Cs) li ki num = Ok (xq, map (vscale q) zq, xb).
Proof.
  intros Hq E. unfold rasterize_solution in *. rewrite map_length. destruct (negb _); [discriminate|]. cbv zeta in *. rewrite (select_map (map (Rmult q))).
  destruct (select _ (map Rabs li)) as [|l0 ls]; [discriminate|].
  destruct (raster_zq p e ld _ _ _ _) as [s|] eqn:E1; [|discriminate]. rewrite (raster_zq_scale p e ld ld' q Hq _ _ _ _ _ E1).
  cbn [bind] in *. apply Ok_inj in E. inversion E. subst. reflexivity.
Qed.
(** The stored energy consists of a part that grows with the square of the loads and the end term, which grows with their cube. *)
Lemma rsum_sq_scale {A} (f g : A -> R) q l : (forall a, f a = q * g a) -> rsum (map (fun a => a ^ 2) (map f l)) = q ^ 2 * rsum (map (fun a => a ^ 2) (map g l)).
Proof. intros H. induction l as [|a l IH]; [simpl; ring|]. change (f a ^ 2 + rsum (map (fun a => a ^ 2) (map f l)) = q ^ 2 * (g a ^ 2 + rsum (map (fun a => a ^ 2) (map g l)))). rewrite IH, (H a). ring. Qed.
Lemma present_scale q xb zq : present xb (map (vscale q) zq) = map (vscale q) (present xb zq).
Proof. apply select_map. Qed.
Lemma stored_cubic o phi L Cs li ki xq zq xb P :
  rasterize_solution (o_par o) (o_eig o) (loads_of o phi) Cs li ki 250 = Ok (xq, zq, xb) ->
  internal_potential o phi L Cs li ki = Ok P ->
  exists S2, forall o' q P', o_par o' = o_par o -> o_eig o' = o_eig o -> o_system o' = o_system o -> scales (o_par o) (o_eig o) (loads_of o phi) (loads_of o' phi) q ->
    internal_potential o' phi L (map (map (Rmult q)) Cs) li ki = Ok P' ->
    P' = q ^ 2 * S2 + q ^ 3 * (1 / 2 * end_moment o zq * end_rotation o zq ^ 2).
Proof.
  intros HR HP. exists (P - 1 / 2 * end_moment o zq * end_rotation o zq ^ 2).
  intros o' q P' Ep Ee Es El HP'. destruct (potential_split _ _ _ _ _ _ _ _ _ _ HP HR) as (_ & Hne & _ & E).
  assert (HR' := raster_scale _ _ _ _ q _ _ _ _ _ _ _ El HR). rewrite <- Ep, <- Ee in HR'.
  destruct (potential_split _ _ _ _ _ _ _ _ _ _ HP' HR') as (_ & _ & _ & E'). cbv zeta in E, E'.
  rewrite present_scale, !map_length, !(map_map (vscale q)) in E'. rewrite Ep in E'.
  rewrite (rsum_sq_scale (fun x => sN (o_par o) (vscale q x)) (sN (o_par o)) q) in E' by (intros a; unfold sN; simpl; ring).
  rewrite (rsum_sq_scale (fun x => sM (o_par o) (vscale q x)) (sM (o_par o)) q) in E' by (intros a; unfold sM; simpl; ring).
  rewrite (rsum_sq_scale (fun x => sV (o_par o) (vscale q x)) (sV (o_par o)) q) in E' by (intros a; unfold sV; simpl; ring).
  rewrite (rsum_sq_scale (fun x => z_w (vscale q x)) z_w q) in E' by (intros a; reflexivity).
  rewrite (rsum_sq_scale (fun x => z_u (vscale q x) + hh (o_par o) / 2 * z_psi (vscale q x)) (fun x => z_u x + hh (o_par o) / 2 * z_psi x) q) in E' by (intros a; simpl; ring).
  assert (Em : end_moment o' (map (vscale q) zq) = q * end_moment o zq).
  { unfold end_moment. rewrite Es, Ep. destruct zq as [|z0 zq]; [congruence|].
    destruct (String.eqb _ _); [|destruct (String.eqb _ _); [simpl; unfold sM; simpl; ring|ring]].
    assert (La : last (map (vscale q) (z0 :: zq)) (mkV 0 0 0 0 0 0) = vscale q (last (z0 :: zq) (mkV 0 0 0 0 0 0))).
    { clear. revert z0. induction zq as [|z1 zq IH]; intros z0; [reflexivity|]. exact (IH z1). }
    rewrite La. unfold sM. simpl. ring. }
  assert (Er : end_rotation o' (map (vscale q) zq) = q * end_rotation o zq).
  { unfold end_rotation. rewrite Es. destruct zq as [|z0 zq]; [congruence|]. destruct (String.eqb _ _); [|reflexivity].
    assert (La : last (map (vscale q) (z0 :: zq)) (mkV 0 0 0 0 0 0) = vscale q (last (z0 :: zq) (mkV 0 0 0 0 0 0))).
    { clear. revert z0. induction zq as [|z1 zq IH]; intros z0; [reflexivity|]. exact (IH z1). }
    rewrite La. reflexivity. }
  rewrite Em, Er in E'. rewrite E', E. ring.
Qed.

(** * The witness *)
(** A slab of the example material hangs over 1 mm of a crack of 2 mm, touches the collapsed layer there and continues for 8 mm on the
    intact weak layer. [q] is the total load of weight and surface load, [tc] the crack height. *)
Definition ex_weight : R := 200 * (1 / 1000000000000) * 9810 * 1.
Definition ob (q tc : R) : obj := with_contact (with_p (ex_obj "-pst" None 0) (q - ex_weight)) 0 2 (Some 10) tc 1 (Some ModeC) 1.
Lemma ob_loads q tc : loads_of (ob q tc) 0 = mkLd ex_weight 0 (q - ex_weight) 0.
Proof.
  unfold loads_of, get_weight_load, get_surface_load. replace (deg2rad 0) with 0 by (unfold deg2rad; field).
  rewrite sin_0, cos_0. simpl. f_equal; unfold ex_weight; ring.
Qed.
Lemma ob_scales q tc tc' : scales ex_par (calc_eigensystem ex_ews) (loads_of (ob 1 tc) 0) (loads_of (ob q tc') 0) q.
Proof. rewrite !ob_loads. apply level_scales; [exact ex_lam_ok|exact ex_fnd_ok|ring]. Qed.
Lemma ob_ready q tc : ready (ob q tc).
Proof. exact (ex_ready "-pst" None 0). Qed.
Lemma ob_substitute q tc support : substitute_ready ex_eig (ob q tc) support.
Proof.
  destruct (ex_c_ready "-pst" None 0 support) as (_ & B & C & D). split; [exact (ob_ready q tc)|]. split; [exact B|]. split; [exact C|exact D].
Qed.

(** The conditions of the problem. *)
Lemma ob_left q tc kR z : left_end (ob q tc) kR 0 false z <-> sN ex_par z = 0 /\ sM ex_par z = kR * z_psi z /\ z_w z = tc.
Proof.
  change (left_end (ob q tc) kR 0 false z) with
    (sN ex_par z = -1 * (qt (loads_of (ob q tc) 0) + pt (loads_of (ob q tc) 0)) * (2 - 1) /\ sM ex_par z + -1 * kR * z_psi z = 0 /\ z_w z = tc).
  rewrite ob_loads. cbn [qt pt]. split; intros (A & B & C); (split; [lra|split; [lra|lra]]).
Qed.
Lemma ob_transition q tc zl zr : transition (ob q tc) 0 0 zl zr <->
  (z_u zl = z_u zr /\ z_w zl = z_w zr /\ z_psi zl = z_psi zr) /\ sN ex_par zl = sN ex_par zr /\ sM ex_par zl = sM ex_par zr /\ sV ex_par zl = sV ex_par zr.
Proof.
  unfold transition. change (kind_of (o_system (ob q tc))) with (Some KPst). change (o_par (ob q tc)) with ex_par. cbv zeta iota.
  replace (0 * o_g (ob q tc) / 1000 / o_lski (ob q tc)) with 0 by (unfold Rdiv; ring). rewrite !Rmult_0_l, Ropp_0, Rmult_0_r, Ropp_0.
  split; [intros (A & B & C & D & E & F)|intros ((A & B & C) & D & E & F)]; repeat split; lra.
Qed.
Lemma ob_bvp q tc kR Cs : let z0 := field (ob q tc) 0 1 false (nth 0 Cs []) in let z1 := field (ob q tc) 0 8 true (nth 1 Cs []) in
  bvp (ob q tc) kR 0 [1; 8] [0] [false; true] Cs <->
  (sN ex_par (z0 0) = 0 /\ sM ex_par (z0 0) = kR * z_psi (z0 0) /\ z_w (z0 0) = tc) /\ forces ex_par (z1 8) 0 0 0 /\
  (z_u (z0 1) = z_u (z1 0) /\ z_w (z0 1) = z_w (z1 0) /\ z_psi (z0 1) = z_psi (z1 0)) /\
  sN ex_par (z0 1) = sN ex_par (z1 0) /\ sM ex_par (z0 1) = sM ex_par (z1 0) /\ sV ex_par (z0 1) = sV ex_par (z1 0).
Proof.
  intros z0 z1. unfold bvp. cbn [List.length Nat.sub nth]. fold z0 z1. rewrite ob_left. split.
  - intros (A & B & C). split; [exact A|]. split; [exact B|]. specialize (C 0%nat ltac:(lia)). cbn [nth] in C. apply ob_transition in C. exact C.
  - intros (A & B & C). split; [exact A|]. split; [exact B|]. intros i Hi. replace i with 0%nat by lia. cbn [nth]. apply ob_transition. exact C.
Qed.
(** Scaling a solution of the problem. *)
Lemma ob_bvp_scale kR q tc Cs : bvp (ob 1 tc) kR 0 [1; 8] [0] [false; true] Cs -> bvp (ob q (q * tc)) kR 0 [1; 8] [0] [false; true] (map (map (Rmult q)) Cs).
Proof.
  intros H. apply ob_bvp in H. apply ob_bvp.
  assert (F : forall i l k s, field (ob q (q * tc)) 0 l k (nth i (map (map (Rmult q)) Cs) []) s = vscale q (field (ob 1 tc) 0 l k (nth i Cs []) s)).
  { intros i l k s. unfold field. change (@nil R) with (map (Rmult q) []) at 1. rewrite map_nth. apply (ob_scales q tc (q * tc)). }
  rewrite !F. destruct H as ((A1 & A2 & A3) & (B1 & B2 & B3) & (C1 & C2 & C3) & D1 & D2 & D3).
  assert (Ns : forall z, sN ex_par (vscale q z) = q * sN ex_par z) by (intros z; unfold sN; simpl; ring).
  assert (Ms : forall z, sM ex_par (vscale q z) = q * sM ex_par z) by (intros z; unfold sM; simpl; ring).
  assert (Vs : forall z, sV ex_par (vscale q z) = q * sV ex_par z) by (intros z; unfold sV; simpl; ring).
  unfold forces. rewrite !Ns, !Ms, !Vs. cbn [z_u z_w z_psi vscale]. rewrite A1, A2, A3, B1, B2, B3, C1, C2, C3, D1, D2, D3. repeat split; ring.
Qed.

(** A solution for unit load: rest plus a moment [m] at the crack tip on the intact part; no shear force at the crack tip. *)
Lemma ob_solution kR : 0 < kR -> exists tc C0 C1, List.length C0 = 6%nat /\ List.length C1 = 6%nat /\
  bvp (ob 1 tc) kR 0 [1; 8] [0] [false; true] [C0; C1] /\
  z_psi (field (ob 1 tc) 0 1 false C0 0) < 0.
Proof.
  intros HkR. destruct (beam_exists ex_eig (ob 1 0) 8 "supported" (ob_substitute 1 0 "supported") ltac:(lra)) as [(e & He) _].
  change (foundation_of (ob 1 0) "supported") with ex_par in He.
  pose proof (beam_sign ex_par 8 1 0 e ex_lam_ok ex_fnd_ok ex_stable ltac:(lra) He ltac:(left; lra)) as Hk.
  destruct He as (Hb & (E1 & E2 & E3) & (E4 & E5 & E6)).
  destruct (C82_general (ob 1 0) no_loads 8 8 e (ob_ready 1 0) ltac:(lra) Hb) as (Ce & L6 & HC & _).
  set (k := - z_psi (e 0)) in *. assert (k0 : 0 < k) by (unfold k; lra).
  set (m := (1 / 2 + kR / 6) / (1 + kR * (k + 1))). assert (dk : 0 < 1 + kR * (k + 1)) by (pose proof (Rmult_lt_0_compat kR (k + 1) HkR ltac:(lra)); lra).
  set (c2 := (1 / 2 - 2 / 25 - m) / 2). set (c1 := k * m - 2 * c2 + (1 / 6) * (3 + 12 / 25) - 1 / 6 - 2 / 25).
  set (c0 := 1 / 25 + m * z_w (e 0) - c1 - c2 + 1 / 6 - 1 / 24).
  exists c0, [c0; c1; c2; - (1 / 6); m * z_u (e 0); 0], (map (Rmult m) Ce). split; [reflexivity|]. split; [rewrite map_length; exact L6|].
  assert (Z1 : forall x, 0 <= x <= 8 -> field (ob 1 c0) 0 8 true (map (Rmult m) Ce) x = vadd (vscale m (e x)) (mkV 0 0 (1 / 25) 0 0 0)).
  { intros x Hx. rewrite (HC x Hx). change (o_par (ob 1 0)) with ex_par. change (o_eig (ob 1 0)) with (calc_eigensystem ex_ews).
    unfold no_loads. rewrite <- (level_scales ex_par (calc_eigensystem ex_ews) 0 0 0 0 m ex_lam_ok ex_fnd_ok ltac:(ring) x Ce 8 true).
    unfold field. rewrite ob_loads. change (o_par (ob 1 c0)) with ex_par. change (o_eig (ob 1 c0)) with (calc_eigensystem ex_ews).
    unfold zsol. set (li := lincomb _ _). apply vec6_ext; unfold zp, ex_par, vadd; simpl; field. }
  assert (Z0 : forall x, field (ob 1 c0) 0 1 false [c0; c1; c2; - (1 / 6); m * z_u (e 0); 0] x
    = mkV (m * z_u (e 0)) 0 (c0 + c1 * x + c2 * x ^ 2 - x ^ 3 / 6 + x ^ 4 / 24) (c1 + 2 * c2 * x - x ^ 2 / 2 + x ^ 3 / 6)
        (- c1 - 2 * c2 * x + x ^ 2 / 2 + 2 / 25 - x ^ 3 / 6 - 2 * x / 25) (- 2 * c2 + x - x ^ 2 / 2 - 2 / 25)).
  { intros x. unfold field. rewrite ob_loads. change (o_par (ob 1 c0)) with ex_par. unfold zsol.
    apply vec6_ext; unfold zh, zh_free, zp, ex_par, vadd, vscale, lincomb, vzero; simpl; field. }
  assert (Em : m * (1 + kR * (k + 1)) = 1 / 2 + kR / 6) by (unfold m; field; lra).
  assert (P0 : - c1 + 2 / 25 = - (m * (k + 1)) + 1 / 6) by (unfold c1, c2; field).
  assert (HN : forall z, sN ex_par z = 4 * z_du z) by (intros z; unfold sN, ex_par; simpl; ring).
  assert (HM : forall z, sM ex_par z = z_dpsi z) by (intros z; unfold sM, ex_par; simpl; ring).
  assert (HV : forall z, sV ex_par z = 25 / 2 * (z_dw z + z_psi z)) by (intros z; unfold sV, ex_par; simpl; ring).
  rewrite HN in E1, E4. rewrite HM in E2, E5. rewrite HV in E3, E6.
  assert (Eu0 : z_du (e 0) = 0) by lra. assert (Eu8 : z_du (e 8) = 0) by lra. assert (Ew : z_dw (e 0) = - z_psi (e 0)) by lra. assert (Ew8 : z_dw (e 8) = - z_psi (e 8)) by lra.
  assert (Ek : z_psi (e 0) = - k) by (unfold k; ring). assert (C2 : 2 * c2 = 1 / 2 - 2 / 25 - m) by (unfold c2; field).
  split.
  - apply ob_bvp. cbn [nth]. rewrite !Z0, !Z1 by lra. unfold forces. rewrite !HN, !HM, !HV. cbn [z_u z_du z_w z_dw z_psi z_dpsi vadd vscale].
    rewrite Eu0, Eu8, Ew, Ew8, E2, E5, Ek. split; [|split; [|split]].
    + split; [ring|]. split; [|field]. replace (- c1 - 2 * c2 * 0 + 0 ^ 2 / 2 + 2 / 25 - 0 ^ 3 / 6 - 2 * 0 / 25) with (- c1 + 2 / 25) by field. rewrite P0. lra.
    + split; [ring|]. split; ring.
    + split; [ring|]. split; [unfold c0; field|]. unfold c1. field.
    + split; [ring|]. split; [lra|]. unfold c1. field.
  - rewrite Z0. cbn [z_psi]. replace (- c1 - 2 * c2 * 0 + 0 ^ 2 / 2 + 2 / 25 - 0 ^ 3 / 6 - 2 * 0 / 25) with (- c1 + 2 / 25) by field. rewrite P0.
    apply Rmult_lt_reg_r with (1 + kR * (k + 1)); [exact dk|].
    replace ((- (m * (k + 1)) + 1 / 6) * (1 + kR * (k + 1))) with (- (m * (1 + kR * (k + 1))) * (k + 1) + 1 / 6 * (1 + kR * (k + 1))) by ring.
    rewrite Em. pose proof (Rmult_lt_0_compat kR k HkR k0). lra.
Qed.

(** Points of the raster on the weak layer exist, so the energy is computed. *)
Lemma present_some (A : Type) (xq : list R) (xb : list (option R)) (zq : list A) (Q : R -> Prop) x :
  Forall2 (fun x y => Q x /\ y = Some x \/ ~ Q x /\ y = None) xq xb -> List.length zq = List.length xq -> In x xq -> Q x -> (0 < List.length (present xb zq))%nat.
Proof.
  intros F. revert zq. induction F as [|a b xq xb H F IH]; intros zq L Hi HQ; [contradiction|].
  destruct zq as [|z zq]; [discriminate|]. unfold present. simpl. destruct Hi as [->|Hi].
  - destruct H as [(_ & ->)|(N & _)]; [simpl; lia|contradiction].
  - simpl in L. specialize (IH zq ltac:(lia) Hi HQ). unfold present in IH. destruct H as [(_ & ->)|(_ & ->)]; simpl; lia.
Qed.
Lemma ob_potential q tc C0 C1 : List.length C0 = 6%nat -> List.length C1 = 6%nat -> exists xq zq xb P,
  rasterize_solution ex_par (calc_eigensystem ex_ews) (loads_of (ob q tc) 0) [C0; C1] [1; 8] [false; true] 250 = Ok (xq, zq, xb) /\
  internal_potential (ob q tc) 0 9 [C0; C1] [1; 8] [false; true] = Ok P.
Proof.
  intros L0 L1. set (o := ob q tc).
  destruct (raster_accepts (o_par o) (o_eig o) (loads_of o 0) [C0; C1] [1; 8] [false; true] 250 eq_refl eq_refl) as ([[xq zq] xb] & E).
  - exists 1. split; [left; reflexivity|lra].
  - intros b l C k H _ x. rewrite (six_zh o (ready_six o (ob_ready q tc)) x (Rabs l) k). simpl in H.
    inversion H as [|? ? ? ? ? ? ? H1]; subst; [congruence|]. inversion H1 as [|? ? ? ? ? ? ? H2]; subst; [congruence|]. inversion H2.
  - exists xq, zq, xb. assert (H250 : (1 <= 250)%nat) by lia. pose proof (raster_foundation _ _ _ _ _ _ _ _ _ _ H250 E) as RF.
    destruct (raster_grid _ _ _ _ _ _ _ _ _ _ H250 E) as (_ & _ & _ & HI & _ & LZ & _).
    assert (Hs : seg_at 0 (combine [1; 8] [false; true]) (0 + Rabs 1) 8 true) by (simpl; constructor; constructor).
    destruct (HI _ _ _ Hs) as (I0 & _).
    assert (N : (0 < List.length (present xb zq))%nat).
    { refine (present_some _ _ _ _ _ _ RF LZ I0 _). exists (0 + Rabs 1), 8. split; [exact Hs|]. pose proof (Rabs_pos 8). split; [lra|split; lra]. }
    unfold internal_potential. rewrite E. cbn [bind]. cbv zeta. destruct (Nat.eqb_spec (List.length (present xb zq)) 0) as [Z|_]; [lia|].
    eexists. split; [exact E|reflexivity].
Qed.

(** C54 is false for solved systems in contact stage C: with a high load the end term outweighs the rest. *)
Theorem C54_solved_refuted : exists o Cs P,
  o_system o = "-pst"%string /\ o_mode o = Some ModeC /\ 0 < o_td o < o_a o /\ ready o /\ stable (o_par o) /\
  assemble_and_solve ex_eig elim_solve o true 0 [1; 8] [0] [false; true] = Ok Cs /\
  internal_potential o 0 9 Cs [1; 8] [false; true] = Ok P /\ P < 0.
Proof.
  destruct (beam_exists ex_eig (ob 1 0) (2 - 1) "rested" (ob_substitute 1 0 "rested") ltac:(lra)) as [(e & He) _].
  set (kR := 1 / - z_psi (e 0)).
  assert (HK : forall q tc, z_psi (e 0) < 0 /\ fst (substitute_stiffness ex_eig elim_solve (ob q tc) (2 - 1) "rested" "rot") = Ok kR)
    by (intros q tc; exact (C27_rotational ex_eig elim_solve (ob q tc) (2 - 1) "rested" e elim_sound elim_complete (ob_substitute q tc "rested") ltac:(lra) He)).
  assert (kRp : 0 < kR) by (destruct (HK 1 0) as (H & _); unfold kR; apply Rdiv_lt_0_compat; lra).
  destruct (ob_solution kR kRp) as (tc & C0 & C1 & L0 & L1 & HB & Hpsi).
  destruct (ob_potential 1 tc C0 C1 L0 L1) as (xq & zq & xb & P1 & HR & HP1).
  destruct (stored_cubic (ob 1 tc) 0 9 _ _ _ xq zq xb P1 HR HP1) as (S2 & HS).
  assert (Hz : hd (mkV 0 0 0 0 0 0) zq = field (ob 1 tc) 0 1 false C0 0).
  { rewrite (raster_first_col _ _ _ [C1] [8] [true] 1 C0 false xq zq xb 250 ltac:(lia) R1_neq_R0 HR). rewrite Rabs_R1. reflexivity. }
  set (c := 1 / 2 * end_moment (ob 1 tc) zq * end_rotation (ob 1 tc) zq ^ 2) in *.
  assert (cn : c < 0).
  { unfold c. change (end_moment (ob 1 tc) zq) with (sM ex_par (hd (mkV 0 0 0 0 0 0) zq)). change (end_rotation (ob 1 tc) zq) with (z_psi (hd (mkV 0 0 0 0 0 0) zq)). rewrite Hz.
    apply ob_bvp in HB. destruct HB as ((_ & HM & _) & _). cbn [nth] in HM. rewrite HM. set (y := z_psi (field (ob 1 tc) 0 1 false C0 0)) in *.
    replace (1 / 2 * (kR * y) * y ^ 2) with (- (kR / 2 * ((- y) * ((- y) * (- y))))) by field.
    clearbody kR y. assert (0 < kR / 2 * (- y * (- y * - y))); [|lra]. assert (0 < - y) by lra. apply Rmult_lt_0_compat; [lra|]. apply Rmult_lt_0_compat; [lra|]. apply Rmult_lt_0_compat; lra. }
  set (q := (Rabs S2 + 1) / - c). assert (q0 : 0 < q) by (unfold q; apply Rdiv_lt_0_compat; pose proof (Rabs_pos S2); lra).
  set (o := ob q (q * tc)). pose proof (ob_bvp_scale kR q tc _ HB) as HBq. cbn [map] in HBq. fold o in HBq.
  destruct (ob_potential q (q * tc) (map (Rmult q) C0) (map (Rmult q) C1)) as (_ & _ & _ & P & _ & HP); [rewrite map_length; assumption|rewrite map_length; assumption|]. fold o in HP.
  destruct (well_posed ex_eig elim_solve o true 0 [1; 8] [0] [false; true] KPst kR elim_sound elim_complete (ob_ready q (q * tc)) ex_stable ltac:(simpl; lia)) as (Cs & HA & _ & _ & _ & HU);
    [ | |reflexivity|discriminate|intros _ _; split; [reflexivity|exact (proj2 (HK q (q * tc)))]|discriminate| ].
  { unfold invalid_segments, finite_ends. simpl. intros [A|[A|[A|[A1 [A|A]]]]]; try discriminate; try (apply A; reflexivity); try tauto.
    specialize (A true ltac:(auto)). discriminate. }
  { split; [intros i Hi; destruct i as [|[|]]; simpl; try lra; simpl in Hi; lia|]. exists 1%nat. simpl. repeat split; [lia|lra]. }
  exists o, Cs, P. assert (EC : [map (Rmult q) C0; map (Rmult q) C1] = Cs).
  { apply HU; [reflexivity|repeat constructor; rewrite map_length; assumption|exact HBq]. }
  split; [reflexivity|]. split; [reflexivity|]. split; [cbn; lra|]. split; [exact (ob_ready _ _)|]. split; [exact ex_stable|]. split; [exact HA|]. rewrite <- EC. split; [exact HP|].
  rewrite (HS o q P eq_refl eq_refl eq_refl (ob_scales q tc (q * tc)) HP).
  replace (q ^ 2 * S2 + q ^ 3 * c) with (q ^ 2 * (S2 + q * c)) by ring.
  assert (Eq : q * c = - (Rabs S2 + 1)) by (unfold q; field; lra). rewrite Eq.
  pose proof (Rle_abs S2). assert (0 < q ^ 2) by (apply pow_lt; exact q0).
  replace (q ^ 2 * (S2 + - (Rabs S2 + 1))) with (- (q ^ 2 * (Rabs S2 + 1 - S2))) by ring.
  assert (0 < q ^ 2 * (Rabs S2 + 1 - S2)); [|lra]. apply Rmult_lt_0_compat; lra.
Qed.
Print Assumptions C54_solved_refuted.
