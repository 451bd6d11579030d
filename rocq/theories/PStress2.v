(** Proofs about the slab stresses: construction of laminated objects, stress
    findings, principal stresses. *)
From Coquelicot Require Import Coquelicot.
Require Import Verif.Py Verif.MTools Verif.MEigen Verif.MFields Verif.MRaster Verif.MSolution Verif.MAnalysis
  Verif.SSlab Verif.SAdm Verif.SBeam Verif.SStress Verif.PSlab Verif.PSetup Verif.PLam Verif.PCog Verif.PBeam Verif.PRaster Verif.PStress.
Require Import Sorting.Sorted.

Lemma pint_F0_tops a slab : pint F0 a (ps slab) = rsum (map (fun aq => Eps (snd aq) * p_h (snd aq)) (layer_tops a slab)).
Proof.
  revert a. induction slab as [|q s IH]; intros a; [reflexivity|].
  simpl ps. cbn [pint]. fold (ps s). rewrite IH. simpl. unfold F0, Eps. simpl. ring.
Qed.
Lemma pint_F1_tops a slab : pint F1 a (ps slab)
  = rsum (map (fun aq => Eps (snd aq) * (((fst aq + p_h (snd aq)) ^ 2 - fst aq ^ 2) / 2)) (layer_tops a slab)).
Proof.
  revert a. induction slab as [|q s IH]; intros a; [reflexivity|].
  simpl ps. cbn [pint]. fold (ps s). rewrite IH. simpl. unfold F1, Eps. simpl. unfold Rdiv. ring.
Qed.

Section O.
Variable eig : mat6 -> list eigpair.
Lemma fundamental_laminated o : o_slab o <> [] -> Forall good_ply (o_slab o) ->
  hh (o_par o) = rsum (map p_h (o_slab o)) -> laminated (o_calc_fundamental_system eig o).
Proof.
  intros Hne F Hh. destruct (fundamental_par eig o) as (P & _ & S). cbv zeta in P, S. unfold laminated. rewrite S, P. simpl.
  rewrite laminate_closed. cbv zeta. simpl. repeat split; [assumption|assumption|exact Hh|apply pint_F0_tops|apply pint_F1_tops].
Qed.
Lemma user_h layers C0 C1 nu : rsum (map p_h (user_slab layers C0 C1 nu)) = thickness layers.
Proof. apply user_slab_h. Qed.
Lemma set_beam_laminated o layers C0 C1 nu o' :
  pos_layers layers -> layers <> [] -> 0 < C0 -> -1 < nu < 1 ->
  set_beam_properties eig o (LList layers) C0 C1 nu true = Ok o' -> laminated o'.
Proof.
  intros Hp Hn HC Hnu. rewrite set_beam_list by exact Hn. intros E; apply Ok_inj in E; subst o'. cbv beta iota zeta.
  apply fundamental_laminated; cbn [o_slab with_slab with_weak set_foundation_properties o_par hh].
  - destruct layers; [congruence|discriminate].
  - apply user_slab_good; assumption.
  - rewrite user_h, cog_closed. reflexivity.
Qed.
Lemma Layered_laminated system layers touchdown o :
  pos_layers layers -> Layered eig system (LList layers) touchdown = Ok o -> laminated o.
Proof.
  intros Hp. unfold Layered.
  set (ly := match layers with [] => [(240, 200)] | _ => layers end).
  assert (Hpl : pos_layers ly).
  { unfold ly; destruct layers; [|exact Hp]. repeat constructor; simpl; lra. }
  assert (Hnl : ly <> []) by (unfold ly; destruct layers; discriminate).
  cbn beta iota.
  replace (match LList layers with
           | LStr "" => LList [(240, 200)]
           | LStr (String _ _) => LList layers
           | LList [] => LList [(240, 200)]
           | LList (_ :: _) => LList layers end) with (LList ly)
    by (simpl; unfold ly; destruct layers; reflexivity).
  rewrite set_beam_list by exact Hnl. cbn [bind].
  intros E; apply Ok_inj in E; subst o.
  apply fundamental_laminated; cbn [o_slab with_slab with_weak set_foundation_properties o_par hh].
  - destruct ly; [congruence|discriminate].
  - apply user_slab_good; [assumption|lra|lra].
  - rewrite user_h, cog_closed. reflexivity.
Qed.
End O.

(** * C48: unsupported slab bottoms *)
Lemma free_bottom o phi dz x l e : laminated o -> lam_ok (o_par o) -> fnd_ok (o_par o) -> 0 < dz ->
  exists C T, List.length C = 6%nat /\
    Txz o phi dz "MPa" (zsol (o_par o) e (loads_of o phi) x C l false) = Ok T /\ last T 0 <> 0.
Proof.
  intros HL Hl (_ & Hkt & _) Hd.
  set (Z0 := zsol (o_par o) e (loads_of o phi) x [0;0;0;0;0;0] l false).
  set (r := s_tau (o_par o) true Z0 - pt (loads_of o phi)).
  set (c := if Req_EM_T r 0 then 1 else 0).
  exists [0;0;0;0;c;0].
  destruct (Txz_ends o phi dz (zsol (o_par o) e (loads_of o phi) x [0;0;0;0;c;0] l false) HL Hl Hd) as (T & E & _ & _ & B).
  exists T. split; [reflexivity|]. split; [exact E|]. rewrite B.
  assert (Q : s_tau (o_par o) true (zsol (o_par o) e (loads_of o phi) x [0;0;0;0;c;0] l false) - pt (loads_of o phi)
    = r + kt (o_par o) * c).
  { unfold r, Z0, zsol, zh, zh_free, lincomb, s_tau. simpl. ring. }
  rewrite Q. unfold c. destruct (Req_EM_T r 0) as [->|N]; lra.
Qed.

(** * C49: axial stress and the mesh *)
Lemma spacing_length zi : (2 <= List.length zi)%nat -> List.length (spacing zi) = List.length zi.
Proof.
  induction zi as [|a [|b [|c t]] IH]; intros H; simpl in H; try lia; [reflexivity|].
  change (spacing (a :: b :: c :: t)) with (b - a :: spacing (b :: c :: t)). specialize (IH ltac:(simpl; lia)).
  change (S (List.length (spacing (b :: c :: t))) = S (List.length (b :: c :: t))). f_equal. exact IH.
Qed.
Lemma map_Rmult_1 l : map (Rmult 1) l = l.
Proof. induction l as [|a l IH]; simpl; [reflexivity|]. rewrite IH. f_equal. ring. Qed.
Lemma map2_const {A B C} (f : A -> B -> C) (g : A -> C) u v : List.length u = List.length v ->
  (forall a b, f a b = g a) -> map2 f u v = map g u.
Proof.
  intros L H. revert v L. induction u as [|a u IH]; intros [|b v] L; simpl in L; try discriminate; [reflexivity|].
  simpl. rewrite H, IH by congruence. reflexivity.
Qed.
Lemma Sxx_flat o phi dz z : laminated o -> 0 < dz -> sin (deg2rad phi) = 0 ->
  Sxx o phi dz "MPa" z = Ok (map (fun q => m_E q / (1 - m_nu q ^ 2) * (z_du z + m_z q * z_dpsi z)) (get_zmesh o dz)).
Proof.
  intros (Hne & F & _) Hd Hs. destruct (mesh_ok o dz Hd F Hne) as [M L]. unfold Sxx. rewrite M. unfold conv_stress. simpl bind.
  rewrite map_Rmult_1. f_equal. unfold Sxx_MPa. apply map2_const.
  - rewrite spacing_length; rewrite map_length; [reflexivity|exact L].
  - intros a b. rewrite Hs. unfold f_du, f_dpsi. ring.
Qed.

Lemma Sxx_head o phi dz z q s : laminated o -> 0 < dz -> o_slab o = q :: s ->
  exists S, Sxx o phi dz "MPa" z = Ok S /\ (0 < List.length S)%nat /\
    hd 0 (map m_z (get_zmesh o dz)) = - hh (o_par o) / 2 /\
    hd 0 S = Eps q * (z_du z - hh (o_par o) / 2 * z_dpsi z)
             - p_rho q / 10 ^ 12 * o_g o * sin (deg2rad phi) * (p_h q / INR (ceil_nat (p_h q / dz))).
Proof.
  intros (Hne & F & _) Hd Hq. destruct (mesh_ok o dz Hd F Hne) as [M L]. unfold Sxx. rewrite M. unfold conv_stress. simpl bind.
  rewrite map_Rmult_1. eexists. split; [reflexivity|].
  unfold Sxx_MPa. rewrite Hq in F. inversion F as [|q0 s0 Hg F']; subst.
  assert (E : exists b t, get_zmesh o dz = mkMp (- hh (o_par o) / 2) (p_E q) (p_nu q) (p_rho q)
     :: mkMp (- hh (o_par o) / 2 + p_h q / INR (ceil_nat (p_h q / dz))) (p_E q) (p_nu q) (p_rho q) :: t /\ b = 0).
  { unfold get_zmesh. rewrite coords_eq, zmesh_blocks, Hq. simpl layer_tops. simpl map. simpl List.concat. unfold block.
    destruct (ceil_nat_bounds (p_h q / dz)) as [_ B3]; [apply Rdiv_lt_0_compat; [apply Hg|lra]|].
    set (n := ceil_nat (p_h q / dz)) in *. set (a := - hh (o_par o) / 2). unfold linspace.
    destruct n as [|n]; [lia|]. replace (S n + 1)%nat with (S (S n)) by lia. simpl seq. simpl map. simpl app.
    eexists 0, _. split; [|reflexivity]. f_equal; [f_equal; simpl; ring|]. f_equal. f_equal.
    replace (match n with 0%nat => 1 | S _ => INR n + 1 end) with (INR (S n)) by reflexivity.
    simpl (INR 1). replace (a + p_h q - a) with (p_h q) by ring. ring. }
  destruct E as (_ & t & E & _). rewrite E. split; [|split].
  - simpl. destruct t; simpl; lia.
  - reflexivity.
  - unfold Eps. destruct t as [|m t]; cbn [map spacing map2 hd m_z m_E m_nu m_rho]; unfold f_du, f_dpsi, Rdiv; ring.
Qed.

Lemma Sxx_mesh_dependent o phi z q s : laminated o -> o_slab o = q :: s -> 0 < p_rho q -> 0 < o_g o -> sin (deg2rad phi) <> 0 ->
  exists dz1 dz2 S1 S2, 0 < dz1 /\ 0 < dz2 /\
    Sxx o phi dz1 "MPa" z = Ok S1 /\ Sxx o phi dz2 "MPa" z = Ok S2 /\
    (0 < List.length S1)%nat /\ (0 < List.length S2)%nat /\
    hd 0 (map m_z (get_zmesh o dz1)) = hd 0 (map m_z (get_zmesh o dz2)) /\ hd 0 S1 <> hd 0 S2.
Proof.
  intros HL Hq Hr Hg Hs. assert (Hh : 0 < p_h q).
  { destruct HL as (_ & F & _). rewrite Hq in F. inversion F as [|q0 s0 G]; subst. apply G. }
  destruct (Sxx_head o phi (p_h q) z q s HL Hh Hq) as (S1 & E1 & L1 & Z1 & H1).
  destruct (Sxx_head o phi (p_h q / 2) z q s HL ltac:(lra) Hq) as (S2 & E2 & L2 & Z2 & H2).
  exists (p_h q), (p_h q / 2), S1, S2. repeat split; try assumption; try lra. rewrite H1, H2.
  assert (C1 : ceil_nat (p_h q / p_h q) = 1%nat).
  { replace (p_h q / p_h q) with (INR 1) by (simpl; field; lra). destruct (ceil_nat_bounds (INR 1)) as [[A B] C]; [simpl; lra|].
    apply INR_le in A. assert (INR (ceil_nat (INR 1)) < INR 2) by (simpl in *; lra). apply INR_lt in H. lia. }
  assert (C2 : ceil_nat (p_h q / (p_h q / 2)) = 2%nat).
  { replace (p_h q / (p_h q / 2)) with (INR 2) by (simpl; field; lra). destruct (ceil_nat_bounds (INR 2)) as [[A B] C]; [simpl; lra|].
    apply INR_le in A. assert (INR (ceil_nat (INR 2)) < INR 3) by (simpl in *; lra). apply INR_lt in H. lia. }
  rewrite C1, C2. intros EE. simpl INR in EE.
  assert (K : p_rho q / 10 ^ 12 * o_g o * sin (deg2rad phi) * (p_h q / 2) = 0) by lra.
  assert (0 < p_rho q / 10 ^ 12) by (apply Rdiv_lt_0_compat; [assumption|apply pow_lt; lra]).
  apply Rmult_integral in K. destruct K as [K|K]; [|lra].
  apply Rmult_integral in K. destruct K as [K|K]; [|contradiction].
  apply Rmult_integral in K. destruct K; lra.
Qed.

(** * C50: principal stresses *)
Lemma roots_of (a b t : R) :
  let P := (a + b) / 2 + 1 * sqrt ((a - b) ^ 2 + 4 * t ^ 2) / 2 in
  let Q := (a + b) / 2 + -1 * sqrt ((a - b) ^ 2 + 4 * t ^ 2) / 2 in
  P + Q = a + b /\ P * Q = a * b - t ^ 2 /\ Q <= P.
Proof.
  cbv zeta. assert (D : 0 <= (a - b) ^ 2 + 4 * t ^ 2) by (pose proof (pow2_ge_0 (a - b)); pose proof (pow2_ge_0 t); lra).
  pose proof (sqrt_sqrt _ D). pose proof (sqrt_pos ((a - b) ^ 2 + 4 * t ^ 2)).
  set (r := sqrt _) in *. repeat split; [lra| |lra]. nra.
Qed.
Lemma map3_length {A B C D} (f : A -> B -> C -> D) a b c n :
  List.length a = n -> List.length b = n -> List.length c = n -> List.length (map3 f a b c) = n.
Proof.
  revert a b c. induction n as [|n IH]; intros [|x a] [|y b] [|w c]; simpl; intros; try discriminate; try reflexivity.
  rewrite IH; congruence.
Qed.
Lemma map3_nth (f : R -> R -> R -> R) a b c i :
  (i < List.length a)%nat -> List.length b = List.length a -> List.length c = List.length a ->
  nth i (map3 f a b c) 0 = f (nth i a 0) (nth i b 0) (nth i c 0).
Proof.
  revert b c i. induction a as [|x a IH]; intros [|y b] [|w c] i Hi Lb Lc; simpl in *; try lia.
  destruct i; [reflexivity|]. apply IH; lia.
Qed.
Lemma ctrapz_length acc y x : List.length y = List.length x -> List.length (ctrapz_from acc y x) = List.length x.
Proof.
  intros E. destruct y as [|y0 y]; [destruct x; [reflexivity|discriminate]|].
  destruct (ctrapz_ends acc (y0 :: y) x E ltac:(discriminate)) as (_ & _ & H). exact H.
Qed.
Lemma map2_len {A B C} (f : A -> B -> C) u v : List.length u = List.length v -> List.length (map2 f u v) = List.length u.
Proof. revert v. induction u as [|a u IH]; intros [|b v]; simpl; intros; try discriminate; [reflexivity|]. rewrite IH; congruence. Qed.

Lemma stress_lengths o phi dz unit z sx tx sz :
  Sxx o phi dz unit z = Ok sx -> Txz o phi dz unit z = Ok tx -> Szz o phi dz unit z = Ok sz ->
  List.length sx = List.length (get_zmesh o dz) /\ List.length tx = List.length (get_zmesh o dz) /\ List.length sz = List.length (get_zmesh o dz).
Proof.
  unfold Sxx, Txz, Szz, mesh_checked. destruct (get_zmesh o dz) as [|m1 [|m2 t]] eqn:Em; try discriminate.
  cbn [bind]. destruct (conv_stress unit) as [c|]; [|discriminate]. cbn [bind].
  set (mesh := m1 :: m2 :: t). assert (L : (2 <= List.length mesh)%nat) by (simpl; lia). clearbody mesh.
  intros E1 E2 E3. apply Ok_inj in E1, E2, E3. subst. rewrite !map_length. unfold Sxx_MPa, Txz_MPa, Szz_MPa, ctrapz.
  assert (C1 : forall f, List.length (ctrapz_from 0 (map f mesh) (map m_z mesh)) = List.length mesh)
    by (intros f; rewrite ctrapz_length; rewrite ?map_length; reflexivity).
  repeat split.
  - apply map2_len. rewrite spacing_length; rewrite map_length; [reflexivity|exact L].
  - rewrite map2_len; rewrite !C1; reflexivity.
  - rewrite map2_len.
    + rewrite ctrapz_length; rewrite ?map_length; [reflexivity|apply C1].
    + rewrite !ctrapz_length; rewrite ?map_length; try reflexivity. apply C1.
Qed.

Lemma principal_roots o phi dz unit z sx tx sz :
  Sxx o phi dz unit z = Ok sx -> Txz o phi dz unit z = Ok tx -> Szz o phi dz unit z = Ok sz ->
  exists P Q, principal_stress_slab o phi dz unit "max" false z = Ok P /\
    principal_stress_slab o phi dz unit "min" false z = Ok Q /\
    List.length P = List.length (get_zmesh o dz) /\ List.length Q = List.length (get_zmesh o dz) /\
    forall i, (i < List.length (get_zmesh o dz))%nat ->
      nth i P 0 + nth i Q 0 = nth i sx 0 + nth i sz 0 /\
      nth i P 0 * nth i Q 0 = nth i sx 0 * nth i sz 0 - nth i tx 0 ^ 2 /\ nth i Q 0 <= nth i P 0.
Proof.
  intros Ex Et Ez. destruct (stress_lengths _ _ _ _ _ _ _ _ Ex Et Ez) as (Lx & Lt & Lz).
  unfold principal_stress_slab. rewrite Ex, Et, Ez. simpl val_sign. cbn [bind andb].
  eexists _, _. split; [reflexivity|]. split; [reflexivity|].
  split; [apply map3_length; assumption|]. split; [apply map3_length; assumption|].
  intros i Hi. rewrite !map3_nth by lia. apply roots_of.
Qed.

Lemma weak_principal o sc unit z s t : sig_unit (o_par o) unit z = Ok s -> tau_unit (o_par o) unit z = Ok t ->
  exists P Q, principal_stress_weaklayer o sc unit "max" false z = Ok P /\
    principal_stress_weaklayer o sc unit "min" false z = Ok Q /\
    P + Q = s /\ P * Q = - t ^ 2 /\ Q <= 0 <= P.
Proof.
  intros Es Et. unfold principal_stress_weaklayer. rewrite Es, Et. cbn [val_sign String.eqb bind andb Ascii.eqb Bool.eqb].
  eexists _, _. split; [reflexivity|]. split; [reflexivity|].
  assert (D : 0 <= s ^ 2 + 4 * t ^ 2) by nra. pose proof (sqrt_sqrt _ D). pose proof (sqrt_pos (s ^ 2 + 4 * t ^ 2)).
  assert (Rabs s <= sqrt (s ^ 2 + 4 * t ^ 2)).
  { rewrite <- (sqrt_Rsqr_abs s). apply sqrt_le_1_alt. unfold Rsqr. nra. }
  assert (s <= Rabs s /\ - s <= Rabs s) by (split; [apply Rle_abs|rewrite <- Rabs_Ropp; apply Rle_abs]).
  set (r := sqrt _) in *. repeat split; [lra| |lra|lra]. nra.
Qed.

Lemma invalid_requests o phi dz sc unit val normalize z :
  (val <> "max" -> val <> "min" ->
     principal_stress_slab o phi dz unit val normalize z = Err ValueError /\
     principal_stress_weaklayer o sc unit val normalize z = Err ValueError)%string /\
  (forall sx tx sz, Sxx o phi dz unit z = Ok sx -> Txz o phi dz unit z = Ok tx -> Szz o phi dz unit z = Ok sz ->
     principal_stress_slab o phi dz unit "min" true z = Err ValueError) /\
  (forall s t, sig_unit (o_par o) unit z = Ok s -> tau_unit (o_par o) unit z = Ok t ->
     principal_stress_weaklayer o sc unit "max" true z = Err ValueError).
Proof.
  split; [|split].
  - intros N1 N2. unfold principal_stress_slab, principal_stress_weaklayer, val_sign.
    destruct (String.eqb_spec val "max"); [contradiction|]. destruct (String.eqb_spec val "min"); [contradiction|]. split; reflexivity.
  - intros sx tx sz E1 E2 E3. unfold principal_stress_slab. rewrite E1, E2, E3. reflexivity.
  - intros s t E1 E2. unfold principal_stress_weaklayer. rewrite E1, E2. reflexivity.
Qed.

(** * C51: normalisation *)
Lemma sqrt_1000 x y : sqrt ((1000 * x) ^ 2 + 4 * (1000 * y) ^ 2) = 1000 * sqrt (x ^ 2 + 4 * y ^ 2).
Proof.
  replace ((1000 * x) ^ 2 + 4 * (1000 * y) ^ 2) with (1000 * 1000 * (x ^ 2 + 4 * y ^ 2)) by ring.
  assert (0 <= x ^ 2 + 4 * y ^ 2) by nra.
  rewrite sqrt_mult by lra. rewrite sqrt_square by lra. reflexivity.
Qed.
Lemma map3_scale m a t b :
  map3 (fun a t b => (a + b) / 2 + m * sqrt ((a - b) ^ 2 + 4 * t ^ 2) / 2) (map (Rmult 1000) a) (map (Rmult 1000) t) (map (Rmult 1000) b)
  = map (Rmult 1000) (map3 (fun a t b => (a + b) / 2 + m * sqrt ((a - b) ^ 2 + 4 * t ^ 2) / 2) a t b).
Proof.
  revert t b. induction a as [|x a IH]; intros [|y t] [|w b]; try reflexivity. cbn [map map3]. rewrite IH. f_equal.
  replace (1000 * x - 1000 * w) with (1000 * (x - w)) by ring. rewrite sqrt_1000. field.
Qed.
Lemma mapM_map {A B} (f : A -> res B) (g : A -> B) l : (forall a, f a = Ok (g a)) -> mapM f l = Ok (map g l).
Proof. intros H. induction l as [|a l IH]; simpl; [reflexivity|]. rewrite H, IH. reflexivity. Qed.
Lemma normalised_slab o phi dz val z : laminated o -> 0 < dz ->
  principal_stress_slab o phi dz "kPa" val true z = principal_stress_slab o phi dz "MPa" val true z /\
  exists P, principal_stress_slab o phi dz "MPa" "max" true z = Ok P.
Proof.
  intros (Hne & F & _) Hd. destruct (mesh_ok o dz Hd F Hne) as [M L].
  assert (Q : forall val, principal_stress_slab o phi dz "kPa" val true z = principal_stress_slab o phi dz "MPa" val true z).
  { intros v. unfold principal_stress_slab. unfold val_sign.
    destruct (String.eqb_spec v "max") as [->|N1]; [|destruct (String.eqb_spec v "min") as [->|N2]; [|reflexivity]].
    - cbn [bind]. unfold Sxx, Txz, Szz. rewrite M. unfold conv_stress. cbn [bind String.eqb Ascii.eqb Bool.eqb andb].
      rewrite !map_Rmult_1, map3_scale.
      rewrite (mapM_map _ (fun q => 1 * 240 * Rpower (m_rho q / 917) (244 / 100))) by reflexivity.
      rewrite (mapM_map _ (fun q => 1 / 1000 * 240 * Rpower (m_rho q / 917) (244 / 100))) by reflexivity.
      cbn [bind]. f_equal. match goal with |- context [map (Rmult 1000) ?l] => generalize l end. intros Ps. clear. generalize (get_zmesh o dz).
      induction Ps as [|P Ps IH]; intros [|q m]; try reflexivity.
      cbn [map map2]. rewrite IH. f_equal. assert (0 < Rpower (m_rho q / 917) (244 / 100)) by apply exp_pos. field. lra.
    - cbn [bind]. unfold Sxx, Txz, Szz. rewrite M. reflexivity. }
  split; [apply Q|]. unfold principal_stress_slab, Sxx, Txz, Szz. rewrite M. unfold conv_stress. cbn [val_sign bind String.eqb Ascii.eqb Bool.eqb andb].
  rewrite (mapM_map _ (fun q => 1 / 1000 * 240 * Rpower (m_rho q / 917) (244 / 100))) by reflexivity. eexists. reflexivity.
Qed.
Lemma normalised_weak o sc z :
  exists a b, principal_stress_weaklayer o sc "kPa" "min" true z = Ok a /\
    principal_stress_weaklayer o sc "MPa" "min" true z = Ok b /\ a = 1000 * b /\
    b = (f_sig (o_par o) z / 2 - sqrt (f_sig (o_par o) z ^ 2 + 4 * f_tau (o_par o) z ^ 2) / 2) / sc.
Proof.
  unfold principal_stress_weaklayer, sig_unit, tau_unit, conv_stress. cbn [val_sign bind String.eqb Ascii.eqb Bool.eqb andb].
  eexists _, _. split; [reflexivity|]. split; [reflexivity|].
  change (- (1) * kn (o_par o) * f_w z) with (f_sig (o_par o) z).
  change (- (1) * kt (o_par o) * (f_dw z * wt (o_par o) / 2 - f_u (hh (o_par o) / 2) z)) with (f_tau (o_par o) z).
  replace (- (1000) * kn (o_par o) * f_w z) with (1000 * f_sig (o_par o) z) by (unfold f_sig; ring).
  replace (- (1000) * kt (o_par o) * (f_dw z * wt (o_par o) / 2 - f_u (hh (o_par o) / 2) z)) with (1000 * f_tau (o_par o) z) by (unfold f_tau; ring).
  rewrite sqrt_1000. split; [unfold Rdiv; ring|]. unfold Rdiv. ring.
Qed.

Lemma stress_kPa o phi dz z : laminated o -> 0 < dz -> exists X T Z,
  (Sxx o phi dz "MPa" z = Ok X /\ Txz o phi dz "MPa" z = Ok T /\ Szz o phi dz "MPa" z = Ok Z) /\
  (Sxx o phi dz "kPa" z = Ok (map (Rmult 1000) X) /\ Txz o phi dz "kPa" z = Ok (map (Rmult 1000) T) /\
   Szz o phi dz "kPa" z = Ok (map (Rmult 1000) Z)) /\
  forall u, u <> "MPa"%string -> u <> "kPa"%string ->
    (forall r, Sxx o phi dz u z <> Ok r) /\ (forall r, Txz o phi dz u z <> Ok r) /\ (forall r, Szz o phi dz u z <> Ok r).
Proof.
  intros (Hne & F & _) Hd. destruct (mesh_ok o dz Hd F Hne) as [M L].
  unfold Sxx, Txz, Szz. rewrite M. unfold conv_stress. cbn [bind String.eqb Ascii.eqb Bool.eqb andb]. rewrite !map_Rmult_1.
  eexists _, _, _. split; [repeat split; reflexivity|]. split; [repeat split; reflexivity|].
  intros u N1 N2. apply String.eqb_neq in N1, N2. rewrite N1, N2. cbn [bind]. repeat split; discriminate.
Qed.
