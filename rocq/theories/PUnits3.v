(** Change of units: stresses over the depth of the slab and differential energy release rate. *)
From Coquelicot Require Import Coquelicot.
Require Import Verif.Py Verif.MTools Verif.MEigen Verif.MFields Verif.SAdm Verif.MRaster
  Verif.MSolution Verif.MAnalysis Verif.SBeam Verif.SBvp Verif.SEig Verif.SUnits Verif.PBeam Verif.PBeam2 Verif.PUnits Verif.PUnits2.

Lemma map2_gen {A B A' B'} (f : A' -> B' -> R) (g : A -> B -> R) (fa : A -> A') (fb : B -> B') k l1 l2 :
  (forall x y, f (fa x) (fb y) = k * g x y) -> map2 f (map fa l1) (map fb l2) = map (Rmult k) (map2 g l1 l2).
Proof.
  intros H. revert l2. induction l1 as [|x l1 IH]; intros [|y l2]; try reflexivity. simpl. rewrite H, IH. reflexivity.
Qed.
Lemma spacing_scaled k l : spacing (map (Rmult k) l) = map (Rmult k) (spacing l).
Proof.
  induction l as [|x l IH]; [reflexivity|]. destruct l as [|y [|w l]]; [reflexivity|simpl; rewrite Rmult_minus_distr_l; reflexivity|].
  change (k * y - k * x :: spacing (map (Rmult k) (y :: w :: l)) = k * (y - x) :: map (Rmult k) (spacing (y :: w :: l))).
  rewrite IH. f_equal. ring.
Qed.
Lemma ctrapz_scaled k m y x : forall acc, ctrapz_from (k * m * acc) (map (Rmult k) y) (map (Rmult m) x) = map (Rmult (k * m)) (ctrapz_from acc y x).
Proof.
  revert x. induction y as [|y0 y IH]; intros x acc; [reflexivity|].
  destruct y as [|y1 y]; [destruct x as [|x0 [|x1 x]]; reflexivity|].
  destruct x as [|x0 [|x1 x]]; [reflexivity|reflexivity|].
  change (k * m * acc :: ctrapz_from (k * m * acc + (m * x1 - m * x0) * (k * y0 + k * y1) / 2) (map (Rmult k) (y1 :: y)) (map (Rmult m) (x1 :: x))
    = k * m * acc :: map (Rmult (k * m)) (ctrapz_from (acc + (x1 - x0) * (y0 + y1) / 2) (y1 :: y) (x1 :: x))).
  f_equal. rewrite <- IH. f_equal. field.
Qed.
Lemma ctrapz_in k m y x : ctrapz (map (Rmult k) y) (map (Rmult m) x) = map (Rmult (k * m)) (ctrapz y x).
Proof. unfold ctrapz. rewrite <- ctrapz_scaled. f_equal. ring. Qed.
Lemma linspace_scaled k x y n e : linspace (k * x) (k * y) n e = map (Rmult k) (linspace x y n e).
Proof.
  unfold linspace. rewrite map_map. destruct e; apply map_ext; intros i; unfold Rdiv; ring.
Qed.

Section Units.
Variable u : units.
Hypothesis U : proper_units u.
Let a := uL u.
Let b := uF u.
Let c := uM u.
Local Ltac us := unfold u_density, u_stress, u_line, u_accel; fold a b c.
Local Ltac fu := us; field; repeat split; try apply (Va u U); try apply (Vb u U); try apply (Vc u U).

Lemma vector_in p ld : lam_ok p -> get_load_vector (par_in u p) (loads_in u ld) = vscale (/ a) (state_in u (get_load_vector p ld)).
Proof.
  intros (_ & _ & H3 & _ & H5). pose proof (Va u U) as Ha. pose proof (Vb u U) as Hb. fold a in Ha. fold b in Hb.
  unfold get_load_vector, par_in, loads_in, state_in, vscale; simpl. us.
  f_equal; try ring; field; repeat split; try assumption; lra.
Qed.
Lemma dz_in p ld z : lam_ok p -> dz_dx (par_in u p) (loads_in u ld) (state_in u z) = vscale (/ a) (state_in u (dz_dx p ld z)).
Proof.
  intros H. unfold dz_dx. rewrite (matrix_in u U p z H), (vector_in p ld H), state_vadd. unfold a.
  generalize (matvec (calc_system_matrix p) z) (get_load_vector p ld). intros X Y. apply vec6_eq; simpl; unfold Rdiv; ring.
Qed.
Lemma matvec_vscale K k z : matvec K (vscale k z) = vscale k (matvec K z).
Proof. apply vec6_eq; simpl; unfold dot6; simpl; ring. Qed.
Lemma dzz_in p ld z : lam_ok p ->
  dz_dxdx (par_in u p) (loads_in u ld) (state_in u z) = vscale (/ a * / a) (state_in u (dz_dxdx p ld z)).
Proof.
  intros H. unfold dz_dxdx. rewrite (dz_in p ld z H), matvec_vscale, (matrix_in u U _ _ H). unfold a.
  generalize (matvec (calc_system_matrix p) (dz_dx p ld z)). intros X. apply vec6_eq; simpl; unfold Rdiv; ring.
Qed.

Lemma mesh_loop_in slab : forall z dz, 0 < dz -> zmesh_loop (map (ply_in u) slab) (map (Rmult a) z) (a * dz) = map (mpoint_in u) (zmesh_loop slab z dz).
Proof.
  induction slab as [|q slab IH]; intros z dz Hd; [reflexivity|]. destruct z as [|z0 [|z1 z]]; try reflexivity.
  pose proof (Va u U) as Ha. fold a in Ha.
  change (map (fun x => mkMp x (p_E (ply_in u q)) (p_nu (ply_in u q)) (p_rho (ply_in u q)))
      (linspace (a * z0) (a * z1) (ceil_nat ((a * z1 - a * z0) / (a * dz)) + 1) true)
    ++ zmesh_loop (map (ply_in u) slab) (map (Rmult a) (z1 :: z)) (a * dz)
    = map (mpoint_in u) (map (fun x => mkMp x (p_E q) (p_nu q) (p_rho q)) (linspace z0 z1 (ceil_nat ((z1 - z0) / dz) + 1) true)
        ++ zmesh_loop slab (z1 :: z) dz)).
  rewrite map_app, IH by exact Hd. f_equal. rewrite linspace_scaled, !map_map.
  replace ((a * z1 - a * z0) / (a * dz)) with ((z1 - z0) / dz) by (field; split; [lra|exact Ha]). reflexivity.
Qed.
Lemma mesh_in o o' dz : 0 < dz -> same_in u o o' -> get_zmesh o' (a * dz) = map (mpoint_in u) (get_zmesh o dz).
Proof.
  intros Hd (_ & _ & _ & _ & S1 & P & _). unfold get_zmesh. rewrite S1, P. simpl. fold a.
  unfold a at 1. rewrite (coords_in u). apply mesh_loop_in. exact Hd.
Qed.
Lemma mz_in mesh : map m_z (map (mpoint_in u) mesh) = map (Rmult a) (map m_z mesh).
Proof. rewrite !map_map. reflexivity. Qed.

Section Object.
Variables (o o' : obj) (phi : R) (z : vec6).
Hypothesis S0 : same_in u o o'.
Hypothesis HL : lam_ok (o_par o).
Lemma Sxx_in mesh : Sxx_MPa o' phi (map (mpoint_in u) mesh) (state_in u z) = map (Rmult (u_stress u)) (Sxx_MPa o phi mesh z).
Proof.
  pose proof S0 as (G & _). unfold Sxx_MPa. rewrite mz_in, spacing_scaled, G. apply map2_gen. intros q d. unfold f_du, f_dpsi.
  cbn [mpoint_in m_E m_nu m_z m_rho state_in z_du z_dpsi]. fold a. unfold Rdiv at 1 4. 
  set (i := / (1 - m_nu q ^ 2)). fu.
Qed.
Lemma Txz_in mesh : Txz_MPa o' phi (map (mpoint_in u) mesh) (state_in u z) = map (Rmult (u_stress u)) (Txz_MPa o phi mesh z).
Proof.
  pose proof S0 as (G & _ & _ & _ & _ & P & _). unfold Txz_MPa. cbv zeta. rewrite (loads_units u U o o' phi S0), mz_in, G, P.
  set (zi := map (Rmult a) (map m_z mesh)). rewrite !map_map.
  unfold du0_dxdx, dpsi_dxdx. rewrite !(dz_in _ _ _ HL).
  set (dz := dz_dx (o_par o) (loads_of o phi) z).
  rewrite (map_scaled _ (fun q => m_E q / (1 - m_nu q ^ 2) * (z_du dz + m_z q * z_dpsi dz)) (u_stress u / a) mesh).
  2:{ intros q. cbn [mpoint_in m_E m_nu m_z state_in vscale z_du z_dpsi]. fold a. unfold Rdiv. set (i := / (1 - m_nu q ^ 2)). fu. }
  rewrite (map_scaled (fun x => - (m_rho (mpoint_in u x) / 10 ^ 12) * (u_accel u * o_g o) * sin (deg2rad phi))
    (fun q => - (m_rho q / 10 ^ 12) * o_g o * sin (deg2rad phi)) (u_stress u / a) mesh).
  2:{ intros q. cbn [mpoint_in m_rho]. fu. }
  unfold zi. rewrite !ctrapz_in. pose proof (Va u U) as Ha. fold a in Ha. apply map2_gen. intros x y. field. exact Ha.
Qed.
Lemma Szz_in mesh : Szz_MPa o' phi (map (mpoint_in u) mesh) (state_in u z) = map (Rmult (u_stress u)) (Szz_MPa o phi mesh z).
Proof.
  pose proof S0 as (G & _ & _ & _ & _ & P & _). unfold Szz_MPa. cbv zeta. rewrite (loads_units u U o o' phi S0), mz_in, G, P.
  set (zi := map (Rmult a) (map m_z mesh)). rewrite !map_map.
  unfold du0_dxdxdx, dpsi_dxdxdx. rewrite !(dzz_in _ _ _ HL).
  set (dz := dz_dxdx (o_par o) (loads_of o phi) z).
  rewrite (map_scaled _ (fun q => m_E q / (1 - m_nu q ^ 2) * (z_du dz + m_z q * z_dpsi dz)) (u_stress u / a / a) mesh).
  2:{ intros q. cbn [mpoint_in m_E m_nu m_z state_in vscale z_du z_dpsi]. fold a. unfold Rdiv. set (i := / (1 - m_nu q ^ 2)). fu. }
  rewrite (map_scaled (fun x => - (m_rho (mpoint_in u x) / 10 ^ 12 * (u_accel u * o_g o) * cos (deg2rad phi)))
    (fun q => - (m_rho q / 10 ^ 12 * o_g o * cos (deg2rad phi))) (u_stress u / a) mesh).
  2:{ intros q. cbn [mpoint_in m_rho]. fu. }
  unfold zi. rewrite !ctrapz_in. pose proof (Va u U) as Ha. fold a in Ha. apply map2_gen. intros x y. field. exact Ha.
Qed.
End Object.
End Units.
