(** Property theorems C98: line plots show the rasterised solution. *)
Require Import Verif.Py Verif.MTools Verif.MEigen Verif.MFields Verif.MRaster Verif.MFigure Verif.SBvp Verif.SRaster Verif.SFigure Verif.SShow
  Verif.PSetup Verif.PRaster Verif.PBeam2 Verif.PBvp Verif.PBvp6 Verif.PWell2 Verif.PFigure4 Verif.PropRaster Verif.PShow.

(** C98: displacements and rotation along the slab, in mm and degrees, the deflection upwards; 16 points are needed. *)
Theorem C98_displacements o phi Cs li ki num xq zq xb seg mi bed : (15 <= num)%nat ->
  rasterize_solution (o_par o) (o_eig o) (loads_of o phi) Cs li ki num = Ok (xq, zq, xb) ->
  exists n cu cw cp, plot_displacements (map Some xq) zq (Some seg) (Some mi) (Some bed) = Ok n /\ n_curves n = [cu; cw; cp] /\
  map k_label [cu; cw; cp] = ["$u_0\ (\mathrm{mm})$"; "$-w\ (\mathrm{mm})$"; "$\psi\ (^\circ)$ "]%string /\
  depicts o phi li Cs ki xq z_u cu /\ depicts o phi li Cs ki xq (fun z => - z_w z) cw /\
  depicts o phi li Cs ki xq (fun z => z_psi z * 180 / PI) cp.
Proof.
  intros Hn E. assert (H1 : (1 <= num)%nat) by lia. destruct (raster_sizes _ _ _ _ _ _ _ _ _ H1 E) as (Lz & _ & Lx).
  unfold plot_displacements.
  rewrite (mapM_total _ (fun z => 1 * (z_u z + 0 * z_psi z))) by reflexivity. cbn [bind].
  rewrite (mapM_total _ (fun z => 1 * z_w z)) by reflexivity. cbn [bind].
  rewrite (mapM_total (psi_unit "degrees") (fun z => z_psi z * (180 / PI))) by reflexivity. cbn [bind].
  set (x := cm (map Some xq)).
  set (cu := mkCurve x (map (fun z => 1 * (z_u z + 0 * z_psi z)) zq) "$u_0\ (\mathrm{mm})$").
  set (cw := mkCurve x (map Ropp (map (fun z => 1 * z_w z) zq)) "$-w\ (\mathrm{mm})$").
  set (cp := mkCurve x (map (fun z => z_psi z * (180 / PI)) zq) "$\psi\ (^\circ)$ ").
  assert (Lm : List.length x = List.length zq) by (unfold x; rewrite cm_all, !map_length; symmetry; exact Lz).
  assert (F : Forall (ordinary x) [cu; cw; cp]).
  { repeat constructor; cbn [cu cw cp k_x k_y k_label]; rewrite ?map_length; try (symmetry; exact Lm); discriminate. }
  assert (Lf : List.length (finite x) = List.length xq) by (unfold x; rewrite cm_all, finite_all, map_length; reflexivity).
  destruct (marked_result x [cu; cw; cp] seg mi bed F ltac:(discriminate)) as [(nt & P & Nc & _)|[_ [_ B]]].
  - exists nt, cu, cw, cp. split; [exact P|]. split; [exact Nc|]. split; [reflexivity|]. split; [|split].
    + apply (all_shown _ _ _ _ _ _ _ _ _ H1 E). intros z. ring.
    + unfold cw. rewrite map_map. apply (all_shown _ _ _ _ _ _ _ _ _ H1 E). intros z. ring.
    + apply (all_shown _ _ _ _ _ _ _ _ _ H1 E). intros z. unfold Rdiv. ring.
  - exfalso. rewrite Lf in B. cbn [List.length] in B.
    assert (15 <= 95 * Z.of_nat (List.length xq) / 100)%Z by (apply Z.div_le_lower_bound; lia). lia.
Qed.
Print Assumptions C98_displacements.

(** Normal force, bending moment and shear force. *)
Theorem C98_forces o phi Cs li ki num xq zq xb seg mi bed : (15 <= num)%nat ->
  rasterize_solution (o_par o) (o_eig o) (loads_of o phi) Cs li ki num = Ok (xq, zq, xb) ->
  let p := o_par o in
  exists n cN cM cV, plot_section_forces o (map Some xq) zq (Some seg) (Some mi) (Some bed) = Ok n /\ n_curves n = [cN; cM; cV] /\
  map k_label [cN; cM; cV] = ["$N$"; "$M$"; "$V$"]%string /\
  depicts o phi li Cs ki xq (fun z => A11 p * z_du z + B11 p * z_dpsi z) cN /\
  depicts o phi li Cs ki xq (fun z => B11 p * z_du z + D11 p * z_dpsi z) cM /\
  depicts o phi li Cs ki xq (fun z => kA55 p * (z_dw z + z_psi z)) cV.
Proof.
  intros Hn E p. assert (H1 : (1 <= num)%nat) by lia. destruct (raster_sizes _ _ _ _ _ _ _ _ _ H1 E) as (Lz & _ & Lx).
  unfold plot_section_forces. set (x := cm (map Some xq)).
  set (cN := mkCurve x (map (f_N p) zq) "$N$"). set (cM := mkCurve x (map (f_M p) zq) "$M$"). set (cV := mkCurve x (map (f_V p) zq) "$V$").
  assert (Lm : List.length x = List.length zq) by (unfold x; rewrite cm_all, !map_length; symmetry; exact Lz).
  assert (F : Forall (ordinary x) [cN; cM; cV]).
  { repeat constructor; cbn [cN cM cV k_x k_y k_label]; rewrite ?map_length; try (symmetry; exact Lm); discriminate. }
  assert (Lf : List.length (finite x) = List.length xq) by (unfold x; rewrite cm_all, finite_all, map_length; reflexivity).
  destruct (marked_result x [cN; cM; cV] seg mi bed F ltac:(discriminate)) as [(nt & P & Nc & _)|[_ [_ B]]].
  - exists nt, cN, cM, cV. split; [exact P|]. split; [exact Nc|]. split; [reflexivity|].
    split; [|split]; apply (all_shown _ _ _ _ _ _ _ _ _ H1 E); reflexivity.
  - exfalso. rewrite Lf in B. cbn [List.length] in B.
    assert (15 <= 95 * Z.of_nat (List.length xq) / 100)%Z by (apply Z.div_le_lower_bound; lia). lia.
Qed.
Print Assumptions C98_forces.

(** [c] shows [q] exactly at the grid points on the foundation. *)
Definition depicts_weak (o : obj) (phi : R) (li : list R) (Cs : list (list R)) (ki : list bool) (xq : list R) (q : vec6 -> R) (c : curve) : Prop :=
  (forall pt, In pt (points c) -> exists x, In x xq /\ on_foundation (combine li ki) x /\ fst pt = x / 10 /\ value_at o phi li Cs ki q x (snd pt)) /\
  (forall x, In x xq -> on_foundation (combine li ki) x -> exists v, In (x / 10, v) (points c)).
Lemma stresses_shown o phi Cs li ki num xq zq xb seg mi bed : (1 <= num)%nat ->
  rasterize_solution (o_par o) (o_eig o) (loads_of o phi) Cs li ki num = Ok (xq, zq, xb) ->
  let p := o_par o in let m := List.length (finite xb) in
  (plot_stresses o xb zq (Some seg) (Some mi) (Some bed) = Err IndexError <-> (1 <= m <= 10)%nat) /\
  ((1 <= m <= 10)%nat \/ exists n ct cs, plot_stresses o xb zq (Some seg) (Some mi) (Some bed) = Ok n /\ n_curves n = [ct; cs] /\
    map k_label [ct; cs] = ["$\tau$"; "$\sigma$"]%string /\
    depicts_weak o phi li Cs ki xq (fun z => 1000 * (kt p * (z_u z + hh p / 2 * z_psi z - wt p / 2 * z_dw z))) ct /\
    depicts_weak o phi li Cs ki xq (fun z => - (1000 * (kn p * z_w z))) cs).
Proof.
  intros H1 E p m. destruct (raster_sizes _ _ _ _ _ _ _ _ _ H1 E) as (Lz & Lb & Lx).
  unfold plot_stresses.
  rewrite (mapM_total (tau_unit (o_par o) "kPa") (fun z => 1000 * f_tau p z)) by (intros z; unfold tau_unit, f_tau; cbn; f_equal; unfold p; ring). cbn [bind].
  rewrite (mapM_total (sig_unit (o_par o) "kPa") (fun z => 1000 * f_sig p z)) by (intros z; unfold sig_unit, f_sig, f_w; cbn; f_equal; unfold p; ring). cbn [bind].
  set (x := cm xb).
  set (ct := mkCurve x (map (fun z => 1000 * f_tau p z) zq) "$\tau$"). set (cs := mkCurve x (map (fun z => 1000 * f_sig p z) zq) "$\sigma$").
  assert (Lm : List.length x = List.length zq) by (unfold x, cm; rewrite map_length; congruence).
  assert (F : Forall (ordinary x) [ct; cs]).
  { repeat constructor; cbn [ct cs k_x k_y k_label]; rewrite ?map_length; try (symmetry; exact Lm); discriminate. }
  assert (Lf : List.length (finite x) = m) by (unfold x; rewrite cm_finite; reflexivity).
  assert (T : forall k : Z, (0 < k)%Z -> (k + 95 * k / 100 <= 20 <-> k <= 10)%Z).
  { intros k Hk. split; intros H; [|assert (95 * k / 100 <= 9)%Z; [|lia]].
    - destruct (Z.le_gt_cases k 10) as [C|C]; [exact C|]. assert (10 <= 95 * k / 100)%Z by (apply Z.div_le_lower_bound; lia). lia.
    - assert (95 * k / 100 < 10)%Z by (apply Z.div_lt_upper_bound; lia). lia. }
  destruct (marked_result x [ct; cs] seg mi bed F ltac:(discriminate)) as [(nt & P & Nc & B)|[P [Bm B]]]; rewrite Lf in *; cbn [List.length] in B; rewrite P.
  - assert (Nm : ~ (1 <= m <= 10)%nat).
    { intros Hm. destruct B as [B|B]; [lia|]. destruct (T (Z.of_nat m) ltac:(lia)) as [_ T2]. specialize (T2 ltac:(lia)). lia. }
    split; [split; [discriminate|intros H; contradiction]|]. right. exists nt, ct, cs. split; [reflexivity|]. split; [exact Nc|]. split; [reflexivity|].
    split; apply (foundation_shown _ _ _ _ _ _ _ _ _ H1 E); intros z; unfold f_tau, f_sig, f_w, f_u, f_dw, f_psi, p; field.
  - assert (Hm : (1 <= m <= 10)%nat) by (destruct (T (Z.of_nat m) ltac:(lia)) as [T1 _]; specialize (T1 ltac:(lia)); lia).
    split; [split; [intros _; exact Hm|reflexivity]|left; exact Hm].
Qed.
(** Weak-layer stresses in kPa, compression and downhill shear as in C11, shown on the foundation only. With no more than ten
    points on the foundation the labels have no place and plotting fails: *)
Theorem C98_stresses_partial o phi Cs li ki num xq zq xb seg mi bed : (1 <= num)%nat ->
  rasterize_solution (o_par o) (o_eig o) (loads_of o phi) Cs li ki num = Ok (xq, zq, xb) ->
  let p := o_par o in let m := List.length (curve_points xb (map (fun _ => 0) xb)) in
  (plot_stresses o xb zq (Some seg) (Some mi) (Some bed) = Err IndexError <-> (1 <= m <= 10)%nat) /\
  ((1 <= m <= 10)%nat \/ exists n ct cs, plot_stresses o xb zq (Some seg) (Some mi) (Some bed) = Ok n /\ n_curves n = [ct; cs] /\
    map k_label [ct; cs] = ["$\tau$"; "$\sigma$"]%string /\
    depicts_weak o phi li Cs ki xq (fun z => 1000 * (kt p * (z_u z + hh p / 2 * z_psi z - wt p / 2 * z_dw z))) ct /\
    depicts_weak o phi li Cs ki xq (fun z => - (1000 * (kn p * z_w z))) cs).
Proof.
  intros H1 E p m. assert (Em : m = List.length (finite xb)) by (unfold m; apply curve_points_length, map_length).
  rewrite Em. exact (stresses_shown o phi Cs li ki num xq zq xb seg mi bed H1 E).
Qed.
Print Assumptions C98_stresses_partial.
(** A short supported part makes the stress plot fail, whatever the model. *)
Theorem C98_stresses_few o phi Cs a b num xq zq xb seg mi bed : 0 < a -> 0 < b -> (1 <= num)%nat -> a / (a + b) * INR num <= 9 ->
  rasterize_solution (o_par o) (o_eig o) (loads_of o phi) Cs [a; b] [true; false] num = Ok (xq, zq, xb) ->
  plot_stresses o xb zq (Some seg) (Some mi) (Some bed) = Err IndexError.
Proof.
  intros Ha Hb Hn Hs E. apply (stresses_shown o phi Cs _ _ num xq zq xb seg mi bed Hn E). rewrite (two_counts _ _ _ _ _ _ _ _ _ _ Ha Hb Hn E).
  assert (P : 0 < a / (a + b) * INR num) by (apply Rmult_lt_0_compat; [apply Rdiv_lt_0_compat; lra|apply lt_0_INR; lia]).
  destruct (ceil_nat_bounds _ P) as [[B1 B2] B3]. split; [lia|]. assert (ceil_nat (a / (a + b) * INR num) < 10)%nat; [|lia].
  apply INR_lt. replace (INR 10) with 10 by (rewrite INR_IZR_INZ; reflexivity). lra.
Qed.
Print Assumptions C98_stresses_few.
Lemma ex_grid li ki num : List.length ki = List.length li -> (exists l, In l li /\ l <> 0) -> exists xq zq xb,
  let o := ex_obj "pst-" None 30 in
  rasterize_solution (o_par o) (o_eig o) (loads_of o 30) (map (fun _ => [1; 0; 0; 2; 0; 0]) li) li ki num = Ok (xq, zq, xb).
Proof.
  intros L Hl. set (o := ex_obj "pst-" None 30).
  destruct (C38_accepted (o_par o) (o_eig o) (loads_of o 30) (map (fun _ => [1; 0; 0; 2; 0; 0]) li) li ki num (map_length _ _) L Hl) as ([[xq zq] xb] & E).
  - intros b l C k H _ x. rewrite (six_zh o (ready_six o (ex_ready "pst-" None 30)) x (Rabs l) k). clear -H.
    assert (G : forall x0 li ki, seg_at x0 (combine li (combine (map (fun _ => [1; 0; 0; 2; 0; 0]) li) ki)) b l (C, k) -> List.length C = 6%nat).
    { clear. intros x0 li. revert x0. induction li as [|l0 li IH]; intros x0 [|k0 ki] H; cbn [map combine] in H; try (inversion H; fail).
      inversion H as [|? ? ? ? ? ? ? H1]; subst; [reflexivity|exact (IH _ _ H1)]. }
    symmetry. exact (G 0 li ki H).
  - exists xq, zq, xb. exact E.
Qed.
(** Both outcomes occur with the default number of points. *)
Example C98_example : let o := ex_obj "pst-" None 30 in
  (exists xq zq xb, rasterize_solution (o_par o) (o_eig o) (loads_of o 30) [[1; 0; 0; 2; 0; 0]; [1; 0; 0; 2; 0; 0]] [700; 300] [true; false] 250 = Ok (xq, zq, xb) /\
     (10 < List.length (curve_points xb (map (fun _ => 0%R) xb)))%nat) /\
  (exists xq zq xb, rasterize_solution (o_par o) (o_eig o) (loads_of o 30) [[1; 0; 0; 2; 0; 0]; [1; 0; 0; 2; 0; 0]] [30; 970] [true; false] 250 = Ok (xq, zq, xb) /\
     30 / (30 + 970) * INR 250 <= 9).
Proof.
  intros o. assert (I : INR 250 = 250) by (rewrite INR_IZR_INZ; reflexivity). split.
  - destruct (ex_grid [700; 300] [true; false] 250 eq_refl) as (xq & zq & xb & E); [exists 700; split; [left; reflexivity|lra]|].
    exists xq, zq, xb. split; [exact E|]. rewrite curve_points_length by apply map_length.
    assert (P7 : 0 < 700) by lra. assert (P3 : 0 < 300) by lra. assert (P1 : (1 <= 250)%nat) by lia. rewrite (two_counts _ _ _ _ _ _ _ _ _ _ P7 P3 P1 E).
    destruct (ceil_nat_bounds (700 / (700 + 300) * INR 250)) as [[B _] _]; [rewrite I; lra|].
    assert (10 < INR (ceil_nat (700 / (700 + 300) * INR 250))) by (rewrite I in *; lra).
    assert (10 <= ceil_nat (700 / (700 + 300) * INR 250))%nat; [|lia]. apply INR_le. replace (INR 10) with 10 by (rewrite INR_IZR_INZ; reflexivity). lra.
  - destruct (ex_grid [30; 970] [true; false] 250 eq_refl) as (xq & zq & xb & E); [exists 30; split; [left; reflexivity|lra]|].
    exists xq, zq, xb. split; [exact E|]. rewrite I. lra.
Qed.
(** C98 refuted: a slab of 1 m with 30 mm on the foundation can be rasterised with the default number of points, but its stress
    plot raises IndexError. *)
Theorem C98_refuted : exists o xq zq xb, SEig.ready o /\
  rasterize_solution (o_par o) (o_eig o) (loads_of o 30) [[1; 0; 0; 2; 0; 0]; [1; 0; 0; 2; 0; 0]] [30; 970] [true; false] 250 = Ok (xq, zq, xb) /\
  plot_stresses o xb zq (Some [30; 970]) (Some [0; 0]) (Some [true; false]) = Err IndexError.
Proof.
  destruct C98_example as [_ (xq & zq & xb & E & H)]. exists (ex_obj "pst-" None 30), xq, zq, xb. split; [apply ex_ready|]. split; [exact E|].
  exact (C98_stresses_few _ _ _ 30 970 250 xq zq xb _ _ _ ltac:(lra) ltac:(lra) ltac:(lia) H E).
Qed.
Print Assumptions C98_refuted.
