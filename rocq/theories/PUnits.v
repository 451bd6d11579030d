(** Change of units: section properties and loads. *)
From Coquelicot Require Import Coquelicot.
Require Import Verif.Py Verif.MTools Verif.MEigen Verif.MFields Verif.SAdm Verif.MRaster
  Verif.MSolution Verif.MAnalysis Verif.SBeam Verif.SBvp Verif.SEig Verif.SMirror Verif.SUnits Verif.PBeam Verif.PBeam2
  Verif.PBvp Verif.PBvp2 Verif.PBalance Verif.PWell Verif.PWell2 Verif.PWell3 Verif.PBvp6 Verif.PMirror.

(** ** Lists *)
Lemma rsum_scaled a l : rsum (map (Rmult a) l) = a * rsum l.
Proof. induction l as [|x l IH]; simpl; [ring|]. unfold rsum in *. simpl. rewrite IH. ring. Qed.
Lemma nth_scaled a l i : nth i (map (Rmult a) l) 0 = a * nth i l 0.
Proof. revert i. induction l as [|x l IH]; intros [|i]; simpl; try ring. apply IH. Qed.
Lemma cumsum_scaled a l x : cumsum_from (a * x) (map (Rmult a) l) = map (Rmult a) (cumsum_from x l).
Proof.
  revert x. induction l as [|y l IH]; intros x; [reflexivity|]. simpl. rewrite <- Rmult_plus_distr_l, IH. reflexivity.
Qed.
Lemma map2_scaled (f g : R -> R -> R) a b c l1 l2 : (forall x y, f (a * x) (b * y) = c * g x y) ->
  map2 f (map (Rmult a) l1) (map (Rmult b) l2) = map (Rmult c) (map2 g l1 l2).
Proof.
  intros H. revert l2. induction l1 as [|x l1 IH]; intros [|y l2]; try reflexivity. simpl. rewrite H, IH. reflexivity.
Qed.
Lemma map3_scaled (f g : R -> R -> R -> R) a b c d l1 l2 l3 : (forall x y z, f (a * x) (b * y) (c * z) = d * g x y z) ->
  map3 f (map (Rmult a) l1) (map (Rmult b) l2) (map (Rmult c) l3) = map (Rmult d) (map3 g l1 l2 l3).
Proof.
  intros H. revert l2 l3. induction l1 as [|x l1 IH]; intros [|y l2] [|z l3]; try reflexivity. simpl. rewrite H, IH. reflexivity.
Qed.
Lemma map_scaled {A} (f g : A -> R) a l : (forall x, f x = a * g x) -> map f l = map (Rmult a) (map g l).
Proof. intros H. rewrite map_map. apply map_ext. exact H. Qed.
Lemma div_scaled a b x y : a <> 0 -> a * x / (b * y) = a / b * (x / y).
Proof. intros Ha. unfold Rdiv. rewrite Rinv_mult. ring. Qed.
Lemma div_same a x y : a <> 0 -> a * x / (a * y) = x / y.
Proof. intros Ha. rewrite div_scaled by exact Ha. unfold Rdiv. rewrite Rinv_r by exact Ha. ring. Qed.

Section Units.
Variable u : units.
Hypothesis U : proper_units u.
Let a := uL u.
Let b := uF u.
Let c := uM u.
Lemma Ua : a <> 0. Proof. destruct U as (H & _). unfold a. lra. Qed.
Lemma Ub : b <> 0. Proof. destruct U as (_ & H & _). unfold b. lra. Qed.
Lemma Uc : c <> 0. Proof. destruct U as (_ & _ & H). unfold c. lra. Qed.
Lemma Upos : 0 < a /\ 0 < b /\ 0 < c. Proof. exact U. Qed.
Local Ltac us := unfold u_density, u_stress, u_line, u_accel; fold a b c.
Local Ltac fu := us; field; repeat split; try apply Ua; try apply Ub; try apply Uc.

(** ** Section properties *)
Lemma coords_in slab h : get_ply_coordinates (map (ply_in u) slab) (a * h) = map (Rmult a) (get_ply_coordinates slab h).
Proof.
  unfold get_ply_coordinates, cumsum.
  pose proof (cumsum_scaled a (0 :: map p_h slab) 0) as H. rewrite Rmult_0_r in H.
  cbn [map] in H. rewrite Rmult_0_r, map_map in H. rewrite map_map. cbn [ply_in p_h] in *. fold a. rewrite H.
  rewrite !map_map. apply map_ext. intros x. field.
Qed.
Lemma loop_in slab : forall z k A B D Sk,
  laminate_loop (map (ply_in u) slab) (map (Rmult a) z) k (u_line u * A) (b * B) (b * a * D) (u_line u * Sk)
  = let '(A', B', D', S') := laminate_loop slab z k A B D Sk in (u_line u * A', b * B', b * a * D', u_line u * S').
Proof.
  induction slab as [|q slab IH]; intros z k A B D Sk; [reflexivity|].
  destruct z as [|z0 [|z1 z]]; try reflexivity. cbn [map laminate_loop].
  rewrite <- IH. cbn [map ply_in p_E p_G p_nu]. unfold Rdiv.
  set (i := / (1 - p_nu q ^ 2)). pose proof Ua as Ha. us. f_equal; field; exact Ha.
Qed.
Lemma laminate_in slab h k :
  calc_laminate_stiffness_matrix (map (ply_in u) slab) (a * h) k
  = let '(A, B, D, Sk, K) := calc_laminate_stiffness_matrix slab h k in
    (u_line u * A, b * B, b * a * D, u_line u * Sk, b ^ 2 * K).
Proof.
  unfold calc_laminate_stiffness_matrix. rewrite coords_in.
  pose proof (loop_in slab (get_ply_coordinates slab h) k 0 0 0 0) as H. rewrite !Rmult_0_r in H. rewrite H.
  destruct (laminate_loop slab (get_ply_coordinates slab h) k 0 0 0 0) as [[[A B] D] Sk]. f_equal. fu.
Qed.
Lemma foundation_in E nu t :
  calc_foundation_stiffness (u_stress u * E) nu (a * t)
  = let '(n, s) := calc_foundation_stiffness E nu t in (u_stress u / a * n, u_stress u / a * s).
Proof.
  unfold calc_foundation_stiffness. cbv zeta. f_equal; unfold Rdiv; rewrite !Rinv_mult; ring.
Qed.
Lemma center_in layers : calc_center_of_gravity (map (layer_in u) layers)
  = (a * fst (calc_center_of_gravity layers), a * snd (calc_center_of_gravity layers)).
Proof.
  unfold calc_center_of_gravity. cbv zeta. cbn [fst snd].
  rewrite map_length, <- map_rev.
  set (lr := rev layers). set (n := List.length layers).
  rewrite !map_map. cbn [layer_in fst snd]. fold a. unfold layer in *.
  rewrite (map_scaled (fun x => a * snd x) snd a lr) by reflexivity.
  rewrite (map_scaled (fun x => 1 / 1000000000000 * (u_density u * fst x)) (fun x => 1 / 1000000000000 * fst x) (u_density u) lr) by (intros; ring).
  set (h := map snd lr). set (rho := map (fun x => 1 / 1000000000000 * fst x) lr).
  rewrite rsum_scaled.
  rewrite (map_scaled (fun j => a * rsum h / 2 - rsum (firstn j (map (Rmult a) h)) - nth j (map (Rmult a) h) 0 / 2)
    (fun j => rsum h / 2 - rsum (firstn j h) - nth j h 0 / 2) a)
    by (intros j; rewrite firstn_map, rsum_scaled, nth_scaled; field).
  rewrite (map3_scaled _ (fun z hj r => z * hj * r) a a (u_density u) (a * a * u_density u)) by (intros; ring).
  rewrite (map2_scaled _ Rmult a (u_density u) (a * u_density u)) by (intros; ring).
  rewrite !rsum_scaled. f_equal.
  assert (D : a * u_density u <> 0).
  { us. apply Rmult_integral_contrapositive_currified; [apply Ua|]. unfold Rdiv.
    apply Rmult_integral_contrapositive_currified; [apply Uc|]. apply Rinv_neq_0_compat, pow_nonzero, Ua. }
  match goal with |- a * a * u_density u * ?X / (a * u_density u * ?Y) = _ =>
    replace (a * a * u_density u * X) with (a * (a * u_density u * X)) by ring;
    unfold Rdiv at 1; rewrite Rmult_assoc; rewrite <- (div_same (a * u_density u) X Y D) end.
  reflexivity.
Qed.
Lemma face_in slab phi : calc_vertical_bc_center_of_gravity (map (ply_in u) slab) phi
  = let '(xs, zs, m) := calc_vertical_bc_center_of_gravity slab phi in (a * xs, a * zs, c / a * m).
Proof.
  unfold calc_vertical_bc_center_of_gravity. cbv zeta.
  destruct (Req_EM_T (deg2rad phi) 0) as [E|E]; [f_equal; [f_equal|]; ring|].
  rewrite map_length, !map_map. cbn [ply_in p_h p_rho]. fold a.
  set (n := List.length slab). set (T := tan (deg2rad phi)). set (T2 := tan (deg2rad phi / 2)).
  rewrite (map_scaled (fun x => a * p_h x) p_h a slab) by reflexivity.
  rewrite (map_scaled (fun x => 1 / 1000000000000 * (u_density u * p_rho x)) (fun x => 1 / 1000000000000 * p_rho x) (u_density u) slab) by (intros; ring).
  set (hi := map p_h slab). set (rho := map (fun x => 1 / 1000000000000 * p_rho x) slab).
  rewrite rsum_scaled. set (H := rsum hi).
  rewrite (map_scaled (fun j => - (a * H) / 2 + rsum (firstn j (map (Rmult a) hi)))
    (fun j => - H / 2 + rsum (firstn j hi)) a) by (intros j; rewrite firstn_map, rsum_scaled; field).
  set (z := map (fun j => - H / 2 + rsum (firstn j hi)) (seq 0 (n + 1))).
  rewrite firstn_map, skipn_map.
  set (zi := firstn n z). set (zii := skipn 1 z).
  rewrite (map3_scaled (fun zi0 hi0 zii0 => zi0 + hi0 / 3 * (3 / 2 * (a * H) - zi0 - 2 * zii0) / (a * H - zi0 - zii0))
    (fun zi0 hi0 zii0 => zi0 + hi0 / 3 * (3 / 2 * H - zi0 - 2 * zii0) / (H - zi0 - zii0)) a a a a).
  2:{ intros x y w. rewrite Rmult_plus_distr_l. f_equal.
      replace (a * H - a * x - a * w) with (a * (H - x - w)) by ring.
      replace (a * y / 3 * (3 / 2 * (a * H) - a * x - 2 * (a * w))) with (a * (a * (y / 3 * (3 / 2 * H - x - 2 * w)))) by field.
      rewrite div_same by apply Ua. unfold Rdiv. ring. }
  set (zsi := map3 (fun zi0 hi0 zii0 => zi0 + hi0 / 3 * (3 / 2 * H - zi0 - 2 * zii0) / (H - zi0 - zii0)) zi hi zii).
  rewrite (map3_scaled (fun hi0 zi0 zii0 => hi0 / 2 * (a * H - zi0 - zii0) * T)
    (fun hi0 zi0 zii0 => hi0 / 2 * (H - zi0 - zii0) * T) a a a (a * a)) by (intros; field).
  set (Ai := map3 (fun hi0 zi0 zii0 => hi0 / 2 * (H - zi0 - zii0) * T) hi zi zii).
  rewrite (map3_scaled _ (fun zsi0 rho0 Ai0 => zsi0 * rho0 * Ai0) a (u_density u) (a * a) (a * (u_density u * (a * a)))) by (intros; ring).
  rewrite (map2_scaled _ Rmult (u_density u) (a * a) (u_density u * (a * a)) rho) by (intros; ring).
  rewrite (map2_scaled _ Rmult (a * a) (u_density u) (c / a) Ai) by (intros; fu).
  rewrite !rsum_scaled.
  assert (D : u_density u * (a * a) <> 0).
  { us. replace (c / a ^ 3 * (a * a)) with (c / a) by (field; apply Ua). unfold Rdiv.
    apply Rmult_integral_contrapositive_currified; [apply Uc|]. apply Rinv_neq_0_compat, Ua. }
  set (X := rsum (map3 (fun zsi0 rho0 Ai0 => zsi0 * rho0 * Ai0) zsi rho Ai)). set (Y := rsum (map2 Rmult rho Ai)).
  assert (Z : a * (u_density u * (a * a)) * X / (u_density u * (a * a) * Y) = a * (X / Y)).
  { rewrite Rmult_assoc. unfold Rdiv at 1. rewrite Rmult_assoc. f_equal. apply (div_same _ X Y D). }
  rewrite Z. apply f_equal2; [apply f_equal2; [unfold Rdiv; ring|reflexivity]|reflexivity].
Qed.

(** ** Loads *)
Lemma loads_units o o' phi : same_in u o o' -> loads_of o' phi = loads_in u (loads_of o phi).
Proof.
  intros (G & _ & _ & P & S0 & _). unfold loads_of, get_weight_load, get_surface_load, loads_in. rewrite G, P, S0, map_map.
  cbn [qn qt pn pt ply_in p_rho p_h].
  rewrite (map_scaled (fun x => u_density u * p_rho x * (1 / 1000000000000) * (u_accel u * o_g o) * (uL u * p_h x))
     (fun x => p_rho x * (1 / 1000000000000) * o_g o * p_h x) (u_stress u)).
  2:{ intros x. fu. }
  rewrite rsum_scaled. f_equal; ring.
Qed.

(** ** Section forces and tractions *)
Lemma N_in p z : sN (par_in u p) (state_in u z) = u_line u * sN p z.
Proof. unfold sN, par_in, state_in; simpl. fu. Qed.
Lemma M_in p z : sM (par_in u p) (state_in u z) = b * sM p z.
Proof. unfold sM, par_in, state_in; simpl. fu. Qed.
Lemma V_in p z : sV (par_in u p) (state_in u z) = u_line u * sV p z.
Proof. unfold sV, par_in, state_in; simpl. fu. Qed.
Lemma tau_in p k z : s_tau (par_in u p) k (state_in u z) = u_stress u * s_tau p k z.
Proof. unfold s_tau, par_in, state_in; destruct k; simpl; fu. Qed.
Lemma sig_in p k z : s_sig (par_in u p) k (state_in u z) = u_stress u * s_sig p k z.
Proof. unfold s_sig, par_in, state_in; destruct k; simpl; fu. Qed.
Lemma extra_in p ld k : extra_moment (par_in u p) (loads_in u ld) k = u_line u * extra_moment p ld k.
Proof.
  unfold extra_moment, par_in, loads_in. destruct k; simpl; [ring|]. us. fold b. unfold Rdiv. rewrite !Rinv_mult, Rinv_inv.
  pose proof Ua as Ha. pose proof Ub as Hb. set (i := / A11 p). field. split; assumption.
Qed.

Lemma derive_scaled (f : R -> R) k x d : is_derive f (x / a) d -> is_derive (fun s => k * f (s / a)) x (k / a * d).
Proof.
  intros H. eapply is_derive_eq.
  - apply (is_derive_scal (fun s => f (s / a)) x k).
    apply (is_derive_comp f (fun s => s / a) x d (/ a)); [exact H|].
    auto_derive; [exact I|]. unfold Rdiv. ring.
  - unfold scal; simpl; unfold mult; simpl. unfold Rdiv. ring.
Qed.
Lemma balance_in p ld k em z x : balance p ld k em z (x / a) ->
  balance (par_in u p) (loads_in u ld) k (u_line u * em) (fun s => state_in u (z (s / a))) x.
Proof.
  intros (H1 & H2 & H3 & H4 & H5 & H6). unfold balance. rewrite tau_in, sig_in, V_in.
  pose proof Ua as Ha. pose proof Ub as Hb.
  split6.
  - eapply is_derive_eq; [apply (derive_scaled _ a _ _ H1)|]. simpl. field. exact Ha.
  - eapply is_derive_eq; [apply (derive_scaled _ a _ _ H2)|]. simpl. field. exact Ha.
  - eapply is_derive_eq; [eapply is_derive_ext; [|apply (derive_scaled _ 1 _ _ H3)]|].
    + intros s. simpl. ring.
    + simpl. fold a. field. exact Ha.
  - eapply is_derive_eq; [eapply is_derive_ext; [|apply (derive_scaled _ (u_line u) _ _ H4)]|].
    + intros s. simpl. rewrite N_in. reflexivity.
    + simpl. fu.
  - eapply is_derive_eq; [eapply is_derive_ext; [|apply (derive_scaled _ (u_line u) _ _ H5)]|].
    + intros s. simpl. rewrite V_in. reflexivity.
    + simpl. fu.
  - eapply is_derive_eq; [eapply is_derive_ext; [|apply (derive_scaled _ b _ _ H6)]|].
    + intros s. simpl. rewrite M_in. reflexivity.
    + simpl. fu.
Qed.

(** ** The boundary value problem *)
Section Problem.
Variables (o o' : obj) (kR phi : R).
Hypothesis S0 : same_in u o o'.
Hypothesis KD : exists kd, kind_of (o_system o) = Some kd /\ (kd = KPst \/ kd = KVpst \/ kd = KSkier).

Lemma pst_in sgn k z : pst_end o kR phi sgn k z -> pst_end o' (b * kR) phi sgn k (state_in u z).
Proof.
  pose proof (loads_units o o' phi S0) as EL. destruct S0 as (_ & _ & _ & _ & _ & P & A & T & C & M & _).
  unfold pst_end. rewrite P, A, T, C, M, EL. unfold forces. rewrite N_in, M_in, V_in.
  destruct k; [intros (X & Y & Z); rewrite X, Y, Z; repeat split; ring|].
  destruct (o_mode o) as [[]|]; [| | |intros []].
  - intros (X & Y & Z); rewrite X, Y, Z; repeat split; ring.
  - intros (X & Y & Z); rewrite X, Y; simpl; rewrite Z; repeat split; ring.
  - intros (X & Y & Z). rewrite X. simpl. rewrite Z. split; [fu|]. split; [|ring].
    replace (b * sM (o_par o) z + sgn * (b * kR) * z_psi z) with (b * (sM (o_par o) z + sgn * kR * z_psi z)) by ring.
    rewrite Y. ring.
Qed.
Lemma faceend_in z : face_end o phi z -> face_end o' phi (state_in u z).
Proof.
  destruct S0 as (G & _ & _ & _ & S1 & P & _). unfold face_end. rewrite P, S1, G, face_in.
  destruct (calc_vertical_bc_center_of_gravity (o_slab o) phi) as [[xs zs] m]. unfold forces. rewrite N_in, M_in, V_in.
  intros (X & Y & Z); rewrite X, Y, Z; repeat split; fu.
Qed.
Lemma far_in z : fnd_ok (o_par o) -> lam_ok (o_par o) -> far_field o phi z -> far_field o' phi (state_in u z).
Proof.
  intros (F1 & F2 & _) (_ & _ & L3 & _).
  pose proof (loads_units o o' phi S0) as EL. destruct S0 as (_ & _ & _ & _ & _ & P & _). unfold far_field. rewrite P, EL. simpl.
  intros (X & Y & Z). rewrite X, Y, Z. pose proof Ua. pose proof Ub.
  repeat split; us; field; repeat split; try assumption; lra.
Qed.
Lemma transition_in m x y : o_lski o <> 0 -> transition o phi m x y -> transition o' phi (c * m) (state_in u x) (state_in u y).
Proof.
  intros HL. destruct KD as (kd & EK & HK).
  destruct S0 as (G & L & SY & _ & _ & P & _). unfold transition. rewrite SY, EK, P, G, L, !N_in, !M_in, !V_in.
  replace (match kd with KRot | KTrans => true | _ => false end) with false by (destruct HK as [->|[-> | ->]]; reflexivity).
  assert (EF : c * m * (u_accel u * o_g o) / 1000 / (uL u * o_lski o) = u_line u * (m * o_g o / 1000 / o_lski o)).
  { fu. exact HL. }
  rewrite EF. set (F := m * o_g o / 1000 / o_lski o). set (cs := cos (phi * PI / 180)). set (sn := sin (phi * PI / 180)).
  intros (A1 & A2 & A3 & A4 & A5 & A6). simpl. rewrite A1, A2, A3.
  split; [reflexivity|]. split; [reflexivity|]. split; [reflexivity|].
  rewrite <- !Rmult_minus_distr_l, A4, A5, A6. repeat split; fu.
Qed.
End Problem.
End Units.
