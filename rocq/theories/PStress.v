(** Proofs about the depth mesh and the slab stresses. *)
From Coquelicot Require Import Coquelicot.
Require Import Verif.Py Verif.MTools Verif.MEigen Verif.MFields Verif.MRaster Verif.MSolution Verif.MAnalysis
  Verif.SSlab Verif.SAdm Verif.SBeam Verif.SStress Verif.PSetup Verif.PLam Verif.PBeam Verif.PRaster.
Require Import Sorting.Sorted.

(** * Ply coordinates *)
Fixpoint coords (a : R) (slab : list ply) : list R :=
  match slab with [] => [a] | q :: s => a :: coords (a + p_h q) s end.
Lemma coords_eq slab h : get_ply_coordinates slab h = coords (- h / 2) slab.
Proof.
  unfold get_ply_coordinates, cumsum. simpl map at 2. simpl cumsum_from. rewrite Rplus_0_l.
  assert (G : forall acc, map (fun c => c - h / 2) (acc :: cumsum_from acc (map p_h slab)) = coords (acc - h / 2) slab).
  { induction slab as [|q s IH]; intros acc; [reflexivity|]. simpl. f_equal.
    change (map (fun c => c - h / 2) (acc + p_h q :: cumsum_from (acc + p_h q) (map p_h s)) = coords (acc - h / 2 + p_h q) s).
    rewrite IH. f_equal. lra. }
  change (0 + 0 :: cumsum_from (0 + 0) (map p_h slab)) with ((0 + 0) :: cumsum_from (0 + 0) (map p_h slab)).
  rewrite G || (rewrite Rplus_0_l, G). f_equal. lra.
Qed.
Lemma coords_head a slab : exists t, coords a slab = a :: t.
Proof. destruct slab; simpl; eexists; reflexivity. Qed.

Definition block (dz a : R) (q : ply) : list mpoint :=
  map (fun x => mkMp x (p_E q) (p_nu q) (p_rho q)) (linspace a (a + p_h q) (ceil_nat (p_h q / dz) + 1) true).
Lemma zmesh_blocks dz a slab :
  zmesh_loop slab (coords a slab) dz = List.concat (map (fun aq => block dz (fst aq) (snd aq)) (layer_tops a slab)).
Proof.
  revert a. induction slab as [|q s IH]; intros a; [reflexivity|]. simpl layer_tops. simpl coords.
  destruct (coords_head (a + p_h q) s) as [t Et]. simpl map. simpl List.concat. rewrite <- IH. rewrite Et. simpl zmesh_loop.
  unfold block. replace (a + p_h q - a) with (p_h q) by ring. reflexivity.
Qed.
Lemma block_z dz a q : map m_z (block dz a q) = linspace a (a + p_h q) (ceil_nat (p_h q / dz) + 1) true.
Proof. unfold block. rewrite map_map. simpl. apply map_id. Qed.

Lemma linspace_nth a b n ep i d : (i < n)%nat ->
  nth i (linspace a b n ep) d = a + INR i * ((b - a) / INR (if ep then (n - 1)%nat else n)).
Proof.
  intros H. unfold linspace. set (f := fun i => a + INR i * ((b - a) / INR (if ep then (n - 1)%nat else n))).
  rewrite nth_indep with (d' := f 0%nat) by (rewrite map_length, seq_length; exact H).
  rewrite map_nth, seq_nth by exact H. reflexivity.
Qed.
Lemma last_nthR (l : list R) d : last l d = nth (List.length l - 1) l d.
Proof.
  induction l as [|k [|k2 l] IH]; [reflexivity|reflexivity|].
  change (last (k :: k2 :: l) d) with (last (k2 :: l) d). rewrite IH. simpl. rewrite Nat.sub_0_r. reflexivity.
Qed.

Lemma block_ok dz a q : 0 < dz -> 0 < p_h q -> layer_block dz (a, q) (block dz a q).
Proof.
  intros Hd Hh. unfold layer_block. rewrite block_z. set (n := ceil_nat (p_h q / dz)).
  destruct (ceil_nat_bounds (p_h q / dz)) as [[B1 B2] B3]; [apply Rdiv_lt_0_compat; lra|]. fold n in B1, B2, B3.
  assert (Hn : 0 < INR n) by (apply lt_0_INR; lia).
  assert (St : (a + p_h q - a) / INR n <= dz).
  { replace (a + p_h q - a) with (p_h q) by ring. apply Rmult_le_reg_r with (INR n); [exact Hn|].
    unfold Rdiv. rewrite Rmult_assoc, Rinv_l by lra. apply Rmult_le_compat_r with (r := dz) in B1; [|lra].
    unfold Rdiv in B1. rewrite Rmult_assoc, Rinv_l in B1 by lra. lra. }
  split.
  { destruct (linspace_head a (a + p_h q) (n + 1) true ltac:(lia)) as (t & E & _). rewrite E. reflexivity. }
  split.
  { rewrite last_nthR, linspace_length, linspace_nth by lia. replace (n + 1 - 1)%nat with n by lia. field. lra. }
  split; [apply linspace_sorted; lra|]. split.
  - intros i Hi. rewrite linspace_length in Hi. rewrite !linspace_nth by lia. replace (n + 1 - 1)%nat with n by lia.
    rewrite S_INR. lra.
  - unfold block. apply Forall_forall. intros m I. apply in_map_iff in I. destruct I as (x & <- & _). simpl. auto.
Qed.

(** C46. *)
Lemma zmesh_spec o dz : 0 < dz -> Forall good_ply (o_slab o) ->
  exists blocks, get_zmesh o dz = List.concat blocks /\
    Forall2 (layer_block dz) (layer_tops (- hh (o_par o) / 2) (o_slab o)) blocks.
Proof.
  intros Hd F. exists (map (fun aq => block dz (fst aq) (snd aq)) (layer_tops (- hh (o_par o) / 2) (o_slab o))).
  split; [unfold get_zmesh; rewrite coords_eq; apply zmesh_blocks|].
  generalize (- hh (o_par o) / 2). induction F as [|q s Hq F IH]; intros a; simpl; constructor; [|apply IH].
  apply block_ok; [exact Hd|apply Hq].
Qed.

(** Mesh has at least two points. *)
Lemma block_len dz a q : 0 < dz -> 0 < p_h q -> (2 <= List.length (block dz a q))%nat.
Proof.
  intros Hd Hh. unfold block. rewrite map_length, linspace_length.
  destruct (ceil_nat_bounds (p_h q / dz)) as [_ B]; [apply Rdiv_lt_0_compat; lra|]. lia.
Qed.
Lemma mesh_ok o dz : 0 < dz -> Forall good_ply (o_slab o) -> o_slab o <> [] ->
  mesh_checked o dz = Ok (get_zmesh o dz) /\ (2 <= List.length (get_zmesh o dz))%nat.
Proof.
  intros Hd F Hne. assert (L : (2 <= List.length (get_zmesh o dz))%nat).
  { unfold get_zmesh. rewrite coords_eq, zmesh_blocks. destruct (o_slab o) as [|q s]; [congruence|]. inversion F; subst.
    simpl. rewrite app_length. pose proof (block_len dz (- hh (o_par o) / 2) q Hd ltac:(apply H1)). lia. }
  split; [|exact L]. unfold mesh_checked. destruct (get_zmesh o dz) as [|m1 [|m2 t]]; simpl in L; [lia|lia|reflexivity].
Qed.

(** * Trapezoid sums *)
Fixpoint tsum (y x : list R) : R :=
  match y, x with
  | y0 :: ((y1 :: _) as y'), x0 :: ((x1 :: _) as x') => (x1 - x0) * (y0 + y1) / 2 + tsum y' x'
  | _, _ => 0
  end.
Lemma tsum_cons y0 y1 y x0 x1 x : tsum (y0 :: y1 :: y) (x0 :: x1 :: x) = (x1 - x0) * (y0 + y1) / 2 + tsum (y1 :: y) (x1 :: x).
Proof. reflexivity. Qed.
Lemma ctrapz_ends acc y x : List.length y = List.length x -> y <> [] ->
  hd 1 (ctrapz_from acc y x) = acc /\ last (ctrapz_from acc y x) 0 = acc + tsum y x /\
  List.length (ctrapz_from acc y x) = List.length x.
Proof.
  revert acc x. induction y as [|y0 [|y1 y] IH]; intros acc [|x0 [|x1 x]] E Hne; simpl in E; try discriminate; try congruence.
  - simpl. repeat split; lra.
  - change (ctrapz_from acc (y0 :: y1 :: y) (x0 :: x1 :: x))
      with (acc :: ctrapz_from (acc + (x1 - x0) * (y0 + y1) / 2) (y1 :: y) (x1 :: x)).
    change (tsum (y0 :: y1 :: y) (x0 :: x1 :: x)) with ((x1 - x0) * (y0 + y1) / 2 + tsum (y1 :: y) (x1 :: x)).
    destruct (IH (acc + (x1 - x0) * (y0 + y1) / 2) (x1 :: x)) as (I1 & I2 & I3); [simpl; congruence|discriminate|].
    split; [reflexivity|]. destruct (ctrapz_from (acc + (x1 - x0) * (y0 + y1) / 2) (y1 :: y) (x1 :: x)) as [|c l] eqn:Ec; [discriminate|].
    split; [change (last (acc :: c :: l) 0) with (last (c :: l) 0); rewrite I2; ring|simpl in *; congruence].
Qed.

(** Trapezoid sum of a quantity that is affine in z on each layer. *)
Section Affine.
Variable f : mpoint -> R.
Variables (c : ply -> R) (al be : R).
Hypothesis Hf : forall x q, f (mkMp x (p_E q) (p_nu q) (p_rho q)) = c q * (al + be * x).

Lemma tsum_block q (xs : list R) rest y0 : xs <> [] ->
  (match rest with [] => True | m :: _ => m_z m = y0 end) -> y0 = last xs 0 ->
  tsum (map f (map (fun x => mkMp x (p_E q) (p_nu q) (p_rho q)) xs ++ rest)) (map m_z (map (fun x => mkMp x (p_E q) (p_nu q) (p_rho q)) xs ++ rest))
  = c q * (al * (last xs 0 - hd 0 xs) + be * (last xs 0 ^ 2 - hd 0 xs ^ 2) / 2) + tsum (map f rest) (map m_z rest).
Proof.
  intros Hne Hr Hy. induction xs as [|x [|x1 xs] IH]; [congruence| |].
  - simpl. destruct rest as [|m r]; simpl; [unfold Rdiv; ring|]. simpl in Hy. rewrite Hr, Hy. unfold Rdiv. ring.
  - specialize (IH ltac:(discriminate) Hy). change (last (x :: x1 :: xs) 0) with (last (x1 :: xs) 0).
    simpl map in IH |- *. simpl app in IH |- *. simpl map in IH |- *. rewrite tsum_cons, IH.
    cbn [hd]. rewrite !Hf. cbn [m_z]. generalize (last (x1 :: xs) 0). intros L. field.
Qed.

Lemma tsum_mesh dz a slab : 0 < dz -> Forall good_ply slab ->
  let mesh := List.concat (map (fun aq => block dz (fst aq) (snd aq)) (layer_tops a slab)) in
  tsum (map f mesh) (map m_z mesh)
  = al * rsum (map (fun aq => c (snd aq) * p_h (snd aq)) (layer_tops a slab))
    + be * rsum (map (fun aq => c (snd aq) * (((fst aq + p_h (snd aq)) ^ 2 - fst aq ^ 2) / 2)) (layer_tops a slab)).
Proof.
  intros Hd F mesh. unfold mesh. clear mesh. revert a. induction F as [|q s Hq F IH]; intros a; [simpl; ring|].
  simpl layer_tops. simpl map at 2 4. cbn [fst snd]. simpl List.concat. unfold block at 1 3.
  set (xs := linspace a (a + p_h q) (ceil_nat (p_h q / dz) + 1) true).
  destruct (block_ok dz a q Hd ltac:(apply Hq)) as (B1 & B2 & _). rewrite block_z in B1, B2. fold xs in B1, B2.
  assert (Hxs : xs <> []).
  { intros E. apply (f_equal (@List.length R)) in E. unfold xs in E. rewrite linspace_length in E. simpl in E. lia. }
  assert (Hhd : hd 0 xs = a) by (destruct xs; [congruence|exact B1]).
  assert (Hla : last xs 0 = a + p_h q).
  { rewrite <- B2. destruct (@exists_last _ xs Hxs) as (l' & z' & ->). rewrite !last_last. reflexivity. }
  rewrite (tsum_block q xs _ (a + p_h q)); [|exact Hxs| |symmetry; exact Hla].
  - rewrite IH, Hhd, Hla. simpl. unfold Rdiv. ring.
  - destruct s as [|q2 s]; [exact I|]. simpl. assert (Hq2 : good_ply q2) by (inversion F; assumption).
    destruct (block_ok dz (a + p_h q) q2 Hd ltac:(apply Hq2)) as (C1 & _).
    pose proof (block_len dz (a + p_h q) q2 Hd ltac:(apply Hq2)).
    destruct (block dz (a + p_h q) q2) as [|m t]; [simpl in *; lia|]. exact C1.
Qed.
End Affine.

Lemma map2_ends (u v : list R) : List.length u = List.length v -> u <> [] ->
  hd 1 (map2 Rplus u v) = hd 1 u + hd 1 v /\ last (map2 Rplus u v) 0 = last u 0 + last v 0 /\ List.length (map2 Rplus u v) = List.length u.
Proof.
  revert v. induction u as [|a [|b u] IH]; intros [|c [|d v]] E Hne; simpl in E; try discriminate; try congruence.
  - simpl. auto.
  - destruct (IH (d :: v)) as (_ & I2 & I3); [simpl; congruence|discriminate|].
    split; [reflexivity|]. change (map2 Rplus (a :: b :: u) (c :: d :: v)) with (a + c :: map2 Rplus (b :: u) (d :: v)).
    destruct (map2 Rplus (b :: u) (d :: v)) as [|e l] eqn:Ee; [discriminate|].
    change (last (a + c :: e :: l) 0) with (last (e :: l) 0). rewrite I2. split; [reflexivity|simpl in *; congruence].
Qed.

(** N' from the system matrix. *)
Lemma axial_balance p ld z : lam_ok p ->
  A11 p * du0_dxdx p ld z + B11 p * dpsi_dxdx p ld z = s_tau p true z - qt ld - pt ld.
Proof.
  intros (HA & HD & HS & HK & HK0). unfold du0_dxdx, dpsi_dxdx, dz_dx, calc_system_matrix, get_load_vector, matvec, vadd, dot6, s_tau. simpl.
  assert (K0 p <> 0) by lra. assert (B11 p ^ 2 = K0 p + A11 p * D11 p) by lra.
  destruct p as [n t w h zz A B D S K]; simpl in *. field_simplify_eq; [|assumption].
  subst K. ring.
Qed.

Lemma weight_sum g slab a : rsum (map (fun aq => p_rho (snd aq) / 10 ^ 12 * g * p_h (snd aq)) (layer_tops a slab))
  = rsum (map (fun p => p_rho p * (1 / 1000000000000) * g * p_h p) slab).
Proof.
  revert a. induction slab as [|q s IH]; intros a; [reflexivity|]. simpl map. simpl rsum.
  fold (rsum (map (fun aq => p_rho (snd aq) / 10 ^ 12 * g * p_h (snd aq)) (layer_tops (a + p_h q) s))).
  rewrite IH. simpl. unfold Rdiv. rewrite !Rmult_1_l. do 3 f_equal. replace (10 * (10 * (10 * (10 * (10 * (10 * (10 * (10 * (10 * (10 * (10 * (10 * 1)))))))))))) with 1000000000000 by lra. ring.
Qed.
Lemma rsum_scal_map {A} (c : R) (f : A -> R) l : rsum (map (fun a => c * f a) l) = c * rsum (map f l).
Proof. induction l as [|a l IH]; simpl; [ring|]. simpl in IH. rewrite IH. ring. Qed.

(** C47. *)
Lemma Txz_ends o phi dz z : laminated o -> lam_ok (o_par o) -> 0 < dz ->
  exists T, Txz o phi dz "MPa" z = Ok T /\ List.length T = List.length (get_zmesh o dz) /\
    hd 1 T = 0 /\ last T 0 = s_tau (o_par o) true z - pt (loads_of o phi).
Proof.
  intros (Hne & F & Hh & HA & HB) Hl Hd. cbv zeta in HA, HB.
  destruct (mesh_ok o dz Hd F Hne) as [M L]. unfold Txz. rewrite M. unfold conv_stress. simpl bind.
  exists (map (Rmult 1) (Txz_MPa o phi (get_zmesh o dz) z)). split; [reflexivity|].
  assert (Id : forall l, map (Rmult 1) l = l) by (induction l; simpl; [reflexivity|f_equal; [ring|assumption]]). rewrite Id. clear Id.
  unfold Txz_MPa. set (mesh := get_zmesh o dz) in *. set (ld := loads_of o phi).
  set (U := du0_dxdx (o_par o) ld z). set (W := dpsi_dxdx (o_par o) ld z).
  set (f1 := fun q => m_E q / (1 - m_nu q ^ 2) * (U + m_z q * W)).
  set (f2 := fun q => - (m_rho q / 10 ^ 12) * o_g o * sin (deg2rad phi)).
  assert (Hm : mesh <> []) by (intros E; rewrite E in L; simpl in L; lia).
  assert (Ly1 : List.length (map f1 mesh) = List.length (map m_z mesh)) by (rewrite !map_length; reflexivity).
  assert (Ly2 : List.length (map f2 mesh) = List.length (map m_z mesh)) by (rewrite !map_length; reflexivity).
  assert (N1 : map f1 mesh <> []) by (destruct mesh; [congruence|discriminate]).
  assert (N2 : map f2 mesh <> []) by (destruct mesh; [congruence|discriminate]).
  destruct (ctrapz_ends 0 _ _ Ly1 N1) as (P1 & P2 & P3). destruct (ctrapz_ends 0 _ _ Ly2 N2) as (Q1 & Q2 & Q3).
  unfold ctrapz. destruct (map2_ends (ctrapz_from 0 (map f1 mesh) (map m_z mesh)) (ctrapz_from 0 (map f2 mesh) (map m_z mesh))) as (R1 & R2 & R3).
  { congruence. } { intros E. rewrite E in P3. rewrite map_length in P3. simpl in P3. lia. }
  split; [rewrite R3, P3, map_length; reflexivity|]. split; [rewrite R1, P1, Q1; ring|].
  rewrite R2, P2, Q2. unfold mesh, get_zmesh. rewrite coords_eq, zmesh_blocks.
  rewrite (tsum_mesh f1 Eps U W) by (try assumption; intros x q; unfold f1, Eps; simpl; ring).
  rewrite (tsum_mesh f2 (fun q => - (p_rho q / 10 ^ 12) * o_g o * sin (deg2rad phi)) 1 0)
    by (try assumption; intros x q; unfold f2; simpl; ring).
  rewrite <- HA, <- HB.
  replace (rsum (map (fun aq => - (p_rho (snd aq) / 10 ^ 12) * o_g o * sin (deg2rad phi) * p_h (snd aq)) (layer_tops (- hh (o_par o) / 2) (o_slab o))))
    with (qt ld).
  - pose proof (axial_balance (o_par o) ld z Hl) as HN. fold U W in HN.
    rewrite (Rmult_comm U), (Rmult_comm W). rewrite <- Rplus_assoc in *. rewrite !Rplus_0_l. rewrite HN. ring.
  - unfold ld, loads_of, get_weight_load. destruct (get_surface_load (o_p o) phi) as [pn0 pt0]. simpl qt.
    rewrite <- (weight_sum (o_g o) (o_slab o) (- hh (o_par o) / 2)).
    rewrite (map_ext (fun aq => - (p_rho (snd aq) / 10 ^ 12) * o_g o * sin (deg2rad phi) * p_h (snd aq))
      (fun aq => - sin (deg2rad phi) * (p_rho (snd aq) / 10 ^ 12 * o_g o * p_h (snd aq)))) by (intros; ring).
    rewrite rsum_scal_map. ring.
Qed.
