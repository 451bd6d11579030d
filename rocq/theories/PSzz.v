(** Proofs about the transverse normal stress in the slab. *)
From Coquelicot Require Import Coquelicot.
Require Import Verif.Py Verif.MTools Verif.MEigen Verif.MFields Verif.MRaster Verif.MSolution Verif.MAnalysis
  Verif.SSlab Verif.SAdm Verif.SBeam Verif.SStress Verif.SSzz Verif.PSlab Verif.PSetup Verif.PLam Verif.PCog Verif.PBeam Verif.PRaster
  Verif.PStress Verif.PStress2.
Require Import Sorting.Sorted.

(** * Sum of the cubed mesh steps *)
Fixpoint cubes (x : list R) : R :=
  match x with
  | x0 :: ((x1 :: _) as x') => (x1 - x0) ^ 3 + cubes x'
  | _ => 0
  end.
Lemma cubes_cons x0 x1 x : cubes (x0 :: x1 :: x) = (x1 - x0) ^ 3 + cubes (x1 :: x).
Proof. reflexivity. Qed.
Lemma cubes_bound d (x : list R) : x <> [] ->
  (forall i, (S i < List.length x)%nat -> 0 <= nth (S i) x 0 - nth i x 0 <= d) ->
  0 <= cubes x <= d ^ 2 * (last x 0 - hd 0 x).
Proof.
  intros Hne. induction x as [|x0 [|x1 x] IH]; intros H; [congruence|simpl; lra|].
  specialize (IH ltac:(discriminate)). rewrite cubes_cons.
  change (last (x0 :: x1 :: x) 0) with (last (x1 :: x) 0). cbn [hd] in IH |- *.
  pose proof (H 0%nat ltac:(simpl; lia)) as H0. cbn [nth] in H0.
  destruct IH as [I1 I2]. { intros i Hi. apply (H (S i)). simpl in *; lia. }
  set (L := last (x1 :: x) 0) in *. clearbody L. set (C := cubes (x1 :: x)) in *. clearbody C.
  assert (E : (x1 - x0) ^ 3 = (x1 - x0) ^ 2 * (x1 - x0)) by ring.
  assert (Q : 0 <= (x1 - x0) ^ 2 <= d ^ 2) by (split; [nra|]; simpl; nra).
  assert (0 <= (x1 - x0) ^ 3) by (rewrite E; nra).
  assert ((x1 - x0) ^ 3 <= d ^ 2 * (x1 - x0)) by (rewrite E; nra). nra.
Qed.

(** * Cumulative trapezoids of layerwise affine data *)
Section Twice.
Variable f : mpoint -> R.
Variables (c : ply -> R) (al be : R).
Hypothesis Hf : forall x q, f (mkMp x (p_E q) (p_nu q) (p_rho q)) = c q * (al + be * x).
Definition mk (q : ply) (x : R) : mpoint := mkMp x (p_E q) (p_nu q) (p_rho q).
(** Trapezoid sum of the cumulative trapezoid started at acc. *)
Definition two (acc : R) (m : list mpoint) : R :=
  tsum (ctrapz_from acc (map f m) (map m_z m)) (map m_z m).

Lemma ct_hd acc (m : list mpoint) : m <> [] -> exists t, ctrapz_from acc (map f m) (map m_z m) = acc :: t.
Proof. destruct m as [|a [|b m]]; intros H; [congruence| |]; simpl; eexists; reflexivity. Qed.
Lemma two_cons acc m0 m1 m :
  two acc (m0 :: m1 :: m) = (m_z m1 - m_z m0) * (2 * acc + (m_z m1 - m_z m0) * (f m0 + f m1) / 2) / 2
    + two (acc + (m_z m1 - m_z m0) * (f m0 + f m1) / 2) (m1 :: m).
Proof.
  unfold two. simpl map. cbn [ctrapz_from].
  set (a1 := acc + (m_z m1 - m_z m0) * (f m0 + f m1) / 2).
  destruct (ct_hd a1 (m1 :: m) ltac:(discriminate)) as [t Et]. simpl map in Et. cbn [ctrapz_from] in Et |- *.
  rewrite Et. rewrite tsum_cons. f_equal. unfold a1. field.
Qed.
Lemma two_block q (xs : list R) rest acc : xs <> [] ->
  (match rest with [] => True | m :: _ => m_z m = last xs 0 end) ->
  two acc (map (mk q) xs ++ rest)
  = let a := hd 0 xs in let b := last xs 0 in
    acc * (b - a) + c q * (al * (b - a) ^ 2 / 2 + be * (b ^ 3 / 6 - a ^ 2 * b / 2 + a ^ 3 / 3)) + c q * be / 12 * cubes xs
    + two (acc + c q * (al * (b - a) + be * (b ^ 2 - a ^ 2) / 2)) rest.
Proof.
  intros Hne Hr. revert acc. induction xs as [|x [|x1 xs] IH]; intros acc; [congruence| |].
  - cbv zeta. simpl last. simpl hd. simpl cubes. simpl map. simpl app.
    destruct rest as [|m r].
    + unfold two. simpl. field.
    + rewrite two_cons. simpl in Hr. rewrite Hr. change (m_z (mk q x)) with x.
      replace (acc + (x - x) * (f (mk q x) + f m) / 2) with acc by field.
      replace (acc + c q * (al * (x - x) + be * (x ^ 2 - x ^ 2) / 2)) with acc by field. field.
  - specialize (IH ltac:(discriminate) Hr).
    change (map (mk q) (x :: x1 :: xs) ++ rest) with (mk q x :: mk q x1 :: (map (mk q) xs ++ rest)).
    rewrite two_cons. change (mk q x1 :: (map (mk q) xs ++ rest)) with (map (mk q) (x1 :: xs) ++ rest).
    rewrite IH. cbv zeta. rewrite cubes_cons. change (last (x :: x1 :: xs) 0) with (last (x1 :: xs) 0). cbn [hd].
    unfold mk. rewrite !Hf. cbn [m_z]. generalize (last (x1 :: xs) 0) (cubes (x1 :: xs)). intros L C.
    match goal with |- _ + (_ + two ?u _) = _ + two ?v _ => replace u with v by field end. field.
Qed.

(** Sum of the cubed steps of a layer. *)
Definition lcubes (dz : R) (aq : R * ply) : R :=
  cubes (linspace (fst aq) (fst aq + p_h (snd aq)) (ceil_nat (p_h (snd aq) / dz) + 1) true).
Lemma lcubes_bound dz a q : 0 < dz -> 0 < p_h q -> 0 <= lcubes dz (a, q) <= dz ^ 2 * p_h q.
Proof.
  intros Hd Hh. unfold lcubes. cbn [fst snd].
  destruct (block_ok dz a q Hd Hh) as (B1 & B2 & B3 & B4 & _). rewrite block_z in *.
  set (xs := linspace a (a + p_h q) (ceil_nat (p_h q / dz) + 1) true) in *.
  assert (Hxs : xs <> []).
  { intros E. apply (f_equal (@List.length R)) in E. unfold xs in E. rewrite linspace_length in E. simpl in E. lia. }
  assert (Hhd : hd 0 xs = a) by (destruct xs; [congruence|exact B1]).
  assert (Hla : last xs 0 = a + p_h q).
  { rewrite <- B2. destruct (@exists_last _ xs Hxs) as (l' & z' & ->). rewrite !last_last. reflexivity. }
  assert (Ep : p_h q = last xs 0 - hd 0 xs) by (rewrite Hhd, Hla; ring).
  clearbody xs. rewrite Ep. apply cubes_bound; [exact Hxs|]. intros i Hi. split; [|apply B4; exact Hi].
  enough (nth i xs 0 < nth (S i) xs 0) by lra. clear - B3 Hi. revert i Hi.
  induction B3 as [|x l S IH F]; intros i Hi; [simpl in Hi; lia|]. destruct i as [|i].
  - destruct l as [|y l]; [simpl in Hi; lia|]. inversion F; subst. assumption.
  - apply IH. simpl in Hi. lia.
Qed.

Lemma two_mesh dz a slab acc : 0 < dz -> Forall good_ply slab ->
  let tops := layer_tops a slab in
  let b := a + rsum (map p_h slab) in
  two acc (List.concat (map (fun aq => block dz (fst aq) (snd aq)) tops))
  = acc * (b - a)
    + al * (b * rsum (map (fun aq => c (snd aq) * p_h (snd aq)) tops)
            - rsum (map (fun aq => c (snd aq) * (((fst aq + p_h (snd aq)) ^ 2 - fst aq ^ 2) / 2)) tops))
    + be * (b * rsum (map (fun aq => c (snd aq) * (((fst aq + p_h (snd aq)) ^ 2 - fst aq ^ 2) / 2)) tops)
            - rsum (map (fun aq => c (snd aq) * (((fst aq + p_h (snd aq)) ^ 3 - fst aq ^ 3) / 3)) tops))
    + be / 12 * rsum (map (fun aq => c (snd aq) * lcubes dz aq) tops).
Proof.
  intros Hd F. cbv zeta. revert a acc. induction F as [|q s Hq F IH]; intros a acc; [unfold two; simpl; field|].
  simpl layer_tops. simpl map at 1. cbn [fst snd]. simpl List.concat. unfold block at 1. fold (mk q).
  set (xs := linspace a (a + p_h q) (ceil_nat (p_h q / dz) + 1) true).
  destruct (block_ok dz a q Hd ltac:(apply Hq)) as (B1 & B2 & _). rewrite block_z in B1, B2. fold xs in B1, B2.
  assert (Hxs : xs <> []).
  { intros E. apply (f_equal (@List.length R)) in E. unfold xs in E. rewrite linspace_length in E. simpl in E. lia. }
  assert (Hhd : hd 0 xs = a) by (destruct xs; [congruence|exact B1]).
  assert (Hla : last xs 0 = a + p_h q).
  { rewrite <- B2. destruct (@exists_last _ xs Hxs) as (l' & z' & ->). rewrite !last_last. reflexivity. }
  change (map (fun x => mkMp x (p_E q) (p_nu q) (p_rho q)) xs) with (map (mk q) xs).
  rewrite two_block; [|exact Hxs|].
  - cbv zeta. rewrite IH, Hhd, Hla. simpl map. simpl rsum.
    assert (El : lcubes dz (a, q) = cubes xs) by reflexivity. rewrite El.
    fold (rsum (map p_h s)). 
    generalize (rsum (map p_h s)) (cubes xs). intros H C.
    repeat match goal with |- context [fold_right Rplus 0 (map ?g ?l)] => let v := fresh "v" in set (v := fold_right Rplus 0 (map g l)); clearbody v end.
    repeat match goal with |- context [rsum (map ?g ?l)] => let v := fresh "v" in set (v := rsum (map g l)); clearbody v end.
    field.
  - destruct s as [|q2 s]; [exact I|]. simpl. assert (Hq2 : good_ply q2) by (inversion F; assumption).
    destruct (block_ok dz (a + p_h q) q2 Hd ltac:(apply Hq2)) as (C1 & _).
    pose proof (block_len dz (a + p_h q) q2 Hd ltac:(apply Hq2)).
    destruct (block dz (a + p_h q) q2) as [|m t]; [simpl in *; lia|]. rewrite Hla. exact C1.
Qed.
End Twice.

(** * Balance of the third derivatives *)
Lemma axial_balance3 p ld z : lam_ok p ->
  A11 p * du0_dxdxdx p ld z + B11 p * dpsi_dxdxdx p ld z = s_tau p true (dz_dx p ld z).
Proof.
  intros Hl. pose proof (axial_balance p no_loads (dz_dx p ld z) Hl) as H. simpl qt in H. simpl pt in H.
  replace (s_tau p true (dz_dx p ld z)) with (s_tau p true (dz_dx p ld z) - 0 - 0) by ring. rewrite <- H.
  unfold du0_dxdxdx, dpsi_dxdxdx, du0_dxdx, dpsi_dxdx, dz_dxdx. set (y := dz_dx p ld z).
  unfold dz_dx at 1 2. unfold vadd, get_load_vector, no_loads. simpl. unfold Rdiv. ring.
Qed.
Lemma moment_balance p ld z : lam_ok p ->
  B11 p * du0_dxdx p ld z + D11 p * dpsi_dxdx p ld z
  = sV p z + (hh p + wt p) / 2 * s_tau p true z - zs p * qt ld + hh p / 2 * pt ld.
Proof.
  intros (HA & HD & HS & HK & HK0). unfold du0_dxdx, dpsi_dxdx, dz_dx, calc_system_matrix, get_load_vector, matvec, vadd, dot6, s_tau, sV. simpl.
  assert (K0 p <> 0) by lra. 
  destruct p as [n t w h zz A B D S K]; simpl in *. field_simplify_eq; [|assumption].
  subst K. ring.
Qed.
Lemma moment_balance3 p ld z : lam_ok p ->
  B11 p * du0_dxdxdx p ld z + D11 p * dpsi_dxdxdx p ld z
  = sV p (dz_dx p ld z) + (hh p + wt p) / 2 * s_tau p true (dz_dx p ld z).
Proof.
  intros Hl. pose proof (moment_balance p no_loads (dz_dx p ld z) Hl) as H. simpl qt in H. simpl pt in H.
  rewrite !Rmult_0_r, Rplus_0_r, Rminus_0_r in H. rewrite <- H.
  unfold du0_dxdxdx, dpsi_dxdxdx, du0_dxdx, dpsi_dxdx, dz_dxdx. set (y := dz_dx p ld z).
  unfold dz_dx at 1 2. unfold vadd, get_load_vector, no_loads. simpl. unfold Rdiv. ring.
Qed.
Lemma shear_balance p ld z : lam_ok p ->
  sV p (dz_dx p ld z) = - s_sig p true z - qn ld - pn ld.
Proof.
  intros (HA & HD & HS & HK & HK0). unfold sV, dz_dx, calc_system_matrix, get_load_vector, matvec, vadd, dot6, s_sig. simpl.
  assert (K0 p <> 0) by lra.
  destruct p as [n t w h zz A B D S K]; simpl in *. field. lra.
Qed.

(** * The transverse normal stress at the slab faces *)
Definition mesh_err (o : obj) (dz : R) : R :=
  rsum (map (fun aq => Eps (snd aq) * lcubes dz aq) (layer_tops (- hh (o_par o) / 2) (o_slab o))).
Lemma Eps_pos q : good_ply q -> 0 < Eps q.
Proof. intros H. unfold Eps. apply Rdiv_lt_0_compat; [apply H|]. destruct H as (? & ? & ? & ? & ?). nra. Qed.
Lemma mesh_err_bound o dz : laminated o -> 0 < dz -> 0 <= mesh_err o dz <= A11 (o_par o) * dz ^ 2.
Proof.
  intros (Hne & F & Hh & HA & HB) Hd. cbv zeta in HA. rewrite HA. unfold mesh_err. clear - F Hd.
  generalize (- hh (o_par o) / 2). induction F as [|q s Hq F IH]; intros a; [simpl; lra|].
  simpl layer_tops. simpl map. simpl rsum. specialize (IH (a + p_h q)).
  destruct (lcubes_bound dz a q Hd ltac:(apply Hq)) as [L1 L2]. pose proof (Eps_pos q Hq) as HE.
  unfold rsum in IH. cbn [fst snd].
  split; [apply Rplus_le_le_0_compat; [apply Rmult_le_pos; lra|apply IH]|].
  rewrite Rmult_plus_distr_r. apply Rplus_le_compat; [|apply IH].
  replace (Eps q * p_h q * dz ^ 2) with (Eps q * (dz ^ 2 * p_h q)) by ring. apply Rmult_le_compat_l; lra.
Qed.

Lemma Szz_ends o phi dz z : laminated o -> bending o -> lam_ok (o_par o) -> 0 < dz ->
  let p := o_par o in let ld := loads_of o phi in
  exists Z, Szz o phi dz "MPa" z = Ok Z /\ List.length Z = List.length (get_zmesh o dz) /\
    hd 1 Z = 0 /\
    last Z 0 = s_sig p true z + pn ld - wt p / 2 * s_tau p true (dz_dx p ld z)
               + dpsi_dxdxdx p ld z / 12 * mesh_err o dz.
Proof.
  intros (Hne & F & Hh & HA & HB) HD Hl Hd. cbv zeta in HA, HB |- *. unfold bending in HD.
  destruct (mesh_ok o dz Hd F Hne) as [M L]. unfold Szz. rewrite M. unfold conv_stress. simpl bind.
  exists (map (Rmult 1) (Szz_MPa o phi (get_zmesh o dz) z)). split; [reflexivity|]. rewrite map_Rmult_1.
  unfold Szz_MPa. set (mesh := get_zmesh o dz) in *. set (ld := loads_of o phi).
  set (U := du0_dxdxdx (o_par o) ld z). set (W := dpsi_dxdxdx (o_par o) ld z).
  set (f1 := fun q => m_E q / (1 - m_nu q ^ 2) * (U + m_z q * W)).
  rewrite map_map. set (f2 := fun q => - (m_rho q / 10 ^ 12 * o_g o * cos (deg2rad phi))).
  assert (Hm : mesh <> []) by (intros E; rewrite E in L; simpl in L; lia).
  assert (Ly1 : List.length (map f1 mesh) = List.length (map m_z mesh)) by (rewrite !map_length; reflexivity).
  assert (Ly2 : List.length (map f2 mesh) = List.length (map m_z mesh)) by (rewrite !map_length; reflexivity).
  assert (N1 : map f1 mesh <> []) by (destruct mesh; [congruence|discriminate]).
  assert (N2 : map f2 mesh <> []) by (destruct mesh; [congruence|discriminate]).
  destruct (ctrapz_ends 0 _ _ Ly1 N1) as (_ & _ & P3). destruct (ctrapz_ends 0 _ _ Ly2 N2) as (Q1 & Q2 & Q3).
  unfold ctrapz. assert (N3 : ctrapz_from 0 (map f1 mesh) (map m_z mesh) <> []).
  { intros E. rewrite E in P3. rewrite map_length in P3. simpl in P3. lia. }
  destruct (ctrapz_ends 0 _ _ P3 N3) as (T1 & T2 & T3).
  destruct (map2_ends (ctrapz_from 0 (ctrapz_from 0 (map f1 mesh) (map m_z mesh)) (map m_z mesh)) (ctrapz_from 0 (map f2 mesh) (map m_z mesh))) as (R1 & R2 & R3).
  { congruence. } { intros E. rewrite E in T3. rewrite map_length in T3. simpl in T3. lia. }
  split; [rewrite R3, T3, map_length; reflexivity|]. split; [rewrite R1, T1, Q1; ring|].
  rewrite R2, T2, Q2. change (tsum (ctrapz_from 0 (map f1 mesh) (map m_z mesh)) (map m_z mesh)) with (two f1 0 mesh).
  unfold mesh, get_zmesh. rewrite coords_eq, zmesh_blocks.
  rewrite (two_mesh f1 Eps U W) by (try assumption; intros x q; unfold f1, Eps; simpl; ring). cbv zeta.
  rewrite (tsum_mesh f2 (fun q => - (p_rho q / 10 ^ 12 * o_g o * cos (deg2rad phi))) 1 0)
    by (try assumption; intros x q; unfold f2; simpl; ring).
  rewrite <- HA, <- HB, <- HD, <- Hh. fold (mesh_err o dz).
  replace (rsum (map (fun aq => - (p_rho (snd aq) / 10 ^ 12 * o_g o * cos (deg2rad phi)) * p_h (snd aq)) (layer_tops (- hh (o_par o) / 2) (o_slab o))))
    with (- qn ld).
  - pose proof (axial_balance3 (o_par o) ld z Hl) as HN. fold U W in HN.
    pose proof (moment_balance3 (o_par o) ld z Hl) as HM. fold U W in HM.
    rewrite (shear_balance (o_par o) ld z Hl) in HM.
    set (tp := s_tau (o_par o) true (dz_dx (o_par o) ld z)) in *. clearbody tp U W. rewrite Rplus_0_l.
    replace (s_sig (o_par o) true z) with (- (B11 (o_par o) * U + D11 (o_par o) * W) - qn ld - pn ld + (hh (o_par o) + wt (o_par o)) / 2 * tp) by (rewrite HM; ring).
    rewrite <- HN. field.
  - unfold ld, loads_of, get_weight_load. destruct (get_surface_load (o_p o) phi) as [pn0 pt0]. simpl qn.
    rewrite <- (weight_sum (o_g o) (o_slab o) (- hh (o_par o) / 2)).
    rewrite (map_ext (fun aq => - (p_rho (snd aq) / 10 ^ 12 * o_g o * cos (deg2rad phi)) * p_h (snd aq))
      (fun aq => - cos (deg2rad phi) * (p_rho (snd aq) / 10 ^ 12 * o_g o * p_h (snd aq)))) by (intros; ring).
    rewrite rsum_scal_map. ring.
Qed.

(** * Slabs with this laminate *)
Lemma pint_F2_tops a slab : pint F2 a (ps slab)
  = rsum (map (fun aq => Eps (snd aq) * (((fst aq + p_h (snd aq)) ^ 3 - fst aq ^ 3) / 3)) (layer_tops a slab)).
Proof.
  revert a. induction slab as [|q s IH]; intros a; [reflexivity|].
  simpl ps. cbn [pint]. fold (ps s). rewrite IH. simpl. unfold F2, Eps. simpl. unfold Rdiv. ring.
Qed.
Lemma fundamental_bending eig o : bending (o_calc_fundamental_system eig o).
Proof.
  destruct (fundamental_par eig o) as (P & _ & S). cbv zeta in P, S. unfold bending. rewrite S, P. simpl.
  rewrite laminate_closed. cbv zeta. simpl. apply pint_F2_tops.
Qed.
