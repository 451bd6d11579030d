(** Vertical-face wedge (C06, C07). *)
From Coquelicot Require Import Coquelicot.
Require Import Verif.Py Verif.MTools Verif.MEigen Verif.SSlab Verif.PSlab
  Verif.PCog Verif.SWedge Verif.PLam.

(** Density profile in t/mm^3. *)
Definition rl (slab : list ply) : list (R * R) :=
  map (fun q => ((1 / 1000000000000) * p_rho q, p_h q)) slab.

Lemma thickness_rl slab : thickness (rl slab) = slab_h slab.
Proof.
  induction slab as [|q r IH]; simpl; [reflexivity|].
  unfold slab_h in *; simpl; congruence.
Qed.

(** Antiderivatives of width, width*z, width^2/2 (factor tan, tan, tan^2). *)
Definition W0 (H z : R) := H / 2 * z - z ^ 2 / 2.
Definition W1 (H z : R) := H / 4 * z ^ 2 - z ^ 3 / 3.
Definition W2 (H z : R) := - (H / 2 - z) ^ 3 / 6.

Lemma pint_scal k F z0 ls : pint (fun z => k * F z) z0 ls = k * pint F z0 ls.
Proof.
  revert z0; induction ls as [|[c h] r IH]; intros z0; simpl; [ring|].
  rewrite IH; ring.
Qed.

Lemma wedge_mass ls phi : pos_thick ls ->
  wedge_integral ls phi (fun _ _ => 1)
  = tan phi * pint (W0 (thickness ls)) (- thickness ls / 2) ls.
Proof.
  intros Hp. unfold wedge_integral, wedge_width. cbv zeta.
  set (H := thickness ls).
  rewrite (RInt_ext _ (fun z => val_at (- H / 2) ls z * ((H / 2 - z) * tan phi))).
  2:{ intros z _. f_equal. rewrite RInt_const. unfold scal; simpl; unfold mult; simpl. ring. }
  change (depth_integral ls (fun z => (H / 2 - z) * tan phi)
          = tan phi * pint (W0 H) (- H / 2) ls).
  rewrite (depth_integral_pint _ (fun z => tan phi * W0 H z)); trivial.
  - fold H. apply pint_scal.
  - intros z. unfold W0. auto_derive; [trivial|field].
  - intros z. apply (ex_derive_continuous (K := R_AbsRing)); auto_derive; trivial.
Qed.

Lemma wedge_zmom ls phi : pos_thick ls ->
  wedge_integral ls phi (fun _ z => z)
  = tan phi * pint (W1 (thickness ls)) (- thickness ls / 2) ls.
Proof.
  intros Hp. unfold wedge_integral, wedge_width. cbv zeta.
  set (H := thickness ls).
  rewrite (RInt_ext _ (fun z => val_at (- H / 2) ls z * ((H / 2 - z) * tan phi * z))).
  2:{ intros z _. f_equal. rewrite RInt_const. unfold scal; simpl; unfold mult; simpl. ring. }
  change (depth_integral ls (fun z => (H / 2 - z) * tan phi * z)
          = tan phi * pint (W1 H) (- H / 2) ls).
  rewrite (depth_integral_pint _ (fun z => tan phi * W1 H z)); trivial.
  - fold H. apply pint_scal.
  - intros z. unfold W1. auto_derive; [trivial|field].
  - intros z. apply (ex_derive_continuous (K := R_AbsRing)); auto_derive; trivial.
Qed.

Lemma RInt_id a : RInt (fun x => x) 0 a = a ^ 2 / 2.
Proof.
  apply is_RInt_unique.
  replace (a ^ 2 / 2) with (minus (a ^ 2 / 2) (0 ^ 2 / 2)) by (unfold minus, plus, opp; simpl; field).
  apply (is_RInt_derive (V := R_CompleteNormedModule) (fun x => x ^ 2 / 2)).
  - intros x _. auto_derive; [trivial|field].
  - intros x _. apply continuous_id.
Qed.

Lemma wedge_xmom ls phi : pos_thick ls ->
  wedge_integral ls phi (fun x _ => x)
  = tan phi ^ 2 * pint (W2 (thickness ls)) (- thickness ls / 2) ls.
Proof.
  intros Hp. unfold wedge_integral, wedge_width. cbv zeta.
  set (H := thickness ls).
  rewrite (RInt_ext _ (fun z => val_at (- H / 2) ls z * (((H / 2 - z) * tan phi) ^ 2 / 2))).
  2:{ intros z _. f_equal. apply RInt_id. }
  change (depth_integral ls (fun z => ((H / 2 - z) * tan phi) ^ 2 / 2)
          = tan phi ^ 2 * pint (W2 H) (- H / 2) ls).
  rewrite (depth_integral_pint _ (fun z => tan phi ^ 2 * W2 H z)); trivial.
  - fold H. apply pint_scal.
  - intros z. unfold W2. auto_derive; [trivial|field].
  - intros z. apply (ex_derive_continuous (K := R_AbsRing)); auto_derive; trivial.
Qed.

(** W2 = (H/2 W0 - W1)/2 up to a constant. *)
Lemma W2_rel H z : W2 H z = (H / 2 * W0 H z - W1 H z) / 2 - H ^ 3 / 48.
Proof. unfold W2, W1, W0. field. Qed.

Lemma pint_W2 H z0 ls :
  pint (W2 H) z0 ls = (H / 2 * pint (W0 H) z0 ls - pint (W1 H) z0 ls) / 2.
Proof.
  revert z0; induction ls as [|[c h] r IH]; intros z0; simpl; [field|].
  rewrite IH, !W2_rel. field.
Qed.

(** Model side. *)
Lemma zlist_cons c h r n :
  map (fun j => c + rsum (firstn j (h :: r))) (seq 0 (S n))
  = c :: map (fun j => (c + h) + rsum (firstn j r)) (seq 0 n).
Proof.
  cbn [seq map firstn]. f_equal; [unfold rsum; simpl; ring|].
  rewrite <- seq_shift, map_map. apply map_ext; intros j.
  cbn [firstn]. unfold rsum; simpl. ring.
Qed.

Section W.
Variables (H T : R).
Let fzs := fun zi hi zii : R =>
  zi + hi / 3 * (3 / 2 * H - zi - 2 * zii) / (H - zi - zii).
Let fA := fun hi zi zii : R => hi / 2 * (H - zi - zii) * T.

Lemma wedge_loop slab c :
  Forall (fun q => 0 < p_h q) slab -> c + slab_h slab = H / 2 ->
  let hi := map p_h slab in
  let rho := map (fun p => (1 / 1000000000000) * p_rho p) slab in
  let n := List.length slab in
  let z := map (fun j => c + rsum (firstn j hi)) (seq 0 (n + 1)) in
  let zi := firstn n z in
  let zii := skipn 1 z in
  let zsi := map3 fzs zi hi zii in
  let Ai := map3 fA hi zi zii in
  rsum (map3 (fun zsi rho Ai => zsi * rho * Ai) zsi rho Ai)
    = T * pint (W1 H) c (rl slab)
  /\ rsum (map2 Rmult rho Ai) = T * pint (W0 H) c (rl slab)
  /\ rsum (map2 Rmult Ai rho) = T * pint (W0 H) c (rl slab).
Proof.
  revert c; induction slab as [|q r IH]; intros c Hp Hc; cbv zeta.
  - simpl. repeat split; ring.
  - inversion Hp as [|x y Hq Hr]; subst.
    assert (Hc' : c + p_h q + slab_h r = H / 2)
      by (rewrite <- Hc; unfold slab_h; simpl; ring).
    specialize (IH (c + p_h q) Hr Hc'). cbv zeta in IH.
    destruct IH as (I1 & I2 & I3).
    assert (Hs : 0 <= slab_h r).
    { clear - Hr. induction Hr as [|x l Hx Hl IH]; [unfold slab_h; simpl; lra|].
      unfold slab_h in *; simpl in *; lra. }
    cbn [List.length map].
    replace (S (List.length r) + 1)%nat with (S (S (List.length r))) by lia.
    replace (List.length r + 1)%nat with (S (List.length r)) in I1, I2, I3 by lia.
    rewrite zlist_cons. cbn [skipn] in *.
    set (Z := map (fun j => c + p_h q + rsum (firstn j (map p_h r)))
                (seq 0 (S (List.length r)))) in *.
    assert (EZ : exists Z', Z = (c + p_h q) :: Z').
    { unfold Z. eexists. cbn [seq map firstn]. f_equal. unfold rsum; simpl; ring. }
    destruct EZ as [Z' EZ]. rewrite EZ in *.
    cbn [firstn map3 map2] in *.
    assert (Hden : H - c - (c + p_h q) <> 0) by lra.
    assert (T1 : fzs c (p_h q) (c + p_h q) * (1 / 1000000000000 * p_rho q) * fA (p_h q) c (c + p_h q)
                = T * ((1 / 1000000000000 * p_rho q) * (W1 H (c + p_h q) - W1 H c))).
    { unfold fzs, fA, W1. field. exact Hden. }
    assert (T2 : 1 / 1000000000000 * p_rho q * fA (p_h q) c (c + p_h q)
                = T * ((1 / 1000000000000 * p_rho q) * (W0 H (c + p_h q) - W0 H c))).
    { unfold fA, W0. field. }
    unfold rsum in *. cbn [fold_right rl map pint fst snd] in *. fold (rl r).
    destruct r as [|q' r'].
    + simpl in *. rewrite T1, T2. repeat split; try ring.
      rewrite Rmult_comm with (r1 := fA _ _ _), T2. ring.
    + rewrite I1, I2, I3, T1, T2. repeat split; try ring.
      rewrite Rmult_comm with (r1 := fA _ _ _), T2. ring.
Qed.
End W.

Lemma wedge_closed slab phi :
  Forall (fun q => 0 < p_h q) slab -> deg2rad phi <> 0 ->
  let H := slab_h slab in
  let T := tan (deg2rad phi) in
  let m := T * pint (W0 H) (- H / 2) (rl slab) in
  let z := T * pint (W1 H) (- H / 2) (rl slab) / m in
  calc_vertical_bc_center_of_gravity slab phi
  = ((H / 2 - z) * tan (deg2rad phi / 2), z, m).
Proof.
  intros Hp Hphi H T m z. unfold calc_vertical_bc_center_of_gravity.
  destruct (Req_EM_T (deg2rad phi) 0) as [E|_]; [contradiction|].
  destruct (wedge_loop H T slab (- H / 2) Hp) as (I1 & I2 & I3).
  { unfold H; field. }
  cbv zeta in I1, I2, I3. fold (slab_h slab). fold H. fold T.
  rewrite I1, I2, I3. reflexivity.
Qed.
