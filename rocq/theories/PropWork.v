(** Property theorems C93 and C95: external potential, and energy against work. *)
From Coquelicot Require Import Coquelicot.
Require Import Verif.Py Verif.MTools Verif.MEigen Verif.MFields Verif.MRaster Verif.MSolution Verif.MAnalysis
  Verif.SAdm Verif.SBeam Verif.SBvp Verif.SEig Verif.SRaster Verif.SOutput Verif.SWork Verif.PSetup Verif.PBeam2
  Verif.PBvp Verif.PBalance Verif.PWell2 Verif.PBvp6 Verif.PLinAlg Verif.PRaster Verif.PRaster2 Verif.PPotential Verif.PropOutput Verif.PWork.

(** C93: the external potential is minus the work of weight and surface load: mean over the raster times the length of the
    first two segments; the rest of the slab has settled by [tc] and moves with the end of the raster. Part of the claim only:
    the surface traction works at the centre of gravity, not at the surface ([dead_power]), and the mean is over raster
    points. *)
Theorem C93_external_partial o phi L Cs l0 l1 li ki P xq zq xb :
  external_potential o phi L Cs (l0 :: l1 :: li) ki = Ok P ->
  rasterize_solution (o_par o) (o_eig o) (loads_of o phi) Cs (l0 :: l1 :: li) ki 250 = Ok (xq, zq, xb) ->
  exists ze, (o_system o = "pst-"%string /\ ze = last zq vzero \/ o_system o = "-pst"%string /\ ze = hd vzero zq) /\
    P = - ((l0 + l1) * mean (dead_power o) zq
           + (L - (l0 + l1)) * dead_power o (mkV (z_u ze) 0 (o_tc o) 0 (z_psi ze) 0)).
Proof. exact (external_value o phi L Cs l0 l1 li ki P xq zq xb). Qed.
Print Assumptions C93_external_partial.

(** The total potential is the energy of C71 less this work. *)
Theorem C93_total_partial o phi L Cs l0 l1 li ki P xq zq xb : lam_ok (o_par o) ->
  total_potential o phi L Cs (l0 :: l1 :: li) ki = Ok P ->
  rasterize_solution (o_par o) (o_eig o) (loads_of o phi) Cs (l0 :: l1 :: li) ki 250 = Ok (xq, zq, xb) ->
  let p := o_par o in
  exists ze, (o_system o = "pst-"%string /\ ze = last zq vzero \/ o_system o = "-pst"%string /\ ze = hd vzero zq) /\
    P = L * mean (slab_energy p) zq + L * mean (coupling_error p) zq
      + L * mean (fun z => kn p * z_w z ^ 2 / 2 + kt p * (z_u z + hh p / 2 * z_psi z) ^ 2 / 2) (present xb zq)
      + 1 / 2 * end_moment o zq * end_rotation o zq ^ 2
      - (l0 + l1) * mean (dead_power o) zq - (L - (l0 + l1)) * dead_power o (mkV (z_u ze) 0 (o_tc o) 0 (z_psi ze) 0).
Proof.
  intros Hl H HR p. unfold total_potential in H.
  destruct (internal_potential o phi L Cs (l0 :: l1 :: li) ki) as [a|] eqn:EA; simpl in H; [|discriminate].
  destruct (external_potential o phi L Cs (l0 :: l1 :: li) ki) as [b|] eqn:EB; simpl in H; [|discriminate].
  apply Ok_inj in H. subst P. destruct (external_value _ _ _ _ _ _ _ _ _ _ _ _ EB HR) as (ze & Hz & ->).
  exists ze. split; [exact Hz|]. rewrite (potential_shares _ _ _ _ _ _ _ _ _ _ Hl EA HR). fold p. ring.
Qed.
Print Assumptions C93_total_partial.

Example C93_example : exists Cs P Q, bvp (ex_obj "pst-" (Some ModeA) 30) 0 (-30) [8; 2] [0] [true; false] Cs /\
  external_potential (ex_obj "pst-" (Some ModeA) 30) (-30) 10 Cs [8; 2] [true; false] = Ok Q /\
  total_potential (ex_obj "pst-" (Some ModeA) 30) (-30) 10 Cs [8; 2] [true; false] = Ok (P + Q).
Proof.
  destruct C54_example as (Cs & P & HB & HC & HP). exists Cs, P.
  assert (EX : exists Q, external_potential (ex_obj "pst-" (Some ModeA) 30) (-30) 10 Cs [8; 2] [true; false] = Ok Q).
  { unfold external_potential. unfold internal_potential in HP. destruct (rasterize_solution _ _ _ Cs _ _ _) as [[[xq zq] xb]|]; [|discriminate].
    cbn [bind]. cbv zeta. unfold mem_str. cbn [existsb o_system ex_obj]. simpl String.eqb. cbn [orb bind]. eexists. reflexivity. }
  destruct EX as (Q & EQ). exists Q. split; [exact HB|]. split; [exact EQ|]. unfold total_potential. rewrite HP, EQ. reflexivity.
Qed.

(** C93 is false: the shear traction of the surface load does its work at the surface. *)
Theorem C93_refuted : exists o phi l0 l1 Cs ki P xq zq xb, adm (o_par o) /\ o_phi o = phi /\ 0 < l0 /\ 0 < l1 /\
  external_potential o phi (l0 + l1) Cs [l0; l1] ki = Ok P /\
  rasterize_solution (o_par o) (o_eig o) (loads_of o phi) Cs [l0; l1] ki 250 = Ok (xq, zq, xb) /\
  P <> - (l0 + l1) * mean (load_power (o_par o) (loads_of o phi)) zq.
Proof.
  set (o := ex_obj "pst-" (Some ModeA) 90). assert (H250 : (1 <= 250)%nat) by lia.
  destruct (raster_accepts (o_par o) (o_eig o) (loads_of o 90) [zeros; zeros] [1; 1] [true; true] 250) as ([[xq zq] xb] & HR);
    [reflexivity|reflexivity|exists 1; split; [left; reflexivity|lra]| |].
  { intros b l C k H _ x. rewrite (six_zh o (ready_six o (ex_ready _ _ _))). simpl in H.
    inversion H as [|? ? ? ? ? ? ? H1]; subst; [reflexivity|]. inversion H1 as [|? ? ? ? ? ? ? H2]; subst; [reflexivity|]. inversion H2. }
  assert (EX : exists P, external_potential o 90 (1 + 1) [zeros; zeros] [1; 1] [true; true] = Ok P).
  { unfold external_potential. rewrite HR. cbn [bind]. cbv zeta. unfold mem_str, o. cbn [existsb o_system ex_obj]. simpl String.eqb. cbn [orb bind].
    eexists. reflexivity. }
  destruct EX as (P & EP). exists o, 90, 1, 1, [zeros; zeros], [true; true], P, xq, zq, xb.
  split; [split; [exact ex_lam_ok|split; [exact ex_fnd_ok|simpl; lra]]|]. split; [reflexivity|]. split; [lra|]. split; [lra|].
  split; [exact EP|]. split; [exact HR|].
  destruct (external_value _ _ _ _ _ _ _ _ _ _ _ _ EP HR) as (ze & _ & ->).
  destruct (raster_grid _ _ _ _ _ _ _ _ _ _ H250 HR) as (_ & _ & _ & _ & Ln & Lz & _).
  assert (N : zq <> []) by (intros E; rewrite E in Lz; simpl in Lz; lia).
  assert (Z : forall z, In z zq -> z = zp (o_par o) (loads_of o 90) 0 true).
  { pose proof (raster_columns _ _ _ _ _ _ _ _ _ _ H250 HR) as G. intros z I.
    clear - G I. induction G as [|x y xq zq H G IH]; [contradiction|]. destruct I as [->|I]; [|apply IH; exact I].
    destruct H as (b & l & C & k & (S1 & _) & ->). simpl in S1.
    inversion S1 as [|? ? ? ? ? ? ? H1]; subst; [apply uniform_field|]. inversion H1 as [|? ? ? ? ? ? ? H2]; subst; [apply uniform_field|]. inversion H2. }
  rewrite !(mean_const _ zq _ N Z).
  unfold dead_power, load_power, shift_at, zp. change (o_par o) with ex_par. change (o_phi o) with 90.
  assert (EL : loads_of o 90 = mkLd 0 (- (200 * (1 / 1000000000000) * 9810)) 0 (-1)).
  { unfold loads_of, get_weight_load, get_surface_load, deg2rad, o. simpl.
    replace (90 * (PI / 180)) with (PI / 2) by field. rewrite cos_PI2, sin_PI2. f_equal; ring. }
  rewrite EL. simpl. lra.
Qed.
Print Assumptions C93_refuted.

(** C95: twice the energy stored in slab and weak layer is the work of weight, surface load, skiers and end forces - up to the
    mismatch of the weak layer's law, and the moment that the unsupported particular solution misses (C15). *)
Theorem C95_balance_partial o kR phi li mi ki Cs : ready o -> (1 <= List.length li)%nat -> bvp o kR phi li mi ki Cs ->
  let n := List.length li in let p := o_par o in let ld := loads_of o phi in
  let l i := nth i li 0 in let k i := nth i ki false in
  let z i := field o phi (l i) (k i) (nth i Cs []) in
  total n (fun i => RInt (fun x => 2 * stored p (k i) (z i x)) 0 (l i))
  + total n (fun i => RInt (fun x => slip_mismatch p (k i) (z i x)) 0 (l i))
  = total n (fun i => RInt (fun x => load_power p ld (z i x)) 0 (l i))
    + total n (fun i => - (if k i then 0 else - (B11 p / A11 p * pt ld)) * RInt (fun x => z_psi (z i x)) 0 (l i))
    + total (n - 1) (fun i => point_power o phi (nth i mi 0) (z i (l i)))
    + section_power p (z (n - 1)%nat (l (n - 1)%nat)) - section_power p (z 0%nat 0).
Proof. exact (energy_balance o kR phi li mi ki Cs). Qed.
Print Assumptions C95_balance_partial.
(** Free ends do no work; without coupling or surface load nothing is missed. *)
Theorem C95_free_partial o kR phi li mi ki Cs : ready o -> (1 <= List.length li)%nat -> bvp o kR phi li mi ki Cs ->
  kind_of (o_system o) = Some KPst -> (o_mode o = Some ModeA \/ nth 0 ki false = true /\ nth (List.length li - 1) ki false = true) ->
  B11 (o_par o) = 0 \/ o_p o = 0 ->
  let n := List.length li in let p := o_par o in let ld := loads_of o phi in
  let l i := nth i li 0 in let k i := nth i ki false in
  let z i := field o phi (l i) (k i) (nth i Cs []) in
  total n (fun i => RInt (fun x => 2 * stored p (k i) (z i x)) 0 (l i))
  + total n (fun i => RInt (fun x => slip_mismatch p (k i) (z i x)) 0 (l i))
  = total n (fun i => RInt (fun x => load_power p ld (z i x)) 0 (l i))
    + total (n - 1) (fun i => point_power o phi (nth i mi 0) (z i (l i))).
Proof.
  intros Hr Hn HB Hk Hm Hp n p ld l k z. pose proof HB as HB0.
  destruct HB0 as (BL & BR & _). unfold left_end, right_end in BL, BR. rewrite Hk in BL, BR. unfold pst_end in BL, BR.
  assert (FL : forces p (z 0%nat 0) 0 0 0).
  { unfold z, k, l. destruct Hm as [E|[E1 E2]]; [rewrite E in BL; destruct (nth 0 ki false); exact BL|rewrite E1 in BL |- *; exact BL]. }
  assert (FR : forces p (z (n - 1)%nat (l (n - 1)%nat)) 0 0 0).
  { unfold z, k, l, n. destruct Hm as [E|[E1 E2]]; [rewrite E in BR; destruct (nth (List.length li - 1) ki false); exact BR|rewrite E2 in BR |- *; exact BR]. }
  assert (SL : section_power p (z 0%nat 0) = 0) by (unfold section_power; destruct FL as (-> & -> & ->); ring).
  assert (SR : section_power p (z (n - 1)%nat (l (n - 1)%nat)) = 0) by (unfold section_power; destruct FR as (-> & -> & ->); ring).
  assert (Z : B11 p / A11 p * pt ld = 0).
  { destruct Hp as [E|E]; [fold p in E; rewrite E; unfold Rdiv; ring|]. unfold ld, loads_of, get_weight_load, get_surface_load. simpl. rewrite E. ring. }
  assert (Z1 : total n (fun i => - extra_moment p ld (k i) * RInt (fun x => z_psi (z i x)) 0 (l i)) = 0).
  { rewrite (total_ext n _ (fun _ => 0)).
    - clear. induction n as [|m IH]; [reflexivity|rewrite total_S, IH; ring].
    - intros i _. unfold extra_moment. rewrite Z. destruct (k i); ring. }
  pose proof (energy_balance o kR phi li mi ki Cs Hr Hn HB) as E.
  change (total n (fun i => RInt (fun x => 2 * stored p (k i) (z i x)) 0 (l i))
  + total n (fun i => RInt (fun x => slip_mismatch p (k i) (z i x)) 0 (l i))
  = total n (fun i => RInt (fun x => load_power p ld (z i x)) 0 (l i))
    + total n (fun i => - extra_moment p ld (k i) * RInt (fun x => z_psi (z i x)) 0 (l i))
    + total (n - 1) (fun i => point_power o phi (nth i mi 0) (z i (l i)))
    + section_power p (z (n - 1)%nat (l (n - 1)%nat)) - section_power p (z 0%nat 0)) in E.
  rewrite Z1, SL, SR in E. rewrite E. ring.
Qed.
Print Assumptions C95_free_partial.
Example C95_example : exists Cs, ready (ex_obj "pst-" (Some ModeA) 30) /\ kind_of (o_system (ex_obj "pst-" (Some ModeA) 30)) = Some KPst /\
  B11 (o_par (ex_obj "pst-" (Some ModeA) 30)) = 0 /\
  bvp (ex_obj "pst-" (Some ModeA) 30) 0 (-30) [8; 2] [0] [true; false] Cs.
Proof. destruct C54_example as (Cs & P & HB & _). exists Cs. split; [apply ex_ready|]. split; [reflexivity|]. split; [reflexivity|exact HB]. Qed.

(** C95 is false for every uniform slab on a slope: twice the stored energy exceeds the work of the loads by the length times
    t/(4 kA55) times the shear loads. *)
Theorem C95_uniform_partial o phi l0 l1 : ready o -> kind_of (o_system o) = Some KSkier ->
  bvp o 0 phi [l0; l1] [0] [true; true] [zeros; zeros] /\
  let p := o_par o in let ld := loads_of o phi in
  let z l := field o phi l true zeros in
  RInt (fun x => 2 * stored p true (z l0 x)) 0 l0 + RInt (fun x => 2 * stored p true (z l1 x)) 0 l1
  = RInt (fun x => load_power p ld (z l0 x)) 0 l0 + RInt (fun x => load_power p ld (z l1 x)) 0 l1
    + (l0 + l1) * (wt p / (4 * kA55 p)) * (qt ld + pt ld) * (qt ld * (hh p + wt p - 2 * zs p) + pt ld * (2 * hh p + wt p)).
Proof.
  intros Hr Hk. pose proof (uniform_bvp o phi l0 l1 Hk) as HB. split; [exact HB|]. cbv zeta.
  pose proof (energy_balance o 0 phi [l0; l1] [0] [true; true] [zeros; zeros] Hr ltac:(simpl; lia) HB) as E.
  cbv zeta in E. unfold total in E. cbn [List.length seq map rsum fold_right nth Nat.sub] in E.
  rewrite !(uniform_mismatch o phi _ Hr) in E. cbv zeta in E. rewrite !uniform_field in E.
  assert (EP : point_power o phi 0 (zp (o_par o) (loads_of o phi) 0 true) = 0).
  { unfold point_power, point_Fn, point_Ft. rewrite Hk. unfold Rdiv. ring. }
  rewrite EP in E. unfold extra_moment in E. simpl rsum in E.
  set (I1 := RInt _ 0 l0) in *. set (I2 := RInt _ 0 l1) in *. set (J1 := RInt _ 0 l0) in *. set (J2 := RInt _ 0 l1) in *.
  lra.
Qed.
Print Assumptions C95_uniform_partial.
Theorem C95_refuted : exists o phi l0 l1 Cs, ready o /\ stable (o_par o) /\ 0 < l0 /\ 0 < l1 /\ kind_of (o_system o) = Some KSkier /\
  bvp o 0 phi [l0; l1] [0] [true; true] [Cs; Cs] /\
  let p := o_par o in let ld := loads_of o phi in
  let z l := field o phi l true Cs in
  section_power p (z l1 l1) - section_power p (z l0 0) = 0 /\
  RInt (fun x => 2 * stored p true (z l0 x)) 0 l0 + RInt (fun x => 2 * stored p true (z l1 x)) 0 l1
  <> RInt (fun x => load_power p ld (z l0 x)) 0 l0 + RInt (fun x => load_power p ld (z l1 x)) 0 l1.
Proof.
  exists (ex_obj "skier" None 90), 90, 1, 1, zeros. split; [apply ex_ready|]. split; [exact ex_stable|]. split; [lra|]. split; [lra|]. split; [reflexivity|].
  destruct (C95_uniform_partial (ex_obj "skier" None 90) 90 1 1 (ex_ready _ _ _) eq_refl) as [HB E]. split; [exact HB|]. cbv zeta. split.
  - rewrite !uniform_field. ring.
  - cbv zeta in E. rewrite E. change (o_par (ex_obj "skier" None 90)) with ex_par.
    assert (EL : loads_of (ex_obj "skier" None 90) 90 = mkLd 0 (- (200 * (1 / 1000000000000) * 9810)) 0 (-1)).
    { unfold loads_of, get_weight_load, get_surface_load, deg2rad. simpl.
      replace (90 * (PI / 180)) with (PI / 2) by field. rewrite cos_PI2, sin_PI2. f_equal; ring. }
    set (J := RInt _ 0 1). clearbody J. rewrite EL. simpl. lra.
Qed.
Print Assumptions C95_refuted.
