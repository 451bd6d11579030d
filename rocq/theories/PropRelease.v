(** Property theorems C96 and C97: sign of the incremental energy release rate, and the energy it stands for. *)
From Coquelicot Require Import Coquelicot.
Require Import Verif.Py Verif.MTools Verif.MEigen Verif.MFields Verif.MRaster Verif.MSolution Verif.MAnalysis
  Verif.SAdm Verif.SBeam Verif.SBvp Verif.SEig Verif.SEnergy Verif.SOutput Verif.SWork Verif.SRelease Verif.PBeam2 Verif.PBvp Verif.PBvp6
  Verif.PLinAlg Verif.PBalance Verif.PWell2 Verif.PWell3 Verif.PWork Verif.PRelease Verif.PropDepend.

(** C96: a slab without skier on a slope steeper than tan^2 = kt/kn releases a negative total rate, whatever the crack below a
    certain length. *)
Theorem C96_negative eig solve o aslist phi L : sound_solver solve -> ready o -> stable (o_par o) ->
  kind_of (o_system o) = Some KSkier -> 0 < L ->
  let p := o_par o in let ld := loads_of o phi in
  kt p * (qn ld + pn ld) ^ 2 < kn p * (qt ld + pt ld) ^ 2 ->
  exists d, 0 < d /\ forall quad a Ca Cb G G1 G2, 0 < a < d -> a <= L ->
    let li := [(L - a) / 2; a / 2; a / 2; (L - a) / 2] in
    let k0 := [true; true; true; true] in let ki := [true; false; false; true] in
    assemble_and_solve eig solve o aslist phi li [0; 0; 0] k0 = Ok Ca ->
    assemble_and_solve eig solve o aslist phi li [0; 0; 0] ki = Ok Cb -> accurate_quad quad (d * a) ->
    ginc quad (o_par o) (o_eig o) (loads_of o phi) Ca Cb li ki k0 = Ok (Some G, Some G1, Some G2) -> G < 0.
Proof.
  intros Hso Hr Hs Hk HL p ld Hlt. destruct (negative_rate o phi L Hr Hs Hk HL Hlt) as (d & Hd & H).
  exists d. split; [exact Hd|]. intros quad a Ca Cb G G1 G2 Ha HaL li k0 ki HA HB HQ HG.
  assert (SB : forall ks Cs, assemble_and_solve eig solve o aslist phi li [0; 0; 0] ks = Ok Cs -> bvp o 0 phi li [0; 0; 0] ks Cs).
  { intros ks Cs E. apply (solved_bvp eig solve o aslist phi li _ ks Cs KSkier 0 Hso Hr ltac:(simpl; lia) Hk); [discriminate|discriminate|exact E]. }
  apply (H quad a Ca Cb G G1 G2 Ha HaL); [| |apply SB; exact HA|apply SB; exact HB|exact HQ|exact HG].
  - apply (solved_six eig solve o aslist phi li [0; 0; 0] k0 Ca); [simpl; lia|exact HA].
  - apply (solved_six eig solve o aslist phi li [0; 0; 0] ki Cb); [simpl; lia|exact HB].
Qed.
Print Assumptions C96_negative.
(** The library's weak layers have kt < kn: 45 degrees are always enough. *)
Theorem C96_slope eig o t E nu phi : 0 < t -> 0 < E -> -1 < nu < 1 ->
  let o' := set_foundation_properties eig o t E nu true in
  (1 - nu) / 2 * cos (phi * PI / 180) ^ 2 < sin (phi * PI / 180) ^ 2 ->
  rsum (map (fun y => p_rho y * (1 / 1000000000000) * o_g o * p_h y) (o_slab o)) + o_p o <> 0 ->
  let p := o_par o' in let ld := loads_of o' phi in
  kt p * (qn ld + pn ld) ^ 2 < kn p * (qt ld + pt ld) ^ 2.
Proof.
  intros Ht HE Hn o' Hs Hq p ld.
  set (W := rsum (map (fun y => p_rho y * (1 / 1000000000000) * o_g o * p_h y) (o_slab o)) + o_p o) in *.
  assert (Hp : kn p = E / (1 - nu ^ 2) / t /\ kt p = E / (2 * (1 + nu)) / t /\ o_slab o' = o_slab o /\ o_g o' = o_g o /\ o_p o' = o_p o).
  { unfold p, o', set_foundation_properties, o_calc_fundamental_system, o_calc_laminate.
    destruct (calc_laminate_stiffness_matrix _ _ _) as [[[[A B] D] Sk] K]. repeat split. }
  destruct Hp as (E1 & E2 & E3 & E4 & E5).
  assert (Ek : kn p = E / (1 - nu ^ 2) / t /\ kt p = (1 - nu) / 2 * (E / (1 - nu ^ 2) / t)).
  { split; [exact E1|]. rewrite E2. field. repeat split; nra. }
  destruct Ek as [-> ->].
  assert (EL : qn ld + pn ld = W * cos (phi * PI / 180) /\ qt ld + pt ld = - (W * sin (phi * PI / 180))).
  { unfold ld, loads_of, get_weight_load, get_surface_load, deg2rad. cbn [qn qt pn pt].
    rewrite E3, E4, E5.
    replace (phi * (PI / 180)) with (phi * PI / 180) by field. unfold W. split; ring. }
  destruct EL as [-> ->].
  assert (0 < E / (1 - nu ^ 2) / t) by (apply Rdiv_lt_0_compat; [apply Rdiv_lt_0_compat; [lra|nra]|lra]).
  assert (0 < W ^ 2) by (rewrite <- Rsqr_pow2; apply Rsqr_pos_lt; exact Hq).
  replace ((1 - nu) / 2 * (E / (1 - nu ^ 2) / t) * (W * cos (phi * PI / 180)) ^ 2)
    with (E / (1 - nu ^ 2) / t * W ^ 2 * ((1 - nu) / 2 * cos (phi * PI / 180) ^ 2)) by ring.
  replace (E / (1 - nu ^ 2) / t * (- (W * sin (phi * PI / 180))) ^ 2)
    with (E / (1 - nu ^ 2) / t * W ^ 2 * sin (phi * PI / 180) ^ 2) by ring.
  apply Rmult_lt_compat_l; [apply Rmult_lt_0_compat; assumption|exact Hs].
Qed.
Print Assumptions C96_slope.
Example C96_slope_example : let o := ex_obj "skier" None 45 in 0 < 30 /\ 0 < 1 / 4 /\ -1 < 1 / 4 < 1 /\
  (1 - 1 / 4) / 2 * cos (45 * PI / 180) ^ 2 < sin (45 * PI / 180) ^ 2 /\
  rsum (map (fun y => p_rho y * (1 / 1000000000000) * o_g o * p_h y) (o_slab o)) + o_p o <> 0.
Proof.
  cbv zeta. replace (45 * PI / 180) with (PI / 4) by field. rewrite cos_PI4, sin_PI4.
  assert (H : (1 / sqrt 2) ^ 2 = 1 / 2).
  { replace ((1 / sqrt 2) ^ 2) with (1 / (sqrt 2 * sqrt 2)) by (field; apply Rgt_not_eq, sqrt_lt_R0; lra). rewrite sqrt_sqrt by lra. reflexivity. }
  rewrite H. simpl. repeat split; lra.
Qed.

(** C96 is false: a solved slab and crack, exact quadrature, negative total rate. *)
Theorem C96_refuted : exists eig solve o phi li k0 ki Ca Cb G G1 G2, sound_solver solve /\ ready o /\ stable (o_par o) /\
  Forall (fun l => 0 < l) li /\
  assemble_and_solve eig solve o true phi li [0; 0; 0] k0 = Ok Ca /\ assemble_and_solve eig solve o true phi li [0; 0; 0] ki = Ok Cb /\
  ginc (fun f a b => RInt f a b) (o_par o) (o_eig o) (loads_of o phi) Ca Cb li ki k0 = Ok (Some G, Some G1, Some G2) /\ G < 0.
Proof.
  assert (H30 : sin (30 * PI / 180) = 1 / 2) by (replace (30 * PI / 180) with (PI / 6) by field; apply sin_PI6).
  assert (H3c : cos (30 * PI / 180) ^ 2 = 3 / 4).
  { pose proof (sin2_cos2 (30 * PI / 180)) as Q. unfold Rsqr in Q. rewrite H30 in Q. lra. }
  destruct (C96_negative (fun _ => ex_ews) elim_solve (ex_obj "skier" None 30) true 30 8 elim_sound (ex_ready _ _ _) ex_stable eq_refl ltac:(lra)) as (d & Hd & H).
  { unfold loads_of, get_weight_load, get_surface_load, deg2rad. cbn [qn qt pn pt].
    replace (30 * (PI / 180)) with (30 * PI / 180) by field. simpl o_slab. simpl o_g. simpl o_p. simpl o_par. simpl rsum. simpl kt. simpl kn.
    set (Q := 200 * _ * 9810 * 1 + 0).
    replace (4 * (Q * cos (30 * PI / 180) + 1 * cos (30 * PI / 180)) ^ 2) with (4 * (Q + 1) ^ 2 * cos (30 * PI / 180) ^ 2) by ring.
    rewrite H30, H3c. assert (0 < Q) by (unfold Q; lra). nra. }
  set (a := Rmin (d / 2) 1). assert (Ha : 0 < a < d /\ a <= 1) by (unfold a; unfold Rmin; destruct Rle_dec; lra).
  set (li := [(8 - a) / 2; a / 2; a / 2; (8 - a) / 2]).
  destruct (ex_solve li [0; 0; 0] [true; true; true; true] ltac:(simpl; lia) eq_refl eq_refl eq_refl eq_refl) as [Ca HA]; [segs|].
  destruct (ex_solve li [0; 0; 0] [true; false; false; true] ltac:(simpl; lia) eq_refl eq_refl eq_refl eq_refl) as [Cb HC]; [segs|].
  destruct (ginc_total (fun f a b => RInt f a b) (ex_obj "skier" None 30) 30 Ca Cb li [true; true; true; true] [true; false; false; true] (ex_ready _ _ _) eq_refl eq_refl
    (solved_six _ _ _ _ _ li _ _ _ (le_S _ _ (le_S _ _ (le_n 2))) HA) (solved_six _ _ _ _ _ li _ _ _ (le_S _ _ (le_S _ _ (le_n 2))) HC)) as (G & G1 & G2 & HG).
  { simpl. lra. }
  exists (fun _ => ex_ews), elim_solve, (ex_obj "skier" None 30), 30, li, [true; true; true; true], [true; false; false; true], Ca, Cb, G, G1, G2.
  split; [exact elim_sound|]. split; [apply ex_ready|]. split; [exact ex_stable|]. split; [unfold li; repeat constructor; lra|].
  split; [exact HA|]. split; [exact HC|]. split; [exact HG|].
  apply (H (fun f a b => RInt f a b) a Ca Cb G G1 G2); try assumption; try lra.
  intros f u v _. rewrite Rminus_diag_eq, Rabs_R0 by reflexivity. nra.
Qed.
Print Assumptions C96_refuted.

(** C97: what the incremental rates stand for. Twice the new crack length times (mode I minus mode II) is the increase of the
    work of all loads between the uncracked and the cracked solution - with dead loads, twice the released energy - up to the
    work of the end forces, the non-symmetric part of the weak layer's law ([slip_cross]), the moment missed by the
    unsupported particular solution (C15) and the error of the quadrature. *)
Theorem C97_release_partial quad eps o kRa kRb phi li mi k0 ki Ca Cb G G1 G2 : accurate_quad quad eps -> ready o -> (1 <= List.length li)%nat ->
  bvp o kRa phi li mi k0 Ca -> bvp o kRb phi li mi ki Cb ->
  (forall i, nth i ki false = true -> nth i k0 false = true) -> (exists i, cracking k0 ki i = true) ->
  ginc quad (o_par o) (o_eig o) (loads_of o phi) Ca Cb li ki k0 = Ok (Some G, Some G1, Some G2) ->
  let n := List.length li in let p := o_par o in let ld := loads_of o phi in
  let l i := nth i li 0 in let sa i := nth i k0 false in let sb i := nth i ki false in
  let a i := field o phi (l i) (sa i) (nth i Ca []) in let b i := field o phi (l i) (sb i) (nth i Cb []) in
  let da := crack_sum k0 ki n l in
  let missed k := if k : bool then 0 else - (B11 p / A11 p * pt ld) in
  0 < da /\ G = G1 + G2 /\
  Rabs (2 * da * (G1 - G2)
  - (total n (fun i => RInt (fun x => load_power p ld (b i x)) 0 (l i) - RInt (fun x => load_power p ld (a i x)) 0 (l i))
    + total (n - 1) (fun i => point_power o phi (nth i mi 0) (b i (l i)) - point_power o phi (nth i mi 0) (a i (l i)))
    + (section_cross p (a (n - 1)%nat (l (n - 1)%nat)) (b (n - 1)%nat (l (n - 1)%nat))
       - section_cross p (b (n - 1)%nat (l (n - 1)%nat)) (a (n - 1)%nat (l (n - 1)%nat)))
    - (section_cross p (a 0%nat 0) (b 0%nat 0) - section_cross p (b 0%nat 0) (a 0%nat 0))
    - total n (fun i => RInt (fun x => slip_cross p (sa i) (sb i) (a i x) (b i x)) 0 (l i))
    + total n (fun i => missed (sb i) * RInt (fun x => z_psi (a i x)) 0 (l i)
                        - missed (sa i) * RInt (fun x => z_psi (b i x)) 0 (l i)))) <= 2 * (INR n * eps).
Proof. exact (release quad eps o kRa kRb phi li mi k0 ki Ca Cb G G1 G2). Qed.
Print Assumptions C97_release_partial.
Example C97_example : exists Ca Cb G G1 G2,
  bvp (ex_obj "skier" None 30) 0 30 [3; 1; 1; 3] [0; 80; 0] [true; true; true; true] Ca /\
  bvp (ex_obj "skier" None 30) 0 30 [3; 1; 1; 3] [0; 80; 0] [true; false; false; true] Cb /\
  accurate_quad (fun f a b => RInt f a b) 0 /\
  ginc (fun f a b => RInt f a b) ex_par (calc_eigensystem ex_ews) (loads_of (ex_obj "skier" None 30) 30) Ca Cb
    [3; 1; 1; 3] [true; false; false; true] [true; true; true; true] = Ok (Some G, Some G1, Some G2).
Proof.
  set (li := [3; 1; 1; 3]).
  destruct (ex_solve li [0; 80; 0] [true; true; true; true] ltac:(simpl; lia) eq_refl eq_refl eq_refl eq_refl) as [Ca HA]; [segs|].
  destruct (ex_solve li [0; 80; 0] [true; false; false; true] ltac:(simpl; lia) eq_refl eq_refl eq_refl eq_refl) as [Cb HC]; [segs|].
  destruct (ginc_total (fun f a b => RInt f a b) (ex_obj "skier" None 30) 30 Ca Cb li [true; true; true; true] [true; false; false; true] (ex_ready _ _ _) eq_refl eq_refl
    (solved_six _ _ _ _ _ li _ _ _ (le_S _ _ (le_S _ _ (le_n 2))) HA) (solved_six _ _ _ _ _ li _ _ _ (le_S _ _ (le_S _ _ (le_n 2))) HC)) as (G & G1 & G2 & HG).
  { simpl. lra. }
  assert (SB : forall ks Cs, assemble_and_solve (fun _ => ex_ews) elim_solve (ex_obj "skier" None 30) true 30 li [0; 80; 0] ks = Ok Cs -> bvp (ex_obj "skier" None 30) 0 30 li [0; 80; 0] ks Cs).
  { intros ks Cs E. apply (solved_bvp (fun _ => ex_ews) elim_solve (ex_obj "skier" None 30) true 30 li _ ks Cs KSkier 0 elim_sound (ex_ready _ _ _) ltac:(simpl; lia) eq_refl); [discriminate|discriminate|exact E]. }
  exists Ca, Cb, G, G1, G2. split; [apply SB; exact HA|]. split; [apply SB; exact HC|]. split; [|exact HG].
  intros f u v _. rewrite Rminus_diag_eq, Rabs_R0 by reflexivity. lra.
Qed.
