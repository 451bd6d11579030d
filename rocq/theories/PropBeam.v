(** Property theorems C11-C19: beam equations and their solutions. *)
From Coquelicot Require Import Coquelicot.
From Coq Require Import Permutation.
Require Import Verif.Py Verif.MTools Verif.MEigen Verif.MFields Verif.SAdm
  Verif.SBeam Verif.PBeam Verif.PBeam2.

(** C11: z' = K z + q iff kinematics and equilibrium of the beam, with ([bed])
    or without foundation; [free_par] sets kn = kt = 0. The section forces and
    weak-layer stresses are those the library reports. *)
Theorem C11_equilibrium p ld (bed : bool) z x : lam_ok p ->
  let q := if bed then p
           else mkPar 0 0 (wt p) (hh p) (zs p) (A11 p) (B11 p) (D11 p) (kA55 p) (K0 p) in
  (is_deriv6 z x (vadd (matvec (calc_system_matrix q) (z x)) (get_load_vector q ld))
   <-> equilibrium p ld bed z x) /\
  f_N p (z x) = sN p (z x) /\ f_M p (z x) = sM p (z x) /\ f_V p (z x) = sV p (z x) /\
  f_sig p (z x) = s_sig p true (z x) /\ f_tau p (z x) = s_tau p true (z x).
Proof. exact (fun H => conj (ode_iff_equilibrium p ld bed z x H) (accessors p (z x))). Qed.
Print Assumptions C11_equilibrium.
Example C11_example : lam_ok ex_par.
Proof. exact ex_lam_ok. Qed.

(** C12: every column of the supported complementary matrix solves z' = K z. *)
Theorem C12_supported_complementary K ews l x j :
  Forall (true_eigenpair K) ews ->
  let e := calc_eigensystem ews in
  is_deriv6 (fun s => nth j (zh_bedded e s l) vzero) x
            (matvec K (nth j (zh_bedded e x l) vzero)).
Proof. exact (zh_bedded_solves K ews l x j). Qed.
Print Assumptions C12_supported_complementary.
(** ... hence every combination is an equilibrium state without loads. *)
Theorem C12_equilibrium p ews l bed C x : lam_ok p ->
  Forall (true_eigenpair (calc_system_matrix p)) ews ->
  let e := calc_eigensystem ews in
  equilibrium p no_loads bed (fun s => lincomb (zh p e s l bed) C) x.
Proof. exact (zh_equilibrium p ews l bed C x). Qed.
Print Assumptions C12_equilibrium.
Example C12_example : lam_ok ex_par /\ fnd_ok ex_par /\
  Forall (true_eigenpair (calc_system_matrix ex_par)) ex_ews.
Proof. exact (conj ex_lam_ok (conj ex_fnd_ok ex_true_eig)). Qed.

(** C13: the supported particular solution is constant and in equilibrium. *)
Theorem C13_supported_particular p ld : lam_ok p -> fnd_ok p ->
  (forall x y, zp p ld x true = zp p ld y true) /\
  (forall x, vadd (matvec (calc_system_matrix p) (zp p ld x true)) (get_load_vector p ld) = vzero) /\
  (forall x, equilibrium p ld true (fun s => zp p ld s true) x).
Proof.
  exact (fun Hl Hf => conj (zp_bedded_const p ld)
    (conj (fun x => zp_bedded_state p ld x Hl Hf)
          (fun x => zp_bedded_equilibrium p ld x Hl Hf))).
Qed.
Print Assumptions C13_supported_particular.
Example C13_example : lam_ok ex_par /\ fnd_ok ex_par /\ z_w (zp ex_par (mkLd 1 2 3 4) 7 true) = (1 + 3) / kn ex_par /\
  equilibrium ex_par (mkLd 1 2 3 4) true (fun s => zp ex_par (mkLd 1 2 3 4) s true) 7.
Proof.
  split; [exact ex_lam_ok|]. split; [exact ex_fnd_ok|]. split; [unfold zp, ex_par; simpl; field|].
  exact (proj2 (proj2 (C13_supported_particular ex_par (mkLd 1 2 3 4) ex_lam_ok ex_fnd_ok)) 7).
Qed.

(** C14: the free columns form a complete fundamental system. *)
Theorem C14_free_fundamental p : lam_ok p ->
  (forall e l C x, equilibrium p no_loads false (fun s => lincomb (zh p e s l false) C) x) /\
  (forall z, (forall x, equilibrium p no_loads false z x) ->
     exists C, List.length C = 6%nat /\ forall x, z x = lincomb (zh_free p x) C) /\
  (forall x C, List.length C = 6%nat -> lincomb (zh_free p x) C = vzero -> C = [0; 0; 0; 0; 0; 0]).
Proof.
  exact (fun H => conj (zh_free_equilibrium p H)
    (conj (free_complete p H) (free_independent p H))).
Qed.
Print Assumptions C14_free_fundamental.
Example C14_example : lam_ok ex_par.
Proof. exact ex_lam_ok. Qed.

(** C15 REFUTED: a two-layer slab with a surface load on a 30 degree slope. *)
Theorem C15_free_particular_refuted : exists layers surface phi, forall eig system,
  exists o, Layered eig system (LList layers) false = Ok o /\
  let o' := set_surface_load o surface in
  adm (o_par o') /\
  forall x, ~ equilibrium (o_par o') (loads_of o' phi) false
                (fun s => zp (o_par o') (loads_of o' phi) s false) x.
Proof. exact zp_free_refuted. Qed.
Print Assumptions C15_free_particular_refuted.
(** The exact condition: no coupling stiffness or no tangential surface load. *)
Theorem C15_free_particular_iff p ld x : lam_ok p ->
  equilibrium p ld false (fun s => zp p ld s false) x <-> B11 p * pt ld = 0.
Proof. exact (zp_free_iff p ld x). Qed.
Print Assumptions C15_free_particular_iff.
Example C15_example : lam_ok ex_par /\ B11 ex_par * pt (mkLd 1 2 3 4) = 0.
Proof. split; [exact ex_lam_ok|]. simpl; ring. Qed.

(** C16: bounded exponential factors; the shift only rescales columns. *)
Theorem C16_bounded :
  (forall ew x l, 0 <= x <= l -> 0 < exp (ew * (x + l * shiftR ew)) <= 1) /\
  (forall ew x l, 0 <= x <= l -> 0 < exp (fst ew * (x + l * shiftC ew)) <= 1) /\
  (forall e l, exists s, Forall (fun k => 0 < k) s /\ forall x,
     zh_bedded e x l = map2 vscale s (zh_bedded e x 0) /\
     List.length s = List.length (zh_bedded e x 0)).
Proof. exact (conj expR_bounded (conj expC_bounded shift_rescales)). Qed.
Print Assumptions C16_bounded.
(** Consequence for the entries themselves: bounded by the eigenvector entries. *)
Theorem C16_columns x l : 0 <= x <= l ->
  (forall ew ev, exists c, 0 < c <= 1 /\ colR x l (ew, ev) = vscale c ev) /\
  (forall ew vr vi, exists c a b, 0 < c <= 1 /\ a ^ 2 + b ^ 2 = 1 /\
     colC1 x l (ew, (vr, vi)) = vscale c (vadd (vscale a vr) (vscale (- b) vi)) /\
     colC2 x l (ew, (vr, vi)) = vscale c (vadd (vscale a vi) (vscale b vr))).
Proof. exact (columns_bounded x l). Qed.
Print Assumptions C16_columns.
Example C16_example : 0 <= 250 <= 1000.
Proof. lra. Qed.

(** C17: no zero eigenvalue; six basis functions. *)
Theorem C17_six_columns p ews : lam_ok p -> fnd_ok p ->
  (forall z, matvec (calc_system_matrix p) z = vzero -> z = vzero) /\
  (List.length ews = 6%nat ->
   Forall (true_eigenpair (calc_system_matrix p)) ews ->
   Forall (fun e => ~ (fst (snd e) = vzero /\ snd (snd e) = vzero)) ews ->
   Permutation (map (fun v => (fst v, - snd v)) (map fst ews)) (map fst ews) ->
   forall x l, List.length (zh_bedded (calc_eigensystem ews) x l) = 6%nat).
Proof. exact (fundamental_columns p ews). Qed.
Print Assumptions C17_six_columns.
Example C17_example : lam_ok ex_par /\ fnd_ok ex_par /\ List.length ex_ews = 6%nat /\
  Forall (true_eigenpair (calc_system_matrix ex_par)) ex_ews /\
  Forall (fun e : eigpair => ~ (fst (snd e) = vzero /\ snd (snd e) = vzero)) ex_ews /\
  Permutation (map (fun v => (fst v, - snd v)) (map fst ex_ews)) (map fst ex_ews).
Proof.
  exact (conj ex_lam_ok (conj ex_fnd_ok (conj eq_refl (conj ex_true_eig (conj ex_nonzero ex_conj))))).
Qed.

(** C18: on supported segments [dz_dx], [dz_dxdx] are the derivatives of the
    solution, and the solution is in equilibrium with the loads. *)
Theorem C18_derivatives p ews ld C l x : lam_ok p -> fnd_ok p ->
  Forall (true_eigenpair (calc_system_matrix p)) ews ->
  let z := fun s => zsol p (calc_eigensystem ews) ld s C l true in
  is_deriv6 z x (dz_dx p ld (z x)) /\
  is_deriv6 (fun s => dz_dx p ld (z s)) x (dz_dxdx p ld (z x)) /\
  equilibrium p ld true z x.
Proof. exact (supported_solution p ews ld C l x). Qed.
Print Assumptions C18_derivatives.
Example C18_example : lam_ok ex_par /\ fnd_ok ex_par /\
  Forall (true_eigenpair (calc_system_matrix ex_par)) ex_ews.
Proof. exact C12_example. Qed.

(** C19 REFUTED: for every admissible model there is a solution on an
    unsupported segment whose derivative is not [dz_dx]. *)
Theorem C19_free_derivatives_refuted p e ld l : lam_ok p -> fnd_ok p ->
  exists C x, List.length C = 6%nat /\
    ~ is_deriv6 (fun s => zsol p e ld s C l false) x
                (dz_dx p ld (zsol p e ld x C l false)).
Proof.
  exact (fun Hl Hf => ex_intro _ _ (ex_intro _ 0
    (conj (eq_refl : List.length [1; 0; 0; 0; 0; 0] = 6%nat) (dz_dx_free_wrong p e ld l Hl Hf)))).
Qed.
Print Assumptions C19_free_derivatives_refuted.
(** The exact error is the spurious foundation reaction. *)
Theorem C19_error p e ld C l x : lam_ok p -> B11 p * pt ld = 0 ->
  let z := zsol p e ld x C l false in
  let tau := kt p * (z_u z + hh p / 2 * z_psi z - wt p / 2 * z_dw z) in
  exists d, is_deriv6 (fun s => zsol p e ld s C l false) x d /\
  A11 p * (z_du (dz_dx p ld z) - z_du d) + B11 p * (z_dpsi (dz_dx p ld z) - z_dpsi d) = tau /\
  B11 p * (z_du (dz_dx p ld z) - z_du d) + D11 p * (z_dpsi (dz_dx p ld z) - z_dpsi d)
    = (hh p + wt p) / 2 * tau /\
  kA55 p * (z_dw (dz_dx p ld z) - z_dw d) = kn p * z_w z.
Proof. exact (dz_dx_free_error p e ld C l x). Qed.
Print Assumptions C19_error.
Example C19_example : lam_ok ex_par /\ fnd_ok ex_par /\ B11 ex_par * pt (mkLd 1 2 3 4) = 0.
Proof. split; [exact ex_lam_ok|]. split; [exact ex_fnd_ok|]. simpl; ring. Qed.
