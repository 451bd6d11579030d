(** Specification for C113: what inexact eigenvectors and an inexact linear solver satisfy. *)
Require Import Verif.Py Verif.MTools Verif.MEigen Verif.SBeam Verif.SBvp Verif.SSplit.
Local Open Scope R_scope.

(** Eigenpair of [K] up to the residual [rho]: K (vr + i vi) and (re + i im) (vr + i vi) differ by
    at most [rho] in every entry. *)
Definition approx_eigenpair (K : mat6) (rho : R) (e : eigpair) : Prop :=
  let '((re, im), (vr, vi)) := e in
  close6 rho (matvec K vr) (vadd (vscale re vr) (vscale (- im) vi)) /\
  close6 rho (matvec K vi) (vadd (vscale im vr) (vscale re vi)).

(** Sum of the absolute values of all constants. *)
Definition abs_sum (C : list R) : R := fold_right (fun c s => Rabs c + s) 0 C.

(** A solver for [n] unknowns whose answers leave a residual of at most [d] in every row. *)
Definition accurate_solver (d : R) (n : nat)
    (solve : nat -> (nat -> nat -> R) -> (nat -> R) -> res (nat -> R)) : Prop :=
  forall A b x, solve n A b = Ok x -> forall r, (r < n)%nat -> Rabs (sumn n (fun c => A r c * x c) - b r) <= d.

(** The conditions of the boundary value problem [bvp], each up to [d]. *)
Section Within.
Variable d : R.
Definition within (a b : R) : Prop := Rabs (a - b) <= d.
Definition forces_within (p : params) (z : vec6) (N M V : R) : Prop :=
  within (sN p z) N /\ within (sM p z) M /\ within (sV p z) V.
Definition pst_end_within (o : obj) (kR phi sgn : R) (k : bool) (z : vec6) : Prop :=
  let p := o_par o in
  let qt := qt (loads_of o phi) + pt (loads_of o phi) in
  if k then forces_within p z 0 0 0
  else match o_mode o with
  | Some ModeA => forces_within p z 0 0 0
  | Some ModeB => within (sN p z) 0 /\ within (sM p z) 0 /\ within (z_w z) (o_tc o)
  | Some ModeC => within (sN p z) (sgn * qt * (o_a o - o_td o)) /\
                  within (sM p z + sgn * kR * z_psi z) 0 /\ within (z_w z) (o_tc o)
  | None => False
  end.
Definition face_end_within (o : obj) (phi : R) (z : vec6) : Prop :=
  let '(xs, zs, m) := calc_vertical_bc_center_of_gravity (o_slab o) phi in
  let a := phi * PI / 180 in
  forces_within (o_par o) z (- (o_g o * m * sin a))
    (- (o_g o * m * (xs * cos a + zs * sin a))) (o_g o * m * cos a).
Definition far_field_within (o : obj) (phi : R) (z : vec6) : Prop :=
  let zf := zp (o_par o) (loads_of o phi) 0 true in
  within (z_u z) (z_u zf) /\ within (z_w z) (z_w zf) /\ within (z_psi z) (z_psi zf).
Definition left_end_within (o : obj) (kR phi : R) (k : bool) (z : vec6) : Prop :=
  match kind_of (o_system o) with
  | Some KPst => pst_end_within o kR phi (-1) k z
  | Some KVpst => face_end_within o phi z
  | Some KSkier => far_field_within o phi z
  | Some KRot => forces_within (o_par o) z 0 1 0
  | Some KTrans => forces_within (o_par o) z 0 0 1
  | None => False
  end.
Definition right_end_within (o : obj) (kR phi : R) (k : bool) (z : vec6) : Prop :=
  match kind_of (o_system o) with
  | Some KPst => pst_end_within o kR phi 1 k z
  | Some KVpst => face_end_within o phi z
  | Some KSkier => far_field_within o phi z
  | Some KRot => forces_within (o_par o) z 0 0 0
  | Some KTrans => forces_within (o_par o) z 0 0 0
  | None => False
  end.
Definition transition_within (o : obj) (phi m : R) (zl zr : vec6) : Prop :=
  let p := o_par o in
  let unit_load := match kind_of (o_system o) with
                   | Some KRot | Some KTrans => true | _ => false end in
  let F := if unit_load then 0 else m * o_g o / 1000 / o_lski o in
  let a := phi * PI / 180 in
  let Fn := F * cos a in
  let Ft := - (F * sin a) in
  within (z_u zl) (z_u zr) /\ within (z_w zl) (z_w zr) /\ within (z_psi zl) (z_psi zr) /\
  within (sN p zl - sN p zr) Ft /\ within (sM p zl - sM p zr) (- (hh p / 2 * Ft)) /\
  within (sV p zl - sV p zr) Fn.
Definition bvp_within (o : obj) (kR phi : R) (li mi : list R) (ki : list bool) (Cs : list (list R)) : Prop :=
  let N := List.length li in
  let z i := field o phi (nth i li 0) (nth i ki false) (nth i Cs []) in
  left_end_within o kR phi (nth 0 ki false) (z 0%nat 0) /\
  right_end_within o kR phi (nth (N - 1) ki false) (z (N - 1)%nat (nth (N - 1) li 0)) /\
  forall i, (S i < N)%nat -> transition_within o phi (nth i mi 0) (z i (nth i li 0)) (z (S i) 0).
End Within.
