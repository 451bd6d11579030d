(** Specification: a shear-deformable layered beam on (or without) a weak layer.

    Fields: mid-plane displacement u, deflection w (positive downward), rotation
    psi, as functions of the slope-parallel coordinate x. The section forces and
    weak-layer tractions are those of the mechanical model; they are written here
    independently of the library's accessors. *)
From Coquelicot Require Import Coquelicot.
Require Import Verif.Py Verif.MTools Verif.MEigen.

(** Componentwise derivative of a state-valued function. *)
Definition is_deriv6 (z : R -> vec6) (x : R) (d : vec6) : Prop :=
  is_derive (fun s => z_u (z s)) x (z_u d) /\
  is_derive (fun s => z_du (z s)) x (z_du d) /\
  is_derive (fun s => z_w (z s)) x (z_w d) /\
  is_derive (fun s => z_dw (z s)) x (z_dw d) /\
  is_derive (fun s => z_psi (z s)) x (z_psi d) /\
  is_derive (fun s => z_dpsi (z s)) x (z_dpsi d).

(** Section forces: extension-bending coupling laminate with shear. *)
Definition sN (p : params) (z : vec6) : R := A11 p * z_du z + B11 p * z_dpsi z.
Definition sM (p : params) (z : vec6) : R := B11 p * z_du z + D11 p * z_dpsi z.
Definition sV (p : params) (z : vec6) : R := kA55 p * (z_dw z + z_psi z).
(** Weak-layer tractions: normal (tension positive) and shear, zero without
    foundation. Shear deformation of the layer: displacement of the slab bottom
    u + h/2 psi relative to the rotation t/2 w'. *)
Definition s_sig (p : params) (bed : bool) (z : vec6) : R :=
  if bed then - kn p * z_w z else 0.
Definition s_tau (p : params) (bed : bool) (z : vec6) : R :=
  if bed then kt p * (z_u z + hh p / 2 * z_psi z - wt p / 2 * z_dw z) else 0.

(** Kinematics and equilibrium at x. *)
Definition equilibrium (p : params) (ld : loads) (bed : bool)
    (z : R -> vec6) (x : R) : Prop :=
  is_derive (fun s => z_u (z s)) x (z_du (z x)) /\
  is_derive (fun s => z_w (z s)) x (z_dw (z x)) /\
  is_derive (fun s => z_psi (z s)) x (z_dpsi (z x)) /\
  is_derive (fun s => sN p (z s)) x
    (s_tau p bed (z x) - qt ld - pt ld) /\
  is_derive (fun s => sV p (z s)) x
    (- s_sig p bed (z x) - qn ld - pn ld) /\
  is_derive (fun s => sM p (z s)) x
    (sV p (z x) + (hh p + wt p) / 2 * s_tau p bed (z x)
     - zs p * qt ld + hh p / 2 * pt ld).

Definition no_loads : loads := mkLd 0 0 0 0.

(** True eigenpairs of a matrix (real and imaginary parts of K v = lambda v). *)
Definition true_eigenpair (K : mat6) (e : eigpair) : Prop :=
  let '((re, im), (vr, vi)) := e in
  matvec K vr = vadd (vscale re vr) (vscale (- im) vi) /\
  matvec K vi = vadd (vscale im vr) (vscale re vi).
