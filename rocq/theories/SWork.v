(** Specification: work of the loads and energy stored in slab and weak layer. *)
From Coquelicot Require Import Coquelicot.
Require Import Verif.Py Verif.MTools Verif.MEigen Verif.SBeam Verif.SBvp Verif.SOutput.

(** Sum over the first n segments or transitions. *)
Definition total (n : nat) (f : nat -> R) : R := rsum (map f (seq 0 n)).
(** Displacement at depth [d] below the mid-plane. *)
Definition shift_at (d : R) (z : vec6) : R := z_u z + d * z_psi z.
(** Load times displacement per length, every load at its own place: the weight at the centre of gravity, the surface load at
    the top. *)
Definition load_power (p : params) (ld : loads) (z : vec6) : R :=
  qn ld * z_w z + qt ld * shift_at (zs p) z + pn ld * z_w z + pt ld * shift_at (- hh p / 2) z.
(** Power of a point load at the top, and of the section forces. *)
Definition point_power (o : obj) (phi m : R) (z : vec6) : R :=
  point_Fn o phi m * z_w z + point_Ft o phi m * shift_at (- hh (o_par o) / 2) z.
Definition section_power (p : params) (z : vec6) : R := sN p z * z_u z + sM p z * z_psi z + sV p z * z_w z.
(** Energy stored per length in slab and, where supported, weak layer. *)
Definition stored (p : params) (k : bool) (z : vec6) : R := slab_energy p z + (if k then layer_energy p z else 0).
(** What equilibrium and constitutive law of the weak layer disagree about: its shear stress acts at t/2 below the slab in the
    moment balance; its slip counts t/2 w' but not the slab's shear strain. *)
Definition slip_mismatch (p : params) (k : bool) (z : vec6) : R := wt p / 2 * s_tau p k z * (z_dw z + z_psi z).
(** Power of all loads as the library's external potential counts it: surface traction taken to act at the centre of gravity,
    slope stored in the object. *)
Definition dead_power (o : obj) (z : vec6) : R :=
  let ld := loads_of o (o_phi o) in
  (qn ld + pn ld) * z_w z + (qt ld + pt ld) * shift_at (zs (o_par o)) z.
