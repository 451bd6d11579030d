(** The pressure on the slope. *)
From Coquelicot Require Import Coquelicot.
Require Import Verif.Py Verif.MTools Verif.MEigen.

(** Pressure normal to the slope: own weight of the slab and surface load (weac/mixins.py:556-565 adds the
    results of weac/eigensystem.py:410-453). *)
Definition normal_pressure (o : obj) : R :=
  (rsum (map (fun p => p_rho p / 10 ^ 12 * o_g o * p_h p) (o_slab o)) + o_p o) * cos (o_phi o * PI / 180).
