(** Specification for C125: mode I energy release rate of the slab at rest. *)
Require Import Verif.Py Verif.MTools Verif.MEigen Verif.MFields Verif.SAdm Verif.SSlab Verif.MSolution Verif.MAnalysis Verif.SBvp Verif.SEig Verif.MEnvelope Verif.MCriterion Verif.SSegment Verif.SCritical.
Open Scope R_scope.

(** Energy (kJ/m^2 = N/mm) stored per area by compression of the weak layer (modulus [E], thickness [t], Poisson's ratio 1/4,
    plane strain) under the weight of the slab on a slope of [phi] degrees. *)
Definition rest_mode_I (layers : list (R * R)) (phi E t : R) : R :=
  (weight_per_area layers * cos (deg2rad phi)) ^ 2 / (2 * (E / (1 - (1 / 4) ^ 2) / t)).
