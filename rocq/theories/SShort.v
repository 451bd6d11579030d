(** Specification for C124: energy release rates of the slab at rest, and cracks that propagate. *)
Require Import Verif.Py Verif.MTools Verif.MEigen Verif.MFields Verif.SAdm Verif.SSlab Verif.MSolution Verif.MAnalysis Verif.SBvp Verif.SEig
  Verif.MEnvelope Verif.MCriterion Verif.SSegment Verif.SCritical Verif.SCoupled.
Open Scope R_scope.

(** Toughness criterion for the energy (J/m^2) stored per area in the weak layer (modulus [E], thickness [t], Poisson's ratio
    1/4, plane strain) by the weight of the slab alone: compression and shear. *)
Definition rest_toughness (layers : list (R * R)) (phi E t : R) : R :=
  let W := weight_per_area layers in
  toughness (1000 * ((W * cos (deg2rad phi)) ^ 2 / (2 * (E / (1 - (1 / 4) ^ 2) / t))))
            (1000 * ((W * sin (deg2rad phi)) ^ 2 / (2 * (E / (2 * (1 + 1 / 4)) / t)))).
(** [check] gives the value and the verdict for each crack length. A crack that propagates, one that does not: *)
Definition propagates (check : R -> res (R * bool)) (a : R) : Prop := exists v, check a = Ok (v, true).
Definition stays (check : R -> res (R * bool)) (a : R) : Prop := exists v, check a = Ok (v, false).
(** [m] is the length of the shortest crack that propagates. *)
Definition shortest (check : R -> res (R * bool)) (m : R) : Prop := 0 < m /\ propagates check m /\ forall a, 0 < a < m -> stays check a.
