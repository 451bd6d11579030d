(** Specification vocabulary for the success of the touchdown analysis (C108, C109). *)
From Coquelicot Require Import Coquelicot.
Require Import Verif.Py Verif.MTools Verif.MEigen Verif.SAdm Verif.SBeam Verif.SBvp Verif.MSolution Verif.SContact.
Open Scope R_scope.

(** A root finder that ends for every function with different signs at the ends of the bracket. *)
Definition finds_roots (brent : R -> R -> list (R * R) -> bstep) (maxeval : nat) : Prop :=
  forall (f : R -> stM R) (g : R -> R) lo hi o, lo < hi -> (forall x, lo <= x <= hi -> f x o = (Ok (g x), o)) ->
  g lo < 0 < g hi -> exists r, brentq brent maxeval f lo hi o = (Ok r, o) /\ lo <= r <= hi.

(** Bending and shear stiffness of the slab that are left when it yields most. *)
Definition bending (p : params) : R := D11 p - B11 p ^ 2 / A11 p.
Definition shearing (p : params) : R := kA55 p - kt p * wt p ^ 2 / 16.
(** Upper bounds of rotation and deflection under unit loads at the end, spread over the length s. *)
Definition turn (p : params) (s : R) : R :=
  12 / (kn p * s ^ 3) + 13 * s / (35 * bending p) + 6 / (5 * s * shearing p).
Definition sink (p : params) (s : R) : R :=
  4 / (kn p * s) + s ^ 3 / (105 * bending p) + 2 * s / (15 * shearing p).

(** Load per length on level ground. *)
Definition level_load (o : obj) : R := qn (loads_of o 0) + pn (loads_of o 0).
(** The settlement never equals the deflection of a supported part under the unit force, see C27. *)
Definition never_hidden (o : obj) (L : R) : Prop :=
  forall l z, 0 < l < L -> end_loaded_beam (o_par o) l 0 1 z -> z_w (z 0) + level_load o / kn (o_par o) <> 0.

(** Deflection, per load, that a free end of length x has at most when the support spreads over s. *)
Definition droop (o : obj) (s x : R) : R :=
  let p := o_par o in
  x ^ 4 / (3 * bending p) + x ^ 3 / 2 * turn p s + x ^ 2 / kA55 p + 3 * x * (sink p s + level_load o / kn p).

(** Load per length on a slope, and the height the slab can fall, as the code computes it (with the slope of the call before). *)
Definition slope_load (o : obj) (phi : R) : R := qn (loads_of o phi) + pn (loads_of o phi).
Definition fall (o : obj) (cf : R) : R := cf * wt (o_par o) - slope_load o (o_phi o) / kn (o_par o).

(** Full contact at crack length b: the slab, held by the springs of the supported part, reaches the ground with a
    horizontal tip and without moment. *)
Definition full_contact_at (eig : mat6 -> list eigpair) (solve : nat -> matrix -> vector -> res vector) (o : obj) (L q tc b : R) : Prop :=
  exists kR kN z, fst (substitute_stiffness eig solve o (L - b) "supported" "rot") = Ok kR /\
    fst (substitute_stiffness eig solve o (L - b) "supported" "trans") = Ok kN /\
    hanging_beam (o_par o) q kR kN b z /\ contact_tip (o_par o) 0 tc b z /\ z_dw (z b) = 0.
