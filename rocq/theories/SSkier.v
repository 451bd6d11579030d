(** Specification: response of the slab to its skiers. *)
Require Import Verif.Py Verif.MTools Verif.MEigen Verif.SBeam Verif.SBvp.

(** How far the top of the slab has moved in the direction of gravity on a slope of [phi] degrees. *)
Definition drop (p : params) (phi : R) (z : vec6) : R :=
  let a := phi * PI / 180 in cos a * z_w z - sin a * (z_u z - hh p / 2 * z_psi z).
(** Two lists of skiers that differ in one place at most. *)
Definition same_but (j : nat) (m m' : list R) : Prop := forall i, i <> j -> nth i m' 0 = nth i m 0.
