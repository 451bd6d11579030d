(** Specification: mirrored and superposed models. *)
Require Import Verif.Py Verif.MTools Verif.MEigen Verif.SBeam Verif.SBvp.

(** State of a beam seen from the other side. *)
Definition mirror (z : vec6) : vec6 :=
  mkV (- z_u z) (z_du z) (z_w z) (- z_dw z) (- z_psi z) (z_dpsi z).
(** Linear combination of two states. *)
Definition combo (a : R) (x : vec6) (b : R) (y : vec6) : vec6 :=
  mkV (a * z_u x + b * z_u y) (a * z_du x + b * z_du y) (a * z_w x + b * z_w y)
      (a * z_dw x + b * z_dw y) (a * z_psi x + b * z_psi y) (a * z_dpsi x + b * z_dpsi y).

(** Same slab, weak layer and contact stage; system, inclination and loads may differ. *)
Definition same_structure (o o' : obj) : Prop :=
  o_par o' = o_par o /\ o_eig o' = o_eig o /\ o_slab o' = o_slab o /\ o_lski o' = o_lski o /\
  o_mode o' = o_mode o /\ o_a o' = o_a o /\ o_td o' = o_td o.
(** Same loads, too. *)
Definition same_loading (o o' : obj) : Prop :=
  o_g o' = o_g o /\ o_p o' = o_p o /\ o_tc o' = o_tc o.
(** The loads of o3 are a times those of o1 plus b times those of o2. *)
Definition combined_loading (a b : R) (o1 o2 o3 : obj) (m1 m2 m3 : list R) : Prop :=
  o_g o3 = a * o_g o1 + b * o_g o2 /\ o_p o3 = a * o_p o1 + b * o_p o2 /\
  o_tc o3 = a * o_tc o1 + b * o_tc o2 /\
  forall i, nth i m3 0 * o_g o3 = a * (nth i m1 0 * o_g o1) + b * (nth i m2 0 * o_g o2).
