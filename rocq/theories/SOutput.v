(** Specification: units, output arrays, stored energy. *)
Require Import Verif.Py Verif.MTools Verif.MEigen Verif.SBeam.

(** Millimetres expressed in a length unit, MPa in a stress unit. *)
Inductive length_unit : string -> R -> Prop :=
| lu_m : length_unit "m" (1 / 1000) | lu_cm : length_unit "cm" (1 / 10)
| lu_mm : length_unit "mm" 1 | lu_um : length_unit "um" 1000.
Inductive stress_unit : string -> R -> Prop :=
| su_kPa : stress_unit "kPa" 1000 | su_MPa : stress_unit "MPa" 1.
(** Radians expressed in an angle unit. *)
Inductive angle_unit : string -> R -> Prop :=
| au_deg s : In s ["deg"; "degree"; "degrees"]%string -> angle_unit s (180 / PI)
| au_rad s : In s ["rad"; "radian"; "radians"]%string -> angle_unit s 1.

(** The supported (coordinate in cm, value) pairs, in order. *)
Fixpoint supported_pairs (x : list (option R)) (s : list R) : list (R * R) :=
  match x, s with
  | Some a :: x', b :: s' => (a / 10, b) :: supported_pairs x' s'
  | None :: x', _ :: s' => supported_pairs x' s'
  | _, _ => []
  end.

(** Location of the slab surfaces. *)
Inductive location (h : R) : string -> R -> Prop :=
| loc_top : location h "top" (- h / 2) | loc_mid : location h "mid" 0 | loc_bot : location h "bot" (h / 2).

(** Strain energy per length of the laminate and of the weak layer. *)
Definition slab_energy (p : params) (z : vec6) : R :=
  (A11 p * z_du z ^ 2 + 2 * B11 p * z_du z * z_dpsi z + D11 p * z_dpsi z ^ 2
   + kA55 p * (z_dw z + z_psi z) ^ 2) / 2.
Definition layer_energy (p : params) (z : vec6) : R :=
  s_sig p true z ^ 2 / (2 * kn p) + s_tau p true z ^ 2 / (2 * kt p).
(** Mean over a list of columns. *)
Definition mean (f : vec6 -> R) (l : list vec6) : R := rsum (map f l) / INR (List.length l).
