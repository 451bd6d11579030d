(** Specification: figures. *)
Require Import Verif.Py Verif.MTools Verif.MEigen Verif.SPlot.

(** Points of the line through given corners. *)
Definition on_line (corners : list (R * R)) (p : R * R) : Prop :=
  exists k a b t, nth_error corners k = Some a /\ nth_error corners (S k) = Some b /\ 0 <= t <= 1 /\
    fst p = fst a + t * (fst b - fst a) /\ snd p = snd a + t * (snd b - snd a).

(** Weak-layer coordinates: those of the slab, NaN off the foundation. *)
Definition weak_points (xsl : list R) (xwl : list (option R)) : Prop :=
  Forall2 (fun x y => y = None \/ y = Some x) xsl xwl.
Definition ordered (l : list R) : Prop :=
  forall i j, (i <= j)%nat -> (j < List.length l)%nat -> nth i l 0 <= nth j l 0.
Definition skier_system (s : string) : Prop := s = "skier"%string \/ s = "skiers"%string.
(** Horizontal origin of the picture: middle of the slab for skiers, its left end otherwise. *)
Definition origin (system : string) (xsl : list R) (c : R) : Prop :=
  (skier_system system -> In (2 * c) xsl /\ forall x, In x xsl -> x <= 2 * c) /\
  (~ skier_system system -> c = 0).
(** Picture (cm) of the slab point number j at a depth (cm) below the surface, for the state z. *)
Definition shown_x (p : params) (c x scale depth : R) (z : vec6) : R :=
  (x - c) / 10 + scale * ((z_u z + (10 * depth - hh p / 2) * z_psi z) / 10).
Definition shown_z (scale depth : R) (z : vec6) : R := depth + scale * (z_w z / 10).
(** Points of a curve whose coordinate is not NaN. *)
Fixpoint curve_points (x : list (option R)) (y : list R) : list (R * R) :=
  match x, y with
  | Some a :: x, b :: y => (a, b) :: curve_points x y
  | None :: x, _ :: y => curve_points x y
  | _, _ => []
  end.
