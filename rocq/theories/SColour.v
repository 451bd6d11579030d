(** Specification: lightness of a colour. *)
Require Import Verif.Py.

Definition parts (c : R * R * R) : list R := let '(r, g, b) := c in [r; g; b].
Definition colour (c : R * R * R) : Prop := Forall (fun v => 0 <= v <= 1) (parts c).
(** [l] lies half way between the least and the greatest part. *)
Definition lightness (c : R * R * R) (l : R) : Prop :=
  exists a b, In a (parts c) /\ In b (parts c) /\ Forall (fun v => a <= v <= b) (parts c) /\ l = (a + b) / 2.
(** Greatest distance of a part from the lightness [l] a colour can have. *)
Definition room (l : R) : R := Rmin l (1 - l).
