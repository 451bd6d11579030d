(** Specification: points and segments of a one-dimensional model. *)
From Coq Require Import Reals.
Require Import Verif.Py.

(** Coordinate of boundary [i] of consecutive segments. *)
Definition seg_start (ls : list R) (i : nat) : R := rsum (firstn i ls).
(** [x] lies in the interior of segment [i] with property [k]. *)
Definition carries (ls : list R) (ks : list bool) (x : R) (k : bool) : Prop :=
  exists i, (i < List.length ls)%nat /\ seg_start ls i < x < seg_start ls (S i) /\ nth_error ks i = Some k.
(** Strictly increasing positions inside (0, total). *)
Definition inside_increasing (total : R) (roots : list R) : Prop :=
  (forall i a, nth_error roots i = Some a -> 0 < a < total) /\
  (forall i a b, nth_error roots i = Some a -> nth_error roots (S i) = Some b -> a < b).
(** [x] lies between an odd-numbered root and the next one: first and second, third and fourth, ... *)
Definition between_pair (roots : list R) (x : R) : Prop :=
  exists j a b, nth_error roots (2 * j) = Some a /\ nth_error roots (2 * j + 1) = Some b /\ a < x < b.
(** The roots are the sign changes of a continuous function that has no other zero. *)
Record sign_changes (f : R -> R) (total : R) (roots : list R) : Prop := mkSignChanges {
  sc_order : inside_increasing total roots;
  sc_continuous : forall x, 0 <= x <= total -> continuity_pt f x;
  sc_zeros : forall x, 0 <= x <= total -> f x = 0 -> In x roots;
  sc_change : forall r, In r roots -> exists e, 0 < e /\ forall d, 0 < d < e -> f (r - d) * f (r + d) < 0
}.
(** Length between first and second, third and fourth, ... root. *)
Fixpoint pair_length (roots : list R) : R :=
  match roots with a :: b :: l => (b - a) + pair_length l | _ => 0 end.
