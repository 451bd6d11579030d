(** Specification: segments along a line and grids on them. *)
Require Import Verif.Py.
Require Import Sorting.Sorted.

(** Segment (l, a) of the chain starts at b; the chain starts at x0. *)
Inductive seg_at {A} : R -> list (R * A) -> R -> R -> A -> Prop :=
| seg_here x0 l a s : seg_at x0 ((l, a) :: s) x0 l a
| seg_there x0 l a s b l' a' : seg_at (x0 + Rabs l) s b l' a' -> seg_at x0 ((l, a) :: s) b l' a'.

(** Total length of a chain. *)
Definition chain_length {A} (s : list (R * A)) : R := rsum (map (fun q => Rabs (fst q)) s).

(** The non-empty segment (l, a) starting at b owns coordinate x: half-open, the last
    coordinate of the chain belongs to the last non-empty segment. *)
Definition owns {A} (s : list (R * A)) (b l : R) (a : A) (x : R) : Prop :=
  seg_at 0 s b l a /\ l <> 0 /\
  (b <= x < b + Rabs l \/ x = b + Rabs l /\ x = chain_length s).

(** x lies in the closure of a non-empty supported segment. *)
Definition on_foundation (s : list (R * bool)) (x : R) : Prop :=
  exists b l, seg_at 0 s b l true /\ l <> 0 /\ b <= x <= b + Rabs l.

Definition strictly_increasing (l : list R) : Prop := StronglySorted Rlt l.
(** Number of non-empty segments. *)
Definition nonempty (li : list R) : nat := List.length (filter (fun l => if Req_EM_T l 0 then false else true) li).
