(** Specification of the crack reported by the coupled criterion. *)
Require Import Verif.Py Verif.SSegment.
Open Scope R_scope.

(** The unsupported parts of a layout are those between the first and second, third and fourth, ... crossing, and
    [len] is their length. Crossings in order, the first of them before the middle. Without any crossing all of the model
    is supported or none of it. *)
Definition between_crossings (total : R) (crossings : list R) (len : R) (li : list R) (ki : list bool) : Prop :=
  (crossings = [] -> li = [total / 2; total / 2] /\ (ki = [true; true] /\ len = 0 \/ ki = [false; false] /\ len = total)) /\
  (inside_increasing total crossings -> (exists r, nth_error crossings 0 = Some r /\ r < total / 2) ->
  len = pair_length crossings /\ rsum li = total /\
  forall x, x <> total / 2 -> (carries li ki x false <-> between_pair crossings x)).
