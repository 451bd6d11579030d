(** Specification: what a failure criterion should tell about a plotted failure curve. *)
Require Import Verif.Py.

(** [f] is a failure function of the two stresses and [curve] the failure curve for compressive
    strength [sc]. *)
Record classifies (f : R -> R -> res R) (curve : R -> R) (sc : R) : Prop := mkClassifies {
  cl_total : forall s t, exists v, f s t = Ok v /\ 0 <= v;
  cl_zero : exists v, f 0 0 = Ok v /\ v < 1;
  cl_curve : forall s, - sc <= s <= sc -> f s (curve s) = Ok 1;
  cl_below : forall s t v, - sc <= s <= sc -> f s t = Ok v -> (v < 1 <-> Rabs t < curve s);
  cl_beyond : forall s t v, sc < Rabs s -> f s t = Ok v -> 1 < v;
  cl_increasing : forall s t1 t2 v1 v2, Rabs t1 < Rabs t2 -> f s t1 = Ok v1 -> f s t2 = Ok v2 -> v1 < v2
}.
