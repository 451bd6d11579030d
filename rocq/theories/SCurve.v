(** Specification: plotted failure curves. *)
From Coquelicot Require Import Coquelicot.
Require Import Verif.Py.

(** A curve of shear strength over the normal stress: it covers the stresses from lo to hi, bounds a
    convex region, is largest (top) at peak, falls continuously to zero at hi and is zero elsewhere. *)
Record failure_curve (curve : R -> R) (lo peak hi top : R) : Prop := mkFC {
  fc_order : lo <= peak < hi;
  fc_top : curve peak = top;
  fc_bounds : forall s, 0 <= curve s <= top;
  fc_concave : forall s1 s2 t, lo <= s1 <= hi -> lo <= s2 <= hi -> 0 <= t <= 1 ->
    t * curve s1 + (1 - t) * curve s2 <= curve (t * s1 + (1 - t) * s2);
  fc_continuous : forall s, lo < s -> continuous curve s;
  fc_beyond : forall s, s < lo \/ hi <= s -> curve s = 0
}.
