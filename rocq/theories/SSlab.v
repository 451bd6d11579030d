(** Specification vocabulary for layered slabs, independent of the model:
    quantities that are piecewise constant over the depth, and their integrals.

    Depth coordinate: -H/2 at the top surface, +H/2 at the bottom; layers are
    listed from top to bottom as pairs (value, thickness). *)
From Coquelicot Require Import Coquelicot.
Require Import Verif.Py.

(** Total thickness. *)
Fixpoint thickness (ls : list (R * R)) : R :=
  match ls with [] => 0 | (_, h) :: r => h + thickness r end.

(** Value at depth [z] of a stack whose top surface is at depth [z0]. *)
Fixpoint val_at (z0 : R) (ls : list (R * R)) (z : R) : R :=
  match ls with
  | [] => 0
  | (c, h) :: r => if Rlt_dec z (z0 + h) then c else val_at (z0 + h) r z
  end.

(** Integral over the whole slab of value(z) * f(z). *)
Definition depth_integral (ls : list (R * R)) (f : R -> R) : R :=
  RInt (fun z => val_at (- thickness ls / 2) ls z * f z)
       (- thickness ls / 2) (thickness ls / 2).

(** Layers with positive thickness / positive value. *)
Definition pos_thick (ls : list (R * R)) : Prop :=
  Forall (fun l => 0 < snd l) ls.
Definition pos_layers (ls : list (R * R)) : Prop :=
  Forall (fun l => 0 < fst l /\ 0 < snd l) ls.
