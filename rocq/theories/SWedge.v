(** Specification: the wedge between the slope-normal and the vertical end face
    of a slab at inclination [phi] (radians). At depth z the wedge extends over
    0 <= x <= (H/2 - z) tan(phi) (signed for negative inclinations). Layers are
    (density, thickness) from top to bottom. *)
From Coquelicot Require Import Coquelicot.
Require Import Verif.Py Verif.SSlab.

Definition wedge_width (H phi z : R) : R := (H / 2 - z) * tan phi.

(** Integral over the wedge of density * g(x,z). *)
Definition wedge_integral (ls : list (R * R)) (phi : R) (g : R -> R -> R) : R :=
  let H := thickness ls in
  RInt (fun z => val_at (- H / 2) ls z
                 * RInt (fun x => g x z) 0 (wedge_width H phi z)) (- H / 2) (H / 2).
