(** Specification: curves showing a quantity of a model along the slab. *)
Require Import Verif.Py Verif.MEigen Verif.MFigure Verif.SBvp Verif.SRaster Verif.SFigure.

(** The points of a curve: position in cm and value. *)
Definition points (c : curve) : list (R * R) := curve_points (k_x c) (k_y c).
(** [v] is the quantity [q] of the solution at global position [x] (mm) of the segments [li], [ki] with constants [Cs]. *)
Definition value_at (o : obj) (phi : R) (li : list R) (Cs : list (list R)) (ki : list bool) (q : vec6 -> R) (x v : R) : Prop :=
  exists b l C k, owns (combine li (combine Cs ki)) b l (C, k) x /\ v = q (field o phi (Rabs l) k C (x - b)).
(** The curve shows [q] at the positions [xs], in this order. *)
Definition depicts (o : obj) (phi : R) (li : list R) (Cs : list (list R)) (ki : list bool) (xs : list R) (q : vec6 -> R) (c : curve) : Prop :=
  Forall2 (fun x pt => fst pt = x / 10 /\ value_at o phi li Cs ki q x (snd pt)) xs (points c).
