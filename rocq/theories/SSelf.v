(** Specification: self-propagation of a crack in the middle of a slab. *)
Require Import Verif.Py Verif.MTools Verif.MEigen Verif.SBvp Verif.SEnergy.

(** A slab of a given length with a crack of length a in its middle. *)
Definition middle_crack (total a : R) : list R := [(total - a) / 2; a / 2; a / 2; (total - a) / 2].
Definition middle_support : list bool := [true; false; false; true].
(** State at the end of a segment of a solved model. *)
Definition end_state (o : obj) (phi : R) (li : list R) (ki : list bool) (Cs : list (list R)) (j : nat) : vec6 :=
  field o phi (nth j li 0) (nth j ki false) (nth j Cs []) (nth j li 0).
