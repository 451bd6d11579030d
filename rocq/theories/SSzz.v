(** Specification: laminate bending stiffness of the slab, for the transverse normal stress. *)
Require Import Verif.Py Verif.MTools Verif.MEigen Verif.MAnalysis Verif.SAdm Verif.SStress.

(** The bending stiffness is that of the layers, centred at mid-thickness. *)
Definition bending (o : obj) : Prop :=
  D11 (o_par o) = rsum (map (fun aq => Eps (snd aq) * (((fst aq + p_h (snd aq)) ^ 3 - fst aq ^ 3) / 3))
                            (layer_tops (- hh (o_par o) / 2) (o_slab o))).
