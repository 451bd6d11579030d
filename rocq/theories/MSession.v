(** Sessions: sequences of calls of the property setters on one model object. *)
Require Import Verif.Py Verif.MTools Verif.MEigen.

(** One call: [set_foundation_properties] (weac/eigensystem.py:153-188), [set_beam_properties]
    (190-238), [set_surface_load] (240-255), [calc_fundamental_system] (398-402). *)
Inductive op : Type :=
| OFnd (t E nu : R) (update : bool)
| OBeam (la : layers_arg) (C0 C1 nu : R) (update : bool)
| OSurf (p : R)
| ORecalc.

Section Oracle.
Variable eig : mat6 -> list eigpair.
(** weac/eigensystem.py:153-255, 398-402: one call on the object. *)
Definition step (o : obj) (c : op) : res obj :=
  match c with
  | OFnd t E nu u => Ok (set_foundation_properties eig o t E nu u)
  | OBeam la C0 C1 nu u => set_beam_properties eig o la C0 C1 nu u
  | OSurf p => Ok (set_surface_load o p)
  | ORecalc => Ok (o_calc_fundamental_system eig o)
  end.
(** The session ends at the first exception. *)
(** Calls of weac/eigensystem.py:153-255, 398-402 in sequence. *)
Fixpoint session (o : obj) (cs : list op) : res obj :=
  match cs with
  | [] => Ok o
  | c :: cs => o1 <- step o c ;; session o1 cs
  end.
End Oracle.
