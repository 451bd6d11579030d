(** Specification vocabulary for the lengths that the touchdown analysis computes (C110). *)
From Coquelicot Require Import Coquelicot.
Require Import Verif.Py Verif.MTools Verif.MEigen Verif.SAdm Verif.SBeam Verif.SBvp Verif.MSolution Verif.SContact.
Open Scope R_scope.

Section Reach.
Variable eig : mat6 -> list eigpair.
Variable solve : nat -> matrix -> vector -> res vector.
(** First contact at crack length b: the slab, held by the springs of the supported part, hangs free and its tip just
    reaches the ground. *)
Definition first_contact_at (o : obj) (L q tc b : R) : Prop :=
  exists kR kN z, fst (substitute_stiffness eig solve o (L - b) "supported" "rot") = Ok kR /\
    fst (substitute_stiffness eig solve o (L - b) "supported" "trans") = Ok kN /\
    hanging_beam (o_par o) q kR kN b z /\ free_tip (o_par o) b z /\ z_w (z b) = tc.
(** Crack length a, unsupported length b: the part that rests on the collapsed layer, of length a-b, is replaced by a
    rotational spring, and the slab meets it horizontally. *)
Definition rests_at (o : obj) (ratio L q tc a b : R) : Prop :=
  exists kR kN kT z, fst (substitute_stiffness eig solve o (L - a) "supported" "rot") = Ok kR /\
    fst (substitute_stiffness eig solve o (L - a) "supported" "trans") = Ok kN /\
    fst (substitute_stiffness eig solve (set_stiffness_ratio ratio o) (a - b) "rested" "rot") = Ok kT /\
    hanging_beam (o_par o) q kR kN b z /\ contact_tip (o_par o) kT tc b z /\ z_dw (z b) = 0.
End Reach.
