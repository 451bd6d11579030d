(** Specification for C90-C92: states of a laid-out slab by global coordinate, independent of the
    way the slab is cut into segments. *)
Require Import Verif.Py Verif.MTools Verif.MEigen Verif.MFields Verif.SAdm Verif.MRaster Verif.MSolution Verif.SBeam Verif.SBvp.
Local Open Scope R_scope.

(** Left end of segment [i]. *)
Definition offset (li : list R) (i : nat) : R := fold_right Rplus 0 (firstn i li).
(** [z] is a state of the solution [Cs] at the global coordinate [x]. At a loaded transition there
    are two: the one to the left and the one to the right of the load. *)
Definition state_at (o : obj) (phi : R) (li : list R) (ki : list bool) (Cs : list (list R)) (x : R) (z : vec6) : Prop :=
  exists i s, (i < List.length li)%nat /\ 0 <= s <= nth i li 0 /\ x = offset li i + s /\
    z = field o phi (nth i li 0) (nth i ki false) (nth i Cs []) s.

(** All six components agree up to [e]. *)
Definition close6 (e : R) (a b : vec6) : Prop :=
  Rabs (z_u a - z_u b) <= e /\ Rabs (z_du a - z_du b) <= e /\ Rabs (z_w a - z_w b) <= e /\
  Rabs (z_dw a - z_dw b) <= e /\ Rabs (z_psi a - z_psi b) <= e /\ Rabs (z_dpsi a - z_dpsi b) <= e.
(** Lists that agree up to [d] in their first [n] entries. *)
Definition near (n : nat) (d : R) (a b : list R) : Prop := forall i, (i < n)%nat -> Rabs (nth i a 0 - nth i b 0) < d.
