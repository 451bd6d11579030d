(** Specification vocabulary: admissible material data. *)
Require Import Verif.Py Verif.MTools Verif.MEigen.

(** A ply of an admissible slab. *)
Definition good_ply (q : ply) : Prop :=
  0 < p_h q /\ 0 < p_E q /\ 0 < p_G q /\ -1 < p_nu q < 1.

(** Laminate part of the parameters: what the free-segment formulas divide by. *)
Definition lam_ok (p : params) : Prop :=
  0 < A11 p /\ 0 < D11 p /\ 0 < kA55 p /\
  K0 p = B11 p ^ 2 - A11 p * D11 p /\ K0 p < 0.

(** Weak-layer part. *)
Definition fnd_ok (p : params) : Prop :=
  0 < kn p /\ 0 < kt p /\ 0 < wt p.

Definition adm (p : params) : Prop := lam_ok p /\ fnd_ok p /\ 0 < hh p.
