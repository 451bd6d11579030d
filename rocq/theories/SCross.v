(** Specification: where a sampled stress criterion crosses its limit 1. *)
From Coq Require Import Reals.
Require Import Verif.Py Verif.MTools Verif.MEigen Verif.MFields Verif.MSolution Verif.MEnvelope Verif.MCriterion Verif.SSegment.

(** Two values of the criterion on the same side of the limit (or both on it). *)
Definition same_side (v w : R) : Prop := v < 1 /\ w < 1 \/ v = 1 /\ w = 1 \/ 1 < v /\ 1 < w.
(** Value [v] of the criterion at coordinate [x]: stresses in kPa of the supported segment whose
    right end is the first not left of [x]. The shear stress enters by its absolute value. *)
Definition criterion_at (e : envp) (k : sk) (li : list R) (phi x v : R) : Prop :=
  exists j C, (j < List.length li)%nat /\ x <= seg_start li (S j) /\ (forall i, (i < j)%nat -> seg_start li (S i) < x) /\
    nth_error (k_C k) j = Some C /\
    let o := k_obj k in
    let z := zsol (o_par o) (o_eig o) (loads_of o phi) (x - seg_start li j) C (nth j li 0) true in
    stress_envelope1 (e_name e) (e_sf e) (e_om e) (e_rho e) (1000 * f_sig (o_par o) z) (1000 * f_tau (o_par o) z) = Ok v.
(** A root finder that succeeds whenever the values at the ends of the bracket differ in sign. *)
Definition finds_crossings (brent : R -> R -> list (R * R) -> bstep) (maxeval : nat) : Prop :=
  forall (f : R -> stM R) (g : R -> R) lo hi o, lo < hi -> (forall x, lo <= x <= hi -> f x o = (Ok (g x), o)) ->
  g lo * g hi <= 0 -> exists r, brentq brent maxeval f lo hi o = (Ok r, o) /\ lo <= r <= hi.
