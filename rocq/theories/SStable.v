(** Specification for C118: computed eigenvectors of moderate size and condition, backward stable linear solvers. *)
Require Import Verif.Py Verif.MTools Verif.MEigen Verif.SBeam Verif.SBvp Verif.SSplit Verif.SApprox.
Local Open Scope R_scope.

(** Vectors that span the fields of a supported segment: real eigenvectors, real and imaginary parts of complex ones. *)
Definition basis (e : eigsys) : list vec6 :=
  map snd (eR e) ++ map (fun y => fst (snd y)) (eC e) ++ map (fun y => snd (snd y)) (eC e).
(** No entry is larger than [m]. *)
Definition sized (m : R) (e : eigsys) : Prop := Forall (fun v => close6 m v vzero) (basis e).
(** Coefficients are at most [kap] times as large as the combination of the vectors. *)
Definition conditioned (kap : R) (e : eigsys) : Prop :=
  forall C s, List.length C = List.length (basis e) -> close6 s (lincomb (basis e) C) vzero -> abs_sum C <= kap * s.

(** A solver for [n] unknowns with relative residual [eps]: relative to the largest entries of matrix and right-hand side. *)
Definition backward_stable (eps : R) (n : nat)
    (solve : nat -> (nat -> nat -> R) -> (nat -> R) -> res (nat -> R)) : Prop :=
  forall A b x, solve n A b = Ok x ->
  forall alpha beta, (forall r c, (r < n)%nat -> (c < n)%nat -> Rabs (A r c) <= alpha) -> (forall r, (r < n)%nat -> Rabs (b r) <= beta) ->
  forall r, (r < n)%nat -> Rabs (sumn n (fun c => A r c * x c) - b r) <= eps * (alpha * sumn n (fun c => Rabs (x c)) + beta).
