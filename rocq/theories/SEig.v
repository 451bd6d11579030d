(** Specification: what is expected of a numerical eigensolver. *)
From Coq Require Import Permutation.
Require Import Verif.Py Verif.MTools Verif.MEigen Verif.SAdm Verif.SBeam Verif.SBvp.

(** Six true eigenpairs of K with pairwise distinct eigenvalues, closed under
    conjugation, with non-zero eigenvectors (real for real eigenvalues). *)
Definition good_eigenpairs (K : mat6) (ews : list eigpair) : Prop :=
  List.length ews = 6%nat /\
  Forall (true_eigenpair K) ews /\
  NoDup (map fst ews) /\
  Permutation (map (fun v => (fst v, - snd v)) (map fst ews)) (map fst ews) /\
  Forall (fun e => ~ (fst (snd e) = vzero /\ snd (snd e) = vzero) /\
                   (snd (fst e) = 0 -> fst (snd e) <> vzero)) ews.

(** The slab is shear-stiffer than the weak layer, so that the (non-symmetric)
    coupling of the weak-layer shear stress with w' cannot destabilise it. *)
Definition stable (p : params) : Prop := kt p * wt p ^ 2 < 16 * kA55 p.

(** A model object ready to be solved: admissible parameters and a good
    eigensystem of its own system matrix. *)
Definition ready (o : obj) : Prop :=
  lam_ok (o_par o) /\ fnd_ok (o_par o) /\
  exists ews, o_eig o = calc_eigensystem ews /\
    good_eigenpairs (calc_system_matrix (o_par o)) ews.

(** A linear solver that succeeds on every uniquely solvable system. *)
Definition complete_solver
    (solve : nat -> (nat -> nat -> R) -> (nat -> R) -> res (nat -> R)) : Prop :=
  forall n A, (forall x, lin_solves n A x (fun _ => 0) -> forall c, (c < n)%nat -> x c = 0) ->
  forall b, exists x, solve n A b = Ok x.

(** Segment lists describing an actual system: no negative length, and some part
    of the slab rests on the weak layer. *)
Definition proper_segments (li : list R) (ki : list bool) : Prop :=
  (forall i, (i < List.length li)%nat -> 0 <= nth i li 0) /\
  (exists i, (i < List.length li)%nat /\ nth i ki false = true /\ 0 < nth i li 0).
