(** Specification vocabulary for the contact (touchdown) part. *)
From Coquelicot Require Import Coquelicot.
Require Import Verif.Py Verif.MTools Verif.MEigen Verif.SAdm Verif.SBeam Verif.SBvp Verif.SEig Verif.MFields Verif.MRaster Verif.MSolution.

(** The eigensystem stored in the object belongs to its current parameters. *)
Definition fresh (eig : mat6 -> list eigpair) (o : obj) : Prop :=
  o_eig o = calc_eigensystem (eig (calc_system_matrix (o_par o))).

(** Beam of length L without distributed loads, on a weak layer, loaded at its
    left end by a moment M0 and a transverse force V0 only. *)
Definition end_loaded_beam (p : params) (L M0 V0 : R) (z : R -> vec6) : Prop :=
  (forall x, 0 <= x <= L -> equilibrium p no_loads true z x) /\
  forces p (z 0) 0 M0 V0 /\ forces p (z L) 0 0 0.

(** Foundation that the substitute beam rests on: collapsed ("rested") layers are
    stiffer by the factor [o_ratio]. *)
Definition foundation_of (o : obj) (support : string) : params :=
  let q := o_par o in
  if String.eqb support "rested"
  then mkPar (o_ratio o * kn q) (o_ratio o * kt q) (wt q) (hh q) (zs q) (A11 q)
         (B11 q) (D11 q) (kA55 q) (K0 q)
  else q.

(** What the eigensolver must deliver for the substitute beam. *)
Definition substitute_ready (eig : mat6 -> list eigpair) (o : obj) (support : string) : Prop :=
  ready o /\ fresh eig o /\
  fnd_ok (foundation_of o support) /\ stable (foundation_of o support) /\
  good_eigenpairs (calc_system_matrix (foundation_of o support))
    (eig (calc_system_matrix (foundation_of o support))).

(** * Touchdown *)

(** Unsupported beam of length l under the transverse load q, clamped at its left
    end by a rotational spring kR and a translational spring kN that represent
    the supported part; no axial force. *)
Definition hanging_beam (p : params) (q kR kN l : R) (z : R -> vec6) : Prop :=
  (forall x, 0 <= x <= l -> equilibrium p (mkLd q 0 0 0) false z x) /\
  sN p (z 0) = 0 /\ sM p (z 0) = kR * z_psi (z 0) /\ sV p (z 0) = kN * z_w (z 0).

(** Stage A/B: nothing touches the tip. *)
Definition free_tip (p : params) (l : R) (z : R -> vec6) : Prop :=
  sM p (z l) = 0 /\ sV p (z l) = 0.
(** Contact: the tip sits on the collapsed layer at depth tc; the part at rest
    acts as a rotational spring kT. *)
Definition contact_tip (p : params) (kT tc l : R) (z : R -> vec6) : Prop :=
  sM p (z l) = - kT * z_psi (z l) /\ z_w (z l) = tc.

(** * Root finder *)

Section Root.
Variable brent : R -> R -> list (R * R) -> bstep.
(** A returned point lies in the bracket. *)
Definition stays_in_bracket : Prop :=
  forall lo hi hist r, lo <= hi -> brent lo hi hist = BRet r -> lo <= r <= hi.
(** A returned point is within [delta] of two evaluated points between which the
    function changes sign (or vanishes). *)
Definition returns_sign_change (delta : R) : Prop :=
  forall lo hi hist r, brent lo hi hist = BRet r ->
  exists x1 v1 x2 v2, In (x1, v1) hist /\ In (x2, v2) hist /\ v1 <= 0 <= v2 /\
    lo <= x1 <= hi /\ lo <= x2 <= hi /\
    Rabs (x1 - r) <= delta /\ Rabs (x2 - r) <= delta.
(** The ends of the bracket are tried first; equal strict signs there raise
    ValueError. *)
Definition rejects_equal_signs : Prop :=
  forall lo hi, brent lo hi [] = BEval lo /\
  (forall v, v <> 0 -> brent lo hi [(lo, v)] = BEval hi) /\
  (forall v w, 0 < v * w -> brent lo hi [(hi, w); (lo, v)] = BFail).
End Root.

(** Total length of the unsupported segments. *)
Fixpoint free_length (li : list R) (ki : list bool) : R :=
  match li, ki with
  | l :: li', k :: ki' => (if k then 0 else l) + free_length li' ki'
  | _, _ => 0
  end.
