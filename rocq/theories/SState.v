(** Specification: what a sequence of setter calls should lead to. *)
Require Import Verif.Py Verif.MTools Verif.MEigen Verif.MSession.

(** Arguments of the last call of each kind. *)
Fixpoint last_fnd (cs : list op) : option (R * R * R) :=
  match cs with
  | [] => None
  | c :: cs => match last_fnd cs with
               | Some f => Some f
               | None => match c with OFnd t E nu _ => Some (t, E, nu) | _ => None end
               end
  end.
Fixpoint last_beam (cs : list op) : option (layers_arg * R * R * R) :=
  match cs with
  | [] => None
  | c :: cs => match last_beam cs with
               | Some b => Some b
               | None => match c with OBeam la C0 C1 nu _ => Some (la, C0, C1, nu) | _ => None end
               end
  end.
Fixpoint last_surf (cs : list op) : option R :=
  match cs with
  | [] => None
  | c :: cs => match last_surf cs with
               | Some p => Some p
               | None => match c with OSurf p => Some p | _ => None end
               end
  end.

(** Calls that recompute the fundamental system. *)
Definition recomputes (c : op) : Prop :=
  match c with
  | OFnd _ _ _ u => u = true
  | OBeam _ _ _ _ u => u = true
  | OSurf _ => False
  | ORecalc => True
  end.
(** Nothing but surface loads after the last recomputation. *)
Definition up_to_date (cs : list op) : Prop :=
  exists a c b, cs = a ++ c :: b /\ recomputes c /\ Forall (fun d => exists p, d = OSurf p) b.

(** Stiffnesses. *)
Definition stiffnesses (p : params) : R * R * R * R * R * R * R :=
  (kn p, kt p, A11 p, B11 p, D11 p, kA55 p, K0 p).
