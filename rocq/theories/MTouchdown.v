(** [touchdown_distance] and the constructor of [Inverse]. *)
Require Import Verif.Py Verif.MTools Verif.MEigen Verif.MFields Verif.MRaster Verif.MSolution.

Section Oracle.
Variable eig : mat6 -> list eigpair.
Variable solve : nat -> matrix -> vector -> res vector.
Variable brent : R -> R -> list (R * R) -> bstep.
Variable maxeval : nat.

(** weac/tools.py:317-333: the calls on the model object. *)
Definition touchdown_calls (phi : R) : stM (R * R * R) :=
  sbind (calc_segments eig solve brent maxeval [] [] [] [] 100000 0 0 phi (1 / 2) 1000) (fun _ =>
  sbind (calc_a1 eig solve brent maxeval) (fun first_contact =>
  sbind (calc_a2 eig solve brent maxeval) (fun full_contact =>
  sbind (calc_segments eig solve brent maxeval [] [] [] [] 100000 (5 * first_contact) 0 phi (1 / 2) 1000) (fun _ =>
  sbind (calc_lC eig solve brent maxeval) (fun steady_state =>
  sret (first_contact, full_contact, steady_state)))))).

(** weac/tools.py:301-315: the model object. An empty list or text selects the default profile, as in
    the constructor; layers=None is the empty list here. *)
Definition touchdown_model (la : layers_arg) (C0 C1 Ewl t : R) : res obj :=
  let la := match la with
            | LList [] => LList [(240, 200)]
            | LStr EmptyString => LList [(240, 200)]
            | _ => la
            end in
  o <- Layered eig "pst-" (LList []) true ;;
  set_beam_properties eig (set_foundation_properties eig o t Ewl (1 / 4) true) la C0 C1 (1 / 4) true.

(** weac/tools.py:261-333 [touchdown_distance]. *)
Definition touchdown_distance (la : layers_arg) (C0 C1 Ewl t phi : R) : res (R * R * R) :=
  o <- touchdown_model la C0 C1 Ewl t ;; fst (touchdown_calls phi o).

(** weac/inverse.py:28-54 [Inverse.__init__]. layers=None (the default) becomes an array without
    axes, so that [layers[:, 0]] raises IndexError, as for the empty list. *)
Definition Inverse (system : string) (la : option layers_arg) (C0 C1 Eweak : R) : res obj :=
  o <- set_beam_properties eig (init_obj system false)
         (match la with Some la => la | None => LList [] end) C0 C1 (1 / 4) false ;;
  Ok (o_calc_fundamental_system eig (set_foundation_properties eig o 30 Eweak (1 / 4) false)).
End Oracle.
