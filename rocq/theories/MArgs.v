(** Model of the arguments of [assemble_and_solve] as mutable objects (weac/mixins.py:1151-1156). *)
Require Import Verif.Py Verif.MTools Verif.MEigen Verif.MFields Verif.MRaster Verif.MSolution.

(** weac/mixins.py:1083 [assemble_and_solve(self, phi, li, mi, ki)]: for each of the three
    sequences, whether it is a Python list ([append] exists) or an ndarray. *)
Record kinds : Type := mkKinds { a_li : bool; a_ki : bool; a_mi : bool }.
(** weac/mixins.py:1083: contents of the three sequences. *)
Record args : Type := mkArgs { g_li : list R; g_mi : list R; g_ki : list bool }.

(** weac/mixins.py:1151-1156: the dummy segment is appended in place to [li], [ki] and [mi], in
    this order; an ndarray raises AttributeError. Result: exception, and contents afterwards. *)
Definition pad (q : kinds) (g : args) : option exn * args :=
  if Nat.eqb (List.length (g_li g)) 1 then
    if a_li q then
      let li := g_li g ++ [0] in
      if a_ki q then
        let ki := g_ki g ++ [true] in
        if a_mi q then (None, mkArgs li (g_mi g ++ [0]) ki)
        else (Some AttributeError, mkArgs li (g_mi g) ki)
      else (Some AttributeError, mkArgs li (g_mi g) (g_ki g))
    else (Some AttributeError, g)
  else (None, g).

Section Oracle.
Variable eig : mat6 -> list eigpair.
Variable solve : nat -> matrix -> vector -> res vector.
(** weac/mixins.py:1083-1249 [assemble_and_solve]: result, and the contents of the caller's
    sequences afterwards. Beyond line 1156 nothing is assigned to them; the rest of the method is
    [assemble_and_solve] of MSolution.v for two or more segments. *)
Definition solve_in_place (o : obj) (q : kinds) (phi : R) (g : args) : res (list (list R)) * args :=
  match check_segments o (g_li g) (g_mi g) (g_ki g) with
  | Err e => (Err e, g)
  | Ok _ =>
      match pad q g with
      | (Some e, g) => (Err e, g)
      | (None, g) => (assemble_and_solve eig solve o (a_li q) phi (g_li g) (g_mi g) (g_ki g), g)
      end
  end.
End Oracle.
