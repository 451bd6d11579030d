(** Model of the numerical helpers of weac/plot.py. *)
Require Import Verif.Py Verif.MEnvelope.

(** weac/plot.py:70-77 [outline] of a two-dimensional array given by its rows; an array without
    rows or columns has no index 0 or -1 (IndexError). *)
Definition outline {A} (grid : list (list A)) : res (list A) :=
  match grid with
  | [] => Err IndexError
  | row :: _ =>
      match row with
      | [] => Err IndexError
      | d :: _ =>
          let top := removelast row in
          let right := map (fun r => last r d) (removelast grid) in
          let bot := rev (tl (last grid [])) in
          let left := rev (map (hd d) grid) in
          Ok (top ++ right ++ bot ++ left)
      end
  end.

(** [np.interp] for points with increasing abscissae: constant outside, linear between. *)
(** Used in weac/plot.py:67. *)
Fixpoint interp_from (x x0 y0 : R) (pts : list (R * R)) : R :=
  match pts with
  | [] => y0
  | (x1, y1) :: pts =>
      if Rleb x x1 then y0 + (y1 - y0) / (x1 - x0) * (x - x0) else interp_from x x1 y1 pts
  end.
(** Used in weac/plot.py:67. *)
Definition interp (x : R) (pts : list (R * R)) : R :=
  match pts with
  | [] => 0
  | (x0, y0) :: pts => if Rleb x x0 then y0 else interp_from x x0 y0 pts
  end.
(** weac/plot.py:58-67 [MidpointNormalize.__call__] for one value; coinciding limits and midpoint
    (division by zero) are not modelled. *)
Definition midpoint_normalize (vmin vmax mid v : R) : R :=
  let nmin := Rmax 0 (1 / 2 * (1 - Rabs ((mid - vmin) / (mid - vmax)))) in
  let nmax := Rmin 1 (1 / 2 * (1 + Rabs ((vmax - mid) / (mid - vmin)))) in
  interp v [(vmin, nmin); (mid, 1 / 2); (vmax, nmax)].

(** weac/plot.py:80-94 [significant_digits] for positive numbers ([Int_part] is the floor;
    [np.log10] of zero or less is -inf or NaN, where [int] raises). *)
Definition significant_digits (d : R) : Z := (- Int_part (ln d / ln 10))%Z.

(** [np.unique]: sorted without repetition. *)
(** Used in weac/plot.py:118. *)
Fixpoint insert (x : R) (l : list R) : list R :=
  match l with
  | [] => [x]
  | a :: l' => if Rltb x a then x :: l else if Reqb x a then l else a :: insert x l'
  end.
(** Used in weac/plot.py:118. *)
Definition unique (l : list R) : list R := fold_right insert [] l.
(** weac/plot.py:97-118 [tight_central_distribution]. *)
Definition tight_central_distribution (limit : R) (samples : nat) (tightness : R) : list R :=
  let stop := rpow limit (1 / tightness) in
  let levels := map (fun x => rpow x tightness) (linspace 0 stop (Nat.div samples 2) true) in
  unique (map Ropp (rev levels) ++ levels).

(** [np.rint]: nearest integer, ties to even. *)
(** Used in weac/plot.py:339. *)
Definition rint (x : R) : Z :=
  let n := Int_part x in
  if Rltb (x - IZR n) (1 / 2) then n
  else if Rltb (1 / 2) (x - IZR n) then (n + 1)%Z
  else if Z.even n then n else (n + 1)%Z.
(** [np.round(x, n)]. *)
(** Used in weac/plot.py:339. *)
Definition np_round (x : R) (n : Z) : R := IZR (rint (x * powerRZ 10 n)) / powerRZ 10 n.
(** [arr.min()], [arr.max()]: NaN (None) as soon as an entry is; an empty array raises ValueError. *)
(** Used in weac/plot.py:338. *)
Fixpoint all_numbers (l : list (option R)) : option (list R) :=
  match l with
  | [] => Some []
  | None :: _ => None
  | Some x :: l => option_map (cons x) (all_numbers l)
  end.
(** Used in weac/plot.py:338. *)
Definition arr_extremum (pick : R -> R -> R) (l : list (option R)) : res (option R) :=
  match l with
  | [] => Err ValueError
  | _ => Ok (match all_numbers l with Some (x :: xs) => Some (fold_left pick xs x) | _ => None end)
  end.
(** [np.nanmax] of a list; NaN when there is no number. *)
(** Used in weac/plot.py:338. *)
Definition nanmax (l : list (option R)) : option R :=
  fold_left (fun m x => match m, x with
                        | Some a, Some b => Some (Rmax a b)
                        | Some a, None => Some a
                        | None, x => x
                        end) l None.
(** weac/plot.py:338-339: limit of the colour scale from the values on the slab and on the weak
    layer. A limit of zero or NaN ([int] of -inf or NaN) raises OverflowError or ValueError
    (both [ValueError] here). *)
Definition colour_limit (slab weak : list (option R)) : res R :=
  smin <- arr_extremum Rmin slab ;;
  smax <- arr_extremum Rmax slab ;;
  wmin <- arr_extremum Rmin weak ;;
  wmax <- arr_extremum Rmax weak ;;
  match nanmax (map (option_map Rabs) [smin; smax; wmin; wmax]) with
  | Some absmax =>
      if Reqb absmax 0 then Err ValueError else Ok (np_round absmax (significant_digits absmax))
  | None => Err ValueError
  end.
