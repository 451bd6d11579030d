(** Model of weac/mixins.py:1260-1343 [rasterize_solution]. *)
Require Import Verif.Py Verif.MTools Verif.MEigen Verif.MFields.

(** Solution vector with the shape check of [np.dot] (ValueError). *)
(** weac/eigensystem.py:587-617 [z]. *)
Definition zsol_checked (p : params) (e : eigsys) (ld : loads) (x : R)
    (C : list R) (l : R) (bed : bool) : res vec6 :=
  if Nat.eqb (List.length (zh p e x l bed)) (List.length C)
  then Ok (zsol p e ld x C l bed) else Err ValueError.

(** Increment of the last entry: [nq[-1] += 1]. *)
(** weac/mixins.py:1307. *)
Fixpoint incr_last (l : list nat) : list nat :=
  match l with
  | [] => []
  | [n] => [S n]
  | n :: l' => n :: incr_last l'
  end.

(** [a[i] = v]. *)
(** E.g. weac/mixins.py:1307; also examples/criterion_check.py:2423. *)
Fixpoint set_nth {A} (l : list A) (i : nat) (v : A) : list A :=
  match l, i with
  | [], _ => []
  | _ :: l', O => v :: l'
  | a :: l', S i' => a :: set_nth l' i' v
  end.

(** Numbers of grid points per (non-empty) segment, weac/mixins.py:1306-1307. *)
Definition raster_counts (li : list R) (num : nat) : list nat :=
  incr_last (map (fun l => ceil_nat (l / rsum li * INR num)) li).

(** Local coordinates of segment i of n, weac/mixins.py:1321. *)
Definition raster_local (l : R) (nq : nat) (last : bool) : list R :=
  linspace 0 l nq last.

(** Global coordinates: the slices [nqc[i]:nqc[i+1]] filled in the loop
    (weac/mixins.py:1319-1332) are consecutive and cover the array, so the
    filled arrays are concatenations over the segments. *)
Fixpoint raster_xq (x0 : R) (li : list R) (nq : list nat) : list R :=
  match li, nq with
  | l :: li', n :: nq' =>
      map (fun xi => x0 + xi)
          (raster_local l n (match li' with [] => true | _ => false end))
      ++ raster_xq (x0 + l) li' nq'
  | _, _ => []
  end.

(** weac/mixins.py:1319-1332: solution columns of all segments. *)
Fixpoint raster_zq (p : params) (e : eigsys) (ld : loads)
    (C : list (list R)) (li : list R) (ki : list bool) (nq : list nat)
  : res (list vec6) :=
  match C, li, ki, nq with
  | c :: C', l :: li', k :: ki', n :: nq' =>
      zi <- mapM (fun xi => zsol_checked p e ld xi c l k)
             (raster_local l n (match li' with [] => true | _ => false end)) ;;
      zs <- raster_zq p e ld C' li' ki' nq' ;;
      Ok (zi ++ zs)
  | _, _, _, _ => Ok []
  end.

(** weac/mixins.py:1314 and 1327-1328: mask before the crack-tip correction. *)
Fixpoint raster_mask0 (ki : list bool) (nq : list nat) : list bool :=
  match ki, nq with
  | k :: ki', n :: nq' => repeat k n ++ raster_mask0 ki' nq'
  | _, _ => []
  end.

(** weac/mixins.py:1335-1337: crack-tip correction; [i] is the running start
    index nqc[i] of the right segment. *)
Fixpoint raster_tips (ki : list bool) (nq : list nat) (start : nat)
    (mask : list bool) : list bool :=
  match ki, nq with
  | k0 :: ((k1 :: _) as ki'), n :: nq' =>
      raster_tips ki' nq' (start + n) (set_nth mask (start + n) (orb k0 k1))
  | _, _ => mask
  end.

(** weac/mixins.py:1314-1337: mask of supported points. *)
Definition raster_mask (ki : list bool) (nq : list nat) : list bool :=
  raster_tips ki nq 0 (raster_mask0 ki nq).

(** weac/mixins.py:1260-1343. [num] is the positive integer argument; the mask
    [isnonzero] must match the arrays (IndexError otherwise); an empty list has
    no last entry (IndexError at line 1307). *)
Definition rasterize_solution (p : params) (e : eigsys) (ld : loads)
    (C : list (list R)) (li0 : list R) (ki0 : list bool) (num : nat)
  : res (list R * list vec6 * list (option R)) :=
  let li1 := map Rabs li0 in
  let nz := map (Rltb 0) li1 in
  if negb (Nat.eqb (List.length C) (List.length li0)
           && Nat.eqb (List.length ki0) (List.length li0))%bool
  then Err IndexError
  else
    let C' := select nz C in
    let ki := select nz ki0 in
    let li := select nz li1 in
    match li with
    | [] => Err IndexError
    | _ =>
        let nq := raster_counts li num in
        let xq := raster_xq 0 li nq in
        zq <- raster_zq p e ld C' li ki nq ;;
        let mask := raster_mask ki nq in
        let xb := map2 (fun (b : bool) x => if b then Some x else None) mask xq in
        Ok (xq, zq, xb)
    end.
