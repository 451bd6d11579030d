(** Specification: distance between two states of the slab, and where the skiers stand (C111, C112). *)
Require Import Verif.Py Verif.MTools Verif.MEigen Verif.MSolution Verif.SBvp Verif.SMirror.

(** Size of a state: displacements, rotation and their derivatives. *)
Definition size6 (z : vec6) : R :=
  sqrt (z_u z ^ 2 + z_du z ^ 2 + z_w z ^ 2 + z_dw z ^ 2 + z_psi z ^ 2 + z_dpsi z ^ 2).
(** Distance of two states. *)
Definition apart (a b : vec6) : R := size6 (combo 1 a (-1) b).
(** Distance of the displacements and rotations only. *)
Definition moved (a b : vec6) : R :=
  sqrt ((z_u a - z_u b) ^ 2 + (z_w a - z_w b) ^ 2 + (z_psi a - z_psi b) ^ 2).
(** Where segment [i] starts; skier [j] stands where segment [j + 1] starts. *)
Definition start (li : list R) (i : nat) : R := sumn i (fun j => nth j li 0).
(** Line load of a skier of mass [m] (kg). *)
Definition line_load (o : obj) (m : R) : R := m * o_g o / 1000 / o_lski o.
(** Sum of the skiers' loads, each reduced exponentially with its distance [dist j]. *)
Definition faded (o : obj) (kap : R) (mi : list R) (n : nat) (dist : nat -> R) : R :=
  sumn n (fun j => Rabs (line_load o (nth j mi 0)) * exp (- (kap * dist j))).
(** State of the slab far from all skiers. *)
Definition at_rest (o : obj) (phi : R) : vec6 := zp (o_par o) (loads_of o phi) 0 true.
(** The same layout with outer segments that reach further. *)
Definition longer (li li' : list R) : Prop :=
  List.length li' = List.length li /\ nth 0 li 0 <= nth 0 li' 0 /\
  nth (List.length li - 1) li 0 <= nth (List.length li - 1) li' 0 /\
  forall i, (0 < i < List.length li - 1)%nat -> nth i li' 0 = nth i li 0.
(** Sum of the skiers' line loads, and the slab's weight with the surface load per unit length of the slope. *)
Definition skier_loads (o : obj) (mi : list R) (n : nat) : R := sumn n (fun j => Rabs (line_load o (nth j mi 0))).
Definition slab_loads (o : obj) (phi : R) : R :=
  let ld := loads_of o phi in Rabs (qn ld) + Rabs (qt ld) + Rabs (pn ld) + Rabs (pt ld).
(** Layouts whose ends rest on the weak layer: outer segments of unit length or more, cracks and skiers anywhere in between
    over a stretch no longer than [Lam]. *)
Definition cracked_inside (Lam : R) (li : list R) (ki : list bool) : Prop :=
  let n := (List.length li - 1)%nat in
  (2 <= List.length li)%nat /\ nth 0 ki false = true /\ nth n ki false = true /\ 1 <= nth 0 li 0 /\ 1 <= nth n li 0 /\
  (forall j, (j < List.length li)%nat -> 0 <= nth j li 0) /\ start li n - start li 1 <= Lam.
