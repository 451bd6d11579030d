(** Specification: a complete analysis of a model (C105). *)
Require Import Verif.Py Verif.MTools Verif.MEigen Verif.MRaster Verif.MSolution Verif.MAnalysis Verif.SBvp Verif.SEnergy.

(** Constants for six unknowns in each of n segments. *)
Definition constants_of (n : nat) (C : list (list R)) : Prop :=
  List.length C = n /\ Forall (fun c => List.length c = 6%nat) C.

(** A raster with any number of points covers the segments and nothing else. *)
Definition rasterized (o : obj) (phi : R) (C : list (list R)) (li : list R) (ki : list bool) : Prop :=
  forall num, (1 <= num)%nat -> exists xq zq xb,
    rasterize_solution (o_par o) (o_eig o) (loads_of o phi) C li ki num = Ok (xq, zq, xb) /\
    List.length zq = List.length xq /\ List.length xb = List.length xq /\
    (num + 1 <= List.length xq <= num + List.length li + 1)%nat /\
    hd 1 xq = 0 /\ last xq 0 = rsum li /\ Forall (fun x => 0 <= x <= rsum li) xq.

(** The steps of the examples and tests: solutions with and without crack, their rasters, and both energy release
    rates, in every unit; none fails, and the differential rates are not negative. *)
Definition analysed (eig : mat6 -> list eigpair) (solve : nat -> (nat -> nat -> R) -> (nat -> R) -> res (nat -> R))
    (quad : (R -> R) -> R -> R -> R) (o : obj) (phi kR : R) (s : segments) : Prop :=
  exists C0 C1,
  assemble_and_solve eig solve o true phi (s_li s) (s_mi s) (s_k0 s) = Ok C0 /\
  assemble_and_solve eig solve o true phi (s_li s) (s_mi s) (s_ki s) = Ok C1 /\
  constants_of (List.length (s_li s)) C0 /\ constants_of (List.length (s_li s)) C1 /\
  bvp o kR phi (s_li s) (s_mi s) (s_k0 s) C0 /\ bvp o kR phi (s_li s) (s_mi s) (s_ki s) C1 /\
  rasterized o phi C0 (s_li s) (s_k0 s) /\ rasterized o phi C1 (s_li s) (s_ki s) /\
  (forall unit c, err_factor unit c -> exists G1 G2,
     gdif (o_par o) (o_eig o) (loads_of o phi) C1 (s_li s) (s_ki s) unit = Ok (G1 + G2, G1, G2) /\ 0 <= G1 /\ 0 <= G2) /\
  exists G1 G2, ginc quad (o_par o) (o_eig o) (loads_of o phi) C0 C1 (s_li s) (s_ki s) (s_k0 s) = Ok (Some (G1 + G2), Some G1, Some G2).

(** Cracks within a slab: one of the five built-in systems with a crack shorter than the slab, or any list of the user
    that the solver must not reject, with some supported length in both states and some length that cracks. *)
Definition fine_lists (system : string) (li mi : list R) (ki : list bool) : Prop :=
  (2 <= List.length li)%nat /\ ~ invalid_segments system li mi ki /\
  (forall l, In l li -> 0 <= l) /\ exists i, (i < List.length li)%nat /\ nth i ki false = true /\ 0 < nth i li 0.
Definition cracks (li : list R) (ki k0 : list bool) : Prop :=
  exists i, (i < List.length li)%nat /\ nth i k0 false = true /\ nth i ki true = false /\ 0 < nth i li 0.
Definition fine_crack (system : string) (li mi : list R) (ki k0 : list bool) (L a : R) : Prop :=
  (In system ["pst-"; "-pst"; "vpst-"; "-vpst"; "skier"]%string /\ 0 < a < L) \/
  (system = "skiers"%string /\ fine_lists system li mi ki /\ fine_lists system li mi k0 /\ cracks li ki k0).
