(** Specification: stresses over the slab thickness. *)
Require Import Verif.Py Verif.MTools Verif.MEigen Verif.MAnalysis Verif.SAdm.
Require Import Sorting.Sorted.

(** Layers with the depth coordinate of their top, the first top at a. *)
Fixpoint layer_tops (a : R) (slab : list ply) : list (R * ply) :=
  match slab with
  | [] => []
  | q :: s => (a, q) :: layer_tops (a + p_h q) s
  end.
(** Plane-strain modulus. *)
Definition Eps (q : ply) : R := p_E q / (1 - p_nu q ^ 2).

(** Mesh points of one layer: from top to bottom, increasing, no step above dz, with
    the properties of the layer. *)
Definition layer_block (dz : R) (aq : R * ply) (blk : list mpoint) : Prop :=
  let '(a, q) := aq in
  let zl := map m_z blk in
  hd (a - 1) zl = a /\ last zl (a - 1) = a + p_h q /\
  StronglySorted Rlt zl /\
  (forall i, (S i < List.length zl)%nat -> nth (S i) zl 0 - nth i zl 0 <= dz) /\
  Forall (fun m => m_E m = p_E q /\ m_nu m = p_nu q /\ m_rho m = p_rho q) blk.

(** The object's laminate is that of its slab, centred at mid-thickness. *)
Definition laminated (o : obj) : Prop :=
  o_slab o <> [] /\ Forall good_ply (o_slab o) /\
  hh (o_par o) = rsum (map p_h (o_slab o)) /\
  let tops := layer_tops (- hh (o_par o) / 2) (o_slab o) in
  A11 (o_par o) = rsum (map (fun aq => Eps (snd aq) * p_h (snd aq)) tops) /\
  B11 (o_par o) = rsum (map (fun aq => Eps (snd aq) * (((fst aq + p_h (snd aq)) ^ 2 - fst aq ^ 2) / 2)) tops).
