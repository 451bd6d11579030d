(** Specification: change of the units of length, force and mass.

    A physical quantity of dimension length^i force^j mass^k is multiplied by
    L^i F^j M^k when the units become smaller by the factors L, F and M; angles,
    ratios and Poisson's ratios are unchanged. The library works in mm, N and t
    (kg for skiers, kg/m^3 for densities: fixed powers of ten apart). Nothing below
    mentions how a quantity is computed. *)
Require Import Verif.Py Verif.MTools Verif.MEigen Verif.MAnalysis.

Record units : Type := mkU { uL : R; uF : R; uM : R }.
Definition proper_units (u : units) : Prop := 0 < uL u /\ 0 < uF u /\ 0 < uM u.

(** Composite dimensions. *)
Definition u_density (u : units) : R := uM u / uL u ^ 3.
Definition u_stress (u : units) : R := uF u / uL u ^ 2.
Definition u_line (u : units) : R := uF u / uL u.
Definition u_accel (u : units) : R := uF u / uM u.

(** A layer (density, thickness), a ply, a mesh point. *)
Definition layer_in (u : units) (l : layer) : layer := (u_density u * fst l, uL u * snd l).
Definition ply_in (u : units) (q : ply) : ply :=
  mkPly (u_density u * p_rho q) (uL u * p_h q) (u_stress u * p_E q) (u_stress u * p_G q) (p_nu q).
Definition mpoint_in (u : units) (q : mpoint) : mpoint :=
  mkMp (uL u * m_z q) (u_stress u * m_E q) (m_nu q) (u_density u * m_rho q).

(** Displacements, slopes, rotation and curvature. *)
Definition state_in (u : units) (z : vec6) : vec6 :=
  mkV (uL u * z_u z) (z_du z) (uL u * z_w z) (z_dw z) (z_psi z) (z_dpsi z / uL u).

(** Foundation stiffnesses (stress per displacement), thicknesses and the
    stiffnesses of a laminate of unit width. *)
Definition par_in (u : units) (p : params) : params :=
  mkPar (u_stress u / uL u * kn p) (u_stress u / uL u * kt p) (uL u * wt p) (uL u * hh p) (uL u * zs p)
    (u_line u * A11 p) (uF u * B11 p) (uF u * uL u * D11 p) (u_line u * kA55 p) (uF u ^ 2 * K0 p).
Definition loads_in (u : units) (l : loads) : loads :=
  mkLd (u_stress u * qn l) (u_stress u * qt l) (u_stress u * pn l) (u_stress u * pt l).

(** The same system described in other units: everything a user or the library's
    own setup enters, but not the eigensystem. *)
Definition same_in (u : units) (o o' : obj) : Prop :=
  o_g o' = u_accel u * o_g o /\ o_lski o' = uL u * o_lski o /\ o_system o' = o_system o /\
  o_p o' = u_stress u * o_p o /\ o_slab o' = map (ply_in u) (o_slab o) /\
  o_par o' = par_in u (o_par o) /\ o_a o' = uL u * o_a o /\ o_td o' = uL u * o_td o /\
  o_tc o' = uL u * o_tc o /\ o_mode o' = o_mode o /\ o_phi o' = o_phi o /\ o_ratio o' = o_ratio o.

(** The inputs of the stiffnesses in other units. *)
Definition input_in (u : units) (o o' : obj) : Prop :=
  o_weakE o' = u_stress u * o_weakE o /\ o_weaknu o' = o_weaknu o /\ o_k o' = o_k o /\
  o_slab o' = map (ply_in u) (o_slab o) /\ wt (o_par o') = uL u * wt (o_par o) /\
  hh (o_par o') = uL u * hh (o_par o) /\ zs (o_par o') = uL u * zs (o_par o).
