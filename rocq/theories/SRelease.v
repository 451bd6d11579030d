(** Specification: reciprocal work of two solved models and released energy. *)
From Coquelicot Require Import Coquelicot.
Require Import Verif.Py Verif.MTools Verif.MEigen Verif.SBeam Verif.SBvp Verif.SOutput Verif.SWork.

(** Section forces and weak-layer tractions of state [a] times displacements of state [b]. The shear traction acts t/2 below
    the slab, in the middle of the weak layer. *)
Definition section_cross (p : params) (a b : vec6) : R := sN p a * z_u b + sM p a * z_psi b + sV p a * z_w b.
Definition traction_cross (p : params) (k : bool) (a b : vec6) : R :=
  - s_sig p k a * z_w b + s_tau p k a * shift_at ((hh p + wt p) / 2) b.
(** Non-symmetric part of the weak layer's law. *)
Definition slip_cross (p : params) (ka kb : bool) (a b : vec6) : R :=
  wt p / 2 * (s_tau p ka a * (z_dw b + z_psi b) - s_tau p kb b * (z_dw a + z_psi a)).
(** Additional work of weight and surface load from the uncracked to the cracked solution. *)
Definition added_work (o : obj) (phi : R) (li : list R) (k0 ki : list bool) (Ca Cb : list (list R)) : R :=
  total (List.length li) (fun i =>
    RInt (fun x => load_power (o_par o) (loads_of o phi) (field o phi (nth i li 0) (nth i ki false) (nth i Cb []) x)) 0 (nth i li 0)
    - RInt (fun x => load_power (o_par o) (loads_of o phi) (field o phi (nth i li 0) (nth i k0 false) (nth i Ca []) x)) 0 (nth i li 0)).
