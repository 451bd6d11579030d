(** Specification: weak layers soft enough for the slab on top (C104), and dependable eigensolvers. *)
Require Import Verif.Py Verif.MTools Verif.MEigen Verif.SAdm Verif.SSlab Verif.SEig.

(** Compliance of the free slab to a tangential force at the middle of the weak layer:
    extension and bending by a force with lever (h + t)/2 about the mid-plane. *)
Definition reach (A B D h t : R) : R := (A * ((h + t) / 2) ^ 2 - 2 * B * ((h + t) / 2) + D) / (A * D - B ^ 2).

(** The weak layer is soft compared with the slab. The first condition bounds the coupling of the weak-layer shear
    stress with w' ([stable]), the second the wave length of the slab on the weak layer. *)
Definition regular (p : params) : Prop :=
  kt p * wt p ^ 2 < 16 * kA55 p /\
  (kn p / kA55 p + kt p * reach (A11 p) (B11 p) (D11 p) (hh p) (wt p)) ^ 2
  < 3 * kn p * A11 p / (A11 p * D11 p - B11 p ^ 2).

(** Largest modulus of a weak layer with thickness t and Poisson's ratio nu below which all are soft, for a slab with
    stiffnesses A, B, D, S and thickness h. *)
Definition soft_limit (A B D S h t nu : R) : R :=
  Rmin (32 * (1 + nu) * S / t)
       (3 * A * (1 - nu ^ 2) * t / (A * D - B ^ 2) / (1 / S + (1 - nu) / 2 * reach A B D h t) ^ 2).

(** An eigensolver that returns six different true eigenpairs of a system matrix whenever there are six. *)
Definition dependable (eig : mat6 -> list eigpair) : Prop :=
  forall p ews, adm p -> good_eigenpairs (calc_system_matrix p) ews -> good_eigenpairs (calc_system_matrix p) (eig (calc_system_matrix p)).

(** Layers with positive densities and thicknesses, or the name of a profile. *)
Definition good_layers (la : layers_arg) : Prop := match la with LStr _ => True | LList l => pos_layers l end.

(** Objects made by the constructor and changed by the setters, with admissible arguments. *)
Inductive built (eig : mat6 -> list eigpair) : obj -> Prop :=
| built_new system la touchdown o : good_layers la -> Layered eig system la touchdown = Ok o -> built eig o
| built_beam o la C0 C1 nu o' : built eig o -> good_layers la -> 0 < C0 -> -1 < nu < 1 ->
    set_beam_properties eig o la C0 C1 nu true = Ok o' -> built eig o'
| built_weak o t E nu : built eig o -> 0 < t -> 0 < E -> -1 < nu < 1 -> built eig (set_foundation_properties eig o t E nu true)
| built_load o p : built eig o -> built eig (set_surface_load o p).
