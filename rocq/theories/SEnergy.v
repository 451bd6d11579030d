(** Specification: energy release rates. *)
From Coquelicot Require Import Coquelicot.
Require Import Verif.Py Verif.MTools Verif.MEigen Verif.MAnalysis Verif.SBeam Verif.SBvp.

(** Support changes between segments j and j+1. *)
Definition is_tip (ki : list bool) (j : nat) : Prop := nth j ki false <> nth (S j) ki false.
(** The unsupported run next to tip j reaches an end of the model of N segments. *)
Definition edge_crack (ki : list bool) (N j : nat) : Prop :=
  (forall m, (m <= j)%nat -> nth m ki false = false) \/
  (forall m, (j < m < N)%nat -> nth m ki false = false).
(** Weight function: edge cracks count fully, both tips of an inner crack half. *)
Definition tip_weights (ki : list bool) (N : nat) (w : nat -> R) : Prop :=
  forall j, (S j < N)%nat -> is_tip ki j ->
    (edge_crack ki N j -> w j = 1) /\ (~ edge_crack ki N j -> w j = 1 / 2).
(** Sum over the tips. *)
Definition tip_sum (ki : list bool) (n : nat) (f : nat -> R) : R :=
  rsum (map (fun j => if Bool.bool_dec (nth j ki false) (nth (S j) ki false) then 0 else f j) (seq 0 n)).
(** Energy release rates (N/mm) of a supported tip state: strain energy of the
    weak layer per length. *)
Definition GI (p : params) (z : vec6) : R := (kn p * z_w z) ^ 2 / (2 * kn p).
Definition GII (p : params) (z : vec6) : R :=
  (kt p * (z_u z + hh p / 2 * z_psi z - wt p / 2 * z_dw z)) ^ 2 / (2 * kt p).
(** Unit factors. *)
Definition err_factor (unit : string) (c : R) : Prop :=
  (unit = "J/m^2"%string /\ c = 1000) \/ (unit = "kJ/m^2"%string /\ c = 1) \/ (unit = "N/mm"%string /\ c = 1).

(** A quadrature routine with absolute error at most eps on continuous integrands. *)
Definition accurate_quad (quad : (R -> R) -> R -> R -> R) (eps : R) : Prop :=
  forall f a b, (forall x, continuous f x) -> Rabs (quad f a b - RInt f a b) <= eps.
(** Segments that crack: supported before, unsupported after. *)
Definition cracking (k0 ki : list bool) (i : nat) : bool := andb (nth i k0 false) (negb (nth i ki false)).
Definition crack_sum (k0 ki : list bool) (n : nat) (f : nat -> R) : R :=
  rsum (map (fun i => if cracking k0 ki i then f i else 0) (seq 0 n)).
(** Integrands of the work done when a supported state (C0) is released to an
    unsupported state (C1) on a segment of length l. *)
Definition opening (o : obj) (phi l : R) (C0 C1 : list R) (x : R) : R :=
  kn (o_par o) * z_w (field o phi l true C0 x) * z_w (field o phi l false C1 x).
Definition sliding (o : obj) (phi l : R) (C0 C1 : list R) (x : R) : R :=
  - (s_tau (o_par o) true (field o phi l true C0 x) *
     (z_u (field o phi l false C1 x) + hh (o_par o) / 2 * z_psi (field o phi l false C1 x)
      - wt (o_par o) / 2 * z_dw (field o phi l false C1 x))).
