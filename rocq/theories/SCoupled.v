(** Specification: energy criterion of a crack below a slab. *)
From Coquelicot Require Import Coquelicot.
Require Import Verif.Py Verif.MTools Verif.MEigen Verif.MEnvelope Verif.MCriterion Verif.SBeam Verif.SBvp Verif.SEnergy.

(** Toughness criterion of energy release rates in J/m^2: critical values 0.56 and 0.79, exponents 5 and 20/9. *)
Definition toughness (g1 g2 : R) : R := rpow (Rabs g1 / (56 / 100)) 5 + rpow (Rabs g2 / (79 / 100)) (20 / 9).
(** Sum over the unsupported segments. *)
Definition unsupported_sum (ki : list bool) (f : nat -> R) : R :=
  rsum (map (fun i => if nth i ki false then 0 else f i) (seq 0 (List.length ki))).
Definition unsupported_length (li : list R) (ki : list bool) : R := unsupported_sum ki (fun i => nth i li 0).
(** Energy released per length (N/mm = 1000 J/m^2) when the weak layer below the unsupported segments breaks: half the
    stresses before times displacements after, over the new crack. [C0], [C1] are the constants before and after, [eps] is
    the error of the quadrature in every segment. *)
Definition released (o : obj) (phi : R) (li : list R) (ki : list bool) (C0 C1 : list (list R)) (eps G1 G2 : R) : Prop :=
  let da := unsupported_length li ki in
  let bound := INR (List.length li) * eps / (2 * da) in
  0 < da /\
  Rabs (G1 - 1 / (2 * da) * unsupported_sum ki (fun i =>
     RInt (opening o phi (nth i li 0) (nth i C0 []) (nth i C1 [])) 0 (nth i li 0))) <= bound /\
  Rabs (G2 - 1 / (2 * da) * unsupported_sum ki (fun i =>
     RInt (sliding o phi (nth i li 0) (nth i C0 []) (nth i C1 [])) 0 (nth i li 0))) <= bound.

(** A cracked model [c] and the value [g] of its criterion are judged by the energy released between two solved
    boundary value problems of object [o]: all segments supported, and supports [ki]; both carry the weight [w] at the
    middle. *)
Definition judged (eps : R) (o : obj) (phi w : R) (li : list R) (ki : list bool) (c : sk) (g : option R) : Prop :=
  exists C0 mi, k_obj c = o /\ k_li c = li /\ k_ki c = ki /\ k_mi c = mi /\ skier_weights li (List.length li) w = Ok mi /\
    bvp o 0 phi li mi (map (fun _ => true) ki) C0 /\ bvp o 0 phi li mi ki (k_C c) /\
    (List.length C0 = List.length li /\ Forall (fun C => List.length C = 6%nat) C0) /\
    (List.length (k_C c) = List.length li /\ Forall (fun C => List.length C = 6%nat) (k_C c)) /\
    ((exists i, (i < List.length ki)%nat /\ nth i ki false = false) -> forall v, g = Some v ->
     exists G1 G2, released o phi li ki C0 (k_C c) eps G1 G2 /\ v = toughness (1000 * G1) (1000 * G2)).
