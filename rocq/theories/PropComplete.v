(** C82: the solution formula of supported segments is the general solution of the beam on the weak
    layer. *)
From Coquelicot Require Import Coquelicot.
Require Import Verif.Py Verif.MTools Verif.MEigen Verif.MFields Verif.MSolution Verif.SBeam Verif.SBvp Verif.SEig
  Verif.PBeam2 Verif.PBvp6 Verif.PComplete.

(** Every state at the left end of the segment is taken by exactly one choice of the six constants, ... *)
Theorem C82_states o ld l z0 : ready o ->
  exists C, List.length C = 6%nat /\ zsol (o_par o) (o_eig o) ld 0 C l true = z0 /\
    forall C', List.length C' = 6%nat -> zsol (o_par o) (o_eig o) ld 0 C' l true = z0 -> C' = C.
Proof.
  intros H. destruct (supported_state o ld l z0 H) as (C & L & E). exists C. split; [exact L|]. split; [exact E|].
  intros C' L' E'. apply (supported_unique o ld l C' C H L' L). congruence.
Qed.
Print Assumptions C82_states.
(** ... and every slab in equilibrium on the weak layer, with whatever boundary conditions, is
    described by exactly one choice. *)
Theorem C82_general o ld l L z : ready o -> 0 <= L -> (forall x, 0 <= x <= L -> equilibrium (o_par o) ld true z x) ->
  exists C, List.length C = 6%nat /\ (forall x, 0 <= x <= L -> z x = zsol (o_par o) (o_eig o) ld x C l true) /\
    forall C', List.length C' = 6%nat ->
      (forall x, 0 <= x <= L -> z x = zsol (o_par o) (o_eig o) ld x C' l true) -> C' = C.
Proof.
  intros H HL HE. destruct (supported_general o ld l L z H HE) as (C & LC & E). exists C. split; [exact LC|]. split; [exact E|].
  intros C' L' E'. apply (supported_unique o ld l C' C H L' LC). rewrite <- E, <- E' by lra. reflexivity.
Qed.
Print Assumptions C82_general.
(** A slab at rest under its own weight, and one that is displaced at its left end. *)
Example C82_example : let o := ex_obj "skier" None 30 in ready o /\
  exists C, List.length C = 6%nat /\
    zsol (o_par o) (o_eig o) (loads_of o 30) 0 C 1000 true = mkV 1 0 2 0 0 0 /\
    forall x, 0 <= x <= 500 -> equilibrium (o_par o) (loads_of o 30) true
      (fun s => zsol (o_par o) (o_eig o) (loads_of o 30) s C 1000 true) x.
Proof.
  intros o. pose proof (ex_ready "skier" None 30) as Hr. fold o in Hr. split; [exact Hr|].
  destruct (C82_states o (loads_of o 30) 1000 (mkV 1 0 2 0 0 0) Hr) as (C & L & E & _). exists C.
  split; [exact L|]. split; [exact E|]. intros x _. destruct Hr as (Hl & Hf & ews & He & (_ & HT & _)). rewrite He.
  apply (supported_solution (o_par o) ews (loads_of o 30) C 1000 x Hl Hf HT).
Qed.
