(** Specification: the largest envelope value along the weak layer, and the critical weight of a skier. *)
Require Import Verif.Py Verif.MTools Verif.MEigen Verif.MFields Verif.SAdm Verif.SSlab Verif.MSolution Verif.MAnalysis Verif.SBvp Verif.SEig
  Verif.MEnvelope Verif.MCriterion Verif.SSegment.
Open Scope R_scope.

(** Sample [i] of the weak layer has the stresses [a] and [b]. *)
Definition sample (k : sk) (i : nat) (a b : R) : Prop :=
  nth_error (k_sig k) i = Some (Some a) /\ nth_error (k_tau k) i = Some (Some b).
(** [M] is the largest value of the failure function [f] over all samples. *)
Definition peak (f : R -> R -> res R) (k : sk) (M : R) : Prop :=
  (exists i a b, sample k i a b /\ f a b = Ok M) /\ forall i a b v, sample k i a b -> f a b = Ok v -> v <= M.
(** Under the weight [w] the largest value is [M]. *)
Definition peak_of (create : R -> res sk) (f : R -> R -> res R) (w M : R) : Prop := exists k, create w = Ok k /\ peak f k M.
(** The weight [w] is critical: it just reaches the envelope somewhere. *)
Definition critical (create : R -> res sk) (f : R -> R -> res R) (w : R) : Prop := 0 < w /\ peak_of create f w 1.
(** The stresses of some sample change with the weight. *)
Definition weight_matters (create : R -> res sk) : Prop :=
  exists k0 k1 i a b a' b', create 0 = Ok k0 /\ create 1 = Ok k1 /\ sample k0 i a b /\ sample k1 i a' b' /\ (a <> a' \/ b <> b').
(** A profile with a stable slab and weak layer, working numerics, and a segmentation without cracks whose
    middle is a boundary of segments. *)
Definition setting (eig : mat6 -> list eigpair) (solve : nat -> matrix -> vector -> res vector) (layers : list layer)
    (li : list R) (ki : list bool) (E t : R) : Prop :=
  pos_layers layers /\ 0 < E /\ 0 < t /\ sound_solver solve /\ complete_solver solve /\
  (forall o, Layered eig "skiers" (LList layers) false = Ok o ->
     let p := o_par (set_foundation_properties eig o t E (1 / 4) true) in
     stable p /\ good_eigenpairs (calc_system_matrix p) (eig (calc_system_matrix p))) /\
  (2 <= List.length li)%nat /\ List.length ki = List.length li /\ (forall l, In l li -> 0 <= l) /\ 0 < rsum li /\
  exists j, (j <= List.length li)%nat /\ seg_start li j = rsum li / 2.
(** Weight of the slab per area (N/mm^2). *)
Definition weight_per_area (layers : list (R * R)) : R := rsum (map (fun l => fst l * (1 / 1000000000000) * 9810 * snd l) layers).
(** An envelope that is a sum of squares with positive critical stresses. *)
Definition quadratic_envelope (e : envp) : Prop := e_name e = "adam_unpublished"%string \/ e_name e = "schottner"%string /\ 0 < e_rho e.
(** Stiffness of a slab that is deflected like a tent of half width [l] without rotating. *)
Definition tent_stiffness (p : params) (l : R) : R :=
  kn p * l / 3 + kA55 p ^ 2 / (kA55 p - kt p * wt p ^ 2 / 16) / l.
(** The envelope of Schottner with the compressive strength [sc] (kPa). *)
Definition strength (sc : R) : envp := mkEnv "schottner" 1 1 (sc * (9167 / 10) / 26000).
