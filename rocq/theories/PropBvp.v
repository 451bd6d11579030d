(** Property theorems C20-C23 and C67: the assembled boundary value problem. *)
From Coquelicot Require Import Coquelicot.
From Coq Require Import Permutation.
Require Import Verif.Py Verif.MTools Verif.MEigen Verif.MFields Verif.SAdm Verif.MRaster
  Verif.MSolution Verif.SBeam Verif.SBvp Verif.SEig Verif.PBvp Verif.PBvp4 Verif.PBvp5
  Verif.PBeam2 Verif.PBalance Verif.PLinAlg Verif.PWell2 Verif.PWell3 Verif.PBvp6.

(** C20: a vector solves the assembled 6N x 6N system iff the piecewise solution
    solves the boundary value problem. [kR] is the result of the substitute
    spring computation; it matters in contact stage C only. *)
Theorem C20_assembled_system o kR kRv phi li mi ki zh0 zp0 rhs x kd :
  let N := List.length li in
  ready o -> (2 <= N)%nat ->
  check_segments o li mi ki = Ok tt ->
  kind_of (o_system o) = Some kd ->
  (kd = KPst -> o_mode o = Some ModeC -> kR = Ok kRv /\ o_phi o = phi) ->
  (kd = KVpst -> o_mode o = None \/ o_mode o = Some ModeA) ->
  assemble o kR phi li mi ki = Ok (zh0, zp0, rhs) ->
  (lin_solves (6 * N) zh0 x (fun r => rhs r - zp0 r)
   <-> bvp o kRv phi li mi ki (reshape_constants N x)).
Proof.
  exact (fun Hr => assemble_bvp o kR kRv phi li mi ki zh0 zp0 rhs x kd (ready_six o Hr)).
Qed.
Print Assumptions C20_assembled_system.
(** What [assemble_and_solve] returns solves the boundary value problem. *)
Theorem C20_solved eig solve o aslist phi li mi ki Cs kd kRv :
  sound_solver solve -> ready o -> (2 <= List.length li)%nat ->
  kind_of (o_system o) = Some kd ->
  (kd = KPst -> o_mode o = Some ModeC -> o_phi o = phi /\
     fst (substitute_stiffness eig solve o (o_a o - o_td o) "rested" "rot") = Ok kRv) ->
  (kd = KVpst -> o_mode o = None \/ o_mode o = Some ModeA) ->
  assemble_and_solve eig solve o aslist phi li mi ki = Ok Cs ->
  bvp o kRv phi li mi ki Cs.
Proof. exact (solved_bvp eig solve o aslist phi li mi ki Cs kd kRv). Qed.
Print Assumptions C20_solved.
Example C20_example :
  sound_solver elim_solve /\ ready (ex_obj "skier" None 30) /\
  exists Cs, assemble_and_solve (fun _ => ex_ews) elim_solve (ex_obj "skier" None 30) true 30
    [4; 1; 1; 4] [0; 80; 0] [true; false; false; true] = Ok Cs.
Proof. exact (conj elim_sound (conj (ex_ready _ _ _) ex_skier_solved)). Qed.

(** C21: conditions at both ends for every system type ... *)
Theorem C21_end_conditions eig solve o aslist phi li mi ki Cs kd kRv :
  sound_solver solve -> ready o -> (2 <= List.length li)%nat ->
  kind_of (o_system o) = Some kd ->
  (kd = KPst -> o_mode o = Some ModeC -> o_phi o = phi /\
     fst (substitute_stiffness eig solve o (o_a o - o_td o) "rested" "rot") = Ok kRv) ->
  (kd = KVpst -> o_mode o = None \/ o_mode o = Some ModeA) ->
  assemble_and_solve eig solve o aslist phi li mi ki = Ok Cs ->
  let n := (List.length li - 1)%nat in
  let z i := field o phi (nth i li 0) (nth i ki false) (nth i Cs []) in
  left_end o kRv phi (nth 0 ki false) (z 0%nat 0) /\
  right_end o kRv phi (nth n ki false) (z n (nth n li 0)).
Proof.
  exact (fun H1 H2 H3 H4 H5 H6 H7 =>
    let B := solved_bvp eig solve o aslist phi li mi ki Cs kd kRv H1 H2 H3 H4 H5 H6 H7 in
    conj (proj1 B) (proj1 (proj2 B))).
Qed.
Print Assumptions C21_end_conditions.
(** ... also for a single segment (the library pads the lists) ... *)
Theorem C21_single_segment solve kR kRv o phi l mi ki Cs kd :
  sound_solver solve -> ready o ->
  kind_of (o_system o) = Some kd ->
  (kd = KPst -> o_mode o = Some ModeC -> kR = Ok kRv /\ o_phi o = phi) ->
  (kd = KVpst -> o_mode o = None \/ o_mode o = Some ModeA) ->
  assemble_and_solve_with solve kR o true phi [l] mi ki = Ok Cs ->
  let z := field o phi l true (nth 0 Cs []) in
  ki = [true] /\ mi = [] /\
  left_end o kRv phi true (z 0) /\ right_end o kRv phi true (z l).
Proof. exact (fun Hs Hr => solved_single solve kR kRv o phi l mi ki Cs kd Hs (ready_six o Hr)). Qed.
Print Assumptions C21_single_segment.
(** ... and the complementary solution vanishes at infinite ends. *)
Theorem C21_far_field eig solve o aslist phi li mi ki Cs :
  sound_solver solve -> ready o -> (2 <= List.length li)%nat ->
  kind_of (o_system o) = Some KSkier ->
  assemble_and_solve eig solve o aslist phi li mi ki = Ok Cs ->
  let comp i x := lincomb (zh (o_par o) (o_eig o) x (nth i li 0) true) (nth i Cs []) in
  let n := (List.length li - 1)%nat in
  nth 0 ki false = true /\ nth n ki false = true /\
  (z_u (comp 0%nat 0) = 0 /\ z_w (comp 0%nat 0) = 0 /\ z_psi (comp 0%nat 0) = 0) /\
  (z_u (comp n (nth n li 0)) = 0 /\ z_w (comp n (nth n li 0)) = 0 /\ z_psi (comp n (nth n li 0)) = 0).
Proof. exact (far_ends eig solve o aslist phi li mi ki Cs). Qed.
Print Assumptions C21_far_field.
Example C21_example :
  sound_solver elim_solve /\ ready (ex_obj "pst-" (Some ModeA) 30) /\
  exists Cs, assemble_and_solve (fun _ => ex_ews) elim_solve (ex_obj "pst-" (Some ModeA) 30) true (-30)
    [8; 2] [0] [true; false] = Ok Cs /\
  bvp (ex_obj "pst-" (Some ModeA) 30) 0 (-30) [8; 2] [0] [true; false] Cs.
Proof. exact (conj elim_sound (conj (ex_ready _ _ _) ex_pst_solved)). Qed.

(** C22: exactly the invalid lists fail the check, with ValueError ... *)
Theorem C22_check o li mi ki :
  (check_segments o li mi ki = Err ValueError <-> invalid_segments (o_system o) li mi ki) /\
  (check_segments o li mi ki = Ok tt <-> ~ invalid_segments (o_system o) li mi ki).
Proof. exact (check_iff o li mi ki). Qed.
Print Assumptions C22_check.
Theorem C22_rejected eig solve o aslist phi li mi ki :
  invalid_segments (o_system o) li mi ki ->
  assemble_and_solve eig solve o aslist phi li mi ki = Err ValueError.
Proof. exact (invalid_rejected eig solve o aslist phi li mi ki). Qed.
Print Assumptions C22_rejected.
(** ... and the lists of the built-in systems pass it (cracked and uncracked). *)
Theorem C22_builtin_accepted o li mi ki k0 L a m s :
  segment_lists o li mi ki k0 L a m = Ok s -> o_system o <> "skiers"%string ->
  ~ invalid_segments (o_system o) (s_li s) (s_mi s) (s_ki s) /\
  ~ invalid_segments (o_system o) (s_li s) (s_mi s) (s_k0 s).
Proof. exact (segment_lists_valid o li mi ki k0 L a m s). Qed.
Print Assumptions C22_builtin_accepted.
Example C22_example :
  invalid_segments "skier" [1; 2] [0] [true; false] /\
  ~ invalid_segments "pst-" [8; 2] [0] [true; false].
Proof.
  split; [|exact ex_valid_pst]. right; right; right. split; [|right; reflexivity].
  unfold finite_ends. intuition discriminate.
Qed.

(** C23: reactions of the weak layer carry all loads and the end forces ... *)
Theorem C23_global_balance o kR phi li mi ki Cs :
  lam_ok (o_par o) -> fnd_ok (o_par o) -> eig_ok o ->
  (1 <= List.length li)%nat -> bvp o kR phi li mi ki Cs ->
  let p := o_par o in let ld := loads_of o phi in let N := List.length li in
  let z i := field o phi (nth i li 0) (nth i ki false) (nth i Cs []) in
  let zl := z 0%nat 0 in let zr := z (N - 1)%nat (nth (N - 1) li 0) in
  sumn N (fun i => RInt (fun s => - s_sig p (nth i ki false) (z i s)) 0 (nth i li 0))
    = (qn ld + pn ld) * sumn N (fun i => nth i li 0)
      + sumn (N - 1) (fun i => point_Fn o phi (nth i mi 0)) + (sV p zr - sV p zl) /\
  sumn N (fun i => RInt (fun s => s_tau p (nth i ki false) (z i s)) 0 (nth i li 0))
    = (qt ld + pt ld) * sumn N (fun i => nth i li 0)
      + sumn (N - 1) (fun i => point_Ft o phi (nth i mi 0)) + (sN p zr - sN p zl).
Proof. exact (global_balance o kR phi li mi ki Cs). Qed.
Print Assumptions C23_global_balance.
(** ... with nothing left over for stress-free ends. *)
Theorem C23_stress_free o kR phi li mi ki Cs : ready o -> (1 <= List.length li)%nat ->
  kind_of (o_system o) = Some KPst ->
  (nth 0 ki false = true \/ o_mode o = Some ModeA) ->
  (nth (List.length li - 1) ki false = true \/ o_mode o = Some ModeA) ->
  bvp o kR phi li mi ki Cs ->
  let p := o_par o in let ld := loads_of o phi in let N := List.length li in
  let z i := field o phi (nth i li 0) (nth i ki false) (nth i Cs []) in
  sumn N (fun i => RInt (fun s => - s_sig p (nth i ki false) (z i s)) 0 (nth i li 0))
    = (qn ld + pn ld) * sumn N (fun i => nth i li 0)
      + sumn (N - 1) (fun i => point_Fn o phi (nth i mi 0)) /\
  sumn N (fun i => RInt (fun s => s_tau p (nth i ki false) (z i s)) 0 (nth i li 0))
    = (qt ld + pt ld) * sumn N (fun i => nth i li 0)
      + sumn (N - 1) (fun i => point_Ft o phi (nth i mi 0)).
Proof. exact (global_balance_free o kR phi li mi ki Cs). Qed.
Print Assumptions C23_stress_free.
Example C23_example : ready (ex_obj "pst-" (Some ModeA) 30) /\
  exists Cs, bvp (ex_obj "pst-" (Some ModeA) 30) 0 (-30) [8; 2] [0] [true; false] Cs.
Proof.
  split; [apply ex_ready|]. destruct ex_pst_solved as (Cs & _ & H). exists Cs. exact H.
Qed.

(** C67: a properly posed problem has exactly one solution, and the library
    returns it. *)
Theorem C67_well_posed eig solve o aslist phi li mi ki kd kRv :
  sound_solver solve -> complete_solver solve -> ready o -> stable (o_par o) ->
  (2 <= List.length li)%nat -> ~ invalid_segments (o_system o) li mi ki ->
  proper_segments li ki -> kind_of (o_system o) = Some kd ->
  (kd = KPst -> o_mode o <> None) ->
  (kd = KPst -> o_mode o = Some ModeC -> o_phi o = phi /\
     fst (substitute_stiffness eig solve o (o_a o - o_td o) "rested" "rot") = Ok kRv) ->
  (kd = KVpst -> o_mode o = None \/ o_mode o = Some ModeA) ->
  exists Cs, assemble_and_solve eig solve o aslist phi li mi ki = Ok Cs /\
    bvp o kRv phi li mi ki Cs /\
    List.length Cs = List.length li /\ Forall (fun C => List.length C = 6%nat) Cs /\
    forall Cs', List.length Cs' = List.length li -> Forall (fun C => List.length C = 6%nat) Cs' ->
      bvp o kRv phi li mi ki Cs' -> Cs' = Cs.
Proof. exact (well_posed eig solve o aslist phi li mi ki kd kRv). Qed.
Print Assumptions C67_well_posed.
Example C67_example :
  sound_solver elim_solve /\ complete_solver elim_solve /\ ready (ex_obj "skier" None 30) /\
  stable ex_par /\ ~ invalid_segments "skier" [4; 1; 1; 4] [0; 80; 0] [true; false; false; true] /\
  proper_segments [4; 1; 1; 4] [true; false; false; true].
Proof.
  exact (conj elim_sound (conj elim_complete (conj (ex_ready _ _ _)
    (conj ex_stable (conj ex_valid_skier ex_proper_skier))))).
Qed.
