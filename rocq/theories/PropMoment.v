(** C83: global moment balance of a solved slab. *)
From Coq Require Import Lra.
From Coquelicot Require Import Coquelicot.
Require Import Verif.Py Verif.MTools Verif.MEigen Verif.MFields Verif.MSolution Verif.SAdm Verif.SSlab Verif.SBeam Verif.SBvp Verif.SEig
  Verif.SExact Verif.PSetup Verif.PLinAlg Verif.PBalance Verif.PBvp2 Verif.PBvp6 Verif.PWell2 Verif.PMoment Verif.PMoment2.
Open Scope R_scope.

(** Moments about the left end of the slab's mid-plane: weak-layer reactions (normal stress at its
    position, shear stress half the slab and half the weak layer below the mid-plane) on the left; weight,
    surface load, skiers (at the slab surface) and end forces on the right. *)
Definition reaction_moment (o : obj) (phi : R) (li : list R) (ki : list bool) (Cs : list (list R)) : R :=
  let p := o_par o in let N := List.length li in
  let z i := field o phi (nth i li 0) (nth i ki false) (nth i Cs []) in
  let X i := sumn i (fun j => nth j li 0) in
  sumn N (fun i => RInt (fun s => (X i + s) * - s_sig p (nth i ki false) (z i s)) 0 (nth i li 0))
  - (hh p + wt p) / 2 * sumn N (fun i => RInt (fun s => s_tau p (nth i ki false) (z i s)) 0 (nth i li 0)).
Definition load_moment (o : obj) (phi : R) (li mi : list R) (ki : list bool) (Cs : list (list R)) : R :=
  let p := o_par o in let ld := loads_of o phi in let N := List.length li in
  let z i := field o phi (nth i li 0) (nth i ki false) (nth i Cs []) in
  let X i := sumn i (fun j => nth j li 0) in
  let zl := z 0%nat 0 in let zr := z (N - 1)%nat (nth (N - 1) li 0) in
  (qn ld + pn ld) * X N ^ 2 / 2 + (hh p / 2 * pt ld - zs p * qt ld) * X N
  + sumn (N - 1) (fun i => X (S i) * point_Fn o phi (nth i mi 0) + hh p / 2 * point_Ft o phi (nth i mi 0))
  + (sM p zl - sM p zr + X N * sV p zr).

(** Exactly what is left over: a moment of the tangential surface load along the unsupported length. *)
Theorem C83_moment o kR phi li mi ki Cs : lam_ok (o_par o) -> fnd_ok (o_par o) -> eig_ok o ->
  (1 <= List.length li)%nat -> bvp o kR phi li mi ki Cs ->
  reaction_moment o phi li ki Cs = load_moment o phi li mi ki Cs
    - B11 (o_par o) / A11 (o_par o) * pt (loads_of o phi)
      * sumn (List.length li) (fun i => if nth i ki false then 0 else nth i li 0).
Proof. exact (global_moment o kR phi li mi ki Cs). Qed.
Print Assumptions C83_moment.
(** The moments balance when the coupling stiffness or the tangential surface load vanishes or the whole
    slab is supported. *)
Theorem C83_balance_partial o kR phi li mi ki Cs : lam_ok (o_par o) -> fnd_ok (o_par o) -> eig_ok o ->
  (1 <= List.length li)%nat -> bvp o kR phi li mi ki Cs ->
  (B11 (o_par o) = 0 \/ pt (loads_of o phi) = 0 \/ forall i, (i < List.length li)%nat -> nth i ki false = true) ->
  reaction_moment o phi li ki Cs = load_moment o phi li mi ki Cs.
Proof.
  intros Hl Hf He HN HB H. rewrite (C83_moment o kR phi li mi ki Cs Hl Hf He HN HB).
  destruct H as [->|[->|H]]; [unfold Rdiv; ring|ring|].
  rewrite (PBvp2.sumn_zero (List.length li)); [ring|]. intros i Hi. rewrite (H i Hi). reflexivity.
Qed.
Print Assumptions C83_balance_partial.
(** Refuted otherwise: 60 mm of ice on 60 mm of half its density, under a surface load on a slope of 30
    degrees, with an unsupported length of 200 mm below a skier. *)
Theorem C83_refuted : exists eig solve o1 o2 Cs, sound_solver solve /\ complete_solver solve /\
  Layered eig "skiers" (LList [(917, 90)]) false = Ok o1 /\
  set_beam_properties eig o1 (LList [(917, 60); (917 / 2, 60)]) (65 / 10) 1 (1 / 4) true = Ok o2 /\
  let o := set_surface_load o2 1 in
  ready o /\
  assemble_and_solve eig solve o true 30 [5000; 100; 100; 5000] [0; 80; 0] [true; false; false; true] = Ok Cs /\
  bvp o 0 30 [5000; 100; 100; 5000] [0; 80; 0] [true; false; false; true] Cs /\
  reaction_moment o 30 [5000; 100; 100; 5000] [true; false; false; true] Cs
    <> load_moment o 30 [5000; 100; 100; 5000] [0; 80; 0] [true; false; false; true] Cs.
Proof.
  destruct two_solved as (o1 & o2 & E1 & E2 & P & Hr & Cs & E & B).
  exists exact_eig, elim_solve, o1, o2, Cs. split; [exact elim_sound|]. split; [exact elim_complete|].
  split; [exact E1|]. split; [exact E2|]. cbv zeta.
  assert (Hp : o_p (set_surface_load o2 1) = 1) by reflexivity.
  set (o := set_surface_load o2 1) in *. clearbody o.
  split; [exact Hr|]. split; [exact E|]. split; [exact B|].
  pose proof Hr as (Hl & Hf & _). rewrite (C83_moment o 0 30 [5000; 100; 100; 5000] [0; 80; 0] [true; false; false; true] Cs Hl Hf (ready_eig o Hr) ltac:(simpl; lia) B).
  assert (T : pt (loads_of o 30) = - (1 / 2)).
  { unfold loads_of, get_surface_load. destruct (get_weight_load _ _ _) as [? ?]. rewrite Hp. simpl.
    replace (deg2rad 30) with (PI / 6) by (unfold deg2rad; field). rewrite sin_PI6. field. }
  rewrite T, P. cbn [B11 A11 two_par List.length sumn nth].
  generalize (load_moment o 30 [5000; 100; 100; 5000] [0; 80; 0] [true; false; false; true] Cs). intros y. intros H. simpl in H. lra.
Qed.
Print Assumptions C83_refuted.
(** A solved problem with an unsupported part that meets the hypotheses of the partial claim. *)
Example C83_example : exists Cs, let o := PBvp6.ex_obj "skier" None 30 in
  lam_ok (o_par o) /\ fnd_ok (o_par o) /\ eig_ok o /\ B11 (o_par o) = 0 /\
  bvp o 0 30 [4; 1; 1; 4] [0; 80; 0] [true; false; false; true] Cs.
Proof.
  destruct (well_posed (fun _ => PBeam2.ex_ews) elim_solve (PBvp6.ex_obj "skier" None 30) true 30
    [4; 1; 1; 4] [0; 80; 0] [true; false; false; true] KSkier 0 elim_sound elim_complete
    (PBvp6.ex_ready _ _ _) PBvp6.ex_stable ltac:(simpl; lia) PBvp6.ex_valid_skier PBvp6.ex_proper_skier eq_refl
    ltac:(discriminate) ltac:(discriminate) ltac:(discriminate)) as (Cs & _ & B & _). exists Cs. pose proof (PBvp6.ex_ready "skier" None 30) as Hr.
  pose proof (ready_eig _ Hr) as He. destruct Hr as (Hl & Hf & _).
  cbv zeta. split; [exact Hl|]. split; [exact Hf|]. split; [exact He|]. split; [reflexivity|exact B].
Qed.
