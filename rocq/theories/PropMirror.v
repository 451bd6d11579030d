(** Property theorems C24 and C56: mirror symmetry and superposition. *)
From Coquelicot Require Import Coquelicot.
Require Import Verif.Py Verif.MTools Verif.MEigen Verif.MFields Verif.SAdm Verif.MRaster
  Verif.MSolution Verif.SBeam Verif.SBvp Verif.SEig Verif.SMirror Verif.PBeam2 Verif.PBvp Verif.PLinAlg
  Verif.PWell2 Verif.PWell3 Verif.PBvp6 Verif.PMirror.

(** C24: the solution of the mirrored model is the mirrored solution, in every contact stage, ... *)
Theorem C24_mirror o o' kR phi kd li mi ki Cs Cs' :
  same_structure o o' -> same_loading o o' ->
  kind_of (o_system o) = Some kd -> kind_of (o_system o') = Some kd -> kd = KPst \/ kd = KSkier ->
  ready o -> stable (o_par o) -> 0 <= kR -> proper_segments li ki ->
  List.length ki = List.length li -> List.length li = S (List.length mi) ->
  bvp o kR phi li mi ki Cs -> bvp o' kR (- phi) (rev li) (rev mi) (rev ki) Cs' ->
  forall i s, (i < List.length li)%nat -> 0 <= s <= nth i li 0 ->
    field o' (- phi) (nth i li 0) (nth i ki false) (nth (List.length li - 1 - i) Cs' []) s
    = mirror (field o phi (nth i li 0) (nth i ki false) (nth i Cs []) (nth i li 0 - s)).
Proof.
  intros A B C D E. exact (mirror_fields o o' kR phi kd A B C D E li mi ki Cs Cs').
Qed.
Print Assumptions C24_mirror.
(** ... and so are the results of [assemble_and_solve]. *)
Theorem C24_library eig solve o o' aslist phi li mi ki Cs Cs' kd kR :
  sound_solver solve -> ready o -> stable (o_par o) -> (2 <= List.length li)%nat -> proper_segments li ki ->
  same_structure o o' -> same_loading o o' ->
  kind_of (o_system o) = Some kd -> kind_of (o_system o') = Some kd -> kd = KPst \/ kd = KSkier ->
  (kd = KPst -> o_mode o = Some ModeC -> o_phi o = phi /\ o_phi o' = - phi /\
     fst (substitute_stiffness eig solve o (o_a o - o_td o) "rested" "rot") = Ok kR /\
     fst (substitute_stiffness eig solve o' (o_a o - o_td o) "rested" "rot") = Ok kR) ->
  assemble_and_solve eig solve o aslist phi li mi ki = Ok Cs ->
  assemble_and_solve eig solve o' aslist (- phi) (rev li) (rev mi) (rev ki) = Ok Cs' ->
  forall i s, (i < List.length li)%nat -> 0 <= s <= nth i li 0 ->
    field o' (- phi) (nth i li 0) (nth i ki false) (nth (List.length li - 1 - i) Cs' []) s
    = mirror (field o phi (nth i li 0) (nth i ki false) (nth i Cs []) (nth i li 0 - s)).
Proof. exact (mirror_library eig solve o o' aslist phi li mi ki Cs Cs' kd kR). Qed.
Print Assumptions C24_library.
(** The left-cut twin of the right-cut example is solvable, too. *)
Lemma ex_valid_twin : ~ invalid_segments "-pst" [2; 8] [0] [false; true].
Proof.
  unfold invalid_segments, finite_ends. simpl.
  intros [A|[A|[A|[A1 [A|A]]]]]; try discriminate; try (apply A; reflexivity); [|tauto].
  specialize (A true ltac:(auto)). discriminate.
Qed.
Lemma ex_proper_twin : proper_segments [2; 8] [false; true].
Proof.
  split.
  - intros i Hi. destruct i as [|[|]]; simpl; try lra; simpl in Hi; lia.
  - exists 1%nat. simpl. repeat split; [lia|lra].
Qed.
Example C24_example : exists Cs Cs',
  same_structure (ex_obj "pst-" (Some ModeB) (-30)) (ex_obj "-pst" (Some ModeB) 30) /\
  same_loading (ex_obj "pst-" (Some ModeB) (-30)) (ex_obj "-pst" (Some ModeB) 30) /\
  bvp (ex_obj "pst-" (Some ModeB) (-30)) 0 (-30) [8; 2] [0] [true; false] Cs /\
  bvp (ex_obj "-pst" (Some ModeB) 30) 0 (- -30) (rev [8; 2]) (rev [0]) (rev [true; false]) Cs'.
Proof.
  destruct (well_posed (fun _ => ex_ews) elim_solve (ex_obj "pst-" (Some ModeB) (-30)) true (-30)
    [8; 2] [0] [true; false] KPst 0 elim_sound elim_complete
    (ex_ready _ _ _) ex_stable ltac:(simpl; lia) ex_valid_pst ex_proper_pst eq_refl
    ltac:(discriminate) ltac:(discriminate) ltac:(discriminate)) as (Cs & _ & HB & _).
  destruct (well_posed (fun _ => ex_ews) elim_solve (ex_obj "-pst" (Some ModeB) 30) true (- -30)
    [2; 8] [0] [false; true] KPst 0 elim_sound elim_complete
    (ex_ready _ _ _) ex_stable ltac:(simpl; lia) ex_valid_twin ex_proper_twin eq_refl
    ltac:(discriminate) ltac:(discriminate) ltac:(discriminate)) as (Cs' & _ & HB' & _).
  exists Cs, Cs'. split; [repeat split; reflexivity|]. split; [repeat split; reflexivity|]. split; [exact HB|exact HB'].
Qed.

(** C56: the segment solution is linear in constants and loads, ... *)
Theorem C56_segment p e l1 l2 x C1 C2 l k a b : lam_ok p -> fnd_ok p -> List.length C1 = List.length C2 ->
  zsol p e (mkLd (a * qn l1 + b * qn l2) (a * qt l1 + b * qt l2) (a * pn l1 + b * pn l2) (a * pt l1 + b * pt l2)) x
    (map2 (fun c d => a * c + b * d) C1 C2) l k
  = combo a (zsol p e l1 x C1 l k) b (zsol p e l2 x C2 l k).
Proof. exact (zsol_combo p e l1 l2 x C1 C2 l k a b). Qed.
Print Assumptions C56_segment.
(** ... and so is the solution of the whole problem in gravity, surface load, skier loads and crack height. *)
Theorem C56_superposition a b o1 o2 o3 kR phi kd m1 m2 m3 li ki C1 C2 C3 :
  same_structure o1 o2 -> same_structure o1 o3 ->
  kind_of (o_system o1) = Some kd -> kind_of (o_system o2) = Some kd -> kind_of (o_system o3) = Some kd ->
  kd = KPst \/ kd = KVpst \/ kd = KSkier -> combined_loading a b o1 o2 o3 m1 m2 m3 ->
  ready o1 -> stable (o_par o1) -> 0 <= kR -> proper_segments li ki -> li <> [] ->
  bvp o1 kR phi li m1 ki C1 -> bvp o2 kR phi li m2 ki C2 -> bvp o3 kR phi li m3 ki C3 ->
  forall i s, (i < List.length li)%nat -> 0 <= s <= nth i li 0 ->
    field o3 phi (nth i li 0) (nth i ki false) (nth i C3 []) s
    = combo a (field o1 phi (nth i li 0) (nth i ki false) (nth i C1 []) s)
            b (field o2 phi (nth i li 0) (nth i ki false) (nth i C2 []) s).
Proof.
  intros A1 A2 A3 A4 A5 A6 A7. exact (combine_fields a b o1 o2 o3 kR phi kd A1 A2 A3 A4 A5 A6 m1 m2 m3 A7 li ki C1 C2 C3).
Qed.
Print Assumptions C56_superposition.
(** Snow weight alone plus skier alone. *)
Definition ex_off_p (p : R) : obj :=
  mkObj 9810 1000 (1 / 1000) "skier" 1 0 p [mkPly 200 1 10 4 (1 / 4)] (5 / 6) 30 ex_par (calc_eigensystem ex_ews)
    true 2 (Some 10) (1 / 10) 2 None 1.
Lemma ex_valid_m m : ~ invalid_segments "skier" [4; 1; 1; 4] [0; m; 0] [true; false; false; true].
Proof.
  unfold invalid_segments, finite_ends. simpl.
  intros [A|[A|[A|[A1 [A|A]]]]]; try discriminate; try (apply A; reflexivity).
  specialize (A true ltac:(auto)). discriminate.
Qed.
Lemma ex_p_solved p m : exists Cs, bvp (ex_off_p p) 0 30 [4; 1; 1; 4] [0; m; 0] [true; false; false; true] Cs.
Proof.
  destruct (well_posed (fun _ => ex_ews) elim_solve (ex_off_p p) true 30
    [4; 1; 1; 4] [0; m; 0] [true; false; false; true] KSkier 0 elim_sound elim_complete
    (ex_ready "skier" None 30) ex_stable ltac:(simpl; lia) (ex_valid_m m) ex_proper_skier eq_refl
    ltac:(discriminate) ltac:(discriminate) ltac:(discriminate)) as (Cs & _ & HB & _).
  exists Cs. exact HB.
Qed.
Example C56_example : exists C1 C2 C3,
  same_structure (ex_off_p 2) (ex_off_p 4) /\ same_structure (ex_off_p 2) (ex_off_p 3) /\
  combined_loading (1 / 2) (1 / 2) (ex_off_p 2) (ex_off_p 4) (ex_off_p 3) [0; 80; 0] [0; 40; 0] [0; 60; 0] /\
  bvp (ex_off_p 2) 0 30 [4; 1; 1; 4] [0; 80; 0] [true; false; false; true] C1 /\
  bvp (ex_off_p 4) 0 30 [4; 1; 1; 4] [0; 40; 0] [true; false; false; true] C2 /\
  bvp (ex_off_p 3) 0 30 [4; 1; 1; 4] [0; 60; 0] [true; false; false; true] C3.
Proof.
  destruct (ex_p_solved 2 80) as [C1 B1]. destruct (ex_p_solved 4 40) as [C2 B2]. destruct (ex_p_solved 3 60) as [C3 B3].
  exists C1, C2, C3. split; [repeat split; reflexivity|]. split; [repeat split; reflexivity|].
  split; [|auto]. unfold combined_loading. simpl. repeat split; try lra.
  intros [|[|[|i]]]; simpl; try lra.
Qed.
