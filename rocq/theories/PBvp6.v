(** Statements used in PropBvp: end to end, for [assemble_and_solve]. *)
From Coquelicot Require Import Coquelicot.
From Coq Require Import Permutation.
Require Import Verif.Py Verif.MTools Verif.MEigen Verif.MFields Verif.SAdm Verif.MRaster
  Verif.MSolution Verif.SBeam Verif.SBvp Verif.SEig Verif.PSetup Verif.PBeam Verif.PBeam2
  Verif.PBvp Verif.PBvp2 Verif.PBvp3 Verif.PBvp4 Verif.PBvp5 Verif.PBalance Verif.PLinAlg
  Verif.PWell Verif.PIndep Verif.PWell2 Verif.PWell3.

Lemma solved_bvp eig solve o aslist phi li mi ki Cs kd kRv :
  sound_solver solve -> ready o -> (2 <= List.length li)%nat ->
  kind_of (o_system o) = Some kd ->
  (kd = KPst -> o_mode o = Some ModeC -> o_phi o = phi /\
     fst (substitute_stiffness eig solve o (o_a o - o_td o) "rested" "rot") = Ok kRv) ->
  (kd = KVpst -> o_mode o = None \/ o_mode o = Some ModeA) ->
  assemble_and_solve eig solve o aslist phi li mi ki = Ok Cs ->
  bvp o kRv phi li mi ki Cs.
Proof.
  intros Hs Hr HN Hkd HC HV H. unfold assemble_and_solve in H.
  apply (solved_with solve (fst (substitute_stiffness eig solve o (o_a o - o_td o) "rested" "rot"))
    kRv o aslist phi li mi ki Cs kd Hs (ready_six o Hr) HN Hkd); try assumption.
  intros E1 E2. destruct (HC E1 E2). split; assumption.
Qed.

Lemma far_ends eig solve o aslist phi li mi ki Cs :
  sound_solver solve -> ready o -> (2 <= List.length li)%nat ->
  kind_of (o_system o) = Some KSkier ->
  assemble_and_solve eig solve o aslist phi li mi ki = Ok Cs ->
  let comp i x := lincomb (zh (o_par o) (o_eig o) x (nth i li 0) true) (nth i Cs []) in
  let n := (List.length li - 1)%nat in
  nth 0 ki false = true /\ nth n ki false = true /\
  (z_u (comp 0%nat 0) = 0 /\ z_w (comp 0%nat 0) = 0 /\ z_psi (comp 0%nat 0) = 0) /\
  (z_u (comp n (nth n li 0)) = 0 /\ z_w (comp n (nth n li 0)) = 0 /\ z_psi (comp n (nth n li 0)) = 0).
Proof.
  intros Hs Hr HN Hkd H comp n.
  assert (HB : bvp o 0 phi li mi ki Cs).
  { apply (solved_bvp eig solve o aslist phi li mi ki Cs KSkier 0 Hs Hr HN Hkd); try discriminate; exact H. }
  assert (Hk : nth 0 ki false = true /\ nth n ki false = true).
  { unfold assemble_and_solve, assemble_and_solve_with in H.
    destruct (check_segments o li mi ki) as [[]|] eqn:EC; [|discriminate].
    pose proof (proj1 (proj2 (check_iff o li mi ki)) EC) as NI.
    destruct (valid_lengths o li mi ki EC) as [Lk _].
    assert (NF : ~ finite_ends (o_system o)).
    { intros F. unfold finite_ends in F.
      destruct F as [F|[F|[F|[F|[F|F]]]]]; rewrite F in Hkd; discriminate. }
    unfold n. rewrite <- Lk, <- (last_nth ki).
    destruct (nth 0 ki false) eqn:E0, (last ki false) eqn:EN; try (split; reflexivity);
      exfalso; apply NI; right; right; right; (split; [exact NF|auto]). }
  destruct Hk as [K0 Kn]. split; [exact K0|]. split; [exact Kn|].
  destruct HB as (BL & BR & _). fold n in BR. rewrite K0 in BL. rewrite Kn in BR.
  split.
  - apply (far_field_complementary o 0 phi true (nth 0 li 0) (nth 0 Cs []) 0 Hkd). left. exact BL.
  - apply (far_field_complementary o 0 phi true (nth n li 0) (nth n Cs []) (nth n li 0) Hkd). right. exact BR.
Qed.

Lemma invalid_rejected eig solve o aslist phi li mi ki :
  invalid_segments (o_system o) li mi ki ->
  assemble_and_solve eig solve o aslist phi li mi ki = Err ValueError.
Proof.
  intros H. unfold assemble_and_solve, assemble_and_solve_with.
  rewrite (proj2 (proj1 (check_iff o li mi ki)) H). reflexivity.
Qed.

Lemma segment_lists_valid o li mi ki k0 L a m s :
  segment_lists o li mi ki k0 L a m = Ok s -> o_system o <> "skiers"%string ->
  ~ invalid_segments (o_system o) (s_li s) (s_mi s) (s_ki s) /\
  ~ invalid_segments (o_system o) (s_li s) (s_mi s) (s_k0 s).
Proof.
  intros H Hn. unfold segment_lists in H.
  destruct (String.eqb_spec (o_system o) "skiers") as [|_]; [contradiction|].
  unfold invalid_segments, finite_ends.
  repeat match type of H with
  | (if String.eqb ?a ?b then _ else _) = _ => destruct (String.eqb_spec a b) as [Es|_];
      [rewrite Es; apply Ok_inj in H; subst s; cbn [s_li s_mi s_ki s_k0 List.length nth last]; split;
       (intros [A|[A|[A|[A1 [A|A]]]]]; try discriminate A; try (apply A; reflexivity);
        try (apply A1; tauto);
        assert (true = false) as C by (apply A; simpl; auto); discriminate C)|]
  end.
  discriminate.
Qed.

(** Stress-free ends: no extra terms in the global balance. *)
Lemma global_balance_free o kR phi li mi ki Cs : ready o -> (1 <= List.length li)%nat ->
  kind_of (o_system o) = Some KPst ->
  (nth 0 ki false = true \/ o_mode o = Some ModeA) ->
  (nth (List.length li - 1) ki false = true \/ o_mode o = Some ModeA) ->
  bvp o kR phi li mi ki Cs ->
  let p := o_par o in let ld := loads_of o phi in let N := List.length li in
  let z i := field o phi (nth i li 0) (nth i ki false) (nth i Cs []) in
  sumn N (fun i => RInt (fun s => - s_sig p (nth i ki false) (z i s)) 0 (nth i li 0))
    = (qn ld + pn ld) * sumn N (fun i => nth i li 0)
      + sumn (N - 1) (fun i => point_Fn o phi (nth i mi 0)) /\
  sumn N (fun i => RInt (fun s => s_tau p (nth i ki false) (z i s)) 0 (nth i li 0))
    = (qt ld + pt ld) * sumn N (fun i => nth i li 0)
      + sumn (N - 1) (fun i => point_Ft o phi (nth i mi 0)).
Proof.
  intros Hr HN Hkd H0 H1 HB p ld N z.
  pose proof Hr as (Hl & Hf & _).
  destruct (global_balance o kR phi li mi ki Cs Hl Hf (ready_eig o Hr) HN HB) as (G1 & G2).
  destruct HB as (BL & BR & _). unfold left_end in BL. unfold right_end in BR. rewrite Hkd in BL, BR.
  assert (F0 : forall sgn k zz, (k = true \/ o_mode o = Some ModeA) -> pst_end o kR phi sgn k zz ->
     forces p zz 0 0 0).
  { intros sgn k zz [->|E] P; unfold pst_end in P; [exact P|]. rewrite E in P. destruct k; exact P. }
  apply (F0 _ _ _ H0) in BL. apply (F0 _ _ _ H1) in BR.
  destruct BL as (L1 & _ & L3), BR as (R1 & _ & R3).
  fold p in G1, G2. rewrite L3, R3 in G1. rewrite L1, R1 in G2.
  unfold N, ld, z. split; [rewrite G1|rewrite G2]; ring.
Qed.

(** Well-posedness, end to end. *)
Lemma well_posed eig solve o aslist phi li mi ki kd kRv :
  sound_solver solve -> complete_solver solve -> ready o -> stable (o_par o) ->
  (2 <= List.length li)%nat -> ~ invalid_segments (o_system o) li mi ki ->
  proper_segments li ki -> kind_of (o_system o) = Some kd ->
  (kd = KPst -> o_mode o <> None) ->
  (kd = KPst -> o_mode o = Some ModeC -> o_phi o = phi /\
     fst (substitute_stiffness eig solve o (o_a o - o_td o) "rested" "rot") = Ok kRv) ->
  (kd = KVpst -> o_mode o = None \/ o_mode o = Some ModeA) ->
  exists Cs, assemble_and_solve eig solve o aslist phi li mi ki = Ok Cs /\
    bvp o kRv phi li mi ki Cs /\
    List.length Cs = List.length li /\ Forall (fun C => List.length C = 6%nat) Cs /\
    forall Cs', List.length Cs' = List.length li -> Forall (fun C => List.length C = 6%nat) Cs' ->
      bvp o kRv phi li mi ki Cs' -> Cs' = Cs.
Proof.
  intros Hso Hco Hr Hs HN Hv Hp Hkd HM HC HV.
  pose proof (proj2 (proj2 (check_iff o li mi ki)) Hv) as Hchk.
  set (kR := fst (substitute_stiffness eig solve o (o_a o - o_td o) "rested" "rot")) in *.
  assert (HC' : kd = KPst -> o_mode o = Some ModeC -> kR = Ok kRv /\ o_phi o = phi).
  { intros E1 E2. destruct (HC E1 E2). split; assumption. }
  assert (HR : forall r, kR = Ok r -> 0 <= r) by (intros r; apply substitute_nonneg).
  destruct (solver_returns o kR kRv phi li mi ki kd Hr Hs HN Hchk Hp Hkd HC' HV HM HR solve Hso Hco aslist)
    as (Cs & E & H6 & HB).
  exists Cs. split; [exact E|]. split; [exact HB|]. split; [exact (proj1 H6)|]. split; [exact (proj2 H6)|].
  intros Cs' L1 L2 HB'.
  destruct (bvp_exists_unique o kR kRv phi li mi ki kd Hr Hs HN Hchk Hp Hkd HC' HV HM HR)
    as (C0 & _ & _ & U).
  rewrite (U Cs H6 HB). apply (U Cs'); [split; assumption|exact HB'].
Qed.

(** * Example objects *)
Definition ex_obj (system : string) (mode : option tmode) (phi : R) : obj :=
  mkObj 9810 1000 (1 / 1000) system 1 0 1 [mkPly 200 1 10 4 (1 / 4)] (5 / 6) phi ex_par
    (calc_eigensystem ex_ews) true 2 (Some 10) (1 / 10) 2 mode 1.

Lemma ex_good : good_eigenpairs (calc_system_matrix ex_par) ex_ews.
Proof.
  split; [reflexivity|]. split; [exact ex_true_eig|]. split; [|split; [exact ex_conj|]].
  - unfold ex_ews; simpl.
    repeat (constructor; [simpl; intros H;
      repeat match goal with h : _ \/ _ |- _ => destruct h as [h|h] end;
      try contradiction; injection H; intros; lra|]). constructor.
  - repeat constructor; simpl; (intros [E _] || intros _ E); apply (f_equal z_u) in E; simpl in E; lra.
Qed.
Lemma ex_ready system mode phi : ready (ex_obj system mode phi).
Proof.
  split; [exact ex_lam_ok|]. split; [exact ex_fnd_ok|].
  exists ex_ews. split; [reflexivity|exact ex_good].
Qed.
Lemma ex_stable : stable ex_par.
Proof. unfold stable; simpl; lra. Qed.

Lemma ex_proper_skier : proper_segments [4; 1; 1; 4] [true; false; false; true].
Proof.
  split.
  - intros i Hi. destruct i as [|[|[|[|]]]]; simpl; try lra; simpl in Hi; lia.
  - exists 0%nat. simpl. repeat split; [lia|lra].
Qed.
Lemma ex_valid_skier : ~ invalid_segments "skier" [4; 1; 1; 4] [0; 80; 0] [true; false; false; true].
Proof.
  unfold invalid_segments. simpl. intros [A|[A|[A|[_ [A|A]]]]]; try discriminate; try (apply A; reflexivity).
  specialize (A true ltac:(auto)). discriminate.
Qed.
Lemma ex_skier_solved : exists Cs,
  assemble_and_solve (fun _ => ex_ews) elim_solve (ex_obj "skier" None 30) true 30
    [4; 1; 1; 4] [0; 80; 0] [true; false; false; true] = Ok Cs.
Proof.
  destruct (well_posed (fun _ => ex_ews) elim_solve (ex_obj "skier" None 30) true 30
    [4; 1; 1; 4] [0; 80; 0] [true; false; false; true] KSkier 0 elim_sound elim_complete
    (ex_ready _ _ _) ex_stable ltac:(simpl; lia) ex_valid_skier ex_proper_skier eq_refl
    ltac:(discriminate) ltac:(discriminate) ltac:(discriminate)) as (Cs & H & _).
  exists Cs. exact H.
Qed.
Lemma ex_valid_pst : ~ invalid_segments "pst-" [8; 2] [0] [true; false].
Proof.
  unfold invalid_segments, finite_ends. simpl.
  intros [A|[A|[A|[A1 [A|A]]]]]; try discriminate; try (apply A; reflexivity); [|tauto].
  specialize (A true ltac:(auto)). discriminate.
Qed.
Lemma ex_proper_pst : proper_segments [8; 2] [true; false].
Proof.
  split.
  - intros i Hi. destruct i as [|[|]]; simpl; try lra; simpl in Hi; lia.
  - exists 0%nat. simpl. repeat split; [lia|lra].
Qed.
Lemma ex_pst_solved : exists Cs,
  assemble_and_solve (fun _ => ex_ews) elim_solve (ex_obj "pst-" (Some ModeA) 30) true (-30)
    [8; 2] [0] [true; false] = Ok Cs /\
  bvp (ex_obj "pst-" (Some ModeA) 30) 0 (-30) [8; 2] [0] [true; false] Cs.
Proof.
  destruct (well_posed (fun _ => ex_ews) elim_solve (ex_obj "pst-" (Some ModeA) 30) true (-30)
    [8; 2] [0] [true; false] KPst 0 elim_sound elim_complete
    (ex_ready _ _ _) ex_stable ltac:(simpl; lia) ex_valid_pst ex_proper_pst eq_refl
    ltac:(discriminate) ltac:(discriminate) ltac:(discriminate)) as (Cs & H & HB & _).
  exists Cs. split; assumption.
Qed.
