(** Additions to C32 and C41: where cut and weight are, and which lists are rejected. *)
From Coquelicot Require Import Coquelicot.
Require Import Verif.Py Verif.MTools Verif.MEigen Verif.MFields Verif.MRaster Verif.MSolution Verif.MAnalysis Verif.SAdm Verif.SBeam Verif.SBvp Verif.SEig
  Verif.SContact Verif.PSetup Verif.PBeam Verif.PBvp Verif.PContact Verif.PContact2 Verif.PContact3 Verif.PropContact Verif.SEnergy Verif.PEnergy Verif.PEnergy2 Verif.PropEnergy Verif.PLinAlg Verif.PBeam2 Verif.PBvp6 Verif.PWell2.
Open Scope R_scope.

(** C32: a column is cut at the end that its name marks by the dash's opposite side and carries no weight; the skier stands
    over the middle of the unsupported part; user lists are passed on. *)
Theorem C32_layout eig solve brent maxeval o li mi ki k0 L a m phi cf ratio s o' : fresh eig o ->
  calc_segments eig solve brent maxeval li mi ki k0 L a m phi cf ratio o = (Ok s, o') ->
  (o_system o = "skiers"%string -> s_li s = li /\ s_mi s = mi /\ s_ki s = ki /\ s_k0 s = k0) /\
  (In (o_system o) ["pst-"; "vpst-"; "-pst"; "-vpst"]%string -> Forall (fun w => w = 0) (s_mi s)) /\
  (In (o_system o) ["pst-"; "vpst-"]%string -> s_ki s = [true; false] /\ hd 0 (s_li s) = L - a) /\
  (In (o_system o) ["-pst"; "-vpst"]%string -> s_ki s = [false; true] /\ last (s_li s) 0 = L - a) /\
  (o_system o = "skier"%string -> s_ki s = [true; false; false; true] /\ s_li s = rev (s_li s) /\ rsum (s_mi s) = m /\ nth 1 (s_mi s) 0 = m).
Proof.
  intros Hf H. destruct (segments_state _ _ _ _ _ _ _ _ _ _ _ _ _ _ _ _ _ Hf H) as (md & td & -> & Es & _).
  unfold segment_lists in Es. simpl in Es.
  destruct (String.eqb_spec (o_system o) "skiers") as [E|N].
  { apply Ok_inj in Es. subst s. rewrite E. split; [intros _; repeat split|].
    split; [|split; [|split]]; intros X; simpl in X; repeat destruct X as [X|X]; discriminate || contradiction. }
  split; [contradiction|].
  repeat match type of Es with
  | (if String.eqb ?a ?b then _ else _) = _ => destruct (String.eqb_spec a b) as [E|?]
  end; try discriminate; apply Ok_inj in Es; subst s; rewrite E; cbn [s_li s_mi s_ki s_k0 hd last rev app nth rsum fold_right];
    (split; [|split; [|split]]); intros X;
    (try (simpl in X; repeat destruct X as [X|X]; discriminate || contradiction)); clear X.
  all: first [split; [reflexivity|reflexivity]|split; [reflexivity|split; [reflexivity|split; [ring|reflexivity]]]|repeat constructor].
Qed.
Print Assumptions C32_layout.
Example C32_layout_example : exists s o',
  calc_segments ex_eig elim_solve ex_brent_lo 100 [] [] [] [] 10 2 0 0 (1 / 2) 1 (ex_c "pst-" None 0) = (Ok s, o') /\ fresh ex_eig (ex_c "pst-" None 0) /\
  s_ki s = [true; false] /\ hd 0 (s_li s) = 8 /\ Forall (fun w => w = 0) (s_mi s).
Proof.
  destruct C32_example as (s & o' & E & _). exists s, o'. split; [exact E|].
  assert (F : fresh ex_eig (ex_c "pst-" None 0)) by exact (proj1 (proj2 C31_example)). split; [exact F|].
  destruct (C32_layout _ _ _ _ _ _ _ _ _ _ _ _ _ _ _ _ _ F E) as (_ & W & A & _ & _).
  destruct A as [A1 A2]; [left; reflexivity|]. split; [exact A1|]. split; [rewrite A2; ring|]. apply W. left. reflexivity.
Qed.

(** C41: support lists that do not cover two or more segments are rejected, all others are not rejected for their length. *)
Theorem C41_lengths p e ld Cs li ki unit c : err_factor unit c ->
  (forall j, (j < List.length li)%nat -> (j < List.length Cs)%nat /\
     List.length (zh p e (nth j li 0) (nth j li 0) (nth j ki false)) = List.length (nth j Cs [])) ->
  (gdif p e ld Cs li ki unit = Err IndexError <-> (List.length ki < List.length li /\ 2 <= List.length li)%nat) /\
  ((List.length ki < List.length li /\ 2 <= List.length li)%nat \/ exists g, gdif p e ld Cs li ki unit = Ok g).
Proof.
  intros Hc HC. apply conv_err_factor in Hc. unfold gdif.
  destruct (Nat.ltb_spec (List.length ki) (List.length li)) as [A|A]; destruct (Nat.ltb_spec 1 (List.length li)) as [B|B]; cbn [andb];
    [split; [split; [lia|reflexivity]|left; lia]| | |].
  all: assert (G : forall js, (forall j, In j js -> (j < List.length li)%nat) -> exists cols, mapM (gdif_tip p e ld Cs li ki unit) js = Ok cols)
    by (induction js as [|j js IH]; intros Hj; [exists []; reflexivity|];
      destruct (IH (fun k I => Hj k (or_intror I))) as [cols E]; destruct (HC j (Hj j (or_introl eq_refl))) as [H1 H2];
      simpl; unfold gdif_tip at 1; rewrite (nth_error_nth' Cs [] H1); unfold zsol_checked at 1; rewrite H2, Nat.eqb_refl; simpl;
      rewrite (Gi_value _ _ _ _ Hc), (Gii_value _ _ _ _ Hc); simpl; rewrite E; simpl; eexists; reflexivity).
  all: destruct (G (crack_tips ki (List.length li - 1))) as [cols E]; [intros j Hj; apply crack_tips_in in Hj; lia|rewrite E].
  all: simpl; split; [split; [discriminate|lia]|right; eexists; reflexivity].
Qed.
Print Assumptions C41_lengths.
Example C41_lengths_example : let ld := loads_of (ex_obj "skiers" None 30) 30 in
  gdif ex_par (calc_eigensystem ex_ews) ld ex_Cs ex_li [true; false; true; false] "J/m^2" = Err IndexError /\
  exists g, gdif ex_par (calc_eigensystem ex_ews) ld ex_Cs ex_li ex_ki "J/m^2" = Ok g.
Proof.
  assert (H : forall ki j, (j < List.length ex_li)%nat -> (j < List.length ex_Cs)%nat /\
    List.length (zh ex_par (calc_eigensystem ex_ews) (nth j ex_li 0) (nth j ex_li 0) (nth j ki false)) = List.length (nth j ex_Cs [])).
  { intros ki j Hj. simpl in Hj. split; [simpl; lia|].
    pose proof (six_zh _ (ready_six _ (ex_ready "skiers" None 30)) (nth j ex_li 0) (nth j ex_li 0) (nth j ki false)) as S6.
    etransitivity; [exact S6|]. assert (J : (j = 0 \/ j = 1 \/ j = 2 \/ j = 3 \/ j = 4 \/ j = 5)%nat) by lia.
    destruct J as [->|[->|[->|[->|[->| ->]]]]]; reflexivity. }
  intros ld. split.
  - apply (proj1 (C41_lengths ex_par (calc_eigensystem ex_ews) ld ex_Cs ex_li _ "J/m^2" 1000 (or_introl (conj eq_refl eq_refl)) (H _))). simpl. lia.
  - destruct (proj2 (C41_lengths ex_par (calc_eigensystem ex_ews) ld ex_Cs ex_li ex_ki "J/m^2" 1000 (or_introl (conj eq_refl eq_refl)) (H _))) as [A|A]; [simpl in A; lia|exact A].
Qed.
