(** C100: what solving does to the caller's sequences. *)
Require Import Verif.Py Verif.MTools Verif.MEigen Verif.MFields Verif.MRaster Verif.MSolution Verif.MArgs
  Verif.SBeam Verif.SBvp Verif.SEig Verif.SRaster Verif.PLinAlg Verif.PBeam2 Verif.PBvp Verif.PBvp5 Verif.PWell2 Verif.PWell3 Verif.PBvp6 Verif.PRaster2 Verif.PropDepend.

(** Check of a single segment. *)
Lemma check_single o l mi ki : check_segments o [l] mi ki = Ok tt -> mi = [] /\ ki = [true].
Proof.
  unfold check_segments. destruct (negb (existsb _ ki)) eqn:E; [discriminate|].
  destruct ki as [|k [|? ki]]; simpl; try discriminate; destruct mi as [|m mi]; simpl; try discriminate; intros _.
  split; [reflexivity|]. destruct k; [reflexivity|discriminate].
Qed.
Lemma check_padded o l : check_segments o [l; 0] [0] [true; true] = Ok tt.
Proof. unfold check_segments. simpl. rewrite andb_false_r. reflexivity. Qed.
Lemma check_tt o li mi ki x : check_segments o li mi ki = Ok x -> check_segments o li mi ki = Ok tt.
Proof. destruct x. auto. Qed.

(** Padding is the identity on two or more segments. *)
Lemma pad_long q g : List.length (g_li g) <> 1%nat -> pad q g = (None, g).
Proof. intros H. unfold pad. apply Nat.eqb_neq in H. rewrite H. reflexivity. Qed.

(** The call pads what the caller passed. *)
Lemma in_place_model eig solve o phi g :
  fst (solve_in_place eig solve o (mkKinds true true true) phi g) = assemble_and_solve eig solve o true phi (g_li g) (g_mi g) (g_ki g).
Proof.
  destruct g as [li mi ki]. unfold solve_in_place. cbn [g_li g_mi g_ki].
  destruct (check_segments o li mi ki) as [u|e] eqn:E.
  2: { unfold assemble_and_solve, assemble_and_solve_with. rewrite E. reflexivity. }
  destruct (Nat.eq_dec (List.length li) 1) as [H|H].
  - destruct li as [|l [|? ?]]; try discriminate. apply check_tt in E. destruct (check_single o l mi ki E) as [-> ->].
    unfold pad. cbn [g_li g_mi g_ki List.length Nat.eqb a_li a_ki a_mi app fst].
    unfold assemble_and_solve, assemble_and_solve_with. rewrite E, check_padded. reflexivity.
  - rewrite pad_long by exact H. reflexivity.
Qed.

(** C100: with two or more segments, or on invalid input, the sequences keep their contents ... *)
Theorem C100_kept eig solve o q phi g :
  List.length (g_li g) <> 1%nat \/ invalid_segments (o_system o) (g_li g) (g_mi g) (g_ki g) ->
  snd (solve_in_place eig solve o q phi g) = g.
Proof.
  intros [H|H].
  - unfold solve_in_place. destruct (check_segments _ _ _ _); [|reflexivity]. rewrite pad_long by exact H. reflexivity.
  - pose proof (proj2 (proj1 (check_iff o (g_li g) (g_mi g) (g_ki g))) H) as E. unfold solve_in_place. rewrite E. reflexivity.
Qed.
Print Assumptions C100_kept.
(** ... so arrays and lists from two segments on can be reused freely. *)
Example C100_kept_example :
  List.length (g_li (mkArgs [4; 1; 1; 4] [0; 80; 0] [true; false; false; true])) <> 1%nat /\
  invalid_segments "skier" [4] [] [false].
Proof. split; [discriminate|]. left. intros b [<-|[]]. reflexivity. Qed.

(** A single segment given as lists is changed: the sequences the caller holds gain a dummy
    segment although the call succeeds. *)
Theorem C100_refuted : exists eig solve o q phi g C,
  fst (solve_in_place eig solve o q phi g) = Ok C /\ snd (solve_in_place eig solve o q phi g) <> g.
Proof.
  exists (fun _ => ex_ews), elim_solve, (ex_obj "skier" None 30), (mkKinds true true true), 30, (mkArgs [8] [] [true]).
  destruct (ex_solve [8; 0] [0] [true; true] ltac:(simpl; lia) eq_refl eq_refl eq_refl eq_refl ltac:(segs)) as [C H].
  exists C. unfold solve_in_place. cbn [g_li g_mi g_ki].
  replace (check_segments _ [8] [] [true]) with (Ok tt) by reflexivity.
  unfold pad. cbn [g_li g_mi g_ki List.length Nat.eqb a_li a_ki a_mi app fst snd].
  split; [exact H|discriminate].
Qed.
Print Assumptions C100_refuted.

(** After a successful call the sequences fit the constants, and solving again with them gives the
    same constants and changes nothing further. *)
Theorem C100_again eig solve o q phi g C g' :
  solve_in_place eig solve o q phi g = (Ok C, g') ->
  List.length C = List.length (g_li g') /\ List.length (g_ki g') = List.length (g_li g') /\
  List.length (g_li g') = S (List.length (g_mi g')) /\ (2 <= List.length (g_li g'))%nat /\
  Forall (fun c => List.length c = 6%nat) C /\
  solve_in_place eig solve o q phi g' = (Ok C, g').
Proof.
  destruct g as [li mi ki]. unfold solve_in_place at 1. cbn [g_li g_mi g_ki].
  destruct (check_segments o li mi ki) as [u|e] eqn:E; [|discriminate]. apply check_tt in E.
  destruct (Nat.eq_dec (List.length li) 1) as [H|H].
  - destruct li as [|l [|? ?]]; try discriminate. destruct (check_single o l mi ki E) as [-> ->].
    unfold pad. cbn [g_li g_mi g_ki List.length Nat.eqb].
    destruct (a_li q) eqn:Q1; [|discriminate]. destruct (a_ki q) eqn:Q2; [|discriminate]. destruct (a_mi q) eqn:Q3; [|discriminate].
    cbn [g_li g_mi g_ki app]. intros X. injection X as X <-. cbn [g_li g_mi g_ki].
    destruct (solved_six eig solve o true phi [l; 0] [0] [true; true] C ltac:(simpl; lia) X) as [L6 F6].
    split; [exact L6|]. split; [reflexivity|]. split; [reflexivity|]. split; [simpl; lia|]. split; [exact F6|].
    unfold solve_in_place. cbn [g_li g_mi g_ki]. rewrite check_padded. rewrite pad_long by discriminate. rewrite Q1.
    cbn [g_li g_mi g_ki]. rewrite X. reflexivity.
  - rewrite pad_long by exact H. cbn [g_li g_mi g_ki]. intros X. injection X as X <-. cbn [g_li g_mi g_ki].
    pose proof (proj1 (proj2 (check_iff o li mi ki)) E) as NI. unfold invalid_segments in NI.
    assert (List.length li = List.length ki) by (destruct (Nat.eq_dec (List.length li) (List.length ki)); [assumption|exfalso; tauto]).
    assert (List.length li = S (List.length mi)) by (destruct (Nat.eq_dec (List.length li) (S (List.length mi))); [assumption|exfalso; tauto]).
    assert (2 <= List.length li)%nat by lia.
    destruct (solved_six eig solve o (a_li q) phi li mi ki C ltac:(assumption) X) as [L6 F6].
    repeat (split; [first [assumption | symmetry; assumption]|]).
    unfold solve_in_place. cbn [g_li g_mi g_ki]. rewrite E. rewrite pad_long by exact H. cbn [g_li g_mi g_ki]. rewrite X. reflexivity.
Qed.
Print Assumptions C100_again.
Example C100_again_example : exists C,
  solve_in_place (fun _ => ex_ews) elim_solve (ex_obj "skier" None 30) (mkKinds true true true) 30 (mkArgs [8] [] [true])
    = (Ok C, mkArgs [8; 0] [0] [true; true]).
Proof.
  destruct (ex_solve [8; 0] [0] [true; true] ltac:(simpl; lia) eq_refl eq_refl eq_refl eq_refl ltac:(segs)) as [C H].
  exists C. unfold solve_in_place. cbn [g_li g_mi g_ki].
  replace (check_segments _ [8] [] [true]) with (Ok tt) by reflexivity.
  unfold pad. cbn [g_li g_mi g_ki List.length Nat.eqb a_li a_ki a_mi app]. rewrite H. reflexivity.
Qed.

(** The change is needed: the constants can be rasterised with the changed sequences, and for a
    single segment not with copies of the sequences made before the call. *)
Theorem C100_raster eig solve o q phi g C g' num :
  solve_in_place eig solve o q phi g = (Ok C, g') -> ready o -> (0 < num)%nat ->
  ((exists l, In l (g_li g') /\ l <> 0) ->
   exists r, rasterize_solution (o_par o) (o_eig o) (loads_of o phi) C (g_li g') (g_ki g') num = Ok r) /\
  (List.length (g_li g) = 1%nat ->
   rasterize_solution (o_par o) (o_eig o) (loads_of o phi) C (g_li g) (g_ki g) num = Err IndexError).
Proof.
  intros X HR Hn. destruct (C100_again _ _ _ _ _ _ _ _ X) as (L1 & L2 & _ & L4 & F6 & _). split.
  - intros HL. apply raster_accepts; [exact L1|exact L2|exact HL|]. intros b l c k Hs _ x.
    assert (In c C) as I.
    { clear - Hs. revert Hs. generalize (g_li g') (g_ki g') 0. induction C as [|c0 C IH]; intros li ks b0 Hs.
      - destruct li; inversion Hs.
      - destruct li as [|l0 li]; [inversion Hs|]. destruct ks as [|k0 ks]; [inversion Hs|]. simpl in Hs.
        inversion Hs; subst; [left; reflexivity|right; eapply IH; eassumption]. }
    rewrite Forall_forall in F6. rewrite (F6 c I). destruct k; [exact (ready_six o HR x (Rabs l))|reflexivity].
  - intros H. unfold rasterize_solution. rewrite L1, H. destruct (g_li g') as [|? [|? ?]]; simpl in L4; try lia. reflexivity.
Qed.
Print Assumptions C100_raster.
Example C100_raster_example : ready (ex_obj "skier" None 30) /\ exists C,
  solve_in_place (fun _ => ex_ews) elim_solve (ex_obj "skier" None 30) (mkKinds true true true) 30 (mkArgs [8] [] [true])
    = (Ok C, mkArgs [8; 0] [0] [true; true]) /\ exists l, In l [8; 0] /\ l <> 0.
Proof.
  split; [apply ex_ready|]. destruct C100_again_example as [C H]. exists C. split; [exact H|]. exists 8. split; [left; reflexivity|lra].
Qed.

(** A failing call can leave its arguments unusable: lengths given as a list and foundations as an
    array raise AttributeError after the lengths have been extended; every further call with the
    same sequences raises ValueError. *)
Theorem C100_broken eig solve o q phi phi' g l :
  g_li g = [l] -> ~ invalid_segments (o_system o) (g_li g) (g_mi g) (g_ki g) ->
  a_li q = true -> (a_ki q = false \/ a_mi q = false) ->
  exists g', solve_in_place eig solve o q phi g = (Err AttributeError, g') /\ g' <> g /\
    solve_in_place eig solve o q phi' g' = (Err ValueError, g').
Proof.
  intros EL NI Q1 Q. pose proof (proj2 (proj2 (check_iff o (g_li g) (g_mi g) (g_ki g))) NI) as NI'. clear NI. rename NI' into NI. destruct g as [li mi ki]. cbn [g_li g_mi g_ki] in *. subst li.
  destruct (check_single o l mi ki NI) as [-> ->]. unfold solve_in_place. cbn [g_li g_mi g_ki]. rewrite NI.
  unfold pad. cbn [g_li g_mi g_ki List.length Nat.eqb]. rewrite Q1.
  destruct (a_ki q); [destruct (a_mi q); [destruct Q; discriminate|]|];
  (eexists; split; [reflexivity|]; split; [discriminate|]; reflexivity).
Qed.
Print Assumptions C100_broken.
Example C100_broken_example :
  ~ invalid_segments (o_system (ex_obj "skier" None 30)) [8] [] [true] /\ a_li (mkKinds true false true) = true /\ a_ki (mkKinds true false true) = false.
Proof. split; [|split; reflexivity]. apply (proj1 (proj2 (check_iff (ex_obj "skier" None 30) [8] [] [true]))). reflexivity. Qed.
