(** Property theorems C97: where the incremental rate is the released energy, and where it is not. *)
From Coquelicot Require Import Coquelicot.
Require Import Verif.Py Verif.MTools Verif.MEigen Verif.MFields Verif.MRaster Verif.MSolution Verif.MAnalysis
  Verif.SAdm Verif.SBeam Verif.SBvp Verif.SEig Verif.SEnergy Verif.SOutput Verif.SWork Verif.SRelease Verif.PBeam2 Verif.PBvp Verif.PBvp6
  Verif.PLinAlg Verif.PBalance Verif.PWell2 Verif.PWell3 Verif.PEnergy2 Verif.PWork Verif.PRelease Verif.PFree Verif.PropDepend.

(** C97, propagation saw tests without contact on level ground: twice the new crack length times the incremental rate is the
    additional work of weight and surface load, up to the error of the quadrature. *)
Theorem C97_level eig solve quad eps o aslist li mi k0 ki Ca Cb G G1 G2 :
  sound_solver solve -> accurate_quad quad eps -> ready o -> stable (o_par o) ->
  kind_of (o_system o) = Some KPst -> o_mode o = Some ModeA -> (2 <= List.length li)%nat -> Forall (fun l => 0 <= l) li ->
  Forall (fun m => m = 0) mi -> Forall (fun k => k = true) k0 -> List.length k0 = List.length li -> List.length li = S (List.length mi) ->
  (exists i, cracking k0 ki i = true) ->
  assemble_and_solve eig solve o aslist 0 li mi k0 = Ok Ca -> assemble_and_solve eig solve o aslist 0 li mi ki = Ok Cb ->
  ginc quad (o_par o) (o_eig o) (loads_of o 0) Ca Cb li ki k0 = Ok (Some G, Some G1, Some G2) ->
  let n := List.length li in let da := crack_sum k0 ki n (fun i => nth i li 0) in
  0 < da /\
  Rabs (2 * da * G - added_work o 0 li k0 ki Ca Cb) <= 4 * (INR n * eps) /\ Rabs (2 * da * G2) <= INR n * eps.
Proof.
  intros Hso HQ Hr Hs Hk Hm Hn Hl Hmi H0 L0 Lm Hc HA HB HG n da.
  assert (SB : forall ks Cs, assemble_and_solve eig solve o aslist 0 li mi ks = Ok Cs -> bvp o 0 0 li mi ks Cs).
  { intros ks Cs E. apply (solved_bvp eig solve o aslist 0 li _ ks Cs KPst 0 Hso Hr Hn Hk); [|discriminate|exact E]. intros _ E'. rewrite Hm in E'. discriminate. }
  assert (Hq : qt (loads_of o 0) = 0 /\ pt (loads_of o 0) = 0).
  { unfold loads_of, get_weight_load, get_surface_load, deg2rad. cbn [qt pt]. rewrite Rmult_0_l, sin_0. split; ring. }
  destruct Hq as [Hq1 Hq2].
  assert (Hz : forall i, nth i mi 0 = 0).
  { intros i. destruct (nth_in_or_default i mi 0) as [Hi|E]; [|exact E]. rewrite Forall_forall in Hmi. apply Hmi. exact Hi. }
  assert (Ht : forall i, (i < List.length li)%nat -> nth i k0 false = true).
  { intros i Hi. rewrite Forall_forall in H0. apply H0. apply nth_In. rewrite L0. exact Hi. }
  assert (Hp : forall i, (i < List.length li)%nat -> 0 <= nth i li 0).
  { intros i Hi. rewrite Forall_forall in Hl. apply Hl. apply nth_In. exact Hi. }
  assert (Hsub : forall i, nth i ki false = true -> nth i k0 false = true).
  { intros i Hi. destruct (Nat.lt_ge_cases i (List.length li)) as [Hlt|Hge]; [apply Ht; exact Hlt|]. exfalso.
    assert (Lk : List.length ki = List.length li).
    { unfold ginc in HG. destruct (Nat.eqb_spec (List.length k0) (List.length ki)) as [E0|]; [congruence|discriminate]. }
    rewrite nth_overflow in Hi by lia. discriminate. }
  assert (Hd : 0 < da).
  { destruct (ginc_value quad eps HQ o 0 Ca Cb li ki k0 G G1 G2 Hr HG) as (_ & _ & V). exact (proj1 (V Hc)). }
  assert (Hsome : exists i, (i < List.length li)%nat /\ 0 < nth i li 0).
  { destruct (Exists_dec (fun i => 0 < nth i li 0) (seq 0 n) (fun i => Rlt_dec 0 (nth i li 0))) as [E|E].
    - apply Exists_exists in E. destruct E as (i & Hi & E). apply in_seq in Hi. exists i. split; [unfold n in Hi; lia|exact E].
    - exfalso. enough (da <= 0) by lra. unfold da, crack_sum. rewrite <- Forall_Exists_neg in E. clear - E. induction E as [|i r Hi _ IH]; simpl; [lra|].
      destruct (cracking k0 ki i); lra. }
  destruct (free_release o 0 li mi ki Hr Hn Hk Hm Hz ltac:(rewrite Hq1, Hq2; ring) ltac:(rewrite Hq2; ring) 0 Cb (SB _ _ HB) k0 Ca 0 Ht L0 Lm Hs Hp Hsome
    (solved_six _ _ _ _ _ li _ _ _ Hn HA) (SB _ _ HA) Hsub Hc quad eps G G1 G2 HQ HG) as (_ & EG & V).
  assert (V2 := free_level o 0 li mi ki Hr Hn Hk Hm Hz ltac:(rewrite Hq1, Hq2; ring) Cb k0 Ca 0 Ht L0 Lm Hs Hp Hsome
    (solved_six _ _ _ _ _ li _ _ _ Hn HA) (SB _ _ HA) Hc quad eps G G1 G2 HQ HG ltac:(rewrite Hq1, Hq2; ring)).
  split; [exact Hd|]. fold n da in V, V2. split; [|exact V2].
  match type of V with Rabs (_ - ?X) <= _ => change X with (added_work o 0 li k0 ki Ca Cb) in V end.
  rewrite EG. replace (2 * da * (G1 + G2) - added_work o 0 li k0 ki Ca Cb)
    with ((2 * da * (G1 - G2) - added_work o 0 li k0 ki Ca Cb) + 2 * (2 * da * G2)) by ring.
  eapply Rle_trans; [apply Rabs_triang|]. rewrite (Rabs_mult 2), (Rabs_right 2) by lra. lra.
Qed.
Print Assumptions C97_level.
Lemma ex_pst_solve phi p ki : In true ki -> List.length ki = 2%nat -> exists Cs,
  assemble_and_solve (fun _ => ex_ews) elim_solve (set_surface_load (ex_obj "pst-" (Some ModeA) phi) p) true phi [8; 2] [0] ki = Ok Cs /\
  bvp (set_surface_load (ex_obj "pst-" (Some ModeA) phi) p) 0 phi [8; 2] [0] ki Cs.
Proof.
  intros Hi Lk. destruct (well_posed (fun _ => ex_ews) elim_solve (set_surface_load (ex_obj "pst-" (Some ModeA) phi) p) true phi
    [8; 2] [0] ki KPst 0 elim_sound elim_complete (ex_ready "pst-" (Some ModeA) phi) ex_stable ltac:(simpl; lia)) as (Cs & H & HB & _).
  - intros [H|[H|[H|[H _]]]]; [specialize (H true Hi); discriminate|rewrite Lk in H; apply H; reflexivity|apply H; reflexivity|apply H; left; reflexivity].
  - split.
    + intros [|[|i]] Hl; simpl in *; lra || lia.
    + destruct ki as [|[] [|[] []]]; try discriminate; simpl in Hi.
      * exists 0%nat. simpl. repeat split; [lia|lra].
      * exists 0%nat. simpl. repeat split; [lia|lra].
      * exists 1%nat. simpl. repeat split; [lia|lra].
      * destruct Hi as [|[|[]]]; discriminate.
  - reflexivity.
  - discriminate.
  - discriminate.
  - discriminate.
  - exists Cs. split; assumption.
Qed.
Example C97_level_example : exists Ca Cb G G1 G2, let o := ex_obj "pst-" (Some ModeA) 0 in
  kind_of (o_system o) = Some KPst /\ stable (o_par o) /\ cracking [true; true] [true; false] 1 = true /\
  qn (loads_of o 0) + pn (loads_of o 0) <> 0 /\
  assemble_and_solve (fun _ => ex_ews) elim_solve o true 0 [8; 2] [0] [true; true] = Ok Ca /\
  assemble_and_solve (fun _ => ex_ews) elim_solve o true 0 [8; 2] [0] [true; false] = Ok Cb /\
  accurate_quad (fun f a b => RInt f a b) 0 /\
  ginc (fun f a b => RInt f a b) (o_par o) (o_eig o) (loads_of o 0) Ca Cb [8; 2] [true; false] [true; true] = Ok (Some G, Some G1, Some G2).
Proof.
  destruct (ex_pst_solve 0 1 [true; true] ltac:(simpl; auto) eq_refl) as (Ca & HA & _).
  destruct (ex_pst_solve 0 1 [true; false] ltac:(simpl; auto) eq_refl) as (Cb & HB & _).
  destruct (ginc_total (fun f a b => RInt f a b) (ex_obj "pst-" (Some ModeA) 0) 0 Ca Cb [8; 2] [true; true] [true; false] (ex_ready _ _ _) eq_refl eq_refl
    (solved_six _ _ _ _ _ [8; 2] _ _ _ (le_n 2) HA) (solved_six _ _ _ _ _ [8; 2] _ _ _ (le_n 2) HB)) as (G & G1 & G2 & HG); [simpl; lra|].
  exists Ca, Cb, G, G1, G2. cbv zeta. split; [reflexivity|]. split; [exact ex_stable|]. split; [reflexivity|]. split.
  { unfold loads_of, get_weight_load, get_surface_load, deg2rad. cbn [qn pn]. rewrite Rmult_0_l, cos_0. simpl. lra. }
  split; [exact HA|]. split; [exact HB|]. split; [|exact HG]. intros f u v _. rewrite Rminus_diag_eq, Rabs_R0 by reflexivity. lra.
Qed.

(** C97 is false on slopes, because mode II counts negative: a solved saw test on a vertical face, exact quadrature; the loads
    gain positive work, the rate is its negative. *)
Theorem C97_refuted : exists eig solve o phi li mi k0 ki Ca Cb G G1 G2, sound_solver solve /\ ready o /\ stable (o_par o) /\
  Forall (fun l => 0 < l) li /\
  assemble_and_solve eig solve o true phi li mi k0 = Ok Ca /\ assemble_and_solve eig solve o true phi li mi ki = Ok Cb /\
  ginc (fun f a b => RInt f a b) (o_par o) (o_eig o) (loads_of o phi) Ca Cb li ki k0 = Ok (Some G, Some G1, Some G2) /\
  let da := crack_sum k0 ki (List.length li) (fun i => nth i li 0) in
  0 < added_work o phi li k0 ki Ca Cb /\ 2 * da * G = - added_work o phi li k0 ki Ca Cb.
Proof.
  set (w := 200 * (1 / 1000000000000) * 9810 * 1 + 0). set (P := - (2 / 3 * w)).
  set (o := set_surface_load (ex_obj "pst-" (Some ModeA) 90) P).
  assert (Hw : 0 < w) by (unfold w; lra).
  assert (Hld : loads_of o 90 = mkLd 0 (- w) 0 (2 / 3 * w)).
  { unfold loads_of, get_weight_load, get_surface_load, deg2rad. replace (90 * (PI / 180)) with (PI / 2) by field. rewrite cos_PI2, sin_PI2.
    change (rsum (map (fun p => p_rho p * (1 / 1000000000000) * o_g o * p_h p) (o_slab o))) with w. change (o_p o) with P. unfold P. f_equal; ring. }
  destruct (ex_pst_solve 90 P [true; true] ltac:(simpl; auto) eq_refl) as (Ca & HA & BA).
  destruct (ex_pst_solve 90 P [true; false] ltac:(simpl; auto) eq_refl) as (Cb & HB & BB). fold o in HA, HB, BA, BB.
  assert (A6 := solved_six _ _ _ _ _ [8; 2] _ _ _ (le_n 2) HA). assert (B6 := solved_six _ _ _ _ _ [8; 2] _ _ _ (le_n 2) HB).
  assert (Hr : ready o) by exact (ex_ready "pst-" (Some ModeA) 90).
  destruct (ginc_total (fun f a b => RInt f a b) o 90 Ca Cb [8; 2] [true; true] [true; false] Hr eq_refl eq_refl A6 B6) as (G & G1 & G2 & HG); [simpl; lra|].
  assert (HQ : accurate_quad (fun f a b => RInt f a b) 0) by (intros f u v _; rewrite Rminus_diag_eq, Rabs_R0 by reflexivity; lra).
  assert (Hmi : forall i, nth i [0] 0 = 0) by (intros [|[|i]]; reflexivity).
  assert (H0 : forall i, (i < List.length [8; 2])%nat -> nth i [true; true] false = true) by (intros [|[|i]] Hi; [reflexivity|reflexivity|simpl in Hi; lia]).
  assert (Hp : forall i, (i < List.length [8; 2])%nat -> 0 <= nth i [8; 2] 0) by (intros [|[|i]] Hi; simpl in *; [lra|lra|lia]).
  assert (Hsub : forall i, nth i [true; false] false = true -> nth i [true; true] false = true) by (intros [|[|[|i]]]; simpl; auto).
  assert (Hsome : exists i, (i < List.length [8; 2])%nat /\ 0 < nth i [8; 2] 0) by (exists 0%nat; simpl; split; [lia|lra]).
  assert (Hc : exists i, cracking [true; true] [true; false] i = true) by (exists 1%nat; reflexivity).
  assert (Hfl : qt (loads_of o 90) * (hh (o_par o) + wt (o_par o) - 2 * zs (o_par o)) + pt (loads_of o 90) * (2 * hh (o_par o) + wt (o_par o)) = 0)
    by (rewrite Hld; simpl; lra).
  destruct (wall_rates o 90 [8; 2] [0] [true; false] Hr (le_n 2) eq_refl eq_refl Hmi Hfl ltac:(simpl; ring) 0 Cb BB [true; true] Ca 0 H0 eq_refl eq_refl ex_stable Hp Hsome
    A6 BA Hsub Hc _ 0 G G1 G2 HQ HG ltac:(rewrite Hld; simpl; ring) ltac:(rewrite Hld; simpl; lra) eq_refl) as (E1 & E2 & E3).
  destruct (ginc_value _ 0 HQ o 90 Ca Cb [8; 2] [true; false] [true; true] G G1 G2 Hr HG) as (EG & _ & V). destruct (V Hc) as (Hd & _). clear V.
  exists (fun _ => ex_ews), elim_solve, o, 90, [8; 2], [0], [true; true], [true; false], Ca, Cb, G, G1, G2.
  split; [exact elim_sound|]. split; [exact Hr|]. split; [exact ex_stable|]. split; [repeat constructor; lra|].
  split; [exact HA|]. split; [exact HB|]. split; [exact HG|]. cbv zeta. set (da := crack_sum _ _ _ _) in *.
  match type of E3 with ?X = _ => change X with (added_work o 90 [8; 2] [true; true] [true; false] Ca Cb) in E3 end.
  rewrite E3, EG, E1. split; [|ring]. assert (0 < da * - G2) by (apply Rmult_lt_0_compat; lra). lra.
Qed.
Print Assumptions C97_refuted.
