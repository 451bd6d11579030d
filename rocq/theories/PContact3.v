(** Touchdown analysis: what the assembled right-hand side prescribes at the
    right end, refutations and example objects. *)
From Coquelicot Require Import Coquelicot.
Require Import Verif.Py Verif.MTools Verif.MEigen Verif.MFields Verif.SAdm Verif.MRaster
  Verif.MSolution Verif.SBeam Verif.SBvp Verif.SEig Verif.SContact Verif.PSetup Verif.PBeam Verif.PBeam2
  Verif.PBvp Verif.PBvp2 Verif.PBvp3 Verif.PBvp4 Verif.PBvp5 Verif.PBalance Verif.PLinAlg
  Verif.PWell Verif.PIndep Verif.PWell2 Verif.PWell3 Verif.PBvp6 Verif.PSub Verif.PTouch Verif.PContact
  Verif.PContact2.

Lemma solved_right solve kR o aslist phi li mi ki Cs kd : sound_solver solve -> six_cols o ->
  (2 <= List.length li)%nat -> kind_of (o_system o) = Some kd -> kd <> KSkier ->
  assemble_and_solve_with solve kR o aslist phi li mi ki = Ok Cs ->
  let n := (List.length li - 1)%nat in
  let z := field o phi (nth n li 0) (nth n ki false) (nth n Cs []) (nth n li 0) in
  exists br, bc_rows o kR (nth n ki false) "r" = Ok br /\
  forall c, (c < 3)%nat -> nth c (map (fun r => dot6 r z) br) 0 = nth c (end_vec o phi 1 (nth n ki false)) 0.
Proof.
  intros Hso H6 HN Hkd Hns H n z. set (nS := List.length li) in *.
  unfold assemble_and_solve_with in H.
  destruct (check_segments o li mi ki) as [[]|] eqn:Hchk; [|discriminate]. cbn [bind] in H.
  destruct (valid_lengths o li mi ki Hchk) as [Lk Lm].
  destruct (Nat.eqb_spec (List.length li) 1) as [E1|_]; [unfold nS in HN; lia|]. cbn [bind] in H.
  destruct (assemble o kR phi li mi ki) as [[[zh0 zp0] rhs]|] eqn:EA; [|discriminate]. cbn [bind] in H.
  fold nS in H. destruct (solve (6 * nS)%nat zh0 (fun r => rhs r - zp0 r)) as [x|] eqn:Ex; [|discriminate].
  cbn [bind] in H. apply Ok_inj in H. subst Cs. apply Hso in Ex.
  unfold assemble in EA.
  destruct (assemble_lhs o kR phi (List.length li) 0 li ki (fun _ _ => 0, fun _ => 0)) as [[M v]|] eqn:EL; [|discriminate].
  cbn [bind] in EA.
  destruct (build_rhs o kR phi li mi ki (List.length li)) as [rhs'|] eqn:ER; [|discriminate].
  cbn [bind fst snd] in EA. apply Ok_inj in EA. injection EA; intros -> -> ->. clear EA.
  destruct (lhs_rows o kR phi li ki zh0 zp0 H6 HN Lk EL) as (bl & br & Hbl & Hbr & HS).
  fold nS in Hbr, HS. cbv zeta in HS. destruct (HS x) as (S1 & S2 & S3).
  destruct (build_rhs_shape o kR phi li mi ki kd rhs HN (eq_sym Lm) Lk Hkd ltac:(intros; contradiction) ER)
    as (R1 & R2 & R3). fold nS in R1, R2, R3.
  exists br. split; [exact Hbr|]. intros c Hc.
  assert (Z : z = zi o phi li ki x (nS - 1) (nth (nS - 1) li 0)).
  { unfold z, n. rewrite nth_reshape by lia. reflexivity. }
  rewrite Z. fold n in S2. unfold n. rewrite <- R2 by exact Hc. rewrite <- S2 by exact Hc.
  specialize (Ex (6 * nS - 3 + c)%nat ltac:(lia)). lra.
Qed.

(** C36: what happens with the flag set. *)
Lemma vpst_corrupt solve kR o aslist phi li mi ki Cs : sound_solver solve -> ready o ->
  (2 <= List.length li)%nat -> kind_of (o_system o) = Some KVpst ->
  (o_mode o = Some ModeB \/ o_mode o = Some ModeC) ->
  assemble_and_solve_with solve kR o aslist phi li mi ki = Ok Cs ->
  let n := (List.length li - 1)%nat in
  nth n ki false = false ->
  sM (o_par o) (field o phi (nth n li 0) false (nth n Cs []) (nth n li 0)) = 0 /\
  sV (o_par o) (field o phi (nth n li 0) false (nth n Cs []) (nth n li 0)) = o_tc o.
Proof.
  intros Hso Hr HN Hkd Hm H n Hn.
  destruct (solved_right solve kR o aslist phi li mi ki Cs KVpst Hso (ready_six o Hr) HN Hkd ltac:(discriminate) H)
    as (br & Hbr & HE). fold n in Hbr, HE. rewrite Hn in *.
  set (z := field o phi (nth n li 0) false (nth n Cs []) (nth n li 0)) in *.
  pose proof (kinds (o_system o)) as K. cbv zeta in K. rewrite Hkd in K.
  destruct K as (K1 & K2 & _). unfold bc_rows in Hbr. rewrite K1, K2 in Hbr. apply Ok_inj in Hbr. subst br.
  unfold end_vec in HE. rewrite Hkd in HE.
  destruct (calc_vertical_bc_center_of_gravity (o_slab o) phi) as [[xs zz] m].
  rewrite forall3 in HE. cbn [map nth] in HE. rewrite dot_N, dot_M, dot_V in HE.
  unfold td_vec in HE. destruct HE as (_ & HM & HV).
  destruct Hm as [E|E]; rewrite E in HM, HV; cbn [nth] in HM, HV; split; assumption.
Qed.
(** C69: the axial force of stage C comes from the stored inclination. *)
Lemma stageC_force solve kR o aslist phi li mi ki Cs : sound_solver solve -> ready o ->
  (2 <= List.length li)%nat -> kind_of (o_system o) = Some KPst -> o_mode o = Some ModeC ->
  assemble_and_solve_with solve kR o aslist phi li mi ki = Ok Cs ->
  let n := (List.length li - 1)%nat in
  nth n ki false = false ->
  sN (o_par o) (field o phi (nth n li 0) false (nth n Cs []) (nth n li 0))
  = (qt (loads_of o (o_phi o)) + pt (loads_of o (o_phi o))) * (o_a o - o_td o).
Proof.
  intros Hso Hr HN Hkd Hm H n Hn.
  destruct (solved_right solve kR o aslist phi li mi ki Cs KPst Hso (ready_six o Hr) HN Hkd ltac:(discriminate) H)
    as (br & Hbr & HE). fold n in Hbr, HE. rewrite Hn in *.
  set (z := field o phi (nth n li 0) false (nth n Cs []) (nth n li 0)) in *.
  pose proof (kinds (o_system o)) as K. cbv zeta in K. rewrite Hkd in K.
  destruct K as (K1 & _). unfold bc_rows, mode_is in Hbr. rewrite K1, Hm in Hbr. cbn [negb andb] in Hbr.
  change (mem_str "r" ["r"; "right"]%string) with true in Hbr. cbv iota in Hbr.
  destruct kR as [r|]; [|discriminate]. cbn [bind] in Hbr. apply Ok_inj in Hbr. subst br.
  unfold end_vec in HE. rewrite Hkd in HE. rewrite forall3 in HE. cbn [map nth] in HE.
  destruct HE as (HE & _). rewrite dot_N in HE. unfold td_vec in HE. rewrite Hm in HE. cbn [nth] in HE.
  unfold calc_qt in HE. rewrite HE. ring.
Qed.

(** The solver returns whenever the end conditions are defined. *)
Lemma solver_returns_any solve kR o phi li mi ki kd aslist : complete_solver solve ->
  ready o -> stable (o_par o) -> (2 <= List.length li)%nat ->
  check_segments o li mi ki = Ok tt -> proper_segments li ki -> kind_of (o_system o) = Some kd ->
  (kd = KPst -> o_mode o <> None /\ (o_mode o = Some ModeC -> exists r, kR = Ok r)) ->
  (forall r, kR = Ok r -> 0 <= r) ->
  exists Cs, assemble_and_solve_with solve kR o aslist phi li mi ki = Ok Cs.
Proof.
  intros Hco Hr Hs HN Hchk [P1 P2] Hkd HM HR.
  destruct (valid_lengths o li mi ki Hchk) as [Lk Lm].
  assert (HE : forall k, ends_defined o kR k).
  { intros k. exists kd. split; [exact Hkd|]. intros E _. apply HM, E. }
  destruct (assemble_succeeds o kR phi li mi ki (ready_six o Hr) HN Lk (HE _) (HE _)) as (zh0 & zp0 & rhs & E).
  assert (HK : trivial_kernel (6 * List.length li) zh0).
  { unfold assemble in E. destruct (assemble_lhs o kR phi (List.length li) 0 li ki (fun _ _ => 0, fun _ => 0)) as [[M v]|] eqn:EL; [|discriminate].
    cbn [bind] in E. destruct (build_rhs o kR phi li mi ki (List.length li)) as [rhs'|]; [|discriminate].
    cbn [bind fst snd] in E. apply Ok_inj in E. injection E; intros _ _ <-.
    apply (assembled_kernel o kR phi li ki M v Hr Hs HN Lk HR P1 P2 EL). }
  destruct (Hco _ _ HK (fun r => rhs r - zp0 r)) as [x Hx].
  exists (reshape_constants (List.length li) x).
  unfold assemble_and_solve_with. rewrite Hchk. cbn [bind].
  destruct (Nat.eqb_spec (List.length li) 1) as [E1|_]; [lia|]. cbn [bind]. rewrite E. cbn [bind]. rewrite Hx. reflexivity.
Qed.

(** * Examples *)
Definition ex_eig : mat6 -> list eigpair := fun _ => ex_ews.
Definition ex_brent_lo : R -> R -> list (R * R) -> bstep := fun lo _ _ => BRet lo.
(** Evaluates both ends, fails on equal signs, otherwise returns an end where
    the function vanishes (or gives up). *)
Definition ex_brent : R -> R -> list (R * R) -> bstep := fun lo hi h =>
  match h with
  | [] => BEval lo
  | [(x, v)] => if Req_EM_T v 0 then (if Rle_dec lo hi then (if Req_EM_T x lo then BRet x else BFail) else BFail) else BEval hi
  | _ => BFail
  end.
Lemma ex_brent_rejects : rejects_equal_signs ex_brent.
Proof.
  intros lo hi. unfold ex_brent. split; [reflexivity|]. split.
  - intros v Hv. destruct (Req_EM_T v 0); [contradiction|reflexivity].
  - reflexivity.
Qed.
Lemma ex_brent_sign : returns_sign_change ex_brent 0.
Proof.
  intros lo hi hist r H. unfold ex_brent in H. destruct hist as [|[x v] [|]]; try discriminate.
  destruct (Req_EM_T v 0); [|discriminate]. destruct (Rle_dec lo hi); [|discriminate].
  destruct (Req_EM_T x lo); [|discriminate]. injection H; intros <-.
  exists x, v, x, v. replace (x - x) with 0 by ring. rewrite Rabs_R0. subst. simpl. repeat split; auto; lra.
Qed.
Lemma ex_brent_lo_stays : stays_in_bracket ex_brent_lo.
Proof. intros lo hi hist r H E. injection E; intros <-. lra. Qed.

Definition ex_c (system : string) (mode : option tmode) (phi : R) : obj :=
  with_contact (ex_obj system mode phi) phi 2 (Some 10) (1 / 10) 1 mode 1.
Lemma ex_c_foundation system mode phi support : foundation_of (ex_c system mode phi) support = ex_par.
Proof.
  unfold foundation_of. destruct (String.eqb support "rested"); [|reflexivity].
  simpl. rewrite !Rmult_1_l. reflexivity.
Qed.
Lemma ex_c_ready system mode phi support : substitute_ready ex_eig (ex_c system mode phi) support.
Proof.
  split; [exact (ex_ready system mode phi)|]. split; [reflexivity|]. rewrite ex_c_foundation.
  split; [exact ex_fnd_ok|]. split; [exact ex_stable|exact ex_good].
Qed.


(** C36 witness. *)
Lemma ex_vpst_solved : exists Cs,
  assemble_and_solve ex_eig elim_solve (ex_c "vpst-" (Some ModeB) 0) true 0 [8; 2] [0] [true; false] = Ok Cs.
Proof.
  unfold assemble_and_solve.
  apply (solver_returns_any elim_solve _ _ _ _ _ _ KVpst); try exact elim_complete; try reflexivity.
  - exact (ex_ready "vpst-" (Some ModeB) 0).
  - exact ex_stable.
  - exact ex_proper_pst.
  - discriminate.
  - intros r. apply substitute_nonneg.
Qed.
Lemma ex_vpst_not_bvp : exists Cs,
  assemble_and_solve ex_eig elim_solve (ex_c "vpst-" (Some ModeB) 0) true 0 [8; 2] [0] [true; false] = Ok Cs /\
  forall kRv, ~ bvp (ex_c "vpst-" (Some ModeB) 0) kRv 0 [8; 2] [0] [true; false] Cs.
Proof.
  destruct ex_vpst_solved as [Cs H]. exists Cs. split; [exact H|]. intros kRv (_ & BR & _).
  unfold assemble_and_solve in H.
  destruct (vpst_corrupt elim_solve _ _ true 0 [8; 2] [0] [true; false] Cs elim_sound (ex_ready "vpst-" (Some ModeB) 0 : ready (ex_c "vpst-" (Some ModeB) 0)) (le_n 2) eq_refl
    (or_introl eq_refl) H eq_refl) as [_ HV].
  unfold right_end in BR. cbn [kind_of ex_c with_contact ex_obj o_system String.eqb Ascii.eqb Bool.eqb orb] in BR.
  unfold face_end in BR. unfold calc_vertical_bc_center_of_gravity in BR.
  destruct (Req_EM_T (deg2rad 0) 0) as [_|n]; [|exfalso; apply n; unfold deg2rad; ring].
  destruct BR as (_ & _ & BV). cbn [List.length Nat.sub nth] in HV, BV.
  rewrite HV in BV. simpl in BV. lra.
Qed.

(** C69 witness. *)
Lemma ex_stageC_solved phi : exists Cs,
  assemble_and_solve ex_eig elim_solve (ex_c "pst-" (Some ModeC) 0) true phi [8; 1] [0] [true; false] = Ok Cs.
Proof.
  unfold assemble_and_solve.
  apply (solver_returns_any elim_solve _ _ _ _ _ _ KPst); try exact elim_complete; try reflexivity.
  - exact (ex_ready "pst-" (Some ModeC) 0).
  - exact ex_stable.
  - split.
    + intros i Hi. destruct i as [|[|]]; simpl; try lra; simpl in Hi; lia.
    + exists 0%nat. simpl. repeat split; [lia|lra].
  - intros _. split; [discriminate|]. intros _.
    destruct (rot_positive ex_eig elim_solve (ex_c "pst-" (Some ModeC) 0) (2 - 1) "rested" elim_sound elim_complete (ex_c_ready _ _ _ _) ltac:(lra))
      as (k & E & _). exists k. exact E.
  - intros r. apply substitute_nonneg.
Qed.
Lemma ex_stageC_not_bvp : exists Cs,
  assemble_and_solve ex_eig elim_solve (ex_c "pst-" (Some ModeC) 0) true 30 [8; 1] [0] [true; false] = Ok Cs /\
  forall kRv, ~ bvp (ex_c "pst-" (Some ModeC) 0) kRv 30 [8; 1] [0] [true; false] Cs.
Proof.
  destruct (ex_stageC_solved 30) as [Cs H]. exists Cs. split; [exact H|]. intros kRv (_ & BR & _).
  unfold assemble_and_solve in H.
  pose proof (stageC_force elim_solve _ _ true 30 [8; 1] [0] [true; false] Cs elim_sound (ex_ready "pst-" (Some ModeC) 0 : ready (ex_c "pst-" (Some ModeC) 0)) (le_n 2) eq_refl
    eq_refl H eq_refl) as HN.
  unfold right_end in BR. cbn [kind_of ex_c with_contact ex_obj o_system String.eqb Ascii.eqb Bool.eqb orb] in BR.
  destruct BR as (BN & _). cbn [List.length Nat.sub nth] in HN, BN.
  rewrite HN in BN. cbn [o_mode] in BN. clear HN H.
  unfold loads_of, get_weight_load, get_surface_load, deg2rad in BN. simpl in BN.
  replace (30 * (PI / 180)) with (PI / 6) in BN by field.
  replace (0 * (PI / 180)) with 0 in BN by ring. rewrite sin_0, sin_PI6 in BN. lra.
Qed.

(** C33 witness: touchdown off. *)
Definition ex_off (system : string) (phi : R) : obj :=
  mkObj 9810 1000 (1 / 1000) system 1 0 1 [mkPly 200 1 10 4 (1 / 4)] (5 / 6) phi ex_par
    (calc_eigensystem ex_ews) false 2 (Some 10) (1 / 10) 1 None 1.
Lemma segments_off eig solve brent maxeval li mi ki k0 L a m phi cf ratio o : o_touchdown o = false ->
  let o' := with_contact o phi a (Some L) (cf * wt (o_par o) - calc_qn o / kn (o_par o)) ratio (Some ModeA) a in
  calc_segments eig solve brent maxeval li mi ki k0 L a m phi cf ratio o = (segment_lists o' li mi ki k0 L a m, o').
Proof.
  intros Ht o'. unfold calc_segments, calc_touchdown_system, sbind, calc_touchdown_mode. rewrite attributes_eq.
  change (o_touchdown (attributes_of o L a cf phi ratio)) with (o_touchdown o). rewrite Ht. reflexivity.
Qed.
Lemma ex_not_repeatable : exists s o1 o2, fresh ex_eig (ex_off "skier" 0) /\
  calc_segments ex_eig elim_solve ex_brent 100 [] [] [] [] 10 2 80 60 (1 / 2) 1 (ex_off "skier" 0) = (Ok s, o1) /\
  calc_segments ex_eig elim_solve ex_brent 100 [] [] [] [] 10 2 80 60 (1 / 2) 1 o1 = (Ok s, o2) /\
  o_tc o1 <> o_tc o2.
Proof.
  eexists _, _, _. split; [reflexivity|]. split; [rewrite segments_off by reflexivity; reflexivity|].
  split; [rewrite segments_off by reflexivity; reflexivity|].
  cbn [o_tc with_contact o_par]. unfold calc_qn, loads_of, get_weight_load, get_surface_load, deg2rad.
  cbn [with_contact ex_off o_g o_slab o_p o_phi o_par qn pn map rsum fold_right p_rho p_h kn wt ex_par].
  replace (0 * (PI / 180)) with 0 by ring. replace (60 * (PI / 180)) with (PI / 3) by field.
  rewrite cos_0, cos_PI3. lra.
Qed.

(** C35 witness: heavy surface load. *)
Lemma ex_rejected : fst (calc_segments ex_eig elim_solve ex_brent 100 [] [] [] [] 10 2 0 0 (1 / 2) 1
  (set_surface_load (ex_c "pst-" None 0) 100)) = Err ValueError.
Proof.
  assert (Hsr : substitute_ready ex_eig (set_surface_load (ex_c "pst-" None 0) 100) "supported") by exact (ex_c_ready "pst-" None 0 "supported").
  assert (Q : forall o, o_phi o = 0 -> o_p o = 100 -> o_g o = 9810 -> o_slab o = [mkPly 200 1 10 4 (1 / 4)] -> 100 <= calc_qn o <= 101).
  { intros o E1 E2 E3 E4. unfold calc_qn, loads_of, get_weight_load, get_surface_load, deg2rad. rewrite E1, E2, E3, E4. simpl.
    replace (0 * (PI / 180)) with 0 by ring. rewrite cos_0. lra. }
  apply (touchdown_rejected ex_eig elim_solve ex_brent 100); try assumption; try exact elim_sound; try exact elim_complete.
  - exact ex_brent_rejects.
  - lia.
  - lra.
  - reflexivity.
  - pose proof (Q (set_touchdown_attributes 10 2 (1 / 2) 0 1 (set_surface_load (ex_c "pst-" None 0) 100)) eq_refl eq_refl eq_refl eq_refl). lra.
  - simpl. pose proof (Q (set_columnlength 10 (set_surface_load (ex_c "pst-" None 0) 100)) eq_refl eq_refl eq_refl eq_refl) as G.
    unfold calc_qn in *. simpl in *. lra.
Qed.

(** C31/C32 example: stage C. *)
Lemma segments_lo eig solve maxeval li mi ki k0 L a m phi cf ratio o : o_touchdown o = true -> L / 1000 < a ->
  let o' := with_contact o phi a (Some L) (cf * wt (o_par o) - calc_qn o / kn (o_par o)) ratio (Some ModeC) (a / 1000) in
  calc_segments eig solve ex_brent_lo maxeval li mi ki k0 L a m phi cf ratio o = (segment_lists o' li mi ki k0 L a m, o').
Proof.
  intros Ht Ha o'. unfold calc_segments, calc_touchdown_system, sbind, calc_touchdown_mode. rewrite attributes_eq.
  set (oa := attributes_of o L a cf phi ratio).
  change (o_touchdown oa) with (o_touchdown o). rewrite Ht. unfold sbind.
  assert (E1 : calc_a1 eig solve ex_brent_lo maxeval oa = (Ok (L / 1000), oa)).
  { unfold calc_a1. change (o_L oa) with (Some L). destruct maxeval; reflexivity. }
  assert (E2 : calc_a2 eig solve ex_brent_lo maxeval oa = (Ok (L / 1000), oa)).
  { unfold calc_a2. change (o_L oa) with (Some L). destruct maxeval; reflexivity. }
  rewrite E1, E2. change (o_a oa) with a.
  assert (E3 : stage a (L / 1000) (L / 1000) = ModeC) by (apply stage_spec; split; exact Ha).
  rewrite E3. unfold calc_touchdown_length, sbind. change (o_mode (set_mode ModeC oa)) with (Some ModeC). cbv iota.
  assert (E4 : calc_lC eig solve ex_brent_lo maxeval (set_mode ModeC oa) = (Ok (a / 1000), set_mode ModeC oa)).
  { unfold calc_lC. change (o_L (set_mode ModeC oa)) with (Some L). destruct maxeval; reflexivity. }
  rewrite E4. reflexivity.
Qed.
Lemma ex_stageC : exists s o', calc_segments ex_eig elim_solve ex_brent_lo 100 [] [] [] [] 10 2 0 0 (1 / 2) 1
  (ex_c "pst-" None 0) = (Ok s, o') /\ o_mode o' = Some ModeC /\ o_td o' = 2 / 1000.
Proof.
  eexists _, _. split; [rewrite segments_lo; [reflexivity|reflexivity|lra]|]. split; reflexivity.
Qed.

(** * Hanging beams exist *)
Definition beam_poly (p : params) (q kN M0 V0 p0 : R) : R -> vec6 := fun x =>
  let bs := bs_of p in let ss := kA55 p in
  let psi := p0 + (M0 * x + V0 * x ^ 2 / 2 - q * x ^ 3 / 6) / bs in
  let dpsi := (M0 + V0 * x - q * x ^ 2 / 2) / bs in
  mkV (- B11 p / A11 p * psi) (- B11 p / A11 p * dpsi)
    (V0 / kN + (V0 * x - q * x ^ 2 / 2) / ss - p0 * x - (M0 * x ^ 2 / 2 + V0 * x ^ 3 / 6 - q * x ^ 4 / 24) / bs)
    ((V0 - q * x) / ss - psi) psi dpsi.
Section Poly.
Variable p : params.
Hypothesis Hl : lam_ok p.
Variables q kN M0 V0 p0 : R.
Hypothesis HkN : 0 < kN.
Notation z := (beam_poly p q kN M0 V0 p0).
Lemma poly_forces x : sN p (z x) = 0 /\ sM p (z x) = M0 + V0 * x - q * x ^ 2 / 2 /\ sV p (z x) = V0 - q * x.
Proof.
  pose proof (bs_pos p Hl) as Hb. pose proof (ss_pos p Hl) as Hs.
  assert (HA : A11 p <> 0) by (destruct Hl as (HA & _); lra).
  unfold sN, sM, sV, beam_poly. cbn [z_du z_dpsi z_dw z_psi].
  split; [|split].
  - field. repeat split; lra.
  - set (d := (M0 + V0 * x - q * x ^ 2 / 2) / bs_of p).
    transitivity (bs_of p * d); [unfold bs_of; field; assumption|]. unfold d. field. lra.
  - field. repeat split; lra.
Qed.
Lemma poly_equilibrium x : equilibrium p (mkLd q 0 0 0) false z x.
Proof.
  pose proof (bs_pos p Hl) as Hb. pose proof (ss_pos p Hl) as Hs.
  destruct (poly_forces x) as (FN & FM & FV).
  assert (HA : A11 p <> 0) by (destruct Hl as (HA & _); lra).
  unfold equilibrium. split; [|split; [|split; [|split; [|split]]]].
  - unfold beam_poly. cbn [z_u z_du]. auto_derive; [trivial|field; repeat split; lra].
  - unfold beam_poly. cbn [z_w z_dw]. auto_derive; [trivial|field; repeat split; lra].
  - unfold beam_poly. cbn [z_psi z_dpsi]. auto_derive; [trivial|field; repeat split; lra].
  - apply (is_derive_extR (fun _ => 0)); [intros t; symmetry; apply poly_forces|].
    eapply is_derive_eq; [apply (is_derive_const (K := R_AbsRing) (V := R_NormedModule))|]. simpl. unfold zero; simpl. ring.
  - apply (is_derive_extR (fun t => V0 - q * t)); [intros t; symmetry; apply poly_forces|].
    auto_derive; [trivial|simpl; ring].
  - apply (is_derive_extR (fun t => M0 + V0 * t - q * t ^ 2 / 2)); [intros t; symmetry; apply poly_forces|].
    rewrite FV. auto_derive; [trivial|simpl; field].
Qed.
Lemma poly_hanging kR l : M0 = kR * p0 -> hanging_beam p q kR kN l z.
Proof.
  intros E. pose proof (bs_pos p Hl) as Hb. pose proof (ss_pos p Hl) as Hs.
  destruct (poly_forces 0) as (FN & FM & FV). split; [intros; apply poly_equilibrium|].
  split; [exact FN|]. rewrite FM, FV. unfold beam_poly. cbn [z_psi z_w]. split.
  - rewrite E. field. lra.
  - field. repeat split; lra.
Qed.
End Poly.
Lemma free_tip_exists p q kR kN l : lam_ok p -> 0 < kR -> 0 < kN -> 0 <= l ->
  exists z, hanging_beam p q kR kN l z /\ free_tip p l z.
Proof.
  intros Hl HR HN H0. exists (beam_poly p q kN (- q * l ^ 2 / 2) (q * l) (- q * l ^ 2 / 2 / kR)).
  split; [apply poly_hanging; try assumption; field; lra|].
  destruct (poly_forces p Hl q kN (- q * l ^ 2 / 2) (q * l) (- q * l ^ 2 / 2 / kR) l) as (_ & FM & FV).
  split; [rewrite FM; field|rewrite FV; ring].
Qed.
Lemma contact_tip_exists p q kR kN kT tc l : lam_ok p -> 0 < kR -> 0 < kN -> 0 <= kT -> 0 <= l ->
  exists z, hanging_beam p q kR kN l z /\ contact_tip p kT tc l z.
Proof.
  intros Hl HR HN HT H0. pose proof (bs_pos p Hl) as Hb. pose proof (ss_pos p Hl) as Hs.
  pose proof (contact_den_pos p Hl kR kN l HR HN H0 kT HT) as Dp.
  set (bs := bs_of p) in *. set (ss := kA55 p) in *.
  set (a1 := kR + kT * (1 + kR * l / bs)). set (b1 := l + kT * l ^ 2 / (2 * bs)).
  set (c1 := q * (l ^ 2 / 2 + kT * l ^ 3 / (6 * bs))).
  set (a2 := - (l + kR * l ^ 2 / (2 * bs))). set (b2 := 1 / kN + l / ss - l ^ 3 / (6 * bs)).
  set (c2 := tc + q * l ^ 2 / (2 * ss) - q * l ^ 4 / (24 * bs)).
  assert (Dn : contact_den p kR kN l kT = a1 * b2 - b1 * a2).
  { unfold contact_den, a1, a2, b1, b2. fold bs ss. ring. }
  rewrite Dn in Dp.
  set (V0 := (a1 * c2 - a2 * c1) / (a1 * b2 - b1 * a2)). set (p0 := (c1 * b2 - b1 * c2) / (a1 * b2 - b1 * a2)).
  assert (E1 : a1 * p0 + b1 * V0 = c1) by (unfold p0, V0; field; lra).
  assert (E2 : a2 * p0 + b2 * V0 = c2) by (unfold p0, V0; field; lra).
  clearbody p0 V0.
  exists (beam_poly p q kN (kR * p0) V0 p0). split; [apply poly_hanging; try assumption; reflexivity|].
  destruct (poly_forces p Hl q kN (kR * p0) V0 p0 l) as (_ & FM & FV).
  split.
  - rewrite FM. unfold beam_poly. cbn [z_psi]. fold bs. apply Rminus_diag_uniq.
    transitivity (a1 * p0 + b1 * V0 - c1); [unfold a1, b1, c1; field; lra|lra].
  - unfold beam_poly. cbn [z_w]. fold bs ss. apply Rminus_diag_uniq.
    transitivity (a2 * p0 + b2 * V0 - c2); [unfold a2, b2, c2; field; repeat split; lra|lra].
Qed.

(** C28 example: the lower end of the bracket is the root. *)
Lemma ex_first_contact : exists tc,
  calc_a1 ex_eig elim_solve ex_brent 100 (with_contact (ex_c "pst-" None 0) 0 2 (Some 10) tc 1 None 1)
  = (Ok (10 / 1000), with_contact (ex_c "pst-" None 0) 0 2 (Some 10) tc 1 None 1).
Proof.
  assert (HL : 0 < 10 - 10 / 1000) by lra.
  destruct (beam_exists ex_eig (ex_c "pst-" None 0) _ "supported" (ex_c_ready _ _ _ _) HL) as [[z1 B1] [z2 B2]].
  set (kR := 1 / - z_psi (z1 0)).
  set (kN := Rabs (1 / (z_w (z2 0) + (qn (loads_of (ex_c "pst-" None 0) 0) + pn (loads_of (ex_c "pst-" None 0) 0)) / kn ex_par))).
  set (q := calc_qn (ex_c "pst-" None 0)).
  assert (Hq : 0 < q).
  { unfold q, calc_qn, loads_of, get_weight_load, get_surface_load, deg2rad. simpl.
    replace (0 * (PI / 180)) with 0 by ring. rewrite cos_0. lra. }
  set (tc := q * (1 / (8 * bs_of ex_par) * (10 / 1000) ^ 4 + 1 / (2 * kR) * (10 / 1000) ^ 3 + 1 / (2 * kA55 ex_par) * (10 / 1000) ^ 2 + 1 / kN * (10 / 1000))).
  exists tc. set (o := with_contact (ex_c "pst-" None 0) 0 2 (Some 10) tc 1 None 1).
  assert (Hsr : substitute_ready ex_eig o "supported") by exact (ex_c_ready "pst-" None 0 "supported").
  assert (F : fst (substitute_stiffness ex_eig elim_solve o (10 - 10 / 1000) "supported" "rot") = Ok kR).
  { apply (sub_rot ex_eig elim_solve o _ "supported" z1 elim_sound elim_complete Hsr HL B1). }
  assert (G : fst (substitute_stiffness ex_eig elim_solve o (10 - 10 / 1000) "supported" "trans") = Ok kN).
  { apply (sub_trans ex_eig elim_solve o _ "supported" z2 elim_sound elim_complete Hsr HL B2). }
  unfold calc_a1. change (o_L o) with (Some 10). cbv iota beta. unfold brentq.
  change 100%nat with (S 99). cbn [brentq_run].
  assert (E0 : ex_brent (10 / 1000) (999 / 1000 * 10) [] = BEval (10 / 1000)) by reflexivity.
  rewrite E0.
  assert (Fo : fresh ex_eig o) by reflexivity.
  assert (E1 : sbind (sub ex_eig elim_solve (10 - 10 / 1000) "supported" "rot") (fun kRl =>
    sbind (sub ex_eig elim_solve (10 - 10 / 1000) "supported" "trans") (fun kNl =>
    sret (poly_a1 (bs_of (o_par o)) (kA55 (o_par o)) (calc_qn o) (o_tc o) kRl kNl (10 / 1000)))) o = (Ok 0, o)).
  { unfold sbind, sret, sub.
    destruct (substitute_stiffness ex_eig elim_solve o (10 - 10 / 1000) "supported" "rot") as [r1 o1] eqn:E1. cbn [fst] in F. subst r1.
    pose proof (sub_restores ex_eig elim_solve _ _ _ _ _ _ Fo E1) as ->.
    destruct (substitute_stiffness ex_eig elim_solve o (10 - 10 / 1000) "supported" "trans") as [r2 o2] eqn:E2. cbn [fst] in G. subst r2.
    pose proof (sub_restores ex_eig elim_solve _ _ _ _ _ _ Fo E2) as ->.
    f_equal. f_equal. unfold poly_a1. change (calc_qn o) with q. change (o_tc o) with tc. change (o_par o) with ex_par.
    unfold tc. set (X := _ + 1 / kN * (10 / 1000)). replace (- (q * X) / q) with (- X) by (field; lra). ring. }
  rewrite E1. 
  assert (E2 : ex_brent (10 / 1000) (999 / 1000 * 10) [(10 / 1000, 0)] = BRet (10 / 1000)).
  { unfold ex_brent. destruct (Req_EM_T 0 0); [|lra]. destruct (Rle_dec (10 / 1000) (999 / 1000 * 10)); [|lra].
    destruct (Req_EM_T (10 / 1000) (10 / 1000)); [reflexivity|lra]. }
  cbn [brentq_run]. rewrite E2. reflexivity.
Qed.

(** C29 examples. *)
Lemma ex_brentq_zero f lo hi o : lo <= hi -> f lo o = (Ok 0, o) -> brentq ex_brent 100 f lo hi o = (Ok lo, o).
Proof.
  intros H E. unfold brentq. change 100%nat with (S 99). cbn [brentq_run].
  assert (E1 : ex_brent lo hi [] = BEval lo) by reflexivity. rewrite E1. cbv iota beta. rewrite E.
  assert (E2 : ex_brent lo hi [(lo, 0)] = BRet lo).
  { unfold ex_brent. destruct (Req_EM_T 0 0); [|lra]. destruct (Rle_dec lo hi); [|lra].
    destruct (Req_EM_T lo lo); [reflexivity|lra]. }
  cbn [brentq_run]. rewrite E2. reflexivity.
Qed.
Definition ex_t (p tc : R) : obj :=
  with_contact (set_surface_load (ex_c "pst-" None 0) p) 0 2 (Some 10) tc 1 None 1.
Lemma ex_t_ready p tc support : substitute_ready ex_eig (ex_t p tc) support.
Proof.
  pose proof (ex_c_ready "pst-" None 0 support) as H. exact H.
Qed.
Lemma ex_q p tc : 0 < p -> calc_qn (ex_t p tc) = calc_qn (ex_t p 0) /\ p < calc_qn (ex_t p 0).
Proof.
  intros Hp. split; [reflexivity|]. unfold calc_qn, loads_of, get_weight_load, get_surface_load, deg2rad, ex_t.
  cbn [with_contact set_surface_load with_p ex_c ex_obj o_g o_slab o_p o_phi o_par qn pn map rsum fold_right p_rho p_h].
  replace (0 * (PI / 180)) with 0 by ring. rewrite cos_0. lra.
Qed.
(** Substitute springs of the example (independent of tc). *)
Lemma ex_springs L : 0 < L -> exists p kR kN, 0 < p /\ 0 < kR /\ 0 < kN /\ forall tc,
  springs ex_eig elim_solve (ex_t p tc) L kR kN.
Proof.
  intros HL.
  destruct (beam_exists ex_eig (ex_t 0 0) L "supported" (ex_t_ready _ _ _) HL) as [[z1 B1] [z2 B2]].
  set (p := kn ex_par * (1 + Rabs (z_w (z2 0)))). exists p.
  pose proof (Rabs_pos (z_w (z2 0))) as W0. pose proof (Rle_abs (- z_w (z2 0))) as W. rewrite Rabs_Ropp in W.
  assert (Hp : 0 < p) by (unfold p; apply Rmult_lt_0_compat; [simpl; lra|lra]).
  assert (HS : 0 < z_w (z2 0) + calc_qn (ex_t p 0) / kn ex_par).
  { destruct (ex_q p 0 Hp) as [_ Q].
    assert (1 + Rabs (z_w (z2 0)) < calc_qn (ex_t p 0) / kn ex_par).
    { apply (Rmult_lt_reg_l (kn ex_par)); [simpl; lra|]. fold p.
      replace (kn ex_par * (calc_qn (ex_t p 0) / kn ex_par)) with (calc_qn (ex_t p 0)) by (field; simpl; lra). exact Q. }
    lra. }
  exists (1 / - z_psi (z1 0)), (Rabs (1 / (z_w (z2 0) + calc_qn (ex_t p 0) / kn ex_par))).
  split; [exact Hp|]. split; [|split; [|intros tc; split]].
  - destruct (sub_rot ex_eig elim_solve (ex_t p 0) L "supported" z1 elim_sound elim_complete (ex_t_ready _ _ _) HL B1) as [H _].
    apply Rdiv_lt_0_compat; lra.
  - apply Rabs_pos_lt. apply Rgt_not_eq. apply Rdiv_lt_0_compat; lra.
  - apply (sub_rot ex_eig elim_solve (ex_t p tc) L "supported" z1 elim_sound elim_complete (ex_t_ready _ _ _) HL B1).
  - apply (sub_trans ex_eig elim_solve (ex_t p tc) L "supported" z2 elim_sound elim_complete (ex_t_ready _ _ _) HL B2).
Qed.
Lemma ex_rest_spring L : 0 < L -> exists kT, 0 < kT /\ forall p tc,
  fst (substitute_stiffness ex_eig elim_solve (ex_t p tc) L "rested" "rot") = Ok kT.
Proof.
  intros HL.
  destruct (beam_exists ex_eig (ex_t 0 0) L "rested" (ex_t_ready _ _ _) HL) as [[z1 B1] _].
  eexists. split; [|intros p tc].
  2:{ apply (sub_rot ex_eig elim_solve (ex_t p tc) L "rested" z1 elim_sound elim_complete (ex_t_ready _ _ _) HL B1). }
  destruct (sub_rot ex_eig elim_solve (ex_t 0 0) L "rested" z1 elim_sound elim_complete (ex_t_ready _ _ _) HL B1) as [H _].
  apply Rdiv_lt_0_compat; lra.
Qed.
(** The contact polynomial vanishes for a suitable crack height. *)
Lemma lC_root bs ss q kR kN kT x : 0 < bs -> 0 < ss -> 0 < kR -> 0 < kN -> 0 <= kT -> 0 < x ->
  exists tc, poly_lC bs ss q tc kR kN kT x = 0.
Proof.
  intros Hb Hs HR HN HT Hx.
  set (Q := 72 * bs * ss ^ 2 * kR * kN * x ^ 2 + 144 * bs * ss * kN * (bs * ss + kR * kT) * x + 144 * bs ^ 2 * ss * kN * (kR + kT)).
  assert (P : forall tc, poly_lC bs ss q tc kR kN kT x = poly_lC bs ss q 0 kR kN kT x - tc * Q) by (intros; unfold poly_lC, Q; ring).
  assert (HQ : 0 < Q).
  { unfold Q. assert (0 < 72 * bs * ss ^ 2 * kR * kN * x ^ 2).
    { repeat apply Rmult_lt_0_compat; try lra; apply pow_lt; lra. }
    assert (0 <= kR * kT) by (apply Rmult_le_pos; lra). assert (0 < bs * ss) by (apply Rmult_lt_0_compat; lra).
    assert (0 < 144 * bs * ss * kN * (bs * ss + kR * kT) * x) by (repeat apply Rmult_lt_0_compat; lra).
    assert (0 < 144 * bs ^ 2 * ss * kN * (kR + kT)) by (repeat apply Rmult_lt_0_compat; try lra; apply pow_lt; lra). lra. }
  exists (poly_lC bs ss q 0 kR kN kT x / Q). rewrite P. field. lra.
Qed.
Lemma ex_full_contact : exists p tc,
  calc_a2 ex_eig elim_solve ex_brent 100 (ex_t p tc) = (Ok (10 / 1000), ex_t p tc).
Proof.
  destruct (ex_springs (10 - 10 / 1000) ltac:(lra)) as (p & kR & kN & Hp & HR & HN & HS).
  destruct (lC_root (bs_of ex_par) (kA55 ex_par) (calc_qn (ex_t p 0)) kR kN 0 (10 / 1000) (bs_pos _ ex_lam_ok) (ss_pos _ ex_lam_ok) HR HN
    ltac:(lra) ltac:(lra)) as [tc Htc].
  exists p, tc. unfold calc_a2. change (o_L (ex_t p tc)) with (Some 10). cbv iota beta.
  apply ex_brentq_zero; [lra|]. unfold sbind, sret, sub. destruct (HS tc) as [F G].
  assert (Fo : fresh ex_eig (ex_t p tc)) by reflexivity.
  destruct (substitute_stiffness ex_eig elim_solve (ex_t p tc) (10 - 10 / 1000) "supported" "rot") as [r1 o1] eqn:E1. cbn [fst] in F. subst r1.
  pose proof (sub_restores ex_eig elim_solve _ _ _ _ _ _ Fo E1) as ->.
  destruct (substitute_stiffness ex_eig elim_solve (ex_t p tc) (10 - 10 / 1000) "supported" "trans") as [r2 o2] eqn:E2. cbn [fst] in G. subst r2.
  pose proof (sub_restores ex_eig elim_solve _ _ _ _ _ _ Fo E2) as ->.
  f_equal. f_equal. rewrite poly_a2_is_lC. exact Htc.
Qed.
Lemma ex_contact_length : exists p tc,
  calc_lC ex_eig elim_solve ex_brent 100 (ex_t p tc) = (Ok (2 / 1000), ex_t p tc).
Proof.
  destruct (ex_springs (10 - 2) ltac:(lra)) as (p & kR & kN & Hp & HR & HN & HS).
  destruct (ex_rest_spring (2 - 2 / 1000) ltac:(lra)) as (kT & HT & HS').
  destruct (lC_root (bs_of ex_par) (kA55 ex_par) (calc_qn (ex_t p 0)) kR kN kT (2 / 1000) (bs_pos _ ex_lam_ok) (ss_pos _ ex_lam_ok) HR HN
    ltac:(lra) ltac:(lra)) as [tc Htc].
  exists p, tc. unfold calc_lC. change (o_L (ex_t p tc)) with (Some 10). change (o_a (ex_t p tc)) with 2. cbv iota beta zeta.
  apply ex_brentq_zero; [lra|]. unfold sbind, sret, sub. destruct (HS tc) as [F G]. specialize (HS' p tc).
  assert (Fo : fresh ex_eig (ex_t p tc)) by reflexivity.
  destruct (substitute_stiffness ex_eig elim_solve (ex_t p tc) (10 - 2) "supported" "rot") as [r1 o1] eqn:E1. cbn [fst] in F. subst r1.
  pose proof (sub_restores ex_eig elim_solve _ _ _ _ _ _ Fo E1) as ->.
  destruct (substitute_stiffness ex_eig elim_solve (ex_t p tc) (10 - 2) "supported" "trans") as [r2 o2] eqn:E2. cbn [fst] in G. subst r2.
  pose proof (sub_restores ex_eig elim_solve _ _ _ _ _ _ Fo E2) as ->.
  destruct (substitute_stiffness ex_eig elim_solve (ex_t p tc) (2 - 2 / 1000) "rested" "rot") as [r3 o3] eqn:E3. cbn [fst] in HS'. subst r3.
  pose proof (sub_restores ex_eig elim_solve _ _ _ _ _ _ Fo E3) as ->.
  f_equal. f_equal. exact Htc.
Qed.
