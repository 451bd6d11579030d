(** C109: cracks just beyond full contact cannot be analysed. *)
From Coq Require Import Lra Lia Ranalysis5.
From Coquelicot Require Import Coquelicot.
Require Import Verif.Py Verif.MTools Verif.MEigen Verif.MFields Verif.MRaster Verif.MSolution Verif.SAdm Verif.SSlab Verif.SBeam Verif.SBvp Verif.SEig
  Verif.SExact Verif.SContact Verif.SRegular Verif.SRun Verif.SWindow Verif.PLam Verif.PSetup Verif.PLinAlg Verif.PSub Verif.PTouch Verif.PExact Verif.PExact2
  Verif.PRegular Verif.PRegular2 Verif.PropRegular Verif.PContact Verif.PContact2 Verif.PContact3 Verif.PCreate Verif.PropRun Verif.PExcept Verif.PropExcept Verif.PRigid Verif.PropRigid
  Verif.PWindow Verif.PWindow2 Verif.PropWindow Verif.PGap Verif.PGap2 Verif.PGap3.
Open Scope R_scope.

(** The springs depend continuously on the length they replace. *)
Theorem C109_springs eig solve o support dof : sound_solver solve -> complete_solver solve -> substitute_ready eig o support ->
  dof = "rot"%string \/ dof = "trans"%string ->
  exists k : R -> R, (forall l, 0 < l -> fst (substitute_stiffness eig solve o l support dof) = Ok (k l)) /\
  forall l0, 0 < l0 -> 0 < k l0 -> forall e, 0 < e -> exists d, 0 < d /\ forall l, Rabs (l - l0) < d -> Rabs (k l - k l0) < e.
Proof.
  intros Hso Hco Hsr Hd. exists (spring_of eig solve o support dof). split.
  - intros l Hl. rewrite (top_spring eig solve Hso Hco o support dof Hsr Hd l Hl).
    destruct (subst_ready eig o support dof Hsr Hd) as (Hr & _).
    destruct (sub_solver_returns eig solve o l support dof Hso Hco Hsr Hl Hd) as (C0 & C1 & L6 & E).
    rewrite (sub_unfold eig solve o l support dof C0 C1 Hd Hr Hl L6 E). unfold top_of. rewrite E. reflexivity.
  - intros l0 H0 Hk e He. pose proof (spring_continuous eig solve Hso Hco o support dof Hsr Hd l0 H0 Hk) as C.
    destruct (C (fun y => Rabs (y - spring_of eig solve o support dof l0) < e)) as [[d Pd] H].
    { exists (mkposreal e He). intros y Hy. exact Hy. }
    exists d. split; [exact Pd|]. intros l Hl. apply (H l). exact Hl.
Qed.
Print Assumptions C109_springs.

Lemma thresholds eig solve o L s phi cf ratio :
  sound_solver solve -> complete_solver solve -> substitute_ready eig o "supported" ->
  let q := slope_load o phi in let tc := fall o cf in let o0 := attributes_of o L 0 cf phi ratio in
  0 < q -> 0 < tc -> 0 <= level_load o -> never_hidden o L -> 0 < s <= 999 / 1000 * L ->
  droop o s (L / 1000) < tc / q -> 72 * bending (o_par o) * tc <= q * (999 / 1000 * L) ^ 4 ->
  exists b1 b2, L / 1000 < b1 < b2 /\ b2 < 999 / 1000 * L /\ a1_of eig solve o0 L b1 = 0 /\ a2_of eig solve o0 L b1 <> 0 /\ a2_of eig solve o0 L b2 = 0.
Proof.
  intros Hso Hco Hs q tc o0 Hq Ht H0 Hn Hl Hd Hlg.
  destruct (a2_ends eig solve Hso Hco o0 L s Hs Hn H0 Hq Ht Hl Hd Hlg) as [E1 E2].
  destruct (a1_ends eig solve Hso Hco o0 L s Hs Hn H0 Hq Ht Hl Hd Hlg) as [F1 F2].
  assert (HL : 0 < L) by lra.
  assert (cpt : forall f x, continuous f x -> continuity_pt f x) by (intros f x C; apply continuity_pt_filterlim; exact C).
  assert (A1 : forall b, 0 < b < L -> a2_of eig solve o0 L b = 0 -> 0 < a1_of eig solve o0 L b).
  { intros b Pb Z. destruct (kn_pos eig solve Hso Hco o0 L Hs Hn H0 b Pb) as [K N]. unfold a1_of.
    apply a2_after_a1; trivial; [rewrite bs_bend; exact (bend_pos _ (proj1 (proj1 Hs)))|exact (ss_pos _ (proj1 (proj1 Hs)))|lra]. }
  destruct (IVT_interv (a2_of eig solve o0 L) (L / 1000) (999 / 1000 * L)) as (b2 & B2 & Z2); trivial; [|lra|].
  { intros x Hx. apply cpt, (a2_continuous eig solve Hso Hco o0 L Hs Hn H0). lra. }
  assert (N1 : b2 <> L / 1000) by (intros ->; lra). assert (N2 : b2 <> 999 / 1000 * L) by (intros ->; lra).
  pose proof (A1 b2 ltac:(lra) Z2).
  destruct (IVT_interv (a1_of eig solve o0 L) (L / 1000) b2) as (b1 & B1 & Z1); trivial; [|lra|].
  { intros x Hx. apply cpt, (a1_continuous eig solve Hso Hco o0 L Hs Hn H0). lra. }
  assert (N3 : b1 <> L / 1000) by (intros ->; lra). assert (N4 : b1 <> b2) by (intros ->; lra).
  exists b1, b2. split; [lra|]. split; [lra|]. split; [exact Z1|]. split; [|exact Z2].
  intros Z. pose proof (A1 b1 ltac:(lra) Z). lra.
Qed.
(** In the window of C108 there are crack lengths of first contact (the free tip reaches the ground) and, beyond, of full
    contact. *)
Theorem C109_exists eig solve o L s phi cf :
  sound_solver solve -> complete_solver solve -> substitute_ready eig o "supported" ->
  let p := o_par o in let q := slope_load o phi in let tc := fall o cf in
  0 < q -> 0 < tc -> 0 <= level_load o -> never_hidden o L -> 0 < s <= 999 / 1000 * L ->
  droop o s (L / 1000) < tc / q -> 72 * bending p * tc <= q * (999 / 1000 * L) ^ 4 ->
  exists b1 b2, L / 1000 < b1 < b2 /\ b2 < 999 / 1000 * L /\ full_contact_at eig solve o L q tc b2 /\
  exists kR kN z, fst (substitute_stiffness eig solve o (L - b1) "supported" "rot") = Ok kR /\
    fst (substitute_stiffness eig solve o (L - b1) "supported" "trans") = Ok kN /\ 0 < kR /\ 0 < kN /\
    hanging_beam p q kR kN b1 z /\ free_tip p b1 z /\ z_w (z b1) = tc.
Proof.
  intros Hso Hco Hs p q tc Hq Ht H0 Hn Hl Hd Hlg. set (o0 := attributes_of o L 0 cf phi 1).
  destruct (thresholds eig solve o L s phi cf 1 Hso Hco Hs Hq Ht H0 Hn Hl Hd Hlg) as (b1 & b2 & B1 & B2 & Z1 & _ & Z2).
  assert (Pb : 0 < b2 < L) by lra.
  exists b1, b2. split; [lra|]. split; [lra|]. split.
  - apply (full_root eig solve Hso Hco o L phi cf 1 Hs Hn H0 b2 Pb). exact Z2.
  - destruct (kn_pos eig solve Hso Hco o L Hs Hn H0 b1 ltac:(lra)) as [K1 M1].
    destruct (spring_rot eig solve Hso Hco o "supported" (L - b1) Hs ltac:(lra)) as (G1 & _).
    destruct (spring_trans eig solve Hso Hco o (L - b1) L Hs ltac:(lra) Hn H0) as (G2 & _).
    destruct (free_tip_exists p q _ _ b1 (proj1 (proj1 Hs)) K1 M1 ltac:(lra)) as (z & HB & HT).
    exists (spring_of eig solve o "supported" "rot" (L - b1)), (spring_of eig solve o "supported" "trans" (L - b1)), z.
    rewrite G1, G2. repeat (split; [assumption || reflexivity|]).
    unfold a1_of in Z1. unfold o0 in Z1.
    rewrite (proj1 (spring_same eig solve Hso Hco o L phi cf 1 Hs 0 "rot" (L - b1) (or_introl eq_refl) ltac:(lra))),
      (proj1 (spring_same eig solve Hso Hco o L phi cf 1 Hs 0 "trans" (L - b1) (or_intror eq_refl) ltac:(lra))) in Z1.
    pose proof (poly_a1_meaning p (proj1 (proj1 Hs)) q _ _ b1 K1 M1 ltac:(lra) z HB tc ltac:(lra) HT) as Me.
    fold o0 in Z1. change (o_par o0) with p in Z1. change (calc_qn o0) with q in Z1. change (o_tc o0) with tc in Z1. rewrite Z1 in Me. lra.
Qed.
Print Assumptions C109_exists.

(** C109: around every crack length of full contact the analysis fails in stage C: the tip spring and the contact length
    are sought between a thousandth and 999 thousandths of the crack, but the contact length is longer. *)
Theorem C109_gap eig solve brent maxeval o L phi cf ratio b :
  sound_solver solve -> complete_solver solve -> rejects_equal_signs brent -> (2 <= maxeval)%nat ->
  substitute_ready eig o "supported" -> substitute_ready eig (set_stiffness_ratio ratio o) "rested" -> o_touchdown o = true ->
  let p := o_par o in let q := slope_load o phi in let tc := fall o cf in
  0 < q -> 0 < tc -> 0 <= level_load o -> never_hidden o L -> 0 < b < L ->
  full_contact_at eig solve o L q tc b -> ratio * kn p * b ^ 2 < 12000000 * kA55 p ->
  exists e, 0 < e /\ forall li mi ki k0 a m a1 a2, Rabs (a - b) < e ->
    fst (calc_a1 eig solve brent maxeval (set_touchdown_attributes L a cf phi ratio o)) = Ok a1 ->
    fst (calc_a2 eig solve brent maxeval (set_touchdown_attributes L a cf phi ratio o)) = Ok a2 -> a1 < a -> a2 < a ->
    fst (calc_segments eig solve brent maxeval li mi ki k0 L a m phi cf ratio o) = Err ValueError.
Proof.
  intros Hso Hco Hrj Hme Hs Hr Htd p q tc Hq Ht H0 Hn Hb Hf Hm.
  apply (full_root eig solve Hso Hco o L phi cf ratio Hs Hn H0 b Hb) in Hf.
  destruct (no_contact_length eig solve brent maxeval Hso Hco o L phi cf ratio Hs Hn H0 Hq b Hr Hrj Hme Hb Hf Hm) as (e & He & P).
  exists e. split; [exact He|]. intros li mi ki k0 a m a1 a2 Ha E1 E2 H1 H2. destruct (P a Ha) as (_ & EC).
  exact (call_fails eig solve brent maxeval o L phi cf ratio Hs li mi ki k0 a m a1 a2 Htd E1 E2 H1 H2 EC).
Qed.
Print Assumptions C109_gap.

(** With thresholds found exactly, the cracks that fail start right behind the threshold of stage C. *)
Theorem C109_beyond eig solve brent maxeval o L phi cf ratio a0 a1 a2 :
  sound_solver solve -> complete_solver solve -> rejects_equal_signs brent -> returns_sign_change brent 0 -> (2 <= maxeval)%nat ->
  substitute_ready eig o "supported" -> substitute_ready eig (set_stiffness_ratio ratio o) "rested" -> o_touchdown o = true ->
  let p := o_par o in let q := slope_load o phi in let tc := fall o cf in
  0 < L -> 0 < q -> 0 < tc -> 0 <= level_load o -> never_hidden o L ->
  fst (calc_a1 eig solve brent maxeval (set_touchdown_attributes L a0 cf phi ratio o)) = Ok a1 ->
  fst (calc_a2 eig solve brent maxeval (set_touchdown_attributes L a0 cf phi ratio o)) = Ok a2 ->
  ratio * kn p * a2 ^ 2 < 12000000 * kA55 p ->
  exists e, 0 < e /\ forall li mi ki k0 a m, a1 < a -> a2 < a < a2 + e ->
    fst (calc_segments eig solve brent maxeval li mi ki k0 L a m phi cf ratio o) = Err ValueError.
Proof.
  intros Hso Hco Hrj Hrs Hme Hs Hr Htd p q tc HL Hq Ht H0 Hn E1 E2 Hm. rewrite attributes_eq in E1, E2.
  assert (Hfa : fresh eig (attributes_of o L a0 cf phi ratio)) by exact (proj1 (proj2 Hs)).
  destruct (calc_a2 eig solve brent maxeval (attributes_of o L a0 cf phi ratio)) as [r2 o2] eqn:F2. cbn [fst] in E2. subst r2.
  destruct (full_contact eig solve brent maxeval (attributes_of o L a0 cf phi ratio) a2 o2 0 L (proj1 (proj1 Hs)) Hfa Hrs eq_refl HL F2) as (x1 & x2 & D1 & D2 & X1 & X2 & V1 & V2).
  assert (x1 = a2) by (pose proof (Rle_abs (x1 - a2)); pose proof (Rabs_pos (x1 - a2)); assert (Z : Rabs (x1 - a2) = 0) by lra;
    apply Rminus_diag_uniq; destruct (Req_dec (x1 - a2) 0) as [|C]; [assumption|apply Rabs_no_R0 in C; contradiction]).
  assert (x2 = a2) by (pose proof (Rle_abs (x2 - a2)); pose proof (Rabs_pos (x2 - a2)); assert (Z : Rabs (x2 - a2) = 0) by lra;
    apply Rminus_diag_uniq; destruct (Req_dec (x2 - a2) 0) as [|C]; [assumption|apply Rabs_no_R0 in C; contradiction]).
  subst x1 x2.
  destruct (kn_pos eig solve Hso Hco o L Hs Hn H0 a2 X1) as [K N].
  destruct (spring_rot eig solve Hso Hco o "supported" (L - a2) Hs ltac:(lra)) as (G1 & _).
  destruct (spring_trans eig solve Hso Hco o (L - a2) L Hs ltac:(lra) Hn H0) as (G2 & _).
  assert (Sp : forall kR kN, springs eig solve (attributes_of o L a0 cf phi ratio) (L - a2) kR kN ->
    kR = spring_of eig solve o "supported" "rot" (L - a2) /\ kN = spring_of eig solve o "supported" "trans" (L - a2)).
  { intros kR kN [S1 S2].
    rewrite <- (proj1 (spring_same eig solve Hso Hco o L phi cf ratio Hs a0 "rot" (L - a2) (or_introl eq_refl) ltac:(lra))),
      <- (proj1 (spring_same eig solve Hso Hco o L phi cf ratio Hs a0 "trans" (L - a2) (or_intror eq_refl) ltac:(lra))).
    unfold spring_of. rewrite S1, S2. split; reflexivity. }
  destruct V1 as (kR & kN & S1 & V1). destruct (Sp _ _ S1) as [-> ->]. destruct V2 as (kR & kN & S2 & V2). destruct (Sp _ _ S2) as [-> ->].
  destruct (contact_tip_exists p q _ _ 0 tc a2 (proj1 (proj1 Hs)) K N ltac:(lra) ltac:(lra)) as (z & HB & HC).
  specialize (V1 z K N HB HC). specialize (V2 z K N HB HC).
  assert (Hf : full_contact_at eig solve o L q tc a2).
  { exists (spring_of eig solve o "supported" "rot" (L - a2)), (spring_of eig solve o "supported" "trans" (L - a2)), z.
    rewrite G1, G2. repeat (split; [assumption || reflexivity|]). lra. }
  destruct (C109_gap eig solve brent maxeval o L phi cf ratio a2 Hso Hco Hrj Hme Hs Hr Htd Hq Ht H0 Hn X1 Hf Hm) as (e & He & P).
  exists e. split; [exact He|]. intros li mi ki k0 a m B1 B2. apply (P li mi ki k0 a m a1 a2); try lra.
  - apply Rabs_def1; lra.
  - rewrite attributes_eq, (attributes_cut o L a a0 cf phi ratio), calc_a1_cut. exact E1.
  - rewrite attributes_eq, (attributes_cut o L a a0 cf phi ratio), calc_a2_cut, F2. reflexivity.
Qed.
Print Assumptions C109_beyond.

(** A root finder that knows two candidates, for the witness. *)
Definition pick (b1 b2 lo hi : R) (hist : list (R * R)) : bstep :=
  match hist with
  | [] => BEval lo
  | [_] => BEval hi
  | [(_, w); (_, v)] => if Rlt_dec 0 (v * w) then BFail else BEval b1
  | [(x, v); _; _] => if Req_EM_T v 0 then if Rle_dec lo x then if Rle_dec x hi then BRet x else BFail else BFail else BEval b2
  | (x, v) :: _ => if Req_EM_T v 0 then if Rle_dec lo x then if Rle_dec x hi then BRet x else BFail else BFail else BFail
  end.
Lemma pick_rejects b1 b2 : rejects_equal_signs (pick b1 b2).
Proof.
  intros lo hi. split; [reflexivity|]. split; [reflexivity|]. intros v w H. simpl. destruct (Rlt_dec 0 (v * w)); [reflexivity|contradiction].
Qed.
Lemma pick_returns b1 b2 lo hi hist r : pick b1 b2 lo hi hist = BRet r -> In (r, 0) hist /\ lo <= r <= hi.
Proof.
  destruct hist as [|[x v] [|[x' v'] [|z [|z' h]]]]; simpl; try discriminate.
  - destruct (Rlt_dec 0 (v' * v)); discriminate.
  - destruct (Req_EM_T v 0), (Rle_dec lo x), (Rle_dec x hi); try discriminate. intros [= ->]. subst v. split; [left; reflexivity|lra].
  - destruct (Req_EM_T v 0), (Rle_dec lo x), (Rle_dec x hi); try discriminate. intros [= ->]. subst v. split; [left; reflexivity|lra].
Qed.
Lemma pick_stays b1 b2 : stays_in_bracket (pick b1 b2).
Proof. intros lo hi hist r _ H. exact (proj2 (pick_returns _ _ _ _ _ _ H)). Qed.
Lemma pick_change b1 b2 : returns_sign_change (pick b1 b2) 0.
Proof.
  intros lo hi hist r H. destruct (pick_returns _ _ _ _ _ _ H) as [I B]. exists r, 0, r, 0.
  replace (r - r) with 0 by ring. rewrite Rabs_R0. repeat split; trivial; lra.
Qed.
Lemma pick_first b1 b2 n (f : R -> stM R) (g : R -> R) lo hi o : lo < b1 < hi -> (forall x, lo <= x <= hi -> f x o = (Ok (g x), o)) ->
  g lo < 0 < g hi -> g b1 = 0 -> (4 <= n)%nat -> brentq (pick b1 b2) n f lo hi o = (Ok b1, o).
Proof.
  intros Hb E Hg Z Hn. do 4 (destruct n as [|n]; [lia|]). unfold brentq. cbn [brentq_run pick]. rewrite E by lra.
  cbn [brentq_run pick]. rewrite E by lra. cbn [brentq_run pick].
  destruct (Rlt_dec 0 (g lo * g hi)) as [C|_]; [nra|]. rewrite E, Z by lra. cbn [brentq_run pick].
  destruct (Req_EM_T 0 0) as [_|C]; [|lra]. destruct (Rle_dec lo b1) as [_|C]; [|lra]. destruct (Rle_dec b1 hi) as [_|C]; [|lra]. reflexivity.
Qed.
Lemma pick_second b1 b2 n (f : R -> stM R) (g : R -> R) lo hi o : lo < b1 < hi -> lo < b2 < hi -> (forall x, lo <= x <= hi -> f x o = (Ok (g x), o)) ->
  g lo < 0 < g hi -> g b1 <> 0 -> g b2 = 0 -> (4 <= n)%nat -> brentq (pick b1 b2) n f lo hi o = (Ok b2, o).
Proof.
  intros Hb Hc E Hg NZ Z Hn. do 4 (destruct n as [|n]; [lia|]). unfold brentq. cbn [brentq_run pick]. rewrite E by lra.
  cbn [brentq_run pick]. rewrite E by lra. cbn [brentq_run pick].
  destruct (Rlt_dec 0 (g lo * g hi)) as [C|_]; [nra|]. rewrite E by lra. cbn [brentq_run pick].
  destruct (Req_EM_T (g b1) 0) as [C|_]; [contradiction|]. rewrite E, Z by lra. cbn [brentq_run].
  destruct n; cbn [brentq_run pick];
    (destruct (Req_EM_T 0 0) as [_|C]; [|lra]); (destruct (Rle_dec lo b2) as [_|C]; [|lra]); (destruct (Rle_dec b2 hi) as [_|C]; [|lra]); reflexivity.
Qed.

(** Five metres of the default slab on level ground: both thresholds are found, and yet no crack a little longer than the
    second is analysed. *)
Theorem C109_refuted : exists o ratio b1 b2 e, Layered exact_eig "pst-" (LList []) true = Ok o /\ In ratio [997; 998; 999; 1000] /\
  5 < b1 < b2 /\ b2 < 4995 /\ 0 < e /\ rejects_equal_signs (pick b1 b2) /\ returns_sign_change (pick b1 b2) 0 /\ stays_in_bracket (pick b1 b2) /\
  (forall a, fst (calc_a1 exact_eig elim_solve (pick b1 b2) 102 (set_touchdown_attributes 5000 a (1 / 2) 0 ratio o)) = Ok b1 /\
    fst (calc_a2 exact_eig elim_solve (pick b1 b2) 102 (set_touchdown_attributes 5000 a (1 / 2) 0 ratio o)) = Ok b2) /\
  forall a, b2 < a < b2 + e -> fst (calc_segments exact_eig elim_solve (pick b1 b2) 102 [] [] [] [] 5000 a 0 0 (1 / 2) ratio o) = Err ValueError.
Proof.
  destruct default_window as (o & H & B & Rg & Es & Et & Q & F & Dr & Far & P).
  pose proof (own_ready _ _ exact_dependable B Rg) as Hs.
  destruct (C106_collapsed exact_eig o exact_dependable B (proj1 Hs)) as (l & N & T).
  destruct (four_of_three l N) as (x & I & I').
  assert (Hx : 0 < x <= 1000) by (destruct I as [<-|[<-|[<-|[<-|[]]]]]; lra).
  pose proof (dense_modulus 240 ltac:(lra)) as M1. set (M := bergfeld 240 917 (65 / 10) (44 / 10)) in *.
  assert (Hq : 0 < slope_load o 0) by lra. assert (Ht : 0 < fall o (1 / 2)) by lra.
  assert (H0 : 0 <= level_load o) by (unfold level_load; change (0 <= slope_load o 0); lra).
  assert (Hn : never_hidden o 5000).
  { apply (never_hidden_light exact_eig); [exact Hs|exact H0|]. unfold level_load. change (slope_load o 0 * 5000 < 4). lra. }
  assert (Hlg : 72 * bending (o_par o) * fall o (1 / 2) <= slope_load o 0 * (999 / 1000 * 5000) ^ 4) by (apply Far; lra).
  assert (Hr : substitute_ready exact_eig (set_stiffness_ratio x o) "rested").
  { apply (T x); trivial; [lra|]. rewrite P. unfold plain_par. cbn [kt wt kA55]. fold M. lra. }
  destruct (thresholds exact_eig elim_solve o 5000 300 0 (1 / 2) x elim_sound elim_complete Hs Hq Ht H0 Hn ltac:(lra) Dr Hlg)
    as (b1 & b2 & B1 & B2 & Z1 & NZ & Z2).
  assert (Th : forall a, fst (calc_a1 exact_eig elim_solve (pick b1 b2) 102 (set_touchdown_attributes 5000 a (1 / 2) 0 x o)) = Ok b1 /\
    fst (calc_a2 exact_eig elim_solve (pick b1 b2) 102 (set_touchdown_attributes 5000 a (1 / 2) 0 x o)) = Ok b2).
  { intros a. rewrite attributes_eq, (attributes_cut o 5000 a 0 (1 / 2) 0 x), calc_a1_cut, calc_a2_cut. cbn [fst].
    set (o0 := attributes_of o 5000 0 (1 / 2) 0 x) in *. split.
    - assert (X : calc_a1 exact_eig elim_solve (pick b1 b2) 102 o0 = (Ok b1, o0)); [|rewrite X; reflexivity].
      unfold calc_a1. replace (o_L o0) with (Some 5000) by reflexivity.
      apply (pick_first b1 b2 102 _ (a1_of exact_eig elim_solve o0 5000)); trivial; try lia; try lra.
      + exact (a1_eval exact_eig elim_solve elim_sound elim_complete o0 5000 300 Hs Hn H0 ltac:(lra)).
      + exact (a1_ends exact_eig elim_solve elim_sound elim_complete o0 5000 300 Hs Hn H0 Hq Ht ltac:(lra) Dr Hlg).
    - assert (X : calc_a2 exact_eig elim_solve (pick b1 b2) 102 o0 = (Ok b2, o0)); [|rewrite X; reflexivity].
      unfold calc_a2. replace (o_L o0) with (Some 5000) by reflexivity.
      apply (pick_second b1 b2 102 _ (a2_of exact_eig elim_solve o0 5000)); trivial; try lia; try lra.
      + exact (a2_eval exact_eig elim_solve elim_sound elim_complete o0 5000 300 Hs Hn H0 ltac:(lra)).
      + exact (a2_ends exact_eig elim_solve elim_sound elim_complete o0 5000 300 Hs Hn H0 Hq Ht ltac:(lra) Dr Hlg). }
  assert (Sm : x * kn (o_par o) * b2 ^ 2 < 12000000 * kA55 (o_par o)).
  { rewrite P. unfold plain_par. cbn [kn kA55]. fold M. assert (b2 ^ 2 < 25000000) by nra. nra. }
  destruct (C109_beyond exact_eig elim_solve (pick b1 b2) 102 o 5000 0 (1 / 2) x 0 b1 b2 elim_sound elim_complete (pick_rejects b1 b2)
    (pick_change b1 b2) ltac:(lia) Hs Hr Et ltac:(lra) Hq Ht H0 Hn (proj1 (Th 0)) (proj2 (Th 0)) Sm) as (e & He & W).
  exists o, x, b1, b2, e. split; [exact H|]. split; [exact I|]. split; [lra|]. split; [lra|]. split; [exact He|].
  split; [apply pick_rejects|]. split; [apply pick_change|]. split; [apply pick_stays|]. split; [exact Th|].
  intros a Ha. apply W; [lra|exact Ha].
Qed.
Print Assumptions C109_refuted.

(** The springs of the default slab are positive and continuous at every length. *)
Example C109_example : exists o k, Layered exact_eig "pst-" (LList []) true = Ok o /\
  (forall l, 0 < l -> fst (substitute_stiffness exact_eig elim_solve o l "supported" "rot") = Ok (k l)) /\
  forall l0, 0 < l0 -> 0 < k l0 /\ forall e, 0 < e -> exists d, 0 < d /\ forall l, Rabs (l - l0) < d -> Rabs (k l - k l0) < e.
Proof.
  destruct default_window as (o & H & B & Rg & _).
  pose proof (own_ready _ _ exact_dependable B Rg) as Hs.
  destruct (C109_springs exact_eig elim_solve o "supported" "rot" elim_sound elim_complete Hs (or_introl eq_refl)) as (k & E & C).
  exists o, k. split; [exact H|]. split; [exact E|]. intros l0 H0.
  assert (P : 0 < k l0); [|split; [exact P|exact (C l0 H0 P)]].
  destruct (spring_rot exact_eig elim_solve elim_sound elim_complete o "supported" l0 Hs H0) as (E' & (P & _) & _).
  specialize (E l0 H0). rewrite E' in E. apply Ok_inj in E. rewrite <- E. exact P.
Qed.
(** First and full contact of five metres of the default slab. *)
Example C109_example_exists : exists o b1 b2, Layered exact_eig "pst-" (LList []) true = Ok o /\ 5 < b1 < b2 /\ b2 < 4995 /\
  full_contact_at exact_eig elim_solve o 5000 (slope_load o 0) (fall o (1 / 2)) b2.
Proof.
  destruct default_window as (o & H & B & Rg & Es & Et & Q & F & Dr & Far & P).
  pose proof (own_ready _ _ exact_dependable B Rg) as Hs.
  assert (H0 : 0 <= level_load o) by (unfold level_load; change (0 <= slope_load o 0); lra).
  destruct (C109_exists exact_eig elim_solve o 5000 300 0 (1 / 2) elim_sound elim_complete Hs) as (b1 & b2 & B1 & B2 & Fc & _);
    [lra|lra|exact H0| |lra|exact Dr|apply Far; lra|].
  - apply (never_hidden_light exact_eig); [exact Hs|exact H0|]. unfold level_load. change (slope_load o 0 * 5000 < 4). lra.
  - exists o, b1, b2. split; [exact H|]. split; [lra|]. split; [lra|exact Fc].
Qed.
