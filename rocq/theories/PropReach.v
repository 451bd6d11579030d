(** C110: the lengths that the touchdown analysis computes. *)
From Coq Require Import Lra Lia Ranalysis5.
From Coquelicot Require Import Coquelicot.
Require Import Verif.Py Verif.MTools Verif.MEigen Verif.MFields Verif.MRaster Verif.MSolution Verif.SAdm Verif.SSlab Verif.SBeam Verif.SBvp Verif.SEig
  Verif.SExact Verif.SContact Verif.SRegular Verif.SRun Verif.SWindow Verif.SReach Verif.PLam Verif.PSetup Verif.PLinAlg Verif.PSub Verif.PTouch Verif.PExact Verif.PExact2
  Verif.PRegular Verif.PRegular2 Verif.PropRegular Verif.PContact Verif.PContact2 Verif.PContact3 Verif.PCreate Verif.PropRun Verif.PExcept Verif.PropExcept Verif.PRigid Verif.PropRigid
  Verif.PWindow Verif.PWindow2 Verif.PropWindow Verif.PGap Verif.PGap2 Verif.PGap3 Verif.PropGap Verif.PReach.
Open Scope R_scope.

(** C110: if the root finder brackets sign changes within delta, the thresholds of the stages lie within delta of true
    lengths of first and full contact, and in stage C the unsupported length within delta of one at which the slab comes
    to rest. *)
Theorem C110_lengths eig solve brent maxeval o li mi ki k0 L a m phi cf ratio delta s o' :
  sound_solver solve -> complete_solver solve -> returns_sign_change brent delta ->
  substitute_ready eig o "supported" -> substitute_ready eig (set_stiffness_ratio ratio o) "rested" -> o_touchdown o = true ->
  let q := slope_load o phi in let tc := fall o cf in
  0 < q -> 0 <= level_load o -> never_hidden o L -> 0 < a < L ->
  calc_segments eig solve brent maxeval li mi ki k0 L a m phi cf ratio o = (Ok s, o') ->
  exists t1 t2 b1 b2, Rabs (b1 - t1) <= delta /\ Rabs (b2 - t2) <= delta /\ 0 < b1 < L /\ 0 < b2 < L /\
    first_contact_at eig solve o L q tc b1 /\ full_contact_at eig solve o L q tc b2 /\
    (o_mode o' = Some ModeA <-> a <= t1) /\ (o_mode o' = Some ModeB <-> t1 < a <= t2) /\ (o_mode o' = Some ModeC <-> t1 < a /\ t2 < a) /\
    (o_mode o' = Some ModeC -> exists b, 0 < b < a /\ Rabs (b - o_td o') <= delta /\ rests_at eig solve o ratio L q tc a b).
Proof.
  intros Hso Hco Hrs Hs Hr Htd q tc Hq H0 Hn Ha H. pose proof (proj1 (proj2 Hs)) as Hf.
  unfold calc_segments, calc_touchdown_system, sbind in H. rewrite attributes_eq in H.
  set (oa := attributes_of o L a cf phi ratio) in H.
  assert (Hfa : fresh eig oa) by exact Hf.
  destruct (calc_touchdown_mode eig solve brent maxeval oa) as [[[]|] ob] eqn:E1; [|discriminate].
  destruct (touchdown_mode_ok _ _ _ _ _ _ Hfa E1) as (md & -> & _ & Hm). destruct (Hm Htd) as (t1 & t2 & F1 & F2 & Em).
  assert (Hb : fresh eig (set_mode md oa)) by exact Hf.
  destruct (calc_touchdown_length eig solve brent maxeval (set_mode md oa)) as [[[]|] oc] eqn:E2; [|discriminate].
  destruct (touchdown_length_ok _ _ _ _ _ _ Hb E2) as (td & -> & _ & Ht2).
  injection H; intros <- _.
  destruct (reach_a1 eig solve brent maxeval Hso Hco o L phi cf ratio delta Hs Hn H0 ltac:(lra) Hrs Hq a t1 _ F1) as (b1 & B1 & D1 & C1).
  destruct (reach_a2 eig solve brent maxeval Hso Hco o L phi cf ratio delta Hs Hn H0 ltac:(lra) Hrs a t2 _ F2) as (b2 & B2 & D2 & C2).
  exists t1, t2, b1, b2. split; [exact D1|]. split; [exact D2|]. split; [exact B1|]. split; [exact B2|]. split; [exact C1|]. split; [exact C2|].
  change (o_mode (set_td td (set_mode md oa))) with (Some md). change (o_td (set_td td (set_mode md oa))) with td.
  change (o_a oa) with a in Em. destruct (stage_spec a t1 t2) as (S1 & S2 & S3). rewrite <- Em in S1, S2, S3.
  assert (I : forall x, Some md = Some x <-> md = x) by (intros x; split; [intros [= ->]; reflexivity|intros ->; reflexivity]).
  rewrite !I. split; [exact S1|]. split; [exact S2|]. split; [exact S3|].
  intros ->. specialize (Ht2 eq_refl).
  exact (reach_lC eig solve brent maxeval Hso Hco o L phi cf ratio delta Hs Hn H0 Hrs Hr a td _ Ha Ht2).
Qed.
Print Assumptions C110_lengths.

(** A root finder that knows some candidates, for the example. *)
Definition inside (lo hi x : R) : bool := if Rle_dec lo x then if Rle_dec x hi then true else false else false.
Lemma inside_spec lo hi x : inside lo hi x = true <-> lo <= x <= hi.
Proof. unfold inside. destruct (Rle_dec lo x), (Rle_dec x hi); split; intros H; try reflexivity; try discriminate; lra. Qed.
Definition choose (l : list R) (lo hi : R) (hist : list (R * R)) : bstep :=
  match hist with
  | [] => BEval lo
  | [_] => BEval hi
  | (x, v) :: rest =>
      if Req_EM_T v 0 then if inside lo hi x then BRet x else BFail
      else match nth_error (filter (inside lo hi) l) (List.length rest - 1) with Some y => BEval y | None => BFail end
  end.
Lemma choose_change l : returns_sign_change (choose l) 0.
Proof.
  intros lo hi hist r H. assert (In (r, 0) hist /\ lo <= r <= hi) as [I B].
  { destruct hist as [|[x v] [|z h]]; try discriminate. cbn [choose] in H.
    destruct (Req_EM_T v 0) as [->|_].
    - destruct (inside lo hi x) eqn:E; [|discriminate]. injection H; intros <-. split; [left; reflexivity|apply inside_spec; exact E].
    - destruct (nth_error _ _); discriminate. }
  exists r, 0, r, 0. replace (r - r) with 0 by ring. rewrite Rabs_R0. repeat split; trivial; lra.
Qed.
Lemma choose_run lo hi (f : R -> stM R) (g : R -> R) o l0 : (forall x, lo <= x <= hi -> f x o = (Ok (g x), o)) ->
  forall todo done hist n, filter (inside lo hi) l0 = done ++ todo -> (List.length hist = 2 + List.length done)%nat ->
  match hist with (x, v) :: _ => v <> 0 | [] => False end -> (exists c, In c todo /\ g c = 0) -> (List.length todo <= n)%nat ->
  exists pre r post, todo = pre ++ r :: post /\ Forall (fun c => g c <> 0) pre /\ g r = 0 /\ brentq_run (choose l0) n f lo hi hist o = (Ok r, o).
Proof.
  intros E. induction todo as [|y todo IH]; intros done hist n Ef Ln Nz (c & Ic & Zc) Hn; [destruct Ic|].
  assert (By : lo <= y <= hi).
  { apply inside_spec. apply (filter_In (inside lo hi) y l0). rewrite Ef. apply in_or_app. right. left. reflexivity. }
  destruct hist as [|[x v] [|z h]]; [destruct Nz|discriminate|].
  assert (Ch : choose l0 lo hi ((x, v) :: z :: h) = BEval y).
  { cbn [choose]. destruct (Req_EM_T v 0) as [C|_]; [contradiction|]. rewrite Ef.
    replace (List.length (z :: h) - 1)%nat with (List.length done) by (simpl in Ln |- *; lia).
    rewrite nth_error_app2, Nat.sub_diag by lia. reflexivity. }
  destruct n as [|n]; [simpl in Hn; lia|]. cbn [brentq_run]. rewrite Ch, E by exact By.
  destruct (Req_dec (g y) 0) as [Zy|Ny].
  - exists [], y, todo. split; [reflexivity|]. split; [constructor|]. split; [exact Zy|]. rewrite Zy.
    assert (Cr : choose l0 lo hi ((y, 0) :: (x, v) :: z :: h) = BRet y).
    { cbn [choose]. destruct (Req_EM_T 0 0) as [_|C]; [|lra]. rewrite (proj2 (inside_spec lo hi y) By). reflexivity. }
    destruct n; cbn [brentq_run]; rewrite Cr; reflexivity.
  - destruct (IH (done ++ [y]) ((y, g y) :: (x, v) :: z :: h) n) as (pre & r & post & Et & Fp & Zr & Er).
    + rewrite Ef, <- app_assoc. reflexivity.
    + rewrite app_length. simpl in Ln |- *. lia.
    + exact Ny.
    + exists c. split; [|exact Zc]. destruct Ic as [->|Ic]; [contradiction|exact Ic].
    + simpl in Hn. lia.
    + exists (y :: pre), r, post. split; [rewrite Et; reflexivity|]. split; [constructor; assumption|]. split; assumption.
Qed.
Lemma choose_finds l n (f : R -> stM R) (g : R -> R) lo hi o : lo <= hi -> (forall x, lo <= x <= hi -> f x o = (Ok (g x), o)) ->
  g lo < 0 < g hi -> (exists c, In c l /\ lo <= c <= hi /\ g c = 0) -> (2 + List.length l <= n)%nat ->
  exists pre r post, filter (inside lo hi) l = pre ++ r :: post /\ Forall (fun c => g c <> 0) pre /\ g r = 0 /\ lo <= r <= hi /\ brentq (choose l) n f lo hi o = (Ok r, o).
Proof.
  intros Hlh E Hg (c & Ic & Bc & Zc) Hn. destruct n as [|[|n]]; [lia|lia|]. unfold brentq. cbn [brentq_run choose]. rewrite E by lra.
  cbn [brentq_run choose]. rewrite E by lra.
  destruct (choose_run lo hi f g o l E (filter (inside lo hi) l) [] [(hi, g hi); (lo, g lo)] n eq_refl eq_refl) as (pre & r & post & Et & Fp & Zr & Er).
  - lra.
  - exists c. split; [|exact Zc]. apply filter_In. split; [exact Ic|apply inside_spec; exact Bc].
  - assert (List.length (filter (inside lo hi) l) <= List.length l)%nat by (clear; induction l as [|y l IH]; simpl; [lia|destruct (inside lo hi y); simpl; lia]). lia.
  - exists pre, r, post. split; [exact Et|]. split; [exact Fp|]. split; [exact Zr|]. split; [|exact Er].
    apply inside_spec. apply (filter_In (inside lo hi) r l). rewrite Et. apply in_or_app. right. left. reflexivity.
Qed.

(** Five metres of the default slab, cut three metres deep, with an exact root finder: stage C, and the computed length is
    one at which the slab comes to rest. *)
Example C110_example : exists o ratio l s o', Layered exact_eig "pst-" (LList []) true = Ok o /\ In ratio [997; 998; 999; 1000] /\
  returns_sign_change (choose l) 0 /\ calc_segments exact_eig elim_solve (choose l) 102 [] [] [] [] 5000 3000 0 0 (1 / 2) ratio o = (Ok s, o') /\
  o_mode o' = Some ModeC /\ rests_at exact_eig elim_solve o ratio 5000 (slope_load o 0) (fall o (1 / 2)) 3000 (o_td o').
Proof.
  destruct default_window as (o & H & B & Rg & Es & Et & Q & F & Dr & Far & P).
  pose proof (own_ready _ _ exact_dependable B Rg) as Hs.
  destruct (C106_collapsed exact_eig o exact_dependable B (proj1 Hs)) as (lr & N & T).
  destruct (four_of_three lr N) as (x & I & I').
  assert (Hx : 0 < x <= 1000) by (destruct I as [<-|[<-|[<-|[<-|[]]]]]; lra).
  pose proof (dense_modulus 240 ltac:(lra)) as M1. set (M := bergfeld 240 917 (65 / 10) (44 / 10)) in *.
  assert (Hq : 0 < slope_load o 0) by lra. assert (Ht : 0 < fall o (1 / 2)) by lra.
  assert (H0 : 0 <= level_load o) by (unfold level_load; change (0 <= slope_load o 0); lra).
  assert (Hn : never_hidden o 5000).
  { apply (never_hidden_light exact_eig); [exact Hs|exact H0|]. unfold level_load. change (slope_load o 0 * 5000 < 4). lra. }
  assert (Hlg : 72 * bending (o_par o) * fall o (1 / 2) <= slope_load o 0 * (999 / 1000 * 5000) ^ 4) by (apply Far; lra).
  assert (Hr : substitute_ready exact_eig (set_stiffness_ratio x o) "rested").
  { apply (T x); trivial; [lra|]. rewrite P. unfold plain_par. cbn [kt wt kA55]. fold M. lra. }
  set (oa := attributes_of o 5000 3000 (1 / 2) 0 x). set (oC := set_mode ModeC oa).
  assert (cpt : forall f y, continuous f y -> continuity_pt f y) by (intros f y C; apply continuity_pt_filterlim; exact C).
  destruct (a1_ends exact_eig elim_solve elim_sound elim_complete oa 5000 300 Hs Hn H0 Hq Ht ltac:(lra) Dr Hlg) as [F1 F2].
  destruct (a2_ends exact_eig elim_solve elim_sound elim_complete oa 5000 300 Hs Hn H0 Hq Ht ltac:(lra) Dr Hlg) as [F3 F4].
  assert (Kp : forall b, 0 < b < 5000 -> 0 < spring_of exact_eig elim_solve oa "supported" "rot" (5000 - b) /\ 0 < spring_of exact_eig elim_solve oa "supported" "trans" (5000 - b))
    by (intros b Hb; exact (kn_pos exact_eig elim_solve elim_sound elim_complete oa 5000 Hs Hn H0 b Hb)).
  assert (A1 : forall b, 0 < b < 5000 -> a2_of exact_eig elim_solve oa 5000 b = 0 -> 0 < a1_of exact_eig elim_solve oa 5000 b).
  { intros b Pb Z. destruct (Kp b Pb) as [K N']. unfold a1_of.
    apply a2_after_a1; trivial; [rewrite bs_bend; exact (bend_pos _ (proj1 (proj1 Hs)))|exact (ss_pos _ (proj1 (proj1 Hs)))|lra]. }
  assert (F5 : 0 < a2_of exact_eig elim_solve oa 5000 2700).
  { destruct (Kp 2700 ltac:(lra)) as [K N']. unfold a2_of. rewrite a2_parts. apply Rgt_minus.
    apply (above (bs_of (o_par oa)) (kA55 (o_par oa)) (calc_qn oa) (o_tc oa)); trivial;
      [rewrite bs_bend; exact (bend_pos _ (proj1 (proj1 Hs)))|exact (ss_pos _ (proj1 (proj1 Hs)))|lra|rewrite bs_bend; apply Far; lra]. }
  destruct (IVT_interv (a2_of exact_eig elim_solve oa 5000) (5000 / 1000) 2700) as (b2 & B2 & Z2); trivial; [|lra|].
  { intros y Hy. apply cpt, (a2_continuous exact_eig elim_solve elim_sound elim_complete oa 5000 Hs Hn H0). lra. }
  pose proof (A1 b2 ltac:(lra) Z2) as G2. assert (N1 : b2 <> 5000 / 1000) by (intros ->; lra).
  destruct (IVT_interv (a1_of exact_eig elim_solve oa 5000) (5000 / 1000) b2) as (b1 & B1 & Z1); trivial; [|lra|].
  { intros y Hy. apply cpt, (a1_continuous exact_eig elim_solve elim_sound elim_complete oa 5000 Hs Hn H0). lra. }
  destruct (lC_ends exact_eig elim_solve elim_sound elim_complete oC 5000 300 Hs Hn H0 Hq Ht ltac:(lra) Dr Hr) as [F6 F7];
    [change (0 < 3000 <= 5000 - 300); lra|apply (Far (999 / 1000 * 3000)); lra|].
  change (o_a oC) with 3000 in F6, F7.
  destruct (IVT_interv (lC_of exact_eig elim_solve oC 5000 3000) (3000 / 1000) (999 / 1000 * 3000)) as (b3 & B3 & Z3); trivial; [|lra|].
  { intros y Hy. apply cpt, (lC_continuous exact_eig elim_solve elim_sound elim_complete o 5000 0 (1 / 2) x Hr); lra. }
  set (l := [b1; b2; b3]).
  assert (W1 : exists pre t post, filter (inside (5000 / 1000) (999 / 1000 * 5000)) l = pre ++ t :: post /\ Forall (fun c => a1_of exact_eig elim_solve oa 5000 c <> 0) pre /\ a1_of exact_eig elim_solve oa 5000 t = 0 /\
    5000 / 1000 <= t <= 999 / 1000 * 5000 /\ calc_a1 exact_eig elim_solve (choose l) 102 oa = (Ok t, oa)).
  { unfold calc_a1. replace (o_L oa) with (Some 5000) by reflexivity. apply (choose_finds l 102 _ (a1_of exact_eig elim_solve oa 5000)); [lra| |exact (conj F1 F2)| |simpl; lia].
    - exact (a1_eval exact_eig elim_solve elim_sound elim_complete oa 5000 300 Hs Hn H0 ltac:(lra)).
    - exists b1. split; [left; reflexivity|]. split; [lra|exact Z1]. }
  destruct W1 as (pre1 & t1 & post1 & E1 & Fp1 & Y1 & R1 & X1).
  assert (W2 : exists pre t post, filter (inside (5000 / 1000) (999 / 1000 * 5000)) l = pre ++ t :: post /\ Forall (fun c => a2_of exact_eig elim_solve oa 5000 c <> 0) pre /\ a2_of exact_eig elim_solve oa 5000 t = 0 /\
    5000 / 1000 <= t <= 999 / 1000 * 5000 /\ calc_a2 exact_eig elim_solve (choose l) 102 oa = (Ok t, oa)).
  { unfold calc_a2. replace (o_L oa) with (Some 5000) by reflexivity. apply (choose_finds l 102 _ (a2_of exact_eig elim_solve oa 5000)); [lra| |exact (conj F3 F4)| |simpl; lia].
    - exact (a2_eval exact_eig elim_solve elim_sound elim_complete oa 5000 300 Hs Hn H0 ltac:(lra)).
    - exists b2. split; [right; left; reflexivity|]. split; [lra|exact Z2]. }
  destruct W2 as (pre2 & t2 & post2 & E2 & Fp2 & Y2 & R2 & X2).
  assert (W3 : exists pre t post, filter (inside (3000 / 1000) (999 / 1000 * 3000)) l = pre ++ t :: post /\ Forall (fun c => lC_of exact_eig elim_solve oC 5000 3000 c <> 0) pre /\ lC_of exact_eig elim_solve oC 5000 3000 t = 0 /\
    3000 / 1000 <= t <= 999 / 1000 * 3000 /\ calc_lC exact_eig elim_solve (choose l) 102 oC = (Ok t, oC)).
  { unfold calc_lC. replace (o_L oC) with (Some 5000) by reflexivity. change (o_a oC) with 3000. apply (choose_finds l 102 _ (lC_of exact_eig elim_solve oC 5000 3000)); [lra| |exact (conj F6 F7)| |simpl; lia].
    - intros y Hy. apply (lC_eval exact_eig elim_solve elim_sound elim_complete oC 5000 300 Hs Hn H0 ltac:(lra) y Hr); [change (0 < 3000 <= 5000 - 300); lra|exact Hy].
    - exists b3. split; [right; right; left; reflexivity|]. split; [lra|exact Z3]. }
  destruct W3 as (pre3 & t3 & post3 & E3 & Fp3 & Y3 & R3 & X3).
  assert (In1 : inside (5000 / 1000) (999 / 1000 * 5000) b1 = true) by (apply inside_spec; lra).
  assert (In2 : inside (5000 / 1000) (999 / 1000 * 5000) b2 = true) by (apply inside_spec; lra).
  assert (T1 : t1 < 3000).
  { unfold l in E1. cbn [filter] in E1. rewrite In1 in E1. destruct pre1 as [|c pre1]; [injection E1; intros _ <-; lra|].
    injection E1; intros _ <-. inversion Fp1; subst. contradiction. }
  assert (T2 : t2 < 3000).
  { unfold l in E2. cbn [filter] in E2. rewrite In1, In2 in E2. destruct pre2 as [|c pre2]; [injection E2; intros _ <-; lra|].
    injection E2; intros E2' <-. destruct pre2 as [|d pre2]; [injection E2'; intros _ <-; lra|].
    injection E2'; intros _ <-. inversion Fp2 as [|? ? _ Fp']; subst. inversion Fp'; subst. contradiction. }
  assert (Em : calc_touchdown_mode exact_eig elim_solve (choose l) 102 oa = (Ok tt, oC)).
  { unfold calc_touchdown_mode. replace (o_touchdown oa) with true by (symmetry; exact Et). unfold sbind.
    rewrite X1, X2. change (o_a oa) with 3000. replace (stage 3000 t1 t2) with ModeC by (symmetry; apply stage_spec; lra). reflexivity. }
  assert (Ec : exists s o', calc_segments exact_eig elim_solve (choose l) 102 [] [] [] [] 5000 3000 0 0 (1 / 2) x o = (Ok s, o') /\ o_mode o' = Some ModeC).
  { unfold calc_segments, calc_touchdown_system, sbind. rewrite attributes_eq. fold oa. rewrite Em.
    unfold calc_touchdown_length. replace (o_mode oC) with (Some ModeC) by reflexivity. cbv iota. unfold sbind. rewrite X3.
    unfold segment_lists. change (o_system (set_td t3 oC)) with (o_system o). rewrite Es. cbn [String.eqb Ascii.eqb Bool.eqb]. eexists. eexists. split; [reflexivity|]. reflexivity. }
  destruct Ec as (s & o' & Ec & Mo). exists o, x, l, s, o'. split; [exact H|]. split; [exact I|]. split; [apply choose_change|]. split; [exact Ec|].
  split; [exact Mo|].
  destruct (C110_lengths exact_eig elim_solve (choose l) 102 o [] [] [] [] 5000 3000 0 0 (1 / 2) x 0 s o' elim_sound elim_complete (choose_change l) Hs Hr Et
    Hq H0 Hn ltac:(lra) Ec) as (_ & _ & _ & _ & _ & _ & _ & _ & _ & _ & _ & _ & _ & C).
  destruct (C Mo) as (b & _ & D & Rb).
  assert (b = o_td o') as <-; [|exact Rb]. apply Rminus_diag_uniq. destruct (Req_dec (b - o_td o') 0) as [|Nz]; [assumption|].
  apply Rabs_no_R0 in Nz. pose proof (Rabs_pos (b - o_td o')). lra.
Qed.
