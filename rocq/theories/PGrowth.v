(** Crack growth at either end of a supported segment, and a new crack below a skier. *)
From Coquelicot Require Import Coquelicot.
Require Import Verif.Py Verif.MTools Verif.MEigen Verif.MFields Verif.MRaster Verif.MSolution Verif.MAnalysis
  Verif.SAdm Verif.SBeam Verif.SBvp Verif.SEig Verif.SEnergy Verif.SSplit Verif.PBeam Verif.PBeam2 Verif.PBalance Verif.PBvp Verif.PBvp5 Verif.PWell Verif.PWell2
  Verif.PWell3 Verif.PBvp6 Verif.PMirror Verif.PEnergy Verif.PEnergy2 Verif.PComplete Verif.PDepend Verif.PDepend2 Verif.PSplit Verif.PLimit.
Local Open Scope R_scope.

Lemma last_app_cons {A} (l : list A) x r d : last (l ++ x :: r) d = last (x :: r) d.
Proof. induction l as [|y l IH]; [reflexivity|]. simpl app. rewrite <- IH. simpl. destruct (l ++ x :: r) eqn:E; [destruct l; discriminate|reflexivity]. Qed.

Section Growth.
Variables (o : obj) (kR phi : R) (kd : syskind) (l1 l2 m1 m2 : list R) (k1 k2 : list bool) (x : R) (CB : list (list R)).
Let N := S (S (List.length l1 + List.length l2)).
Hypothesis Hr : ready o.
Hypothesis Hs : stable (o_par o).
Hypothesis Hkd : kind_of (o_system o) = Some kd.
Hypothesis HM : kd = KPst -> o_mode o <> None.
Hypothesis HC : kd = KPst -> o_mode o = Some ModeC -> o_phi o = phi.
Hypothesis HV : kd = KVpst -> o_mode o = None \/ o_mode o = Some ModeA.
Hypothesis HkR : 0 <= kR.
Hypothesis Lm : List.length m1 = List.length l1.
Hypothesis Lk : List.length k1 = List.length l1.
Hypothesis Hinv : ~ invalid_segments (o_system o) (l1 ++ x :: l2) (m1 ++ m2) (k1 ++ true :: k2).
Hypothesis Hx : 0 <= x.
Hypothesis Hp : proper_segments (l1 ++ x :: l2) (k1 ++ true :: k2).
Hypothesis BB : bvp o kR phi (l1 ++ x :: l2) (m1 ++ m2) (k1 ++ true :: k2) CB.
Let base := field o phi x true (nth (List.length l1) CB []).

Lemma base_lengths : List.length k2 = List.length l2 /\ List.length m2 = List.length l2.
Proof.
  assert (A : List.length (l1 ++ x :: l2) = List.length (k1 ++ true :: k2)).
  { destruct (Nat.eq_dec (List.length (l1 ++ x :: l2)) (List.length (k1 ++ true :: k2))); [assumption|].
    exfalso. apply Hinv. right; left. assumption. }
  assert (B : List.length (l1 ++ x :: l2) = S (List.length (m1 ++ m2))).
  { destruct (Nat.eq_dec (List.length (l1 ++ x :: l2)) (S (List.length (m1 ++ m2)))); [assumption|].
    exfalso. apply Hinv. right; right; left. assumption. }
  rewrite !app_length in *. simpl in *. lia.
Qed.
Lemma base_ends : ~ finite_ends (o_system o) -> nth 0 (k1 ++ true :: k2) false = true /\ last (k1 ++ true :: k2) false = true.
Proof.
  intros NF. destruct (nth 0 (k1 ++ true :: k2) false) eqn:E0, (last (k1 ++ true :: k2) false) eqn:EN; try (split; reflexivity);
    exfalso; apply Hinv; right; right; right; (split; [exact NF|auto]).
Qed.

(** The cracked layout in the limit. *)
Variables (a b : R) (ka kb : bool).
Hypothesis Hside : (a = x /\ b = 0 /\ ka = true /\ kb = false /\ l2 <> []) \/ (a = 0 /\ b = x /\ ka = false /\ kb = true /\ l1 <> []).
Let li0 := l1 ++ a :: b :: l2.
Let mi := m1 ++ 0 :: m2.
Let k0 := k1 ++ true :: true :: k2.
Let ki := k1 ++ ka :: kb :: k2.
Let p := List.length l1.
Let q := if ka then S p else p.
Let tipstate := if ka then base x else base 0.

Lemma ab : 0 <= a /\ 0 <= b /\ a + b = x. Proof. destruct Hside as [(-> & -> & _)|(-> & -> & _)]; lra. Qed.
Lemma len0 : List.length li0 = N. Proof. unfold li0, N. rewrite app_length. simpl. lia. Qed.
Lemma lenk0 : List.length k0 = N. Proof. destruct base_lengths as [A _]. unfold k0, N. rewrite app_length. simpl. lia. Qed.
Lemma limit_valid k k' : (k = true \/ k' = true) -> (k = true \/ l1 <> []) -> (k' = true \/ l2 <> []) ->
  ~ invalid_segments (o_system o) li0 mi (k1 ++ k :: k' :: k2).
Proof.
  intros K K1 K2. destruct base_lengths as [A B]. unfold invalid_segments.
  intros [H|[H|[H|[NF H]]]].
  - destruct K as [->| ->].
    + specialize (H true ltac:(apply in_or_app; right; left; reflexivity)). discriminate.
    + specialize (H true ltac:(apply in_or_app; right; right; left; reflexivity)). discriminate.
  - apply H. unfold li0. rewrite !app_length. simpl. lia.
  - apply H. unfold li0, mi. rewrite !app_length. simpl. lia.
  - destruct (base_ends NF) as [E0 EN]. destruct H as [H|H].
    + destruct k1 as [|c k1']; simpl in H, E0; [|congruence]. destruct K1 as [->|K1]; [discriminate|]. destruct l1; [congruence|discriminate].
    + rewrite last_app_cons in H, EN. destruct k2 as [|c k2']; simpl in H, EN.
      * destruct K2 as [->|K2]; [discriminate|]. destruct l2; [congruence|discriminate].
      * destruct k2'; congruence.
Qed.

Lemma growth_limit e : 0 < e -> exists d, 0 < d /\ forall quad t Ca Cb G G1 G2, 0 < t < d -> t <= x ->
  let li := if ka then l1 ++ (x - t) :: t :: l2 else l1 ++ t :: (x - t) :: l2 in
  six_each N Ca -> six_each N Cb -> bvp o kR phi li mi k0 Ca -> bvp o kR phi li mi ki Cb -> accurate_quad quad (d * t) ->
  ginc quad (o_par o) (o_eig o) (loads_of o phi) Ca Cb li ki k0 = Ok (Some G, Some G1, Some G2) ->
  Rabs (G1 - GI (o_par o) tipstate) <= e /\ Rabs (G2 - - GII (o_par o) tipstate) <= e.
Proof.
  intros He. destruct ab as (Ha & Hb & Hab). destruct base_lengths as [Lk2 Lm2].
  pose proof len0 as L0. pose proof lenk0 as Lk0.
  assert (Hp0 : proper_segments li0 k0).
  { apply (split_proper l1 l2 m1 k1 k2 a b true Ha Hb Lm Lk). rewrite Hab. exact Hp. }
  assert (Hv0 : ~ invalid_segments (o_system o) li0 mi k0) by (apply limit_valid; auto).
  assert (Hv1 : ~ invalid_segments (o_system o) li0 mi ki).
  { apply limit_valid; destruct Hside as [(_ & _ & -> & -> & H)|(_ & _ & -> & -> & H)]; auto. }
  assert (HN : (2 <= List.length li0)%nat) by (rewrite L0; unfold N; lia).
  destruct (bvp_exists_unique o (Ok kR) kR phi li0 mi k0 kd Hr Hs HN (proj2 (proj2 (check_iff o li0 mi k0)) Hv0) Hp0 Hkd
    ltac:(intros; split; [reflexivity|apply HC; assumption]) HV HM ltac:(intros r Er; injection Er as <-; exact HkR)) as (C0 & H60 & B0 & _).
  assert (HQ : nth q li0 0 = 0 /\ nth q k0 false = true /\ (0 < q < N - 1)%nat).
  { unfold q, li0, k0. unfold p. destruct Hside as [(_ & -> & -> & -> & H)|(-> & _ & -> & -> & H)].
    - rewrite nth_next. rewrite <- Lk at 1. rewrite nth_next. split; [reflexivity|]. split; [reflexivity|]. unfold N. destruct l2; [congruence|simpl; lia].
    - rewrite nth_at. rewrite <- Lk at 1. rewrite nth_at. split; [reflexivity|]. split; [reflexivity|]. unfold N. destruct l1; [congruence|simpl; lia]. }
  destruct HQ as (Q1 & Q2 & Q3).
  assert (Hone : exists kL kr, k0 = kL ++ true :: kr /\ ki = kL ++ false :: kr /\ List.length kL = q).
  { unfold k0, ki, q, p. destruct Hside as [(_ & _ & -> & -> & _)|(_ & _ & -> & -> & _)].
    - exists (k1 ++ [true]), k2. rewrite <- !app_assoc. split; [reflexivity|]. split; [reflexivity|]. rewrite app_length. simpl. lia.
    - exists k1, (true :: k2). split; [reflexivity|]. split; [reflexivity|]. exact Lk. }
  destruct Hone as (kL & kr & EK0 & EKi & LkL).
  assert (Hdiff : forall i, (i < List.length li0)%nat -> nth i k0 false <> nth i ki false -> nth i k0 false = true /\ nth i li0 0 = 0).
  { intros i _ H. assert (i = q) as -> by (rewrite EK0, EKi in H; apply differ_one in H; lia). split; assumption. }
  assert (Hcr : forall i, cracking k0 ki i = true <-> i = q) by (intros i; rewrite EK0, EKi, <- LkL; apply cracking_one).
  assert (Hend : nth 0 k0 false = nth 0 ki false /\ nth (List.length li0 - 1) k0 false = nth (List.length li0 - 1) ki false).
  { split; (match goal with |- nth ?i _ _ = _ => destruct (Bool.bool_dec (nth i k0 false) (nth i ki false)) as [E|E] end; [exact E|];
      rewrite EK0, EKi in E; apply differ_one in E; lia). }
  assert (Tip : field o phi 0 true (nth q C0 []) 0 = tipstate).
  { assert (BB' : bvp o kR phi (l1 ++ (a + b) :: l2) (m1 ++ m2) (k1 ++ true :: k2) CB) by (rewrite Hab; exact BB).
    assert (Hp' : proper_segments (l1 ++ (a + b) :: l2) (k1 ++ true :: k2)) by (rewrite Hab; exact Hp).
    pose proof (split_states o kR phi l1 l2 m1 m2 k1 k2 a b true Hr Hs HkR Ha Hb Lm Lk Hp' CB C0 BB' B0 q 0) as SS.
    fold li0 k0 in SS. rewrite !Q1, !Q2 in SS.
    assert (LL : (q <= S (List.length (l1 ++ (a + b)%R :: l2) - 1))%nat) by (rewrite app_length; simpl; unfold N in Q3; lia).
    assert (KT : nth p (k1 ++ true :: k2) false = true) by (unfold p; rewrite <- Lk; apply nth_at).
    assert (LT : nth p (l1 ++ (a + b) :: l2) 0 = x) by (unfold p; rewrite nth_at; exact Hab).
    rewrite SS by (exact LL || lra). fold p. unfold q, tipstate, base. destruct Hside as [(Ea & Eb & -> & _)|(Ea & Eb & -> & _)].
    - rewrite cut_mid. cbv beta. rewrite KT, LT, Ea. f_equal. lra.
    - rewrite cut_low by (apply le_n). rewrite KT, LT. reflexivity. }
  destruct (ginc_limit o kR phi li0 mi k0 ki kd C0 Hr Hs Hkd HM HC HV HkR HN Hv1 ltac:(rewrite Lk0; symmetry; exact L0) Hdiff Hend Hp0 H60 B0 e He) as (d & Hd & HL).
  exists d. split; [exact Hd|]. intros quad t Ca Cb G G1 G2 Ht Htx li S6a S6b BA BC HQd HG.
  assert (Llen : List.length li = N) by (unfold li; destruct ka; rewrite app_length; simpl; unfold N; lia).
  assert (Lnear : near (List.length li0) d li li0).
  { intros i Hi. unfold li, li0. destruct Hside as [(-> & -> & -> & _)|(-> & -> & -> & _)];
      (destruct (lt_eq_lt_dec i p) as [[Hlt| ->]|Hgt];
       [rewrite !app_nth1 by exact Hlt; rewrite Rminus_diag_eq, Rabs_R0 by reflexivity; lra|unfold p; rewrite !nth_at|
        destruct i as [|i]; [lia|]; destruct (Nat.eq_dec i p) as [->|]; [unfold p; rewrite !nth_next|
          rewrite !(nth_skip 0 l1 _ _ 0) by (unfold p in *; lia); rewrite Rminus_diag_eq, Rabs_R0 by reflexivity; lra]]).
    - replace (x - t - x) with (- t) by ring. rewrite Rabs_Ropp, Rabs_pos_eq; lra.
    - rewrite Rminus_0_r, Rabs_pos_eq; lra.
    - rewrite Rminus_0_r, Rabs_pos_eq; lra.
    - replace (x - t - x) with (- t) by ring. rewrite Rabs_Ropp, Rabs_pos_eq; lra. }
  assert (Mnear : near (List.length li0 - 1) d mi mi) by (intros i _; rewrite Rminus_diag_eq, Rabs_R0 by reflexivity; lra).
  assert (Lq : nth q li 0 = t) by (unfold q, li, p; destruct ka; [apply nth_next|apply nth_at]).
  assert (Hpos : forall i, (i < List.length li0)%nat -> 0 <= nth i li 0).
  { intros i Hi. destruct Hp as [Hpos _]. unfold li, li0 in *.
    destruct (lt_eq_lt_dec i p) as [[Hlt| ->]|Hgt].
    - specialize (Hpos i ltac:(rewrite app_length; unfold p in Hlt; lia)). destruct ka; rewrite app_nth1 in * by exact Hlt; exact Hpos.
    - unfold p. destruct ka; rewrite nth_at; lra.
    - destruct i as [|i]; [lia|]. destruct (Nat.eq_dec i p) as [->|]; [unfold p; destruct ka; rewrite nth_next; lra|].
      rewrite app_length in Hi. simpl in Hi.
      specialize (Hpos i ltac:(rewrite app_length; simpl; lia)). destruct ka; rewrite (nth_skip 0 l1 _ _ x) by (unfold p in *; lia); exact Hpos. }
  assert (CS : forall f, crack_sum k0 ki (List.length li0) f = f q).
  { intros f. apply crack_sum_single; [rewrite L0; lia|apply Hcr; reflexivity|]. intros i Hi. destruct (cracking k0 ki i) eqn:E; [apply Hcr in E; contradiction|reflexivity]. }
  specialize (HL quad li Ca Cb G G1 G2). cbv zeta in HL. rewrite !CS, Lq, Tip in HL. replace (t / t) with 1 in HL by (field; lra). rewrite !Rmult_1_l in HL.
  apply HL; try assumption.
  - split; [rewrite L0; exact Llen|]. split; [rewrite L0; exact S6a|]. split; [exact BA|]. split; [exact Lnear|exact Mnear].
  - split; [rewrite L0; exact Llen|]. split; [rewrite L0; exact S6b|]. split; [exact BC|]. split; [exact Lnear|exact Mnear].
  - exists q. apply Hcr. reflexivity.
Qed.
End Growth.

(** A new crack of length [a] below a skier in the middle of the slab. *)
Section Nucleation.
Variables (o : obj) (kR phi : R) (L m : R) (CB : list (list R)).
Hypothesis Hr : ready o.
Hypothesis Hs : stable (o_par o).
Hypothesis Hkd : kind_of (o_system o) = Some KSkier.
Hypothesis HkR : 0 <= kR.
Hypothesis HL : 0 < L.
Hypothesis BB : bvp o kR phi [L / 2; L / 2] [m] [true; true] CB.
Let zl := field o phi (L / 2) true (nth 0 CB []) (L / 2).
Let zr := field o phi (L / 2) true (nth 1 CB []) 0.
Let li0 := [L / 2; 0; 0; L / 2].
Let mi := [0; m; 0].
Let k0 := [true; true; true; true].
Let ki := [true; false; false; true].

Lemma nuc_valid k : nth 0 k false = true -> last k false = true -> List.length k = 4%nat -> ~ invalid_segments (o_system o) li0 mi k.
Proof.
  intros K0 K1 K2. unfold invalid_segments. intros [H|[H|[H|[NF [H|H]]]]]; try congruence.
  - specialize (H true). destruct k as [|c k]; [discriminate|]. simpl in K0. subst c. specialize (H ltac:(left; reflexivity)). discriminate.
  - apply H. rewrite K2. reflexivity.
  - apply H. reflexivity.
Qed.
Lemma nuc_proper : proper_segments li0 k0.
Proof.
  split.
  - intros [|[|[|[|i]]]] Hi; simpl in *; try lra; lia.
  - exists 0%nat. simpl. split; [lia|]. split; [reflexivity|lra].
Qed.

Lemma nuc_tips C0 : bvp o kR phi li0 mi k0 C0 -> field o phi 0 true (nth 1 C0 []) 0 = zl /\ field o phi 0 true (nth 2 C0 []) 0 = zr.
Proof.
  intros B0. pose proof (bvp_fbvp o kR phi [L / 2; L / 2] [m] [true; true] CB Hr ltac:(discriminate) BB) as F. cbn [List.length Nat.sub] in F.
  apply (cut_fbvp _ _ _ _ 1 0 (L / 2) _ _ _ (fun i => nth i [L / 2; 0; L / 2] 0) (fun i => nth i [m; 0] 0) (fun i => nth i [true; true; true] false)) in F; try lra; try reflexivity; try lia.
  2:{ intros [|i] Hi; [split; reflexivity|lia]. }
  2:{ intros [|[|i]] Hi; try reflexivity; lia. }
  2:{ simpl. ring. }
  2:{ intros [|[|[|i]]] Hi; try lia; reflexivity. }
  2:{ intros [|[|[|i]]] Hi; try lia; split; reflexivity. }
  apply (cut_fbvp _ _ _ _ 0 (L / 2) 0 _ _ _ (fun i => nth i li0 0) (fun i => nth i mi 0) (fun i => nth i k0 false)) in F; try lra; try reflexivity; try lia.
  2:{ intros [|i] Hi; try reflexivity; lia. }
  2:{ simpl. ring. }
  2:{ intros [|[|[|[|i]]]] Hi; try lia; reflexivity. }
  2:{ intros [|[|[|[|i]]]] Hi; try lia; split; reflexivity. }
  pose proof (bvp_fbvp o kR phi li0 mi k0 C0 Hr ltac:(discriminate) B0) as F0. cbn [List.length Nat.sub li0] in F0.
  destruct nuc_proper as [Hpos _]. destruct Hr as (Hl & Hf & _).
  assert (Hpos3 : forall i, (i <= 3)%nat -> 0 <= nth i li0 0) by (intros; apply Hpos; simpl; lia).
  assert (HL0 : 0 < nth 0 li0 0) by (simpl; lra).
  pose proof (fbvp_unique o kR phi 3 (fun i => nth i li0 0) (fun i => nth i mi 0) (fun i => nth i k0 false) _ _ 0%nat Hl Hf Hs HkR Hpos3 (le_0_n 3) eq_refl HL0 F0 F) as U.
  split.
  - pose proof (U 1%nat 0 ltac:(lia) ltac:(simpl; lra)) as Q. rewrite (cut_mid 0) in Q. cbv beta in Q. rewrite cut_low in Q by lia.
    replace (L / 2 + 0) with (L / 2) in Q by ring. exact Q.
  - pose proof (U 2%nat 0 ltac:(lia) ltac:(simpl; lra)) as Q. rewrite (cut_high 0) in Q by lia. rewrite cut_low in Q by lia. exact Q.
Qed.

Lemma nuc_limit e : 0 < e -> exists d, 0 < d /\ forall quad a Ca Cb G G1 G2, 0 < a < d -> a <= L ->
  let li := [(L - a) / 2; a / 2; a / 2; (L - a) / 2] in
  six_each 4 Ca -> six_each 4 Cb -> bvp o kR phi li mi k0 Ca -> bvp o kR phi li mi ki Cb -> accurate_quad quad (d * a) ->
  ginc quad (o_par o) (o_eig o) (loads_of o phi) Ca Cb li ki k0 = Ok (Some G, Some G1, Some G2) ->
  Rabs (G1 - GI (o_par o) zl) <= e /\ Rabs (G2 - - ((GII (o_par o) zl + GII (o_par o) zr) / 2)) <= e.
Proof.
  intros He. assert (HN : (2 <= List.length li0)%nat) by (simpl; lia).
  destruct (bvp_exists_unique o (Ok kR) kR phi li0 mi k0 KSkier Hr Hs HN (proj2 (proj2 (check_iff o li0 mi k0)) (nuc_valid k0 eq_refl eq_refl eq_refl)) nuc_proper Hkd
    ltac:(discriminate) ltac:(discriminate) ltac:(discriminate) ltac:(intros r Er; injection Er as <-; exact HkR)) as (C0 & H60 & B0 & _).
  destruct (nuc_tips C0 B0) as [T1 T2].
  destruct (ginc_limit o kR phi li0 mi k0 ki KSkier C0 Hr Hs Hkd ltac:(discriminate) ltac:(discriminate) ltac:(discriminate) HkR HN
    (nuc_valid ki eq_refl eq_refl eq_refl) eq_refl) with (e := e) as (d & Hd & HG); try assumption.
  - intros [|[|[|[|i]]]] Hi Hne; simpl in *; try (split; reflexivity); try congruence; lia.
  - split; reflexivity.
  - exact nuc_proper.
  - exists d. split; [exact Hd|]. intros quad a Ca Cb G G1 G2 Ha HaL li S6a S6b BA BC HQ HGi.
    assert (Near : near (List.length li0) d li li0).
    { intros [|[|[|[|i]]]] Hi; simpl in *; try lia; try (rewrite Rminus_0_r, Rabs_pos_eq; lra);
        (replace ((L - a) / 2 - L / 2) with (- (a / 2)) by field; rewrite Rabs_Ropp, Rabs_pos_eq; lra). }
    assert (Mnear : near (List.length li0 - 1) d mi mi) by (intros i _; rewrite Rminus_diag_eq, Rabs_R0 by reflexivity; lra).
    assert (Da : crack_sum k0 ki (List.length li0) (fun i => nth i li 0) = a) by (unfold crack_sum, rsum; simpl; lra).
    assert (CS : forall f, crack_sum k0 ki (List.length li0) f = f 1%nat + f 2%nat) by (intros f; unfold crack_sum, rsum; simpl; ring).
    specialize (HG quad li Ca Cb G G1 G2). cbv zeta in HG. rewrite Da in HG. rewrite !CS, T1, T2 in HG.
    assert (GIeq : GI (o_par o) zr = GI (o_par o) zl).
    { destruct BB as (_ & _ & TR). specialize (TR 0%nat ltac:(simpl; lia)). cbn [nth] in TR. destruct TR as (_ & W & _).
      unfold GI, zl, zr. rewrite <- W. reflexivity. }
    rewrite GIeq in HG. cbn [li nth] in HG.
    replace (a / 2 / a * GI (o_par o) zl + a / 2 / a * GI (o_par o) zl) with (GI (o_par o) zl) in HG by (field; lra).
    replace (a / 2 / a * GII (o_par o) zl + a / 2 / a * GII (o_par o) zr) with ((GII (o_par o) zl + GII (o_par o) zr) / 2) in HG by (field; lra).
    apply HG; try assumption.
    + split; [reflexivity|]. split; [exact S6a|]. split; [exact BA|]. split; [exact Near|exact Mnear].
    + split; [reflexivity|]. split; [exact S6b|]. split; [exact BC|]. split; [exact Near|exact Mnear].
    + intros [|[|[|[|i]]]] Hi; simpl in *; try lra; lia.
    + exists 1%nat. reflexivity.
Qed.
End Nucleation.
