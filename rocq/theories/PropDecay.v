(** Property theorems C111-C112: the influence of skiers fades along the slab, and the length of the outer segments hardly matters. *)
From Coquelicot Require Import Coquelicot.
Require Import Verif.Py Verif.MTools Verif.MEigen Verif.MFields Verif.SAdm Verif.MRaster
  Verif.MSolution Verif.SBeam Verif.SBvp Verif.SEig Verif.SMirror Verif.SDecay Verif.PBeam Verif.PBeam2 Verif.PBvp Verif.PBvp2 Verif.PBalance Verif.PLinAlg
  Verif.PWell Verif.PWell2 Verif.PWell3 Verif.PBvp6 Verif.PMirror Verif.PSkier Verif.PSplit Verif.PDecay Verif.PDecay2 Verif.PDecay3 Verif.PDecay4.

(** C111: on an intact slab the disturbance at any point is at most a sum over the skiers, proportional to their weights and
    reduced exponentially with their distance. The two constants belong to slab and weak layer: they hold for all slopes,
    layouts, numbers of skiers and weights. *)
Theorem C111_fading p : lam_ok p -> fnd_ok p -> stable p -> exists C kap, 0 < C /\ 0 < kap /\
  forall o kR phi li mi ki Cs i x, o_par o = p -> ready o -> kind_of (o_system o) = Some KSkier ->
    (forall j, (j < List.length li)%nat -> 0 <= nth j li 0 /\ nth j ki false = true) -> bvp o kR phi li mi ki Cs ->
    (i < List.length li)%nat -> 0 <= x <= nth i li 0 ->
    let z := field o phi (nth i li 0) (nth i ki false) (nth i Cs []) x in
    let bound := C * faded o kap mi (List.length li - 1) (fun j => Rabs (start li i + x - start li (S j))) in
    moved z (at_rest o phi) <= bound /\ (1 <= nth i li 0 -> apart z (at_rest o phi) <= bound).
Proof.
  intros Hl Hf Hs. destruct (decay_solved p Hl Hf Hs) as (C & kap & HC & Hk & D & _). exists C, kap.
  split; [exact HC|]. split; [exact Hk|exact D].
Qed.
Print Assumptions C111_fading.

(** With cracks: whatever happens inside, the disturbance fades exponentially along both outer segments. *)
Theorem C111_outer p : lam_ok p -> fnd_ok p -> stable p -> exists C kap, 0 < C /\ 0 < kap /\
  forall o kR phi li mi ki Cs x, o_par o = p -> ready o -> kind_of (o_system o) = Some KSkier -> bvp o kR phi li mi ki Cs -> li <> [] ->
    let n := (List.length li - 1)%nat in
    let z i := field o phi (nth i li 0) (nth i ki false) (nth i Cs []) in
    let off i x := apart (z i x) (at_rest o phi) in
    (nth 0 ki false = true -> 1 <= nth 0 li 0 -> 0 <= x <= nth 0 li 0 ->
      off 0%nat x <= C * exp (- (kap * (nth 0 li 0 - x))) * off 0%nat (nth 0 li 0)) /\
    (nth n ki false = true -> 1 <= nth n li 0 -> 0 <= x <= nth n li 0 ->
      off n x <= C * exp (- (kap * x)) * off n 0).
Proof.
  intros Hl Hf Hs. destruct (decay_solved p Hl Hf Hs) as (C & kap & HC & Hk & _ & D & _). exists C, kap.
  split; [exact HC|]. split; [exact Hk|]. intros o kR phi li mi ki Cs x Ep Hr Hkd HB Hn n z off.
  destruct HB as (HL & HR & _). unfold left_end in HL. unfold right_end in HR. rewrite Hkd in HL, HR.
  assert (Bal : forall i, nth i ki false = true -> forall s, balance p (loads_of o phi) true 0 (z i) s).
  { intros i Hi s. pose proof (field_balance o phi (nth i li 0) (nth i ki false) (nth i Cs []) s (proj1 Hr) (proj1 (proj2 Hr)) (ready_eig o Hr)) as B.
    unfold z. rewrite Hi in *. rewrite Ep in B. exact B. }
  split; intros Hki H1 Hx.
  - exact (proj1 (D o phi (z 0%nat) (nth 0 li 0) x Ep Hr (fun s _ => Bal 0%nat Hki s) H1 Hx) HL).
  - exact (proj2 (D o phi (z n) (nth n li 0) x Ep Hr (fun s _ => Bal n Hki s) H1 Hx) HR).
Qed.
Print Assumptions C111_outer.
Lemma ex_intact li mi : (2 <= List.length li)%nat -> List.length li = S (List.length mi) -> (forall i, (i < List.length li)%nat -> 0 < nth i li 0) ->
  exists Cs, bvp (ex_obj "skiers" None 30) 0 30 li mi (repeat true (List.length li)) Cs.
Proof.
  intros H2 Hm Hp.
  assert (T : forall i, (i < List.length li)%nat -> nth i (repeat true (List.length li)) false = true).
  { intros i Hi. rewrite (nth_indep _ false true) by (rewrite repeat_length; exact Hi). apply nth_repeat. }
  destruct (well_posed (fun _ => ex_ews) elim_solve (ex_obj "skiers" None 30) true 30 li mi (repeat true (List.length li)) KSkier 0 elim_sound elim_complete
    (ex_ready _ _ _) ex_stable H2) as (Cs & _ & B & _); try discriminate; try reflexivity; [| |exists Cs; exact B].
  - unfold invalid_segments. rewrite repeat_length. simpl. intros [A|[A|[A|[_ [A|A]]]]].
    + specialize (A true). destruct (List.length li); [lia|]. specialize (A (or_introl eq_refl)). discriminate.
    + apply A; reflexivity.
    + apply A; exact Hm.
    + rewrite T in A by lia. discriminate.
    + assert (E : last (repeat true (List.length li)) false = true); [|congruence].
      clear -H2. destruct (List.length li) as [|n]; [lia|]. clear H2. induction n as [|n IH]; [reflexivity|]. exact IH.
  - split; [intros i Hi; left; apply Hp; exact Hi|]. exists 0%nat. split; [lia|]. split; [apply T; lia|apply Hp; lia].
Qed.
Example C111_example : exists C kap Cs, 0 < C /\ 0 < kap /\
  bvp (ex_obj "skiers" None 30) 0 30 [4; 3; 4] [80; 60] [true; true; true] Cs /\
  apart (field (ex_obj "skiers" None 30) 30 4 true (nth 0 Cs []) 1) (at_rest (ex_obj "skiers" None 30) 30)
  <= C * (80 * 9810 / 1000 / 1000 * exp (- (kap * 3)) + 60 * 9810 / 1000 / 1000 * exp (- (kap * 6))).
Proof.
  destruct (ex_ready "skiers" None 30) as (Hl & Hf & _).
  destruct (C111_fading ex_par Hl Hf ex_stable) as (C & kap & HC & Hk & D).
  destruct (ex_intact [4; 3; 4] [80; 60]) as [Cs B]; [simpl; lia|reflexivity|intros i Hi; destruct i as [|[|[|]]]; simpl; try lra; simpl in Hi; lia|].
  exists C, kap, Cs. split; [exact HC|]. split; [exact Hk|]. split; [exact B|].
  destruct (D (ex_obj "skiers" None 30) 0 30 [4; 3; 4] [80; 60] [true; true; true] Cs 0%nat 1 eq_refl (ex_ready _ _ _) eq_refl) as [_ E]; try exact B;
    [intros j Hj; destruct j as [|[|[|]]]; simpl; try (split; [lra|reflexivity]); simpl in Hj; lia|simpl; lia|simpl; lra|].
  specialize (E ltac:(simpl; lra)). eapply Rle_trans; [exact E|]. right. f_equal. unfold faded, start, line_load. cbn [List.length Nat.sub sumn nth].
  replace (Rabs (0 + 1 - (0 + 4))) with 3 by (rewrite Rabs_left; lra). replace (Rabs (0 + 1 - (0 + 4 + 3))) with 6 by (rewrite Rabs_left; lra).
  cbn [ex_obj o_g o_lski]. rewrite !Rabs_pos_eq by lra. ring.
Qed.
Example C111_example_crack : exists C kap Cs, 0 < C /\ 0 < kap /\
  bvp (ex_obj "skier" None 30) 0 30 [4; 1; 1; 4] [0; 80; 0] [true; false; false; true] Cs /\
  let off x := apart (field (ex_obj "skier" None 30) 30 4 true (nth 0 Cs []) x) (at_rest (ex_obj "skier" None 30) 30) in
  off 1 <= C * exp (- (kap * 3)) * off 4.
Proof.
  destruct (ex_ready "skier" None 30) as (Hl & Hf & _).
  destruct (C111_outer ex_par Hl Hf ex_stable) as (C & kap & HC & Hk & D).
  destruct (well_posed (fun _ => ex_ews) elim_solve (ex_obj "skier" None 30) true 30
    [4; 1; 1; 4] [0; 80; 0] [true; false; false; true] KSkier 0 elim_sound elim_complete
    (ex_ready _ _ _) ex_stable ltac:(simpl; lia) ex_valid_skier ex_proper_skier eq_refl
    ltac:(discriminate) ltac:(discriminate) ltac:(discriminate)) as (Cs & _ & B & _).
  exists C, kap, Cs. split; [exact HC|]. split; [exact Hk|]. split; [exact B|]. intros off.
  destruct (D (ex_obj "skier" None 30) 0 30 _ _ _ Cs 1 eq_refl (ex_ready _ _ _) eq_refl B ltac:(discriminate)) as [E _].
  specialize (E eq_refl ltac:(simpl; lra) ltac:(simpl; lra)). cbn [nth] in E. replace (4 - 1) with 3 in E by ring. exact E.
Qed.

(** C112: two models of the same intact slab and skiers that differ only in how far the outer segments reach. Their fields
    differ at every common point by no more than what the skiers' images behind the nearer ends would cause. *)
Theorem C112_ends p : lam_ok p -> fnd_ok p -> stable p -> exists C kap, 0 < C /\ 0 < kap /\
  forall o kR phi li li' mi ki Cs Cs' i x, o_par o = p -> ready o -> kind_of (o_system o) = Some KSkier ->
    (2 <= List.length li)%nat -> longer li li' -> 1 <= nth 0 li 0 -> 1 <= nth (List.length li - 1) li 0 ->
    (forall j, (j < List.length li)%nat -> 0 <= nth j li 0 /\ nth j ki false = true) ->
    bvp o kR phi li mi ki Cs -> bvp o kR phi li' mi ki Cs' ->
    (i < List.length li)%nat -> 0 <= x <= nth i li 0 -> 1 <= nth i li 0 ->
    let n := (List.length li - 1)%nat in
    let shift := if (i =? 0)%nat then nth 0 li' 0 - nth 0 li 0 else 0 in
    let X := start li i + x in let L := start li (S n) in
    apart (field o phi (nth i li 0) (nth i ki false) (nth i Cs []) x)
          (field o phi (nth i li' 0) (nth i ki false) (nth i Cs' []) (shift + x))
    <= C * (faded o kap mi n (fun j => X + start li (S j)) + faded o kap mi n (fun j => (L - X) + (L - start li (S j)))).
Proof.
  intros Hl Hf Hs. destruct (decay_solved p Hl Hf Hs) as (C & kap & HC & Hk & D1 & _ & D3). exists (2 * C ^ 2), kap.
  split; [assert (0 < C ^ 2) by (apply pow_lt; exact HC); lra|]. split; [exact Hk|].
  intros o kR phi li li' mi ki Cs Cs' i x Ep Hr Hkd Hlen (El & G0 & Gn & Gm) H10 H1n Hli HB HB' Hi Hx H1i n shift X L.
  set (e := nth 0 li' 0 - nth 0 li 0). assert (He : 0 <= e) by (unfold e; lra).
  set (sh := fun j : nat => if (j =? 0)%nat then e else 0).
  set (y := fun j => field o phi (nth j li 0) (nth j ki false) (nth j Cs [])).
  set (y' := fun j => field o phi (nth j li' 0) (nth j ki false) (nth j Cs' [])).
  set (d := fun j s => combo 1 (y j s) (-1) (y' j (sh j + s))).
  assert (Hli' : forall j, (j < List.length li')%nat -> 0 <= nth j li' 0 /\ nth j ki false = true).
  { intros j Hj. rewrite El in Hj. destruct (Hli j Hj) as [A B]. split; [|exact B].
    destruct (Nat.eq_dec j 0) as [->|N0]; [lra|]. destruct (Nat.eq_dec j n) as [->|Nn]; [unfold n in *; lra|].
    rewrite Gm by (unfold n in Nn; lia). exact A. }
  assert (St : forall j, (j < n)%nat -> start li' (S j) = e + start li (S j)).
  { induction j as [|j IH]; intros Hj; [unfold start, e; simpl; ring|]. unfold start in *. cbn [sumn] in *. rewrite (Gm (S j)) by (unfold n in Hj; lia).
    specialize (IH ltac:(lia)). lra. }
  assert (Stn : start li' n = e + start li n) by (replace n with (S (n - 1)) by (unfold n; lia); apply St; unfold n; lia).
  assert (Bal : forall ll CC j s, (j < List.length li)%nat -> balance p (loads_of o phi) true 0 (field o phi (nth j ll 0) (nth j ki false) (nth j CC [])) s).
  { intros ll CC j s Hj. pose proof (field_balance o phi (nth j ll 0) (nth j ki false) (nth j CC []) s (proj1 Hr) (proj1 (proj2 Hr)) (ready_eig o Hr)) as B.
    rewrite (proj2 (Hli j Hj)) in *. rewrite Ep in B. exact B. }
  assert (Hshl : forall j, (j < n)%nat -> sh j + nth j li 0 = nth j li' 0).
  { intros [|j] Hj; unfold sh; simpl; [unfold e; simpl; ring|]. rewrite Gm by (unfold n in Hj; lia). ring. }
  assert (Ch : chain p n (fun j => nth j li 0) (fun _ => 0) (fun _ => 0) d).
  { split; [intros j Hj; apply Hli; unfold n in Hj; lia|]. split.
    - intros j s Hj Hs'. assert (Hj' : (j < List.length li)%nat) by (unfold n in Hj; lia).
      pose proof (balance_combo _ _ _ _ _ _ _ _ 1 (-1) _ (Bal li Cs j s Hj') (balance_shift _ _ _ _ _ (sh j) _ (Bal li' Cs' j (sh j + s) Hj'))) as B.
      replace (mkLd _ _ _ _) with no_loads in B by (unfold no_loads; f_equal; ring). replace (1 * 0 + -1 * 0) with 0 in B by ring. exact B.
    - intros j Hj. destruct HB as (_ & _ & T). destruct HB' as (_ & _ & T').
      pose proof (transition_force _ _ _ _ _ (skier_kind o Hkd) (T j ltac:(unfold n in Hj; lia))) as J.
      pose proof (transition_force _ _ _ _ _ (skier_kind o Hkd) (T' j ltac:(unfold n in Hj; lia))) as J'.
      pose proof (jump_diff _ _ _ _ _ _ _ _ _ J' J) as JJ. rewrite Ep in JJ. rewrite !Rminus_eq_0 in JJ.
      unfold d, y, y'. rewrite (Hshl j Hj). replace (sh (S j) + 0) with 0 by (unfold sh; simpl; ring). exact JJ. }
  pose proof (D3 n _ d i x Ch ltac:(unfold n; lia) Hx H1i) as M.
  assert (P0 : forall j, pos (fun q => nth q li 0) j = start li j) by reflexivity. rewrite !P0 in M. fold X in M. fold L in M.
  assert (Hst : forall j, (j <= S n)%nat -> 0 <= start li j).
  { induction j as [|j IH]; intros Hj; unfold start in *; cbn [sumn]; [lra|]. pose proof (IH ltac:(lia)). destruct (Hli j ltac:(unfold n in Hj; lia)). lra. }
  assert (Hst2 : forall j, (j <= S n)%nat -> start li j <= L).
  { intros j Hj. assert (G : forall q, (j + q <= S n)%nat -> start li j <= start li (j + q)).
    { induction q as [|q IH]; intros Hq; [rewrite Nat.add_0_r; lra|]. rewrite Nat.add_succ_r.
      pose proof (IH ltac:(lia)) as I1. unfold start in *. cbn [sumn]. destruct (Hli (j + q)%nat ltac:(unfold n in Hq; lia)). lra. }
    unfold L. replace (S n) with (j + (S n - j))%nat by lia. apply G. lia. }
  (* sizes at both ends *)
  set (s0 := faded o kap mi n (fun j => start li (S j))). set (s1 := faded o kap mi n (fun j => L - start li (S j))).
  assert (S0 : 0 <= s0) by apply faded_nonneg. assert (S1 : 0 <= s1) by apply faded_nonneg.
  assert (Hn1 : (0 < n)%nat) by (unfold n; lia).
  destruct (Hli 0%nat ltac:(lia)) as [L0 _]. destruct (Hli n ltac:(unfold n; lia)) as [Ln _].
  assert (A0 : apart (y 0%nat 0) (at_rest o phi) <= C * s0).
  { destruct (D1 o kR phi li mi ki Cs 0%nat 0 Ep Hr Hkd Hli HB ltac:(lia) ltac:(lra)) as [_ B]. specialize (B H10). fold n in B.
    erewrite faded_ext in B; [exact B|]. intros j Hj. replace (start li 0 + 0 - start li (S j)) with (- start li (S j)) by (unfold start; simpl; ring).
    rewrite Rabs_Ropp. apply Rabs_pos_eq. apply Hst. lia. }
  assert (A0' : apart (y' 0%nat (e + 0)) (at_rest o phi) <= C * s0).
  { destruct (D1 o kR phi li' mi ki Cs' 0%nat (e + 0) Ep Hr Hkd Hli' HB' ltac:(lia) ltac:(unfold e; lra)) as [_ B]. specialize (B ltac:(lra)).
    rewrite El in B. fold n in B. erewrite faded_ext in B; [exact B|]. intros j Hj. rewrite (St j Hj).
    replace (start li' 0 + (e + 0) - (e + start li (S j))) with (- start li (S j)) by (unfold start; simpl; ring).
    rewrite Rabs_Ropp. apply Rabs_pos_eq. apply Hst. lia. }
  assert (A1 : apart (y n (nth n li 0)) (at_rest o phi) <= C * s1).
  { destruct (D1 o kR phi li mi ki Cs n (nth n li 0) Ep Hr Hkd Hli HB ltac:(unfold n; lia) ltac:(lra)) as [_ B]. specialize (B H1n). fold n in B.
    erewrite faded_ext in B; [exact B|]. intros j Hj. replace (start li n + nth n li 0) with L by reflexivity.
    apply Rabs_pos_eq. pose proof (Hst2 (S j) ltac:(lia)). lra. }
  assert (A1' : apart (y' n (0 + nth n li 0)) (at_rest o phi) <= C * s1).
  { destruct (D1 o kR phi li' mi ki Cs' n (0 + nth n li 0) Ep Hr Hkd Hli' HB' ltac:(unfold n; lia) ltac:(unfold n in *; lra)) as [_ B]. specialize (B ltac:(unfold n in *; lra)).
    rewrite El in B. fold n in B. erewrite faded_ext in B; [exact B|]. intros j Hj. rewrite (St j Hj), Stn.
    replace (e + start li n + (0 + nth n li 0) - (e + start li (S j))) with (start li n + nth n li 0 - start li (S j)) by ring.
    replace (start li n + nth n li 0) with L by reflexivity. apply Rabs_pos_eq. pose proof (Hst2 (S j) ltac:(lia)). lra. }
  assert (Sq : forall a s, 0 <= a -> a <= C * s -> a ^ 2 <= (C * s) ^ 2) by (intros a s Ha Has; apply pow_incr; split; assumption).
  assert (B0 : size6 (d 0%nat 0) ^ 2 <= 4 * (C * s0) ^ 2).
  { pose proof (size6_diff (y 0%nat 0) (y' 0%nat (e + 0)) (at_rest o phi)) as T. unfold d. change (sh 0%nat) with e.
    pose proof (Sq _ _ (size6_nonneg _) A0). pose proof (Sq _ _ (size6_nonneg _) A0'). unfold apart in *. lra. }
  assert (B1 : size6 (d n (nth n li 0)) ^ 2 <= 4 * (C * s1) ^ 2).
  { pose proof (size6_diff (y n (nth n li 0)) (y' n (0 + nth n li 0)) (at_rest o phi)) as T. unfold d.
    replace (sh n) with 0 by (unfold sh; destruct n; [lia|reflexivity]).
    pose proof (Sq _ _ (size6_nonneg _) A1). pose proof (Sq _ _ (size6_nonneg _) A1'). unfold apart in *. lra. }
  change (size6 (d i x) <= 2 * C ^ 2 * (faded o kap mi n (fun j => X + start li (S j)) + faded o kap mi n (fun j => L - X + (L - start li (S j))))).
  rewrite !faded_shift. fold s0 s1. set (e1 := exp (- (kap * X))). set (e2 := exp (- (kap * (L - X)))).
  replace (exp (- (2 * kap * X))) with (e1 ^ 2) in M by (unfold e1; rewrite <- Rsqr_pow2; unfold Rsqr; rewrite <- exp_plus; f_equal; ring).
  replace (exp (- (2 * kap * (L - X)))) with (e2 ^ 2) in M by (unfold e2; rewrite <- Rsqr_pow2; unfold Rsqr; rewrite <- exp_plus; f_equal; ring).
  assert (E1 : 0 < e1) by apply exp_pos. assert (E2 : 0 < e2) by apply exp_pos.
  assert (P1 : 0 <= e1 * s0) by (apply Rmult_le_pos; lra). assert (P2 : 0 <= e2 * s1) by (apply Rmult_le_pos; lra).
  assert (C2 : 0 < C ^ 2) by (apply pow_lt; exact HC).
  apply le_of_sq; [apply Rmult_le_pos; [lra|lra]|].
  eapply Rle_trans; [exact M|].
  assert (Q1 : e1 ^ 2 * size6 (d 0%nat 0) ^ 2 <= e1 ^ 2 * (4 * (C * s0) ^ 2)) by (apply Rmult_le_compat_l; [apply pow2_ge_0|exact B0]).
  assert (Q2 : e2 ^ 2 * size6 (d n (nth n li 0)) ^ 2 <= e2 ^ 2 * (4 * (C * s1) ^ 2)) by (apply Rmult_le_compat_l; [apply pow2_ge_0|exact B1]).
  assert (Q3 : C ^ 2 * (e1 ^ 2 * size6 (d 0%nat 0) ^ 2 + e2 ^ 2 * size6 (d n (nth n li 0)) ^ 2) <= C ^ 2 * (e1 ^ 2 * (4 * (C * s0) ^ 2) + e2 ^ 2 * (4 * (C * s1) ^ 2)))
    by (apply Rmult_le_compat_l; lra).
  eapply Rle_trans; [exact Q3|].
  replace (C ^ 2 * (e1 ^ 2 * (4 * (C * s0) ^ 2) + e2 ^ 2 * (4 * (C * s1) ^ 2))) with (4 * (C ^ 2 * C ^ 2) * ((e1 * s0) ^ 2 + (e2 * s1) ^ 2)) by ring.
  replace ((2 * C ^ 2 * (e1 * s0 + e2 * s1)) ^ 2) with (4 * (C ^ 2 * C ^ 2) * (e1 * s0 + e2 * s1) ^ 2) by ring.
  apply Rmult_le_compat_l; [assert (0 < C ^ 2 * C ^ 2) by (apply Rmult_lt_0_compat; assumption); lra|].
  assert (0 <= (e1 * s0) * (e2 * s1)) by (apply Rmult_le_pos; assumption). nra.
Qed.
Print Assumptions C112_ends.
Example C112_example : exists C kap Cs Cs', 0 < C /\ 0 < kap /\
  bvp (ex_obj "skiers" None 30) 0 30 [4; 4] [80] [true; true] Cs /\ bvp (ex_obj "skiers" None 30) 0 30 [6; 9] [80] [true; true] Cs' /\
  apart (field (ex_obj "skiers" None 30) 30 4 true (nth 0 Cs []) 3) (field (ex_obj "skiers" None 30) 30 6 true (nth 0 Cs' []) 5)
  <= C * (80 * 9810 / 1000 / 1000 * exp (- (kap * 7)) + 80 * 9810 / 1000 / 1000 * exp (- (kap * 9))).
Proof.
  destruct (ex_ready "skiers" None 30) as (Hl & Hf & _).
  destruct (C112_ends ex_par Hl Hf ex_stable) as (C & kap & HC & Hk & D).
  destruct (ex_intact [4; 4] [80]) as [Cs B]; [simpl; lia|reflexivity|intros i Hi; destruct i as [|[|]]; simpl; try lra; simpl in Hi; lia|].
  destruct (ex_intact [6; 9] [80]) as [Cs' B']; [simpl; lia|reflexivity|intros i Hi; destruct i as [|[|]]; simpl; try lra; simpl in Hi; lia|].
  exists C, kap, Cs, Cs'. split; [exact HC|]. split; [exact Hk|]. split; [exact B|]. split; [exact B'|].
  pose proof (D (ex_obj "skiers" None 30) 0 30 [4; 4] [6; 9] [80] [true; true] Cs Cs' 0%nat 3 eq_refl (ex_ready _ _ _) eq_refl ltac:(simpl; lia)) as E.
  cbv zeta in E. cbn [List.length Nat.sub nth Nat.eqb] in E.
  replace (6 - 4 + 3) with 5 in E by ring. eapply Rle_trans; [apply E|]; try exact B; try exact B'; try lra; try lia.
  - split; [reflexivity|]. simpl. split; [lra|]. split; [lra|]. intros i Hi. lia.
  - intros j Hj. destruct j as [|[|]]; simpl; try (split; [lra|reflexivity]). lia.
  - right. f_equal. unfold faded, start, line_load. cbn [sumn nth ex_obj o_g o_lski]. rewrite !Rabs_pos_eq by lra.
    replace (0 + 3 + (0 + 4)) with 7 by ring. replace (0 + 4 + 4 - (0 + 3) + (0 + 4 + 4 - (0 + 4))) with 9 by ring. ring.
Qed.
