(** Proofs about the incremental energy release rate. *)
From Coquelicot Require Import Coquelicot.
Require Import Verif.Py Verif.MTools Verif.MEigen Verif.MFields Verif.MRaster Verif.MSolution Verif.MAnalysis
  Verif.SAdm Verif.SBeam Verif.SBvp Verif.SEig Verif.SEnergy Verif.PSetup Verif.PBeam Verif.PBalance Verif.PRaster Verif.PEnergy.

Lemma gdif_accepts p e ld Cs li ki unit c : err_factor unit c -> List.length ki = List.length li ->
  (forall j, (S j < List.length li)%nat -> is_tip ki j -> (j < List.length Cs)%nat /\
     List.length (zh p e (nth j li 0) (nth j li 0) (nth j ki false)) = List.length (nth j Cs [])) ->
  exists g, gdif p e ld Cs li ki unit = Ok g.
Proof.
  intros Hc HL H. apply conv_err_factor in Hc. unfold gdif. rewrite HL, Nat.ltb_irrefl, andb_false_l.
  assert (G : forall js, (forall j, In j js -> (j < List.length li - 1)%nat /\ is_tip ki j) ->
    exists cols, mapM (gdif_tip p e ld Cs li ki unit) js = Ok cols).
  { induction js as [|j js IH]; intros Hj; [exists []; reflexivity|].
    destruct (IH (fun a Ia => Hj a (or_intror Ia))) as [cols E]. destruct (Hj j (or_introl eq_refl)) as [J1 J2].
    destruct (H j ltac:(lia) J2) as [H1 H2]. simpl. rewrite E. unfold gdif_tip.
    rewrite (nth_error_nth' Cs [] H1). unfold zsol_checked. rewrite H2, Nat.eqb_refl. simpl.
    rewrite (Gi_value _ _ _ _ Hc), (Gii_value _ _ _ _ Hc). simpl. eexists. reflexivity. }
  destruct (G (crack_tips ki (List.length li - 1))) as [cols E].
  - intros j Hj. apply crack_tips_in in Hj. exact Hj.
  - rewrite E. simpl. eexists. reflexivity.
Qed.

(** C45. *)
Lemma int1_value p x (z0 z1 : R -> vec6) : 0 < wt p -> int1 p x z0 z1 = kn p * z_w (z0 x) * z_w (z1 x).
Proof. intros H. unfold int1, f_sig, f_eps, f_w. field. lra. Qed.
Lemma int2_value p x (z0 z1 : R -> vec6) : 0 < wt p ->
  int2 p x z0 z1 = - (s_tau p true (z0 x) * (z_u (z1 x) + hh p / 2 * z_psi (z1 x) - wt p / 2 * z_dw (z1 x))).
Proof. intros H. unfold int2, f_tau, f_gamma, s_tau, f_dw, f_u, f_psi. field. lra. Qed.
Lemma int1_diag p x z : 0 < wt p -> 0 < kn p -> int1 p x z z = 2 * GI p (z x).
Proof. intros H H2. rewrite int1_value by exact H. unfold GI. field. lra. Qed.
Lemma int2_diag p x z : 0 < wt p -> 0 < kt p -> int2 p x z z = - (2 * GII p (z x)).
Proof. intros H H2. rewrite int2_value by exact H. unfold GII, s_tau. field. lra. Qed.

(** Continuity of the fields. *)
Lemma ready_eig_ok o : ready o -> lam_ok (o_par o) /\ fnd_ok (o_par o) /\ eig_ok o.
Proof.
  intros (Hl & Hf & ews & He & Hg). split; [exact Hl|]. split; [exact Hf|]. exists ews. split; [exact He|].
  apply Hg.
Qed.
Lemma field_continuous o phi l k C x : ready o ->
  continuous (fun s => z_u (field o phi l k C s)) x /\ continuous (fun s => z_w (field o phi l k C s)) x /\
  continuous (fun s => z_psi (field o phi l k C s)) x /\ continuous (fun s => z_dw (field o phi l k C s)) x.
Proof.
  intros H. destruct (ready_eig_ok o H) as (Hl & Hf & He).
  destruct (field_balance o phi l k C x Hl Hf He) as (H1 & H2 & H3 & H4 & H5 & H6).
  assert (C3 := cont_of_derive _ _ _ H3). assert (C5 := cont_of_derive _ _ _ H5).
  split; [exact (cont_of_derive _ _ _ H1)|]. split; [exact (cont_of_derive _ _ _ H2)|]. split; [exact C3|].
  apply (dw_continuous (o_par o)); [apply Hl|exact C5|exact C3].
Qed.
Lemma continuous_mulR (f g : R -> R) x : continuous f x -> continuous g x -> continuous (fun s => f s * g s) x.
Proof. intros Hf Hg. apply (continuous_mult (K := R_AbsRing)); assumption. Qed.


Lemma opening_cont o phi l C0 C1 x : ready o -> continuous (opening o phi l C0 C1) x.
Proof.
  intros H. destruct (field_continuous o phi l true C0 x H) as (_ & A & _).
  destruct (field_continuous o phi l false C1 x H) as (_ & B & _).
  apply (continuous_mulR (fun s => kn (o_par o) * z_w (field o phi l true C0 s)) (fun s => z_w (field o phi l false C1 s))); [|exact B].
  apply (continuous_mulR (fun _ => kn (o_par o))); [apply continuous_const|exact A].
Qed.
Lemma sliding_cont o phi l C0 C1 x : ready o -> continuous (sliding o phi l C0 C1) x.
Proof.
  intros H. destruct (field_continuous o phi l true C0 x H) as (A1 & A2 & A3 & A4).
  destruct (field_continuous o phi l false C1 x H) as (B1 & B2 & B3 & B4).
  set (p := o_par o) in *.
  apply (continuous_extR (fun s => (- kt p * z_u (field o phi l true C0 s) + (- (kt p * (hh p / 2))) * z_psi (field o phi l true C0 s)
      + (kt p * (wt p / 2)) * z_dw (field o phi l true C0 s) + 0) *
    (1 * z_u (field o phi l false C1 s) + (hh p / 2) * z_psi (field o phi l false C1 s) + (- (wt p / 2)) * z_dw (field o phi l false C1 s) + 0))).
  - intros s. unfold sliding, s_tau. fold p. ring.
  - apply continuous_mulR.
    + apply (continuous_lin (fun s => z_u (field o phi l true C0 s)) (fun s => z_psi (field o phi l true C0 s)) (fun s => z_dw (field o phi l true C0 s))); assumption.
    + apply (continuous_lin (fun s => z_u (field o phi l false C1 s)) (fun s => z_psi (field o phi l false C1 s)) (fun s => z_dw (field o phi l false C1 s))); assumption.
Qed.

Lemma Rabs_pair a b c d : Rabs (a + b - (c + d)) <= Rabs (a - c) + Rabs (b - d).
Proof. replace (a + b - (c + d)) with ((a - c) + (b - d)) by ring. apply Rabs_triang. Qed.

Section Q.
Variables (quad : (R -> R) -> R -> R -> R) (eps : R).
Hypothesis HQ : accurate_quad quad eps.

Lemma quad_ext f g a b : (forall x, continuous g x) -> (forall x, f x = g x) -> Rabs (quad f a b - RInt g a b) <= eps.
Proof.
  intros Hc E. rewrite <- (RInt_ext f g) by (intros; apply E). apply HQ.
  intros x. apply (continuous_extR g); [intros; symmetry; apply E|apply Hc].
Qed.

Lemma ginc_loop_value o phi C0 C1 li r1 r2 : ready o ->
  ginc_loop quad (o_par o) (o_eig o) (loads_of o phi) C0 C1 li = Ok (r1, r2) ->
  List.length C0 = List.length li -> List.length C1 = List.length li ->
  Rabs (r1 - rsum (map3 (fun l c0 c1 => RInt (opening o phi l c0 c1) 0 l) li C0 C1)) <= INR (List.length li) * eps /\
  Rabs (r2 - rsum (map3 (fun l c0 c1 => RInt (sliding o phi l c0 c1) 0 l) li C0 C1)) <= INR (List.length li) * eps.
Proof.
  intros Hr. assert (Ht : 0 < wt (o_par o)) by apply Hr.
  revert C0 C1 r1 r2. induction li as [|l li IH]; intros [|c0 C0] [|c1 C1] r1 r2 H E0 E1; simpl in E0, E1; try discriminate.
  - simpl in H. apply Ok_inj in H. injection H as <- <-. simpl. replace (0 - 0) with 0 by ring. rewrite Rabs_R0. lra.
  - simpl ginc_loop in H. destruct (zsol_checked _ _ _ _ c0 _ _); simpl in H; [|discriminate].
    destruct (zsol_checked _ _ _ _ c1 _ _); simpl in H; [|discriminate].
    destruct (ginc_loop quad (o_par o) (o_eig o) (loads_of o phi) C0 C1 li) as [[s1 s2]|] eqn:E; simpl in H; [|discriminate].
    apply Ok_inj in H. injection H as <- <-.
    destruct (IH C0 C1 s1 s2 E ltac:(congruence) ltac:(congruence)) as [I1 I2].
    set (Q1 := quad _ 0 l). set (Q2 := quad (fun x => int2 _ _ _ _) 0 l).
    assert (A1 : Rabs (Q1 - RInt (opening o phi l c0 c1) 0 l) <= eps).
    { apply quad_ext; [intros; apply opening_cont; exact Hr|]. intros x. rewrite int1_value by exact Ht. reflexivity. }
    assert (A2 : Rabs (Q2 - RInt (sliding o phi l c0 c1) 0 l) <= eps).
    { apply quad_ext; [intros; apply sliding_cont; exact Hr|]. intros x. rewrite int2_value by exact Ht. reflexivity. }
    change (List.length (l :: li)) with (S (List.length li)). rewrite S_INR. simpl map3. simpl rsum.
    fold (rsum (map3 (fun l c0 c1 => RInt (opening o phi l c0 c1) 0 l) li C0 C1)).
    fold (rsum (map3 (fun l c0 c1 => RInt (sliding o phi l c0 c1) 0 l) li C0 C1)).
    split; (eapply Rle_trans; [apply Rabs_pair|]).

    all: rewrite Rmult_plus_distr_r, Rmult_1_l, Rplus_comm; apply Rplus_le_compat; assumption.
Qed.

(** Selection versus indexed sums. *)
Lemma seq_sum_shift (f : nat -> R) s n : rsum (map f (seq (S s) n)) = rsum (map (fun i => f (S i)) (seq s n)).
Proof. rewrite <- seq_shift, map_map. reflexivity. Qed.
Lemma crack_sum_cons b bs c cs n f : crack_sum (b :: bs) (c :: cs) (S n) f
  = (if andb b (negb c) then f 0%nat else 0) + crack_sum bs cs n (fun i => f (S i)).
Proof.
  unfold crack_sum. simpl seq. simpl map at 1. unfold rsum at 1. simpl fold_right. f_equal.
  fold (rsum (map (fun i => if cracking (b :: bs) (c :: cs) i then f i else 0) (seq 1 n))).
  rewrite seq_sum_shift. reflexivity.
Qed.
Lemma select_sum3 (g : R -> list R -> list R -> R) k0 ki li C0 C1 : List.length k0 = List.length ki ->
  List.length li = List.length ki -> List.length C0 = List.length ki -> List.length C1 = List.length ki ->
  let m := map2 (fun a b => andb a (negb b)) k0 ki in
  rsum (map3 g (select m li) (select m C0) (select m C1))
  = crack_sum k0 ki (List.length ki) (fun i => g (nth i li 0) (nth i C0 []) (nth i C1 [])).
Proof.
  revert k0 li C0 C1. induction ki as [|k ki IH]; intros [|b k0] [|l li] [|c0 C0] [|c1 C1] E1 E2 E3 E4; simpl in E1, E2, E3, E4; try discriminate.
  - reflexivity.
  - cbv zeta. change (List.length (k :: ki)) with (S (List.length ki)). rewrite crack_sum_cons. cbn [nth].
    rewrite <- (IH k0 li C0 C1) by congruence. simpl map2. destruct (andb b (negb k)); simpl; lra.
Qed.
Lemma select_sum1 k0 ki li : List.length k0 = List.length ki -> List.length li = List.length ki ->
  rsum (select (map2 (fun a b => andb a (negb b)) k0 ki) li) = crack_sum k0 ki (List.length ki) (fun i => nth i li 0).
Proof.
  revert k0 li. induction ki as [|k ki IH]; intros [|b k0] [|l li] E1 E2; simpl in E1, E2; try discriminate; [reflexivity|].
  change (List.length (k :: ki)) with (S (List.length ki)). rewrite crack_sum_cons. cbn [nth].
  rewrite <- (IH k0 li) by congruence. simpl map2. destruct (andb b (negb k)); simpl; lra.
Qed.
Lemma select_len {A B} m (X : list A) (Y : list B) : List.length X = List.length m -> List.length Y = List.length m ->
  List.length (select m X) = List.length (select m Y).
Proof.
  revert X Y. induction m as [|b m IH]; intros [|x X] [|y Y] E1 E2; simpl in *; try discriminate; [reflexivity|].
  destruct b; simpl; rewrite (IH X Y) by congruence; reflexivity.
Qed.
Lemma select_le {A} m (X : list A) : (List.length (select m X) <= List.length X)%nat.
Proof.
  revert X. induction m as [|b m IH]; intros [|x X]; simpl; try lia. specialize (IH X). destruct b; simpl; lia.
Qed.
Lemma map2_len {A B D} (f : A -> B -> D) X Y : List.length X = List.length Y -> List.length (map2 f X Y) = List.length Y.
Proof. revert Y. induction X as [|x X IH]; intros [|y Y] E; simpl in *; try discriminate; [reflexivity|]. rewrite IH by congruence. reflexivity. Qed.

(** C44. *)
Lemma ginc_value o phi C0 C1 li ki k0 G G1 G2 : ready o ->
  ginc quad (o_par o) (o_eig o) (loads_of o phi) C0 C1 li ki k0 = Ok (Some G, Some G1, Some G2) ->
  let n := List.length li in
  let da := crack_sum k0 ki n (fun i => nth i li 0) in
  G = G1 + G2 /\
  ((forall i, cracking k0 ki i = false) -> G1 = 0 /\ G2 = 0) /\
  ((exists i, cracking k0 ki i = true) -> 0 < da /\
   Rabs (G1 - 1 / (2 * da) * crack_sum k0 ki n (fun i =>
      RInt (opening o phi (nth i li 0) (nth i C0 []) (nth i C1 [])) 0 (nth i li 0))) <= INR n * eps / (2 * da) /\
   Rabs (G2 - 1 / (2 * da) * crack_sum k0 ki n (fun i =>
      RInt (sliding o phi (nth i li 0) (nth i C0 []) (nth i C1 [])) 0 (nth i li 0))) <= INR n * eps / (2 * da)).
Proof.
  intros Hr H n da. unfold ginc in H.
  destruct (Nat.eqb_spec (List.length k0) (List.length ki)) as [E0|]; [|discriminate].
  destruct (Nat.eqb_spec (List.length C0) (List.length ki)) as [E1|]; [|discriminate].
  destruct (Nat.eqb_spec (List.length C1) (List.length ki)) as [E2|]; [|discriminate].
  destruct (Nat.eqb_spec (List.length li) (List.length ki)) as [E3|]; [|discriminate]. cbn [negb andb] in H.
  set (m := map2 (fun a b => andb a (negb b)) k0 ki) in *.
  assert (Lm : List.length m = List.length ki) by (apply map2_len; exact E0).
  destruct (ginc_loop _ _ _ _ _ _ _) as [[r1 r2]|] eqn:Eg; simpl in H; [|discriminate].
  assert (V := ginc_loop_value o phi _ _ _ r1 r2 Hr Eg
    (select_len m C0 li ltac:(congruence) ltac:(congruence)) (select_len m C1 li ltac:(congruence) ltac:(congruence))).
  unfold m in V. rewrite !select_sum3 in V by assumption. fold m in V. rewrite <- E3 in V. fold n in V. destruct V as [V1 V2].
  assert (Da : rsum (select m li) = da) by (unfold da, n; rewrite E3; apply select_sum1; assumption).
  assert (Heps : 0 <= eps).
  { eapply Rle_trans; [apply Rabs_pos|]. apply (HQ (fun _ => 0) 0 0). intros; apply continuous_const. }
  assert (Ln : (List.length (select m li) <= n)%nat) by apply select_le.
  destruct (select m li) as [|s0 s] eqn:Es.
  - apply Ok_inj in H. injection H as <- <- <-. split; [lra|]. split; [auto|].
    intros [i Hi]. exfalso. clear - Es Hi E0 E3. unfold m in Es. clear m.
    revert k0 li ki E0 E3 Es Hi. induction i as [|i IH]; intros [|b k0] [|l li] [|k ki] E0 E3 Es Hi; simpl in *; try discriminate; unfold cracking in Hi; simpl in Hi; try discriminate;
      try (destruct (andb b (negb k)); simpl in *; congruence); try (destruct (nth i k0 false); discriminate).
    destruct (andb b (negb k)); [discriminate|]. apply (IH k0 li ki); [congruence|congruence|exact Es|exact Hi].
  - rewrite Da in H. destruct (Rlt_dec 0 da) as [Hda|]; [|discriminate].
    apply Ok_inj in H. injection H as <- <- <-. split; [reflexivity|]. split.
    + intros Hn. exfalso. clear - Es Hn E0 E3. unfold m in Es. clear m.
      revert k0 li ki E0 E3 Es Hn. induction k0 as [|b k0 IH]; intros [|l li] [|k ki] E0 E3 Es Hn; simpl in *; try discriminate.
      assert (Q := Hn 0%nat). unfold cracking in Q. simpl in Q. rewrite Q in Es.
      apply (IH li ki); [congruence|congruence|exact Es|]. intros i. exact (Hn (S i)).
    + intros _. split; [exact Hda|].
      assert (Le : INR (List.length (s0 :: s)) * eps <= INR n * eps) by (apply Rmult_le_compat_r; [exact Heps|apply le_INR; exact Ln]).
      simpl fst. simpl snd.
      assert (Q : forall r X, Rabs (r - X) <= INR (List.length (s0 :: s)) * eps -> Rabs (r / (2 * da) - 1 / (2 * da) * X) <= INR n * eps / (2 * da)).
      { intros r X HX. replace (r / (2 * da) - 1 / (2 * da) * X) with ((r - X) * / (2 * da)) by (field; lra).
        rewrite Rabs_mult, (Rabs_pos_eq (/ (2 * da))) by (left; apply Rinv_0_lt_compat; lra).
        unfold Rdiv. apply Rmult_le_compat_r; [left; apply Rinv_0_lt_compat; lra|lra]. }
      split; apply Q; assumption.
Qed.
End Q.

Lemma gdif_value2 p e ld Cs li ki unit G G1 G2 w : List.length ki = List.length li ->
  tip_weights ki (List.length li) w ->
  gdif p e ld Cs li ki unit = Ok (G, G1, G2) ->
  ((forall j, (S j < List.length li)%nat -> ~ is_tip ki j) /\ G = 0 /\ G1 = 0 /\ G2 = 0) \/
  exists c, err_factor unit c /\
  let z j := zsol p e ld (nth j li 0) (nth j Cs []) (nth j li 0) (nth j ki false) in
  let n := (List.length li - 1)%nat in
  G1 = c * tip_sum ki n (fun j => w j * GI p (z j)) /\
  G2 = c * tip_sum ki n (fun j => w j * GII p (z j)) /\ G = G1 + G2.
Proof.
  intros L W H. destruct (gdif_value _ _ _ _ _ _ _ _ _ _ _ L W H) as [(E & Z)|R]; [left|right; exact R]. split; [|exact Z].
  intros j Hj T. assert (I : In j (crack_tips ki (List.length li - 1))).
  { unfold crack_tips. apply filter_In. split; [apply in_seq; lia|]. unfold is_tip in T.
    destruct (nth j ki false), (nth (S j) ki false); simpl; congruence. }
  rewrite E in I. exact I.
Qed.
(** Tips of solved systems. *)
Lemma solved_tips o kR phi li mi ki Cs : 0 < kA55 (o_par o) -> bvp o kR phi li mi ki Cs ->
  let z i := field o phi (nth i li 0) (nth i ki false) (nth i Cs []) in
  forall i, (S i < List.length li)%nat ->
    GI (o_par o) (z i (nth i li 0)) = GI (o_par o) (z (S i) 0) /\
    s_tau (o_par o) true (z (S i) 0) - s_tau (o_par o) true (z i (nth i li 0))
      = kt (o_par o) * wt (o_par o) / 2 * (point_Fn o phi (nth i mi 0) / kA55 (o_par o)) /\
    (point_Fn o phi (nth i mi 0) = 0 -> GII (o_par o) (z i (nth i li 0)) = GII (o_par o) (z (S i) 0)).
Proof. intros HS (_ & _ & T) z i Hi. apply transition_jump; [exact HS|]. apply T. exact Hi. Qed.
