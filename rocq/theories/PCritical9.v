(** The minimum force search finds the critical weight (C121). *)
From Coquelicot Require Import Coquelicot.
Require Import Verif.Py Verif.MTools Verif.MEigen Verif.MFields Verif.SAdm Verif.SSlab Verif.MRaster Verif.MSolution Verif.MAnalysis Verif.SBvp Verif.SEig Verif.SSegment
  Verif.MEnvelope Verif.MCriterion Verif.SCritical Verif.PSetup Verif.PEnvelope Verif.PForce Verif.PCreate Verif.PCreate2 Verif.PropForce Verif.PropExact Verif.PCritical Verif.PCritical2 Verif.PCritical4 Verif.PCritical5 Verif.PCritical8.
Open Scope R_scope.

(** ** Length of a vector of two components *)
Definition nrm (a b : R) : R := sqrt (a ^ 2 + b ^ 2).
Lemma nrm_nonneg a b : 0 <= nrm a b. Proof. apply sqrt_pos. Qed.
Lemma nrm_sq a b : nrm a b ^ 2 = a ^ 2 + b ^ 2.
Proof. unfold nrm. rewrite <- Rsqr_pow2. apply Rsqr_sqrt. pose proof (pow2_ge_0 a). pose proof (pow2_ge_0 b). lra. Qed.
Lemma nrm_add a b c d : nrm (a + c) (b + d) <= nrm a b + nrm c d.
Proof.
  apply Rsqr_incr_0; [|apply nrm_nonneg|pose proof (nrm_nonneg a b); pose proof (nrm_nonneg c d); lra]. rewrite !Rsqr_pow2.
  assert (C : a * c + b * d <= nrm a b * nrm c d).
  { destruct (Rle_dec (a * c + b * d) 0) as [L|L]; [apply Rle_trans with 0; [exact L|apply Rmult_le_pos; apply nrm_nonneg]|].
    apply Rsqr_incr_0; [|lra|apply Rmult_le_pos; apply nrm_nonneg]. rewrite !Rsqr_pow2, Rpow_mult_distr, !nrm_sq. pose proof (pow2_ge_0 (a * d - b * c)). nra. }
  replace ((nrm a b + nrm c d) ^ 2) with (nrm a b ^ 2 + nrm c d ^ 2 + 2 * (nrm a b * nrm c d)) by ring. rewrite !nrm_sq. nra.
Qed.
Lemma nrm_scale k a b : nrm (k * a) (k * b) = Rabs k * nrm a b.
Proof. unfold nrm. replace ((k * a) ^ 2 + (k * b) ^ 2) with (k ^ 2 * (a ^ 2 + b ^ 2)) by ring. rewrite sqrt_mult_alt by apply pow2_ge_0. f_equal. rewrite <- Rsqr_pow2. apply sqrt_Rsqr_abs. Qed.
Lemma nrm_le a b m : 0 <= m -> a ^ 2 + b ^ 2 <= m ^ 2 -> nrm a b <= m.
Proof. intros Hm H. unfold nrm. rewrite <- (sqrt_Rsqr m Hm), Rsqr_pow2. apply sqrt_le_1_alt. exact H. Qed.

(** ** The largest envelope value as a function of the weight in units of the critical weight *)
Section G.
Variables sc tc : R.
Notation qval := (qval sc tc).
Notation gmax := (gmax sc tc).
Variable qs : list ((R * R) * (R * R)).
Variable w : R.
Hypothesis M0 : gmax qs 0 <= 1 / 4.
Hypothesis M1 : gmax qs w = 1.
Definition vx (u : R) (q : (R * R) * (R * R)) := (fst (fst q) + u * snd (fst q)) / sc.
Definition vy (u : R) (q : (R * R) * (R * R)) := (fst (snd q) + u * snd (snd q)) / tc.
Lemma qval_nrm u q : qval u q = nrm (vx u q) (vy u q) ^ 2.
Proof. rewrite nrm_sq. reflexivity. Qed.
Lemma gmax_nonneg u : 0 <= gmax qs u.
Proof. destruct (gmax_attained sc tc qs u) as [->|(q & _ & ->)]; [lra|apply qval_nonneg]. Qed.
Lemma rest_half q : In q qs -> nrm (vx 0 q) (vy 0 q) <= 1 / 2.
Proof. intros I. apply nrm_le; [lra|]. pose proof (gmax_ge sc tc qs 0 q I) as H. rewrite qval_nrm, nrm_sq in H. lra. Qed.
Lemma crit_one q : In q qs -> nrm (vx w q) (vy w q) <= 1.
Proof. intros I. apply nrm_le; [lra|]. pose proof (gmax_ge sc tc qs w q I) as H. rewrite qval_nrm, nrm_sq in H. lra. Qed.
Lemma mix s q : vx (s * w) q = s * vx w q + (1 - s) * vx 0 q /\ vy (s * w) q = s * vy w q + (1 - s) * vy 0 q.
Proof. unfold vx, vy, Rdiv. split; ring. Qed.
Lemma mix' s q : s * vx w q = vx (s * w) q + (s - 1) * vx 0 q /\ s * vy w q = vy (s * w) q + (s - 1) * vy 0 q.
Proof. unfold vx, vy, Rdiv. split; ring. Qed.
Lemma upper s q : 0 < s -> In q qs -> nrm (vx (s * w) q) (vy (s * w) q) <= s + Rabs (1 - s) * (1 / 2).
Proof.
  intros Hs I. destruct (mix s q) as [-> ->]. eapply Rle_trans; [apply nrm_add|]. rewrite !nrm_scale, (Rabs_pos_eq s) by lra.
  pose proof (crit_one q I). pose proof (rest_half q I). pose proof (Rabs_pos (1 - s)). apply Rplus_le_compat; [nra|apply Rmult_le_compat_l; assumption].
Qed.
Lemma lower s q : 0 < s -> In q qs -> qval w q = 1 -> s - Rabs (s - 1) * (1 / 2) <= nrm (vx (s * w) q) (vy (s * w) q).
Proof.
  intros Hs I Q. assert (N : nrm (s * vx w q) (s * vy w q) = s).
  { rewrite nrm_scale, Rabs_pos_eq by lra. assert (nrm (vx w q) (vy w q) = 1); [|nra]. rewrite qval_nrm in Q. pose proof (nrm_nonneg (vx w q) (vy w q)). nra. }
  destruct (mix' s q) as [E1 E2]. rewrite E1, E2 in N. pose proof (nrm_add (vx (s * w) q) (vy (s * w) q) ((s - 1) * vx 0 q) ((s - 1) * vy 0 q)) as T. rewrite nrm_scale in T.
  pose proof (rest_half q I). pose proof (Rabs_pos (s - 1)). assert (Rabs (s - 1) * nrm (vx 0 q) (vy 0 q) <= Rabs (s - 1) * (1 / 2)) by (apply Rmult_le_compat_l; assumption). lra.
Qed.
Lemma root_sq s : sqrt (gmax qs s) ^ 2 = gmax qs s.
Proof. rewrite <- Rsqr_pow2. apply Rsqr_sqrt. apply gmax_nonneg. Qed.
Lemma sandwiched s : 0 < s -> sandwich s (sqrt (gmax qs (s * w))).
Proof.
  intros Hs. destruct (gmax_attained sc tc qs w) as [Z|(q & I & Q)]; [lra|]. rewrite M1 in Q.
  assert (L : s - Rabs (s - 1) * (1 / 2) <= sqrt (gmax qs (s * w))).
  { eapply Rle_trans; [apply (lower s q Hs I (eq_sym Q))|]. rewrite <- (sqrt_Rsqr (nrm _ _)) by apply nrm_nonneg. rewrite Rsqr_pow2, <- qval_nrm. apply sqrt_le_1_alt. apply gmax_ge. exact I. }
  assert (U : sqrt (gmax qs (s * w)) <= s + Rabs (1 - s) * (1 / 2)).
  { pose proof (Rabs_pos (1 - s)) as P. rewrite <- (sqrt_Rsqr (s + Rabs (1 - s) * (1 / 2))) by lra. apply sqrt_le_1_alt. rewrite Rsqr_pow2.
    destruct (gmax_attained sc tc qs (s * w)) as [->|(q' & I' & ->)]; [apply pow2_ge_0|]. rewrite qval_nrm.
    pose proof (upper s q' Hs I'). pose proof (nrm_nonneg (vx (s * w) q') (vy (s * w) q')). apply pow_incr. auto. }
  split; [apply sqrt_pos|]. split; intros C.
  - rewrite (Rabs_left1 (s - 1)) in L by lra. rewrite (Rabs_pos_eq (1 - s)) in U by lra. lra.
  - rewrite (Rabs_pos_eq (s - 1)) in L by lra. rewrite (Rabs_left1 (1 - s)) in U by lra. lra.
Qed.
Lemma reaches : 0 < w -> / 65536 <= w <= 65536 -> hits (fun u => Rabs (gmax qs u - 1) <= 1 / 100) (fun u => (1 + 1) * u / (1 + gmax qs u)) 46 1.
Proof.
  intros Hw [R1 R2].
  assert (H : hits (fun u => Rabs (gmax qs u - 1) <= 1 / 100) (fun u => (1 + 1) * u / (1 + gmax qs u)) 46 (/ w * w)).
  { refine (hits_scale _ _ _ _ w 46 (/ w) _ _ (hits_all (fun s => sqrt (gmax qs (s * w))) sandwiched (/ w) _)).
    - intros s. cbv beta. rewrite root_sq. auto.
    - intros s. cbv beta. rewrite root_sq. unfold Rdiv. ring.
    - split; [apply Rinv_le_contravar; lra|]. rewrite <- (Rinv_inv 65536). apply Rinv_le_contravar; [|exact R1]. lra. }
  rewrite Rinv_l in H by lra. exact H.
Qed.
End G.

(** ** The loop *)
Section L.
Variable create : R -> res sk.
Variable dist : sk -> res (option R * option R).
Variable g : R -> R.
Notation measure := (measure create dist).
Hypothesis T : forall w, exists s, measure w = Ok s /\ f_max s = Some (g w).
Lemma measured w s : measure w = Ok s -> f_max s = Some (g w) /\ f_weight s = w.
Proof. intros M. destruct (T w) as (s' & M' & F). rewrite M in M'. apply Ok_inj in M'. subst s'. split; [exact F|]. apply (measure_inv _ _ _ _ M). Qed.
Lemma loop_hits tol (nx : R -> R -> R) n : forall m s, (n < m)%nat -> measure (f_weight s) = Ok s -> hits (fun w => Rabs (g w - 1) <= tol) (fun w => nx w (g w)) n (f_weight s) ->
  exists s' m', force_loop create dist tol nx m s = Ok (s', m') /\ m' <> 0%nat.
Proof.
  Local Transparent hits.
  induction n as [|n IH]; intros m s L M H; destruct (measured _ _ M) as [F _]; (destruct m as [|m]; [lia|]); cbn [force_loop]; rewrite F; unfold off, Rltb.
  - destruct H as [H|[]]. destruct (Rlt_dec tol _); [lra|]. eauto.
  - destruct (Rlt_dec tol _) as [C|C]; [|eauto]. destruct H as [H|H]; [lra|]. cbn [oval].
    destruct (T (nx (f_weight s) (g (f_weight s)))) as (s1 & M1 & F1). rewrite M1. cbn [bind]. destruct (measured _ _ M1) as [_ W]. apply IH; [lia|rewrite W; exact M1|rewrite W; exact H].
Qed.
Lemma loop_total tol nx m : forall s, exists s' m', force_loop create dist tol nx m s = Ok (s', m').
Proof.
  induction m as [|m IH]; intros s; cbn [force_loop]; destruct (off tol (f_max s)); eauto.
  destruct (T (nx (f_weight s) (oval (f_max s)))) as (s1 & M1 & _). rewrite M1. cbn [bind]. apply IH.
Qed.
Lemma loop_nonzero tol nx m s s' m' : measure (f_weight s) = Ok s -> force_loop create dist tol nx m s = Ok (s', m') -> m' <> 0%nat -> tol < Rabs (g 0 - 1) -> f_weight s' <> 0.
Proof.
  intros M F Z L E. destruct (force_loop_sound _ _ _ _ _ _ _ _ M F) as (M' & _ & O). specialize (O Z). destruct (measured _ _ M') as [Fm _]. rewrite E in Fm. rewrite Fm in O. apply off_false in O. destruct O as [O|(x & O & P)]; [discriminate|]. injection O as <-. lra.
Qed.
Lemma search_nonzero : g 0 <= 1 / 4 -> hits (fun u => Rabs (g u - 1) <= 1 / 100) (fun u => (1 + 1) * u / (1 + g u)) 46 1 ->
  exists r, find_minimum_force_with create dist = Ok r /\ f_weight r <> 0.
Proof.
  intros G0 H. assert (A : 1 / 100 < Rabs (g 0 - 1)) by (rewrite Rabs_left1; lra). assert (A' : 5 / 1000 < Rabs (g 0 - 1)) by lra.
  unfold find_minimum_force_with. destruct (T 1) as (s & M & F). destruct (measured _ _ M) as [_ W]. assert (MW : measure (f_weight s) = Ok s) by (rewrite W; exact M). rewrite M. cbn [bind].
  destruct (oleb (Some 1) (f_min s)) eqn:OL; [exists s; split; [reflexivity|lra]|].
  match goal with |- context [force_loop create dist ?tol ?nx ?m s] => destruct (loop_total tol nx m s) as (s' & m' & FL) end. rewrite FL. cbn [bind].
  destruct (Nat.eqb_spec m' 0) as [Z|Z]; [|exists s'; split; [reflexivity|exact (loop_nonzero _ _ _ _ _ _ MW FL Z A')]].
  cbn [find_minimum_force_dampened]. rewrite M. cbn [bind]. rewrite OL.
  destruct (loop_hits (1 / 100) (fun w x => (1 + 1) * w / (1 + x)) 46 50 s ltac:(lia) MW) as (s2 & m2 & F2 & Z2); [rewrite W; exact H|].
  rewrite F2. cbn [bind]. destruct (Nat.eqb_spec m2 0) as [Z3|_]; [congruence|]. exists s2. split; [reflexivity|exact (loop_nonzero _ _ _ _ _ _ MW F2 Z2 A)].
Qed.
End L.

(** ** The search *)
Section S.
Variable eig : mat6 -> list eigpair.
Variable solve : nat -> matrix -> vector -> res vector.
Variable brent : R -> R -> list (R * R) -> bstep.
Variable maxeval : nat.
Variables (layers : list layer) (phi E t : R) (li : list R) (ki : list bool).
Hypothesis St : setting eig solve layers li ki E t.
Notation create := (fun w => create_skier_object eig solve brent maxeval (LList layers) w phi li ki false E t).
Theorem found_model e w M0 : quadratic_envelope e -> critical create (env e) w -> peak_of create (env e) 0 M0 -> M0 <= 1 / 4 -> / 65536 <= w <= 65536 ->
  exists r, find_minimum_force eig solve brent maxeval (LList layers) phi E t e li ki = Ok r /\ f_weight r <> 0.
Proof.
  intros Q [Hw C] P0 L R. destruct (setting_affine eig solve brent maxeval layers phi E t li ki St) as (s0 & s1 & t0 & t1 & AF & N). destruct (quadratic_value e Q) as (sc & tc & Hs & Ht & F).
  set (g := gmax sc tc (quads s0 s1 t0 t1)).
  assert (G : forall u M, peak_of create (env e) u M -> M = g u) by (intros u M (k & K & P); exact (peak_gmax _ _ _ _ _ AF e sc tc u k M Hs Ht F K P)).
  apply G in C, P0. subst M0. unfold find_minimum_force. apply (search_nonzero _ _ g); [|exact L|apply (reaches sc tc _ w L (eq_sym C) Hw R)].
  intros u. destruct (peak_exists _ _ _ _ _ AF e u Q N) as (k & _ & K & _).
  destruct (create_lengths _ _ _ _ _ _ _ _ _ _ _ _ _ K) as [L1 L2].
  assert (Kn : known_envelope (e_name e)) by (destruct Q as [->|[-> _]]; unfold known_envelope; simpl; tauto).
  destruct (distances_total e k Kn L1) as [[d m] D]; [intros Z; rewrite Z in L2; simpl in L2; lia|].
  destruct (create_present _ _ _ _ _ _ _ _ _ _ _ _ K) as (_ & P1 & P2). destruct (distances_extreme e _ _ _ P1 P2 D) as (dd & M & m' & _ & EM & _). subst d.
  exists (mkMf u k (Some M) m). unfold MCriterion.measure. cbv beta. rewrite K. cbn [bind]. rewrite D. cbn [bind fst snd]. split; [reflexivity|]. cbn [f_max]. f_equal.
  apply G. exists k. split; [exact K|]. exact (proj1 (created_distance eig solve brent maxeval layers phi E t li ki e u k M m Q K D)).
Qed.
End S.
