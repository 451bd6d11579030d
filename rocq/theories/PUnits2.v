(** Change of units: solutions, substitute springs and derived quantities. *)
From Coq Require Import Permutation.
From Coquelicot Require Import Coquelicot.
Require Import Verif.Py Verif.MTools Verif.MEigen Verif.MFields Verif.SAdm Verif.MRaster
  Verif.MSolution Verif.MAnalysis Verif.SBeam Verif.SBvp Verif.SEig Verif.SContact Verif.SMirror Verif.SUnits Verif.PBeam Verif.PBeam2
  Verif.PBvp Verif.PBvp2 Verif.PBalance Verif.PWell Verif.PWell2 Verif.PWell3 Verif.PBvp6 Verif.PMirror Verif.PSub Verif.PUnits.

Section Units.
Variable u : units.
Hypothesis U : proper_units u.
Let a := uL u.
Let b := uF u.
Let c := uM u.
Lemma Va : a <> 0. Proof. exact (Ua u U). Qed.
Lemma Vb : b <> 0. Proof. exact (Ub u U). Qed.
Lemma Vc : c <> 0. Proof. exact (Uc u U). Qed.
Local Ltac us := unfold u_density, u_stress, u_line, u_accel; fold a b c.
Local Ltac fu := us; field; repeat split; try apply Va; try apply Vb; try apply Vc.

(** ** Admissibility *)
Lemma lam_in p : lam_ok p -> lam_ok (par_in u p).
Proof.
  intros (H1 & H2 & H3 & H4 & H5). destruct U as (A & B & C). unfold lam_ok, par_in; simpl.
  assert (L : 0 < u_line u) by (apply Rdiv_lt_0_compat; assumption).
  split; [nra|]. split; [apply Rmult_lt_0_compat; [apply Rmult_lt_0_compat|]; assumption|]. split; [nra|].
  split; [rewrite H4; fu|]. assert (0 < uF u * uF u) by nra. nra.
Qed.
Lemma fnd_in p : fnd_ok p -> fnd_ok (par_in u p).
Proof.
  intros (H1 & H2 & H3). destruct U as (A & B & C). unfold fnd_ok, par_in; simpl.
  assert (L : 0 < u_stress u / uL u) by (repeat apply Rdiv_lt_0_compat; try apply pow_lt; assumption).
  repeat split; apply Rmult_lt_0_compat; assumption.
Qed.
Lemma stable_in p : stable p -> stable (par_in u p).
Proof.
  intros H. destruct U as (A & B & C). unfold stable, par_in in *; simpl.
  replace (u_stress u / uL u * kt p * (uL u * wt p * (uL u * wt p * 1))) with (u_line u * (kt p * wt p ^ 2)) by fu.
  replace (16 * (u_line u * kA55 p)) with (u_line u * (16 * kA55 p)) by ring.
  apply Rmult_lt_compat_l; [apply Rdiv_lt_0_compat; assumption|exact H].
Qed.
Definition ewp_in (e : eigpair) : eigpair :=
  let '((re, im), (vr, vi)) := e in ((re / a, im / a), (state_in u vr, state_in u vi)).
Lemma matrix_in p z : lam_ok p -> matvec (calc_system_matrix (par_in u p)) (state_in u z)
  = vscale (/ a) (state_in u (matvec (calc_system_matrix p) z)).
Proof.
  intros (_ & _ & H3 & _ & H5). pose proof Va as Ha. pose proof Vb as Hb.
  unfold calc_system_matrix, matvec, par_in, state_in, vscale, dot6; simpl. us.
  f_equal; field; repeat split; try assumption; lra.
Qed.
Lemma state_vscale k z : state_in u (vscale k z) = vscale k (state_in u z).
Proof. apply vec6_eq; simpl; unfold Rdiv; ring. Qed.
Lemma state_vadd x y : state_in u (vadd x y) = vadd (state_in u x) (state_in u y).
Proof. apply vec6_eq; simpl; unfold Rdiv; ring. Qed.
Lemma state_zero z : state_in u z = vzero -> z = vzero.
Proof.
  intros H. injection H as H1 H2 H3 H4 H5 H6. pose proof Va as Ha. fold a in H1, H3, H6.
  assert (K : forall x, a * x = 0 -> x = 0) by (intros x Hx; apply Rmult_integral in Hx; tauto).
  apply vec6_eq; simpl; try assumption; try (apply K; assumption).
  unfold Rdiv in H6. apply Rmult_integral in H6. destruct H6 as [E|E]; [exact E|]. exfalso. exact (Rinv_neq_0_compat _ Ha E).
Qed.
Lemma eig_in p ews : lam_ok p -> good_eigenpairs (calc_system_matrix p) ews ->
  good_eigenpairs (calc_system_matrix (par_in u p)) (map ewp_in ews).
Proof.
  intros Hl (H1 & H2 & H3 & H4 & H5). pose proof Va as Ha. unfold good_eigenpairs.
  set (f := fun v : R * R => (fst v / a, snd v / a)).
  assert (E : map fst (map ewp_in ews) = map f (map fst ews)).
  { rewrite !map_map. apply map_ext. intros [[re im] [vr vi]]. reflexivity. }
  split; [rewrite map_length; exact H1|]. split; [|split; [|split]].
  - apply Forall_map. eapply Forall_impl; [|exact H2]. intros [[re im] [vr vi]] (A & B). unfold true_eigenpair, ewp_in.
    rewrite !matrix_in by exact Hl. rewrite A, B, !state_vadd, !state_vscale.
    split; apply vec6_eq; simpl; unfold Rdiv; ring.
  - rewrite E. apply FinFun.Injective_map_NoDup; [|exact H3].
    intros [x1 y1] [x2 y2] Q. unfold f in Q. simpl in Q. injection Q as Q1 Q2.
    f_equal; [apply (Rmult_eq_reg_r (/ a)); [exact Q1|]|apply (Rmult_eq_reg_r (/ a)); [exact Q2|]]; apply Rinv_neq_0_compat; exact Ha.
  - rewrite E. replace (map (fun v => (fst v, - snd v)) (map f (map fst ews)))
      with (map f (map (fun v => (fst v, - snd v)) (map fst ews))); [apply Permutation_map; exact H4|].
    rewrite !map_map. apply map_ext. intros e. unfold f. simpl. f_equal. unfold Rdiv. ring.
  - apply Forall_map. eapply Forall_impl; [|exact H5]. intros [[re im] [vr vi]] (A & B). simpl in *. split.
    + intros [C1 C2]. apply A. split; apply state_zero; assumption.
    + intros C1 C2. apply B; [|apply state_zero; exact C2].
      unfold Rdiv in C1. apply Rmult_integral in C1. destruct C1 as [Q|Q]; [exact Q|]. exfalso. exact (Rinv_neq_0_compat _ Ha Q).
Qed.

(** ** Solutions *)
Section Problem.
Variables (o o' : obj) (kR phi : R).
Hypothesis S0 : same_in u o o'.
Hypothesis KD : exists kd, kind_of (o_system o) = Some kd /\ (kd = KPst \/ kd = KVpst \/ kd = KSkier).
Hypothesis HL : o_lski o <> 0.

Lemma left_in k z : fnd_ok (o_par o) -> lam_ok (o_par o) -> left_end o kR phi k z -> left_end o' (b * kR) phi k (state_in u z).
Proof.
  intros F L. destruct KD as (kd & EK & HK). pose proof S0 as (_ & _ & SY & _). unfold left_end. rewrite SY, EK.
  destruct HK as [->|[-> | ->]]; [apply (pst_in u U o o' kR phi S0)|apply (faceend_in u U o o' phi S0)|apply (far_in u U o o' phi S0); assumption].
Qed.
Lemma right_in k z : fnd_ok (o_par o) -> lam_ok (o_par o) -> right_end o kR phi k z -> right_end o' (b * kR) phi k (state_in u z).
Proof.
  intros F L. destruct KD as (kd & EK & HK). pose proof S0 as (_ & _ & SY & _). unfold right_end. rewrite SY, EK.
  destruct HK as [->|[-> | ->]]; [apply (pst_in u U o o' kR phi S0)|apply (faceend_in u U o o' phi S0)|apply (far_in u U o o' phi S0); assumption].
Qed.
Lemma fbvp_in n l m k z : fnd_ok (o_par o) -> lam_ok (o_par o) -> fbvp o kR phi n l m k z ->
  fbvp o' (b * kR) phi n (fun i => a * l i) (fun i => c * m i) k (fun i s => state_in u (z i (s / a))).
Proof.
  intros F L (H1 & H2 & H3 & H4). pose proof Va as Ha. assert (Pa : 0 < a) by (destruct U; assumption).
  assert (E0 : 0 / a = 0) by (unfold Rdiv; ring).
  assert (E1 : forall x, a * x / a = x) by (intros; field; exact Ha).
  split; [|split; [|split]].
  - rewrite E0. apply left_in; assumption.
  - rewrite E1. apply right_in; assumption.
  - intros i Hi. rewrite E0, E1. apply (transition_in u U o o' phi S0 KD); [exact HL|apply H3; exact Hi].
  - intros i x Hi Hx. rewrite (loads_units u U o o' phi S0). pose proof S0 as (_ & _ & _ & _ & _ & P & _). rewrite P.
    rewrite (extra_in u U). apply (balance_in u U). fold a. apply H4; [exact Hi|].
    split; [apply Rmult_le_pos; [lra|left; apply Rinv_0_lt_compat; exact Pa]|].
    apply (Rmult_le_reg_l a); [exact Pa|]. replace (a * (x / a)) with x by (field; exact Ha). exact (proj2 Hx).
Qed.

Lemma fields_in li mi ki Cs Cs' : ready o -> ready o' -> stable (o_par o) -> 0 <= kR -> proper_segments li ki -> li <> [] ->
  bvp o kR phi li mi ki Cs -> bvp o' (b * kR) phi (map (Rmult a) li) (map (Rmult c) mi) ki Cs' ->
  forall i s, (i < List.length li)%nat -> 0 <= s <= nth i li 0 ->
    field o' phi (a * nth i li 0) (nth i ki false) (nth i Cs' []) (a * s)
    = state_in u (field o phi (nth i li 0) (nth i ki false) (nth i Cs []) s).
Proof.
  intros Hr Hr' Hs HR (Hp & i0 & Hi0 & Hk0 & Hl0) Hn HB HB' i s Hi Hx. pose proof Va as Ha.
  assert (Pa : 0 < a) by (destruct U; assumption). assert (Pb : 0 < b) by (destruct U as (_ & ? & _); assumption).
  pose proof (proj1 Hr) as Lo. pose proof (proj1 (proj2 Hr)) as Fo.
  pose proof (fbvp_in _ _ _ _ _ Fo Lo (bvp_fbvp o kR phi li mi ki Cs Hr Hn HB)) as F1.
  assert (Hn' : map (Rmult a) li <> []) by (destruct li; [congruence|discriminate]).
  pose proof (bvp_fbvp o' (b * kR) phi _ _ ki Cs' Hr' Hn' HB') as F2. rewrite map_length in F2.
  set (n := (List.length li - 1)%nat) in *.
  set (z' := fun i => field o' phi (a * nth i li 0) (nth i ki false) (nth i Cs' [])).
  assert (F3 : fbvp o' (b * kR) phi n (fun i => a * nth i li 0) (fun i => c * nth i mi 0) (fun i => nth i ki false) z').
  { destruct F2 as (G1 & G2 & G3 & G4). unfold z'. split; [|split; [|split]].
    - rewrite nth_scaled in G1. exact G1.
    - rewrite nth_scaled in G2. exact G2.
    - intros j Hj. specialize (G3 j Hj). rewrite !nth_scaled in G3. exact G3.
    - intros j x Hj Hxj. specialize (G4 j x Hj). rewrite !nth_scaled in G4. apply G4. exact Hxj. }
  pose proof S0 as (_ & _ & _ & _ & _ & P & _).
  assert (Q : z' i (a * s) = state_in u (field o phi (nth i li 0) (nth i ki false) (nth i Cs []) (a * s / a))).
  { apply (fbvp_unique o' (b * kR) phi n _ _ _ z' _ i0) with (9 := F3) (10 := F1).
    - exact (proj1 Hr').
    - exact (proj1 (proj2 Hr')).
    - rewrite P. apply stable_in. exact Hs.
    - nra.
    - intros j Hj. pose proof (Hp j ltac:(lia)). nra.
    - lia.
    - exact Hk0.
    - apply Rmult_lt_0_compat; assumption.
    - lia.
    - destruct Hx. split; nra. }
  replace (a * s / a) with s in Q by (field; exact Ha). exact Q.
Qed.
End Problem.

(** ** Substitute springs *)
Lemma foundation_of_in o o' support : same_in u o o' -> foundation_of o' support = par_in u (foundation_of o support).
Proof.
  intros (_ & _ & _ & _ & _ & P & _ & _ & _ & _ & _ & R0). unfold foundation_of. rewrite P, R0.
  destruct (String.eqb support "rested"); [|reflexivity]. unfold par_in; simpl. f_equal; ring.
Qed.
Lemma beam_in p L M0 V0 k z : end_loaded_beam p L M0 V0 z ->
  end_loaded_beam (par_in u p) (a * L) (k * (b * M0)) (k * (u_line u * V0)) (fun s => vscale k (state_in u (z (s / a)))).
Proof.
  intros (H1 & H2 & H3). pose proof Va as Ha. assert (Pa : 0 < a) by (destruct U; assumption).
  assert (SC : forall q x, sN q (vscale k x) = k * sN q x /\ sM q (vscale k x) = k * sM q x /\ sV q (vscale k x) = k * sV q x).
  { intros q x. unfold sN, sM, sV; simpl. repeat split; ring. }
  split; [|split].
  - intros x Hx. assert (Hxa : 0 <= x / a <= L).
    { split; [apply Rmult_le_pos; [lra|left; apply Rinv_0_lt_compat; exact Pa]|].
      apply (Rmult_le_reg_l a); [exact Pa|]. replace (a * (x / a)) with x by (field; exact Ha). lra. }
    pose proof (equilibrium_balance _ _ _ _ _ (H1 _ Hxa)) as B. apply (balance_in u U) in B.
    pose proof (balance_combo _ _ _ _ _ _ _ _ k 0 _ B B) as B2. unfold no_loads, loads_in in B2. cbn [qn qt pn pt] in B2.
    destruct B2 as (X1 & X2 & X3 & X4 & X5 & X6). unfold equilibrium.
    assert (EV : forall y, combo k y 0 y = vscale k y) by (intros; apply vec6_eq; simpl; ring).
    rewrite EV in X1, X2, X3, X4, X5, X6.
    assert (EX : forall (f : vec6 -> R) d, is_derive (fun s => f (combo k (state_in u (z (s / a))) 0 (state_in u (z (s / a))))) x d ->
      is_derive (fun s => f (vscale k (state_in u (z (s / a))))) x d).
    { intros f d Hd. eapply is_derive_ext; [|exact Hd]. intros t. simpl. rewrite EV. reflexivity. }
    cbn [no_loads qn qt pn pt] in *.
    split6; try (apply EX; assumption).
    + apply EX. eapply is_derive_eq; [exact X4|]. unfold a. ring.
    + apply EX. eapply is_derive_eq; [exact X5|]. unfold a. ring.
    + apply EX. eapply is_derive_eq; [exact X6|]. unfold a. ring.
  - replace (0 / a) with 0 by (unfold Rdiv; ring). destruct H2 as (A & B & C). unfold forces.
    destruct (SC (par_in u p) (state_in u (z 0))) as (-> & -> & ->).
    rewrite (N_in u U), (M_in u U), (V_in u U), A, B, C. fold b. repeat split; ring.
  - replace (a * L / a) with L by (field; exact Ha). destruct H3 as (A & B & C). unfold forces.
    destruct (SC (par_in u p) (state_in u (z L))) as (-> & -> & ->).
    rewrite (N_in u U), (M_in u U), (V_in u U), A, B, C. repeat split; ring.
Qed.
Lemma rot_in eig solve o o' L support : sound_solver solve -> complete_solver solve -> same_in u o o' ->
  substitute_ready eig o support -> substitute_ready eig o' support -> 0 < L ->
  exists k, 0 < k /\ fst (substitute_stiffness eig solve o L support "rot") = Ok k /\
    fst (substitute_stiffness eig solve o' (a * L) support "rot") = Ok (b * k).
Proof.
  intros Ss Sc S0 R0 R1 HL. assert (Pa : 0 < a) by (destruct U; assumption). pose proof Vb as Hb.
  destruct (beam_exists eig o L support R0 HL) as [(z & B) _].
  destruct (sub_rot eig solve o L support z Ss Sc R0 HL B) as [N E].
  pose proof (beam_in _ _ _ _ (/ b) _ B) as B'.
  replace (/ b * (b * 1)) with 1 in B' by (field; exact Hb). rewrite !Rmult_0_r in B'.
  rewrite <- (foundation_of_in o o' support S0) in B'.
  destruct (sub_rot eig solve o' (a * L) support _ Ss Sc R1 ltac:(nra) B') as [N' E'].
  exists (1 / - z_psi (z 0)). split; [apply Rdiv_lt_0_compat; lra|]. split; [exact E|]. rewrite E'. f_equal. simpl.
  replace (0 / a) with 0 by (unfold Rdiv; ring). field. split; [lra|exact Hb].
Qed.
Lemma trans_in eig solve o o' L support z : sound_solver solve -> complete_solver solve -> same_in u o o' ->
  substitute_ready eig o support -> substitute_ready eig o' support -> 0 < L ->
  end_loaded_beam (foundation_of o support) L 0 1 z ->
  let w := z_w (z 0) in let s := (qn (loads_of o 0) + pn (loads_of o 0)) / kn (foundation_of o support) in
  w < 0 /\
    fst (substitute_stiffness eig solve o L support "trans") = Ok (Rabs (1 / (w + s))) /\
    fst (substitute_stiffness eig solve o' (a * L) support "trans") = Ok (Rabs (1 / (a ^ 2 / b * w + a * s))).
Proof.
  intros Ss Sc S0 R0 R1 HL B. cbv zeta. assert (Pa : 0 < a) by (destruct U; assumption). pose proof Vb as Hb. pose proof Va as Ha.
  assert (HU : u_line u <> 0) by (us; unfold Rdiv; apply Rmult_integral_contrapositive_currified; [exact Hb|apply Rinv_neq_0_compat; exact Ha]).
  destruct (sub_trans eig solve o L support z Ss Sc R0 HL B) as [N E].
  pose proof (beam_in _ _ _ _ (/ u_line u) _ B) as B'.
  replace (/ u_line u * (u_line u * 1)) with 1 in B' by (field; exact HU). rewrite !Rmult_0_r in B'.
  rewrite <- (foundation_of_in o o' support S0) in B'.
  destruct (sub_trans eig solve o' (a * L) support _ Ss Sc R1 ltac:(nra) B') as [N' E'].
  split; [exact N|]. split; [exact E|]. rewrite E', (loads_units u U o o' 0 S0), (foundation_of_in o o' support S0).
  pose proof R0 as (_ & _ & (Hkn & _) & _).
  f_equal. f_equal. f_equal. simpl. replace (0 / a) with 0 by (unfold Rdiv; ring).
  us. field. repeat split; try assumption; lra.
Qed.

(** ** Derived quantities *)
Lemma quantities_in p z0 z :
  f_w (state_in u z) = a * f_w z /\ f_u (a * z0) (state_in u z) = a * f_u z0 z /\
  f_psi (state_in u z) = f_psi z /\
  f_N (par_in u p) (state_in u z) = u_line u * f_N p z /\
  f_M (par_in u p) (state_in u z) = b * f_M p z /\
  f_V (par_in u p) (state_in u z) = u_line u * f_V p z /\
  f_sig (par_in u p) (state_in u z) = u_stress u * f_sig p z /\
  f_tau (par_in u p) (state_in u z) = u_stress u * f_tau p z.
Proof.
  pose proof Va as Ha. pose proof Vb as Hb.
  unfold f_w, f_u, f_psi, f_N, f_M, f_V, f_sig, f_tau, f_dw, f_w, f_u, f_psi, par_in, state_in. cbn [z_u z_du z_w z_dw z_psi z_dpsi kn kt wt hh A11 B11 D11 kA55].
  fold a b. repeat split; try ring; fu.
Qed.
Lemma err_in p z unit : kn p <> 0 -> kt p <> 0 ->
  Gi_unit (par_in u p) unit (state_in u z) = match Gi_unit p unit z with Ok g => Ok (u_line u * g) | Err e => Err e end /\
  Gii_unit (par_in u p) unit (state_in u z) = match Gii_unit p unit z with Ok g => Ok (u_line u * g) | Err e => Err e end.
Proof.
  intros H1 H2. pose proof (quantities_in p 0 z) as (_ & _ & _ & _ & _ & _ & E1 & E2). unfold Gi_unit, Gii_unit. rewrite E1, E2.
  destruct (conv_err unit) as [k|e]; [|split; reflexivity]. simpl. pose proof Va. pose proof Vb.
  split; f_equal; us; field; repeat split; assumption.
Qed.
End Units.
