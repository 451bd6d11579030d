(** Moduli of the weak layer with coinciding eigenvalues (C106). *)
From Coq Require Import Lra Lia.
Require Import Verif.Py Verif.MTools Verif.MEigen Verif.SAdm Verif.SSlab Verif.SBeam Verif.SBvp Verif.SEig
  Verif.SExact Verif.SRegular Verif.PLam Verif.PSetup Verif.PExact Verif.PExact2 Verif.PropExact Verif.PRegular Verif.PRegular2.
Open Scope R_scope.

(** Positive roots of a cubic with a negative constant term. *)
Lemma cubic_roots a b c : c < 0 -> exists l : list R, (1 <= List.length l <= 3)%nat /\ NoDup l /\ Forall (fun x => 0 < x) l /\
  forall x, 0 < x -> (x ^ 3 + a * x ^ 2 + b * x + c = 0 <-> In x l).
Proof.
  intros Hc. set (M := 1 + Rabs a + Rabs b + Rabs c).
  assert (HM : 0 < M) by (pose proof (Rabs_pos a); pose proof (Rabs_pos b); pose proof (Rabs_pos c); unfold M; lra).
  destruct (IVT (fun m => m ^ 3 + a * m ^ 2 + b * m + c) 0 M (cubic_continuous a b c) HM) as (r & [Hr _] & Er);
    [lra|exact (cubic_above a b c)|].
  assert (Pr : 0 < r).
  { destruct Hr as [Hr|Hr]; [exact Hr|]. subst r. lra. }
  set (B := a + r). set (C := b + r * B). set (d := B ^ 2 - 4 * C).
  set (L0 := r :: if Rlt_dec d 0 then [] else [(- B + sqrt d) / 2; (- B - sqrt d) / 2]).
  assert (HL : forall x, x ^ 3 + a * x ^ 2 + b * x + c = 0 <-> In x L0).
  { intros x. assert (F : x ^ 3 + a * x ^ 2 + b * x + c = (x - r) * (x ^ 2 + B * x + C)).
    { replace (x ^ 3 + a * x ^ 2 + b * x + c) with (x ^ 3 + a * x ^ 2 + b * x + c - (r ^ 3 + a * r ^ 2 + b * r + c)) by lra.
      unfold C, B. ring. }
    rewrite F. split.
    - intros E. apply Rmult_integral in E. destruct E as [E|E]; [left; lra|right].
      assert (D : (2 * x + B) ^ 2 = d) by (unfold d; replace ((2 * x + B) ^ 2) with (4 * (x ^ 2 + B * x + C) + (B ^ 2 - 4 * C)) by ring; rewrite E; ring).
      destruct (Rlt_dec d 0) as [N|N]; [pose proof (pow2_ge_0 (2 * x + B)); lra|].
      assert (Q : sqrt d ^ 2 = d) by (simpl; rewrite Rmult_1_r; apply sqrt_sqrt; lra).
      assert (Z : (2 * x + B - sqrt d) * (2 * x + B + sqrt d) = 0) by (replace ((2 * x + B - sqrt d) * (2 * x + B + sqrt d)) with ((2 * x + B) ^ 2 - sqrt d ^ 2) by ring; lra).
      apply Rmult_integral in Z. simpl. destruct Z; [left|right; left]; lra.
    - intros [E|I]; [rewrite E; ring|]. destruct (Rlt_dec d 0) as [N|N]; [destruct I|].
      assert (Q : sqrt d ^ 2 = d) by (simpl; rewrite Rmult_1_r; apply sqrt_sqrt; lra).
      assert (D : (2 * x + B) ^ 2 = d).
      { destruct I as [<-|[<-|[]]]; (transitivity (sqrt d ^ 2); [field|exact Q]). }
      replace (x ^ 2 + B * x + C) with (((2 * x + B) ^ 2 - d) / 4) by (unfold d; field). rewrite D. lra. }
  exists (nodup Req_EM_T (filter (Rltb 0) L0)).
  assert (I : forall x, In x (nodup Req_EM_T (filter (Rltb 0) L0)) <-> In x L0 /\ 0 < x).
  { intros x. rewrite nodup_In, filter_In. unfold Rltb. destruct (Rlt_dec 0 x); intuition discriminate. }
  split; [split|split; [|split]].
  - destruct (nodup Req_EM_T (filter (Rltb 0) L0)) as [|y l] eqn:E; [|simpl; lia].
    assert (In r []) as []. apply I. split; [left; reflexivity|exact Pr].
  - apply Nat.le_trans with (List.length L0).
    + apply NoDup_incl_length; [apply NoDup_nodup|]. intros x Hx. apply I in Hx. tauto.
    + unfold L0. destruct (Rlt_dec d 0); simpl; lia.
  - apply NoDup_nodup.
  - apply Forall_forall. intros x Hx. apply I in Hx. tauto.
  - intros x Hx. rewrite HL, I. tauto.
Qed.

(** The discriminant as a function of the modulus. *)
Lemma disc_modulus K c2 al be ga E : chi2 K = - (c2 * E) -> chi1 K = al * E + be * E ^ 2 -> chi0 K = - (ga * E ^ 2) ->
  chi_disc K = E ^ 3 * (be ^ 2 * (c2 ^ 2 - 4 * be) * E ^ 3
    + (18 * c2 * ga * be - 4 * c2 ^ 3 * ga + 2 * c2 ^ 2 * al * be - 12 * al * be ^ 2) * E ^ 2
    + (18 * c2 * ga * al + c2 ^ 2 * al ^ 2 - 12 * al ^ 2 * be - 27 * ga ^ 2) * E - 4 * al ^ 3).
Proof. intros E2 E1 E0. unfold chi_disc. rewrite E0, E1, E2. ring. Qed.

Section O.
Variable eig : mat6 -> list eigpair.

Lemma exceptional o t nu : built eig o -> 0 < t -> -1 < nu < 1 ->
  exists l : list R, (1 <= List.length l <= 3)%nat /\ NoDup l /\ Forall (fun E => 0 < E) l /\
  forall E, 0 < E ->
    (chi_disc (calc_system_matrix (o_par (set_foundation_properties eig o t E nu true))) = 0 <-> In E l).
Proof.
  intros B Ht Hnu. destruct (built_object eig o B) as (L & _ & Hh & HB & _). set (p := o_par o) in *.
  pose proof (Rle_abs (2 * B11 p)) as HB2. destruct L as (HA & HD & Hk & HK0 & HKn).
  set (De := A11 p * D11 p - B11 p ^ 2). assert (HDe : 0 < De) by (unfold De; lra).
  set (J := reach (A11 p) (B11 p) (D11 p) (hh p) t).
  assert (HJ : 0 < J) by (apply reach_pos; assumption).
  set (X := A11 p * hh p * (hh p + t) - 2 * B11 p * (2 * hh p + t) + 4 * D11 p).
  assert (HX : 0 < X).
  { assert (0 <= t * (A11 p * hh p - 2 * B11 p)) by (apply Rmult_le_pos; lra).
    assert (0 < A11 p * hh p ^ 2 - 4 * B11 p * hh p + 4 * D11 p); [|unfold X; lra].
    apply Rmult_lt_reg_l with (A11 p); [exact HA|]. rewrite Rmult_0_r.
    replace (A11 p * (A11 p * hh p ^ 2 - 4 * B11 p * hh p + 4 * D11 p)) with ((A11 p * hh p - 2 * B11 p) ^ 2 + 4 * De) by (unfold De; ring).
    pose proof (pow2_ge_0 (A11 p * hh p - 2 * B11 p)). lra. }
  assert (HJX : X / De < 4 * J).
  { apply Rmult_lt_reg_r with De; [exact HDe|].
    replace (X / De * De) with X by (field; lra).
    replace (4 * J * De) with (A11 p * (hh p + t) ^ 2 - 4 * B11 p * (hh p + t) + 4 * D11 p) by (unfold J, reach; fold De; field; lra).
    assert (0 < t * (A11 p * (hh p + t) - 2 * B11 p)); [|unfold X; nra].
    apply Rmult_lt_0_compat; [exact Ht|]. assert (0 < A11 p * t) by (apply Rmult_lt_0_compat; lra). lra. }
  assert (HN : 0 < 1 - nu ^ 2) by nra.
  set (a' := 1 / ((1 - nu ^ 2) * t * kA55 p)). set (b' := 1 / (2 * (1 + nu) * t)).
  assert (Ha' : 0 < a') by (apply Rdiv_lt_0_compat; [lra|]; apply Rmult_lt_0_compat; [apply Rmult_lt_0_compat; lra|lra]).
  assert (Hb' : 0 < b') by (apply Rdiv_lt_0_compat; [lra|]; apply Rmult_lt_0_compat; lra).
  set (c2 := a' + b' * J). set (be := a' * b' * (X / De) / 4). set (al := A11 p / ((1 - nu ^ 2) * t * De)).
  set (ga := 1 / ((1 - nu ^ 2) * t * (2 * (1 + nu) * t) * De)).
  assert (Hbe : 0 < be).
  { apply Rdiv_lt_0_compat; [|lra]. apply Rmult_lt_0_compat; [apply Rmult_lt_0_compat; assumption|apply Rdiv_lt_0_compat; assumption]. }
  assert (Hal : 0 < al) by (apply Rdiv_lt_0_compat; [exact HA|]; apply Rmult_lt_0_compat; [apply Rmult_lt_0_compat; lra|exact HDe]).
  assert (Hlead : 0 < be ^ 2 * (c2 ^ 2 - 4 * be)).
  { apply Rmult_lt_0_compat; [apply pow_lt; exact Hbe|].
    assert (a' * b' * (X / De) < a' * b' * (4 * J)) by (apply Rmult_lt_compat_l; [apply Rmult_lt_0_compat; assumption|exact HJX]).
    pose proof (pow2_ge_0 (a' - b' * J)). unfold be, c2. nra. }
  set (q3 := be ^ 2 * (c2 ^ 2 - 4 * be)) in *.
  destruct (cubic_roots ((18 * c2 * ga * be - 4 * c2 ^ 3 * ga + 2 * c2 ^ 2 * al * be - 12 * al * be ^ 2) / q3)
    ((18 * c2 * ga * al + c2 ^ 2 * al ^ 2 - 12 * al ^ 2 * be - 27 * ga ^ 2) / q3) (- (4 * al ^ 3) / q3)) as (l & N & D & F & Hl).
  { unfold Rdiv. rewrite Ropp_mult_distr_l_reverse. apply Ropp_lt_gt_0_contravar.
    apply Rmult_lt_0_compat; [|apply Rinv_0_lt_compat; exact Hlead]. pose proof (pow_lt al 3 Hal). lra. }
  exists l. split; [exact N|]. split; [exact D|]. split; [exact F|]. intros E HE. rewrite <- (Hl E HE).
  rewrite (weak_par eig o t E nu B). fold p.
  set (p' := mkPar _ _ _ _ _ _ _ _ _ _).
  assert (A' : adm p').
  { split; [|split].
    - unfold lam_ok, p'. simpl. rewrite HK0. repeat split; lra.
    - unfold fnd_ok, p'. simpl. repeat split; [| |exact Ht]; apply Rdiv_lt_0_compat; try exact Ht; apply Rdiv_lt_0_compat; lra.
    - exact Hh. }
  rewrite (disc_modulus (calc_system_matrix p') c2 al be ga E).
  - fold q3.
    replace (E ^ 3 + (18 * c2 * ga * be - 4 * c2 ^ 3 * ga + 2 * c2 ^ 2 * al * be - 12 * al * be ^ 2) / q3 * E ^ 2 +
      (18 * c2 * ga * al + c2 ^ 2 * al ^ 2 - 12 * al ^ 2 * be - 27 * ga ^ 2) / q3 * E + - (4 * al ^ 3) / q3)
    with ((q3 * E ^ 3 + (18 * c2 * ga * be - 4 * c2 ^ 3 * ga + 2 * c2 ^ 2 * al * be - 12 * al * be ^ 2) * E ^ 2
    + (18 * c2 * ga * al + c2 ^ 2 * al ^ 2 - 12 * al ^ 2 * be - 27 * ga ^ 2) * E - 4 * al ^ 3) / q3) by (field; lra).
    set (Q := q3 * E ^ 3 + _ + _ - _). pose proof (pow_lt E 3 HE) as HE3. split; intros Z.
    + apply Rmult_integral in Z. destruct Z as [Z|Z]; [lra|]. rewrite Z. unfold Rdiv. ring.
    + assert (Q = Q / q3 * q3) as -> by (field; lra). rewrite Z. ring.
  - rewrite chi2_value by (destruct A'; assumption). unfold p'. cbn [kn kt wt hh A11 B11 D11 kA55 zs K0]. fold p J.
    unfold c2, a', b'. field. repeat split; lra.
  - rewrite chi1_value by (destruct A'; assumption). unfold p'. cbn [kn kt wt hh A11 B11 D11 kA55 zs K0]. fold De X.
    unfold be, al, a', b'. field. repeat split; lra.
  - rewrite chi0_value by exact A'. unfold p'. cbn [kn kt wt hh A11 B11 D11 kA55 zs K0].
    replace (K0 p) with (- De) by (unfold De; lra). unfold ga. field. repeat split; lra.
Qed.
End O.
