(** Well-posedness of the assembled linear system (C67). *)
From Coquelicot Require Import Coquelicot.
From Coq Require Import Permutation.
Require Import Verif.Py Verif.MTools Verif.MEigen Verif.MFields Verif.SAdm Verif.MRaster
  Verif.MSolution Verif.SBeam Verif.SBvp Verif.SEig Verif.PSetup Verif.PBeam Verif.PBeam2
  Verif.PBvp Verif.PBvp2 Verif.PBvp3 Verif.PBvp4 Verif.PBvp5 Verif.PBalance Verif.PLinAlg
  Verif.PWell Verif.PIndep.

Lemma ready_six o : ready o -> six_cols o.
Proof.
  intros (Hl & Hf & ews & E & (H6 & HT & HD & HP & HV)) x l. rewrite E.
  apply (proj2 (fundamental_columns (o_par o) ews Hl Hf)); try assumption.
  eapply Forall_impl; [|exact HV]. intros a [H _]. exact H.
Qed.
Lemma ready_eig o : ready o -> eig_ok o.
Proof. intros (_ & _ & ews & E & (_ & HT & _)). exists ews. split; assumption. Qed.

(** Sign of the work at an end whose homogeneous conditions hold. *)
Lemma end_work o kR k pos b z : (pos = "l"%string \/ pos = "r"%string) ->
  (forall r, kR = Ok r -> 0 <= r) ->
  bc_rows o kR k pos = Ok b -> Forall (fun r => dot6 r z = 0) b ->
  (pos = "l"%string -> 0 <= work (o_par o) z) /\ (pos = "r"%string -> work (o_par o) z <= 0).
Proof.
  intros Hpos HkR H HF. unfold bc_rows in H.
  assert (F3 : forall a1 a2 a3 : vec6, Forall (fun r => dot6 r z = 0) [a1; a2; a3] ->
     dot6 a1 z = 0 /\ dot6 a2 z = 0 /\ dot6 a3 z = 0).
  { intros a1 a2 a3 G. inversion G as [|? ? G1 G2]; subst. inversion G2 as [|? ? G3 G4]; subst.
    inversion G4 as [|? ? G5 _]; subst. auto. }
  assert (Free : Ok [rowN (o_par o); rowM (o_par o); rowV (o_par o)] = Ok b -> work (o_par o) z = 0).
  { intros E. apply Ok_inj in E. subst b. apply F3 in HF. rewrite dot_N, dot_M, dot_V in HF.
    destruct HF as (E1 & E2 & E3). unfold work. rewrite E1, E2, E3. ring. }
  assert (Z : work (o_par o) z = 0 -> (pos = "l"%string -> 0 <= work (o_par o) z) /\
     (pos = "r"%string -> work (o_par o) z <= 0)) by (intros ->; split; intros; lra).
  destruct (mem_str (o_system o) ["pst-"; "-pst"]%string).
  - destruct (negb k); [|apply Z, Free, H].
    unfold mode_is in H. destruct (o_mode o) as [[| |]|]; [apply Z, Free, H| | |].
    + assert (b = [rowN (o_par o); rowM (o_par o); roww]) as ->.
      { destruct Hpos as [-> | ->]; cbn [andb] in H;
          [change (mem_str "l" ["r"; "right"]%string) with false in H;
           change (mem_str "l" ["l"; "left"]%string) with true in H
          |change (mem_str "r" ["r"; "right"]%string) with true in H];
          cbv iota in H; apply Ok_inj in H; symmetry; exact H. }
      apply F3 in HF. rewrite dot_N, dot_M, dot_w in HF. destruct HF as (E1 & E2 & E3).
      apply Z. unfold work. rewrite E1, E2, E3. ring.
    + destruct kR as [r|]; [|destruct Hpos as [-> | ->]; discriminate H].
      specialize (HkR r eq_refl).
      destruct Hpos as [-> | ->]; cbn [andb] in H;
        [change (mem_str "l" ["r"; "right"]%string) with false in H;
         change (mem_str "l" ["l"; "left"]%string) with true in H
        |change (mem_str "r" ["r"; "right"]%string) with true in H];
        cbv iota in H; cbn [bind] in H; apply Ok_inj in H; subst b; apply F3 in HF;
        rewrite dot_add_l, dot_scale_l, dot_N, dot_M, dot_w, dot_psi in HF;
        destruct HF as (E1 & E2 & E3); unfold work; rewrite E1, E3;
        (split; [intros Hp|intros Hp]); try discriminate Hp.
      * assert (sM (o_par o) z = r * z_psi z) as -> by lra. nra.
      * assert (sM (o_par o) z = - r * z_psi z) as -> by lra. nra.
    + simpl in H. discriminate.
  - destruct (mem_str (o_system o) ["-vpst"; "vpst-"]%string); [apply Z, Free, H|].
    destruct (mem_str (o_system o) ["skier"; "skiers"]%string).
    + apply Ok_inj in H. subst b. apply F3 in HF. rewrite dot_u, dot_w, dot_psi in HF.
      destruct HF as (E1 & E2 & E3). apply Z. unfold work. rewrite E1, E2, E3. ring.
    + destruct (mem_str (o_system o) ["rot"; "trans"]%string); [apply Z, Free, H|discriminate].
Qed.

Lemma lincomb_zeros cols i : lincomb cols (block (fun _ => 0) i) = vzero.
Proof.
  unfold block. generalize (seq 0 6) as L. revert cols.
  intros cols L. revert cols. induction L as [|a L IH]; intros [|c cols]; try reflexivity.
  cbn [map lincomb]. rewrite IH. apply vec6_eq; simpl; ring.
Qed.

Lemma Forall_block x i : Forall (fun c => c = 0) (block x i) -> forall j, (j < 6)%nat -> x (6 * i + j)%nat = 0.
Proof.
  intros H j Hj. rewrite Forall_forall in H. apply H. unfold block.
  apply in_map_iff. exists j. split; [reflexivity|]. apply in_seq. lia.
Qed.

Lemma assembled_kernel o kR phi li ki M v :
  let N := List.length li in
  ready o -> stable (o_par o) -> (2 <= N)%nat -> List.length ki = N ->
  (forall r, kR = Ok r -> 0 <= r) ->
  (forall i, (i < N)%nat -> 0 <= nth i li 0) ->
  (exists i, (i < N)%nat /\ nth i ki false = true /\ 0 < nth i li 0) ->
  assemble_lhs o kR phi N 0 li ki (fun _ _ => 0, fun _ => 0) = Ok (M, v) ->
  trivial_kernel (6 * N) M.
Proof.
  intros N Hr Hs HN Hk HkR Hpos (i0 & Hi0 & Hki0 & Hli0) HA x Hx c Hc.
  pose proof (ready_six o Hr) as H6.
  destruct (lhs_rows o kR phi li ki M v H6 HN Hk HA) as (bl & br & Hbl & Hbr & HR).
  fold N in Hbr, HR. cbv zeta in HR.
  pose proof (HR x) as (X1 & X2 & X3). pose proof (HR (fun _ => 0)) as (O1 & O2 & O3). clear HR.
  assert (Z0 : forall r, sumn (6 * N) (fun c => M r c * 0) = 0).
  { intros r. apply sumn_zero. intros; ring. }
  destruct Hr as (Hl & Hf & ews & He & Hg).
  set (p := o_par o) in *.
  set (h := fun i s => lincomb (zh p (o_eig o) s (nth i li 0) (nth i ki false)) (block x i)).
  assert (D : forall r i s, dot6 r (zi o phi li ki x i s) - dot6 r (zi o phi li ki (fun _ => 0) i s) = dot6 r (h i s)).
  { intros r i s. unfold zi, field, zsol. rewrite !dot_add, lincomb_zeros, dot_zero. unfold h, p. ring. }
  assert (RB : forall (b : list vec6) za zb zc, List.length b = 3%nat ->
     (forall r, dot6 r za - dot6 r zb = dot6 r zc) ->
     (forall c, (c < 3)%nat -> nth c (map (fun r => dot6 r za) b) 0 = nth c (map (fun r => dot6 r zb) b) 0) ->
     Forall (fun r => dot6 r zc = 0) b).
  { intros b za zb zc Lb E G. apply Forall_forall. intros r Hin. destruct (In_nth b r vzero Hin) as (c1 & Hc1 & <-).
    specialize (G c1 ltac:(lia)). rewrite !nth_map_dot in G by lia. rewrite <- E. lra. }
  assert (FL : Forall (fun r => dot6 r (h 0%nat 0) = 0) bl).
  { apply (RB bl (zi o phi li ki x 0 0) (zi o phi li ki (fun _ => 0) 0 0)); [apply (bc_rows_len _ _ _ _ _ Hbl)|intros; apply D|].
    intros c1 Hc1. rewrite <- X1, <- O1 by exact Hc1. rewrite Z0, Hx by lia. reflexivity. }
  assert (FR : Forall (fun r => dot6 r (h (N - 1)%nat (nth (N - 1) li 0)) = 0) br).
  { apply (RB br (zi o phi li ki x (N - 1) (nth (N - 1) li 0)) (zi o phi li ki (fun _ => 0) (N - 1) (nth (N - 1) li 0)));
      [apply (bc_rows_len _ _ _ _ _ Hbr)|intros; apply D|].
    intros c1 Hc1. rewrite <- X2, <- O2 by exact Hc1. rewrite Z0, Hx by lia. reflexivity. }
  assert (DI : forall c1 i s, (c1 < 6)%nat ->
     inner_val o (zi o phi li ki x i s) c1 - inner_val o (zi o phi li ki (fun _ => 0) i s) c1 = inner_val o (h i s) c1).
  { intros c1 i s Hc1. unfold inner_val. rewrite !nth_map_dot by exact Hc1. apply D. }
  assert (TT : forall i, (S i < N)%nat -> same6 p (h i (nth i li 0)) (h (S i) 0)).
  { intros i Hi.
    assert (G : forall c1, (c1 < 6)%nat -> inner_val o (h i (nth i li 0)) c1 = inner_val o (h (S i) 0) c1).
    { intros c1 Hc1. rewrite <- !DI by exact Hc1.
      pose proof (X3 i c1 Hi Hc1) as Y1. pose proof (O3 i c1 Hi Hc1) as Y2.
      rewrite Z0 in Y2. rewrite Hx in Y1 by lia. lra. }
    rewrite forall6 in G. unfold inner_val, inner_rows in G. cbn [map nth] in G.
    rewrite !dot_u, !dot_w, !dot_psi, !dot_N, !dot_M, !dot_V in G. exact G. }
  assert (HB : forall i s, balance p no_loads (nth i ki false) 0 (h i) s).
  { intros i s. apply equilibrium_balance. unfold h. rewrite He.
    apply (zh_equilibrium p ews (nth i li 0) (nth i ki false) (block x i) s Hl). apply Hg. }
  assert (HZ : forall i s, (i <= N - 1)%nat -> 0 <= s <= nth i li 0 -> h i s = vzero).
  { apply (homogeneous_unique p (N - 1) (fun i => nth i li 0) (fun i => nth i ki false) h i0 Hl Hf Hs).
    - intros i Hi. apply Hpos. lia.
    - intros i s _ _. apply HB.
    - intros i Hi. apply TT. lia.
    - apply (end_work o kR _ "l" bl _ (or_introl eq_refl) HkR Hbl FL). reflexivity.
    - apply (end_work o kR _ "r" br _ (or_intror eq_refl) HkR Hbr FR). reflexivity.
    - lia.
    - exact Hki0.
    - exact Hli0. }
  assert (HC : forall i, (i < N)%nat -> Forall (fun y => y = 0) (block x i)).
  { intros i Hi. assert (Hp : 0 <= nth i li 0) by (apply Hpos; exact Hi).
    pose proof (HZ i 0 ltac:(lia) ltac:(lra)) as E. unfold h in E.
    destruct (nth i ki false); simpl zh in E.
    - destruct Hg as (G6 & GT & GD & GP & GV). rewrite He in E.
      apply (columns_independent _ ews (nth i li 0) (block x i) GT GD GV); [|exact E].
      pose proof (H6 0 (nth i li 0)) as L6. rewrite He in L6. rewrite L6. reflexivity.
    - rewrite (free_independent p Hl 0 (block x i) eq_refl E). repeat constructor. }
  pose proof (Nat.div_mod c 6 ltac:(lia)) as E.
  pose proof (Nat.mod_upper_bound c 6 ltac:(lia)) as U.
  rewrite E. apply Forall_block; [|exact U]. apply HC.
  assert (c / 6 < N)%nat by (apply Nat.div_lt_upper_bound; lia). exact H.
Qed.
