(** Acceptance of segment lists (C22) and the solved problem (C20, C21). *)
From Coquelicot Require Import Coquelicot.
Require Import Verif.Py Verif.MTools Verif.MEigen Verif.MFields Verif.MRaster
  Verif.MSolution Verif.SBeam Verif.SBvp Verif.PSetup Verif.PBeam Verif.PBvp Verif.PBvp2
  Verif.PBvp3 Verif.PBvp4.

Lemma mem_str_In s l : mem_str s l = true <-> In s l.
Proof.
  unfold mem_str. rewrite existsb_exists. split.
  - intros (y & Hy & E). apply String.eqb_eq in E. subst. exact Hy.
  - intros H. exists s. split; [exact H|]. apply String.eqb_refl.
Qed.

Lemma finite_ends_mem s : finite_ends s <->
  mem_str s ["pst-"; "-pst"; "vpst-"; "-vpst"; "rot"; "trans"]%string = true.
Proof. rewrite mem_str_In. unfold finite_ends. simpl. intuition congruence. Qed.

Lemma check_iff o li mi ki :
  (check_segments o li mi ki = Err ValueError <-> invalid_segments (o_system o) li mi ki) /\
  (check_segments o li mi ki = Ok tt <-> ~ invalid_segments (o_system o) li mi ki).
Proof.
  assert (E : existsb (fun b : bool => b) ki = true <-> ~ forall k, In k ki -> k = false).
  { rewrite existsb_exists. split.
    - intros (k & Hk & ->) H. specialize (H true Hk). discriminate.
    - intros H. destruct (existsb (fun b => b) ki) eqn:Eb.
      + apply existsb_exists in Eb. exact Eb.
      + exfalso. apply H. intros k Hk. destruct k; [|reflexivity].
        assert (existsb (fun b : bool => b) ki = true) as C; [|congruence].
        apply existsb_exists. exists true. split; [exact Hk|reflexivity]. }
  assert (HV : check_segments o li mi ki = Err ValueError \/ check_segments o li mi ki = Ok tt).
  { unfold check_segments. repeat match goal with |- context [if ?b then _ else _] => destruct b end; auto. }
  assert (HI : check_segments o li mi ki = Ok tt <-> ~ invalid_segments (o_system o) li mi ki).
  { unfold check_segments, invalid_segments. rewrite finite_ends_mem.
    destruct (existsb (fun b : bool => b) ki) eqn:E1; cbn [negb].
    2:{ split; [discriminate|]. intros H. exfalso. apply H. left. intros k Hk.
        destruct k; [|reflexivity]. assert (existsb (fun b : bool => b) ki = true) as C; [|congruence].
        apply existsb_exists. exists true. split; [exact Hk|reflexivity]. }
    pose proof (proj1 E eq_refl) as E'.
    destruct (Nat.eqb_spec (List.length li) (List.length ki)); cbn [andb negb];
      [|split; [discriminate|intros H; exfalso; apply H; right; left; assumption]].
    destruct (Nat.eqb_spec (List.length li) (S (List.length mi))); cbn [andb negb];
      [|split; [discriminate|intros H; exfalso; apply H; right; right; left; assumption]].
    destruct (mem_str (o_system o) _); cbn [negb andb].
    - split; [intros _|reflexivity]. intros [H|[H|[H|[H _]]]]; auto.
    - destruct (nth 0 ki false) eqn:E0, (last ki false) eqn:EN; cbn [andb negb];
        (split; [try discriminate; intros _|try reflexivity; intros H; exfalso; apply H]);
        try (right; right; right; split; [discriminate|auto]).
      intros [H|[H|[H|[_ [H|H]]]]]; auto; discriminate. }
  split; [|exact HI].
  split.
  - intros H. destruct (Classical_Prop.classic (invalid_segments (o_system o) li mi ki)) as [C|C]; [exact C|].
    apply HI in C. congruence.
  - intros H. destruct HV as [HV|HV]; [exact HV|]. apply HI in HV. contradiction.
Qed.

(** ** Assembly succeeds *)
Lemma assemble_segment_ok o kR phi nS i l k rows M v :
  six_cols o -> (i < nS)%nat ->
  eqs_rows o kR k (pos_of nS i) = Ok rows ->
  List.length rows = (row_hi nS i - row_lo i)%nat ->
  exists M' v', assemble_segment o kR phi nS i l k (M, v) = Ok (M', v').
Proof.
  intros H6 Hi ER EL. unfold assemble_segment.
  pose proof (six_zh o H6 0 l k) as L0. pose proof (six_zh o H6 l l k) as L1.
  set (z0 := zh (o_par o) (o_eig o) 0 l k) in *.
  set (z1 := zh (o_par o) (o_eig o) l l k) in *.
  assert (E1 : mapM (fun zz => eqs o kR (fst zz) (snd zz) k (pos_of nS i)) (combine z0 z1)
    = mapM (fun zz => rows <- eqs_rows o kR k (pos_of nS i) ;; Ok (map (ev2 (fst zz) (snd zz)) rows)) (combine z0 z1)).
  { generalize (combine z0 z1) as L. induction L as [|a L IH]; simpl; [reflexivity|].
    rewrite eqs_lin, IH. reflexivity. }
  rewrite E1, (mapM_rows _ (fun zz => ev2 (fst zz) (snd zz))), eqs_lin, ER. cbn [bind].
  set (start := if Nat.eqb i 0 then 0%nat else 3%nat).
  set (stop := if Nat.eqb i (nS - 1) then 6%nat else 9%nat).
  assert (Elo : (6 * i - start)%nat = row_lo i).
  { unfold start, row_lo. destruct (Nat.eqb_spec i 0); [subst; reflexivity|reflexivity]. }
  assert (Ehi : (6 * i + stop)%nat = row_hi nS i).
  { unfold stop, row_hi. destruct (Nat.eqb i (nS - 1)); reflexivity. }
  rewrite Elo, Ehi. unfold assign_block.
  rewrite map_length, combine_length, L0, L1.
  replace (Nat.eqb (Nat.min 6 6) ((i + 1) * 6 - i * 6)) with true by (symmetry; apply Nat.eqb_eq; simpl; lia).
  cbn [andb].
  assert (forallb (fun col => Nat.eqb (List.length col) (row_hi nS i - row_lo i))
    (map (fun a => map (ev2 (fst a) (snd a)) rows) (combine z0 z1)) = true) as ->.
  { apply forallb_forall. intros c Hc. apply in_map_iff in Hc. destruct Hc as (a & <- & _).
    rewrite map_length. apply Nat.eqb_eq. exact EL. }
  cbn [bind]. eexists. eexists. reflexivity.
Qed.

Lemma assemble_lhs_ok o kR phi nS : six_cols o ->
  forall li ki i acc,
  List.length ki = List.length li -> (i + List.length li <= nS)%nat ->
  (forall j, (j < List.length li)%nat -> exists rows,
     eqs_rows o kR (nth j ki false) (pos_of nS (i + j)) = Ok rows /\
     List.length rows = (row_hi nS (i + j) - row_lo (i + j))%nat) ->
  exists acc', assemble_lhs o kR phi nS i li ki acc = Ok acc'.
Proof.
  intros H6 li. induction li as [|l li IH]; intros ki i [M v] Hk Hn HR.
  - exists (M, v). reflexivity.
  - destruct ki as [|k ki]; [discriminate|]. cbn [assemble_lhs]. simpl in Hn.
    destruct (HR 0%nat ltac:(simpl; lia)) as (rows & ER & EL).
    rewrite Nat.add_0_r in ER, EL. cbn [nth] in ER.
    destruct (assemble_segment_ok o kR phi nS i l k rows M v H6 ltac:(lia) ER EL) as (M' & v' & ->).
    cbn [bind]. apply IH.
    + simpl in Hk. lia.
    + lia.
    + intros j Hj. destruct (HR (S j) ltac:(simpl; lia)) as (r2 & A & B).
      exists r2. cbn [nth] in A. replace (S i + j)%nat with (i + S j)%nat by lia. split; assumption.
Qed.

(** Ends whose conditions are defined. *)
Definition ends_defined (o : obj) (kR : res R) (k : bool) : Prop :=
  exists kd, kind_of (o_system o) = Some kd /\
  (kd = KPst -> k = false ->
   o_mode o <> None /\ (o_mode o = Some ModeC -> exists r, kR = Ok r)).

Lemma bc_rows_ok o kR k pos : ends_defined o kR k -> (pos = "l"%string \/ pos = "r"%string) ->
  exists b, bc_rows o kR k pos = Ok b.
Proof.
  intros (kd & Hkd & H) Hp. pose proof (kinds (o_system o)) as K. cbv zeta in K. rewrite Hkd in K.
  unfold bc_rows.
  destruct kd; destruct K as (K1 & K2 & K3 & K4 & _).
  - rewrite K1. destruct k; cbn [negb]; [eexists; reflexivity|].
    destruct (H eq_refl eq_refl) as [HM HC]. unfold mode_is.
    destruct (o_mode o) as [[| |]|]; [| | |congruence].
    + eexists; reflexivity.
    + destruct Hp as [-> | ->]; eexists; reflexivity.
    + destruct (HC eq_refl) as [r ->]. destruct Hp as [-> | ->]; eexists; reflexivity.
  - rewrite K1, K2. eexists; reflexivity.
  - rewrite K1, K2, K3. eexists; reflexivity.
  - rewrite K1, K2, K3, K4. eexists; reflexivity.
  - rewrite K1, K2, K3, K4. eexists; reflexivity.
Qed.

Lemma assemble_succeeds o kR phi li mi ki :
  let nS := List.length li in
  six_cols o -> (2 <= nS)%nat -> List.length ki = nS ->
  ends_defined o kR (nth 0 ki false) -> ends_defined o kR (nth (nS - 1) ki false) ->
  exists zh0 zp0 rhs, assemble o kR phi li mi ki = Ok (zh0, zp0, rhs).
Proof.
  intros nS H6 HN Hk H0 HE. unfold assemble. fold nS.
  destruct (assemble_lhs_ok o kR phi nS H6 li ki 0 (fun _ _ => 0, fun _ => 0) Hk ltac:(unfold nS; lia))
    as ([M v] & ->).
  { intros j Hj. fold nS in Hj. cbn [Nat.add].
    destruct (Nat.eq_dec j 0) as [->|Hj0]; [|destruct (Nat.eq_dec j (nS - 1)) as [->|HjN]].
    - destruct (bc_rows_ok o kR (nth 0 ki false) "l" H0 (or_introl eq_refl)) as [b Hb].
      rewrite (pos_first nS HN). unfold eqs_rows.
      change (mem_str "l" ["l"; "left"]%string) with true. cbv iota.
      rewrite Hb. cbn [bind]. eexists. split; [reflexivity|].
      rewrite app_length, !map_length, (bc_rows_len _ _ _ _ _ Hb).
      unfold row_hi, row_lo. destruct (Nat.eqb_spec 0 (nS - 1)); [lia|]. reflexivity.
    - destruct (bc_rows_ok o kR (nth (nS - 1) ki false) "r" HE (or_intror eq_refl)) as [b Hb].
      rewrite (pos_last nS). unfold eqs_rows.
      change (mem_str "r" ["l"; "left"]%string) with false.
      change (mem_str "r" ["m"; "mid"]%string) with false.
      change (mem_str "r" ["r"; "right"]%string) with true. cbv iota.
      rewrite Hb. cbn [bind]. eexists. split; [reflexivity|].
      rewrite app_length, !map_length, (bc_rows_len _ _ _ _ _ Hb).
      unfold row_hi, row_lo. rewrite Nat.eqb_refl. destruct (Nat.eqb_spec (nS - 1) 0); [lia|].
      simpl List.length. lia.
    - rewrite (pos_mid nS HN j) by lia. unfold eqs_rows.
      change (mem_str "m" ["l"; "left"]%string) with false.
      change (mem_str "m" ["m"; "mid"]%string) with true. cbv iota.
      eexists. split; [reflexivity|]. rewrite app_length, !map_length.
      unfold row_hi, row_lo. destruct (Nat.eqb_spec j (nS - 1)); [lia|].
      destruct (Nat.eqb_spec j 0); [lia|]. simpl List.length. lia. }
  cbn [bind fst snd].
  assert (exists rhs, build_rhs o kR phi li mi ki nS = Ok rhs) as [rhs ->].
  { destruct H0 as (kd & Hkd & _). pose proof (kinds (o_system o)) as K. cbv zeta in K. rewrite Hkd in K.
    unfold build_rhs. rewrite !bc_lin. unfold bc_rows.
    destruct kd; destruct K as (K1 & K2 & K3 & K4 & K5 & K6 & K7 & K8 & K9);
      rewrite ?K1, ?K2, ?K3, ?K4, ?K5, ?K6, ?K7, ?K8; cbn [negb bind];
      try (destruct (calc_vertical_bc_center_of_gravity (o_slab o) phi) as [[? ?] ?]);
      eexists; reflexivity. }
  cbn [bind]. eexists. eexists. eexists. reflexivity.
Qed.

(** ** The solved problem *)
Lemma solved_with solve kR kRv o aslist phi li mi ki Cs kd :
  let nS := List.length li in
  sound_solver solve -> six_cols o -> (2 <= nS)%nat ->
  kind_of (o_system o) = Some kd ->
  (kd = KPst -> o_mode o = Some ModeC -> kR = Ok kRv /\ o_phi o = phi) ->
  (kd = KVpst -> o_mode o = None \/ o_mode o = Some ModeA) ->
  assemble_and_solve_with solve kR o aslist phi li mi ki = Ok Cs ->
  bvp o kRv phi li mi ki Cs.
Proof.
  intros nS Hs H6 HN Hkd HC HV H. unfold assemble_and_solve_with in H.
  destruct (check_segments o li mi ki) as [[]|] eqn:EC; [|discriminate]. cbn [bind] in H.
  destruct (Nat.eqb_spec (List.length li) 1) as [E1|_]; [unfold nS in HN; lia|].
  cbn [bind] in H.
  destruct (assemble o kR phi li mi ki) as [[[zh0 zp0] rhs]|] eqn:EA; [|discriminate].
  cbn [bind] in H.
  destruct (solve (6 * List.length li)%nat zh0 (fun r => rhs r - zp0 r)) as [x|] eqn:ES; [|discriminate].
  cbn [bind] in H. apply Ok_inj in H. subst Cs.
  apply (proj1 (assemble_bvp o kR kRv phi li mi ki zh0 zp0 rhs x kd H6 HN EC Hkd HC HV EA)).
  apply Hs. exact ES.
Qed.

Lemma solved_single solve kR kRv o phi l mi ki Cs kd :
  sound_solver solve -> six_cols o ->
  kind_of (o_system o) = Some kd ->
  (kd = KPst -> o_mode o = Some ModeC -> kR = Ok kRv /\ o_phi o = phi) ->
  (kd = KVpst -> o_mode o = None \/ o_mode o = Some ModeA) ->
  assemble_and_solve_with solve kR o true phi [l] mi ki = Ok Cs ->
  let z := field o phi l true (nth 0 Cs []) in
  ki = [true] /\ mi = [] /\
  left_end o kRv phi true (z 0) /\ right_end o kRv phi true (z l).
Proof.
  intros Hs H6 Hkd HC HV H z. unfold assemble_and_solve_with in H.
  destruct (check_segments o [l] mi ki) as [[]|] eqn:EC; [|discriminate]. cbn [bind] in H.
  change (Nat.eqb (List.length [l]) 1) with true in H. cbv iota in H. cbn [bind] in H.
  pose proof (proj1 (proj2 (check_iff o [l] mi ki)) EC) as NI.
  assert (Lk : List.length ki = 1%nat).
  { destruct (Nat.eq_dec (List.length ki) 1) as [E|E]; [exact E|].
    exfalso; apply NI. right; left. simpl. congruence. }
  assert (Lm : List.length mi = 0%nat).
  { destruct (Nat.eq_dec (List.length mi) 0) as [E|E]; [exact E|].
    exfalso; apply NI. right; right; left. simpl. congruence. }
  destruct mi; [|discriminate]. destruct ki as [|k [|]]; try discriminate.
  destruct k.
  2:{ exfalso. apply NI. left. intros k [<-|[]]. reflexivity. }
  split; [reflexivity|]. split; [reflexivity|].
  cbn [app] in H.
  destruct (assemble o kR phi [l; 0] [0] [true; true]) as [[[zh0 zp0] rhs]|] eqn:EA; [|discriminate].
  cbn [bind] in H. change (List.length [l; 0]) with 2%nat in H.
  destruct (solve (6 * 2)%nat zh0 (fun r => rhs r - zp0 r)) as [x|] eqn:ES; [|discriminate].
  cbn [bind] in H. apply Ok_inj in H. subst Cs.
  assert (EC2 : check_segments o [l; 0] [0] [true; true] = Ok tt).
  { apply check_iff. unfold invalid_segments. simpl.
    intros [A|[A|[A|[_ [A|A]]]]]; try discriminate; try (apply A; reflexivity).
    specialize (A true (or_introl eq_refl)). discriminate. }
  destruct (proj1 (assemble_bvp o kR kRv phi [l; 0] [0] [true; true] zh0 zp0 rhs x kd H6
    (le_n 2) EC2 Hkd HC HV EA) (Hs _ _ _ _ ES)) as (BL & BR & BT).
  specialize (BT 0%nat ltac:(simpl; lia)).
  change (List.length [l; 0]) with 2%nat in BL, BR, BT.
  change (2 - 1)%nat with 1%nat in BR. cbn [nth] in BL, BR, BT.
  fold z in BL, BT.
  split; [exact BL|].
  set (z1 := field o phi 0 true (nth 1 (reshape_constants 2 x) []) 0) in *.
  unfold transition in BT. cbv zeta in BT.
  destruct BT as (T1 & T2 & T3 & T4 & T5 & T6).
  assert (Z : forall b : bool, (if b then 0 else 0 * o_g o / 1000 / o_lski o) = 0).
  { intros [|]; [reflexivity|]. unfold Rdiv. ring. }
  rewrite Z in T4, T5, T6.
  assert (F : forall a b c, forces (o_par o) z1 a b c -> forces (o_par o) (z l) a b c).
  { intros a b c (F1 & F2 & F3). unfold forces. rewrite <- F1, <- F2, <- F3. lra. }
  unfold right_end in *. rewrite Hkd in *.
  destruct kd.
  - unfold pst_end in *. apply F; exact BR.
  - unfold face_end in *. destruct (calc_vertical_bc_center_of_gravity (o_slab o) phi) as [[xs zs] m].
    apply F; exact BR.
  - unfold far_field in *. rewrite T1, T2, T3. exact BR.
  - apply F; exact BR.
  - apply F; exact BR.
Qed.

(** The complementary part vanishes at the ends of systems with infinite ends. *)
Lemma far_field_complementary o kRv phi k l C x :
  kind_of (o_system o) = Some KSkier ->
  let z := field o phi l true C x in
  left_end o kRv phi k z \/ right_end o kRv phi k z ->
  let c := lincomb (zh (o_par o) (o_eig o) x l true) C in
  z_u c = 0 /\ z_w c = 0 /\ z_psi c = 0.
Proof.
  intros Hkd z H c.
  assert (F : far_field o phi z).
  { unfold left_end, right_end in H. rewrite Hkd in H. tauto. }
  unfold far_field in F. cbv zeta in F. unfold z, field, zsol in F. fold c in F.
  rewrite (zp_supported_const _ _ x) in F. simpl in F. lra.
Qed.
