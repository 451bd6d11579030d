(** Complete analyses succeed (C105). *)
From Coq Require Import Lra Lia Sorted.
From Coquelicot Require Import Coquelicot.
Require Import Verif.Py Verif.MTools Verif.MEigen Verif.MRaster Verif.MSolution Verif.MAnalysis Verif.SAdm Verif.SBeam Verif.SBvp Verif.SEig
  Verif.SRaster Verif.SEnergy Verif.SContact Verif.SRegular Verif.SRun Verif.PSetup Verif.PBvp Verif.PWell2 Verif.PWell3 Verif.PBvp6 Verif.PRaster2 Verif.PEnergy Verif.PEnergy2
  Verif.PContact Verif.PContact2 Verif.PropRaster Verif.PropEnergy Verif.PropDepend.
Open Scope R_scope.

Lemma in_chain {A} x0 (li : list R) (X : list A) b l a : seg_at x0 (combine li X) b l a -> In a X.
Proof.
  revert x0 X. induction li as [|y li IH]; intros x0 X H; [inversion H|]. destruct X as [|c X]; [inversion H|].
  simpl in H. inversion H; subst; [left; reflexivity|right; eapply IH; eassumption].
Qed.
Lemma chain_rsum {A} (li : list R) (X : list A) : List.length X = List.length li -> (forall l, In l li -> 0 <= l) ->
  chain_length (combine li X) = rsum li.
Proof.
  unfold chain_length. revert X. induction li as [|y li IH]; intros [|c X] E H; simpl in E; try discriminate; [reflexivity|].
  simpl. rewrite IH by (try congruence; intros; apply H; right; assumption). rewrite Rabs_pos_eq by (apply H; left; reflexivity). reflexivity.
Qed.
Lemma nonempty_le li : (nonempty li <= List.length li)%nat.
Proof. unfold nonempty. induction li as [|y li IH]; simpl; [lia|]. destruct (Req_EM_T y 0); simpl; lia. Qed.
Lemma sorted_last xq d : StronglySorted Rlt xq -> Forall (fun x => x <= last xq d) xq.
Proof.
  intros H. induction H as [|x xq S IH F]; [constructor|]. destruct xq as [|y xq]; [constructor; [simpl; lra|constructor]|].
  change (last (x :: y :: xq) d) with (last (y :: xq) d). constructor; [|exact IH].
  inversion F; inversion IH; subst. lra.
Qed.
Lemma sorted_between xq : StronglySorted Rlt xq -> Forall (fun x => hd 1 xq <= x <= last xq 0) xq.
Proof.
  intros H. pose proof (sorted_last xq 0 H) as U. apply Forall_forall. intros x Hx. split; [|exact (proj1 (Forall_forall _ _) U x Hx)].
  destruct H as [|y xq S F]; [destruct Hx|]. simpl. destruct Hx as [<-|Hx]; [lra|]. pose proof (proj1 (Forall_forall _ _) F x Hx). lra.
Qed.

Lemma raster_run o phi C li ki : ready o -> constants_of (List.length li) C -> List.length ki = List.length li ->
  (forall l, In l li -> 0 <= l) -> (exists i, (i < List.length li)%nat /\ 0 < nth i li 0) -> rasterized o phi C li ki.
Proof.
  intros Hr [LC FC] Lk Hp (i & Hi & Pi) num Hn.
  destruct (raster_accepts (o_par o) (o_eig o) (loads_of o phi) C li ki num LC Lk) as ([[xq zq] xb] & E).
  - exists (nth i li 0). split; [apply nth_In; exact Hi|lra].
  - intros b l c k Hs _ x. rewrite (six_zh o (ready_six o Hr)). apply in_chain, in_combine_l in Hs.
    symmetry. exact (proj1 (Forall_forall _ _) FC c Hs).
  - exists xq, zq, xb. split; [exact E|]. destruct (C38_grid _ _ _ _ _ _ _ _ _ _ Hn E) as (S & H0 & Hl & _ & [N1 N2] & L1 & L2).
    rewrite chain_rsum in Hl by assumption. pose proof (sorted_between xq S) as B. rewrite H0, Hl in B. pose proof (nonempty_le li).
    split; [exact L1|]. split; [exact L2|]. split; [lia|]. auto.
Qed.
Lemma gdif_run o phi C li ki unit c : ready o -> constants_of (List.length li) C -> List.length ki = List.length li ->
  err_factor unit c -> exists G1 G2,
  gdif (o_par o) (o_eig o) (loads_of o phi) C li ki unit = Ok (G1 + G2, G1, G2) /\ 0 <= G1 /\ 0 <= G2.
Proof.
  intros Hr [LC FC] Lk Hc. destruct (gdif_accepts (o_par o) (o_eig o) (loads_of o phi) C li ki unit c Hc Lk) as [[[G G1] G2] E].
  - intros j Hj _. split; [rewrite LC; lia|]. rewrite (six_zh o (ready_six o Hr)). symmetry.
    apply (proj1 (Forall_forall _ _) FC). apply nth_In. rewrite LC. lia.
  - destruct Hr as (_ & (K1 & K2 & _) & _). destruct (C41_nonneg _ _ _ _ _ _ _ _ _ _ K1 K2 E) as (-> & P1 & P2).
    exists G1, G2. auto.
Qed.
Lemma select_pos m : forall li, (forall l, In l li -> 0 <= l) ->
  0 <= rsum (select m li) /\ ((exists i, (i < List.length li)%nat /\ nth i m false = true /\ 0 < nth i li 0) -> 0 < rsum (select m li)).
Proof.
  induction m as [|b m IH]; intros [|y li] H; simpl.
  - split; [lra|]. intros (i & A & B & _). destruct i; discriminate.
  - split; [lra|]. intros (i & A & B & _). destruct i; discriminate.
  - split; [destruct b; simpl; lra|]. intros (i & A & _). simpl in A. lia.
  - destruct (IH li (fun l I => H l (or_intror I))) as [P Q]. pose proof (H y (or_introl eq_refl)). destruct b; simpl; split; try lra.
    + intros ([|i] & A & B & C); simpl in *; [lra|]. assert (0 < rsum (select m li)); [|lra]. apply Q. exists i. split; [lia|auto].
    + intros ([|i] & A & B & C); simpl in *; [discriminate|]. apply Q. exists i. split; [lia|auto].
Qed.
Lemma ginc_run quad o phi C0 C1 li ki k0 : ready o -> constants_of (List.length li) C0 -> constants_of (List.length li) C1 ->
  List.length ki = List.length li -> List.length k0 = List.length li -> (forall l, In l li -> 0 <= l) -> cracks li ki k0 ->
  exists G1 G2, ginc quad (o_par o) (o_eig o) (loads_of o phi) C0 C1 li ki k0 = Ok (Some (G1 + G2), Some G1, Some G2).
Proof.
  intros Hr H0 H1 L1 L0 Hp (i & Hi & K0 & K1 & Pi).
  assert (Q : 0 < rsum (select (map2 (fun a b => andb a (negb b)) k0 ki) li)).
  { apply select_pos; [exact Hp|]. exists i. split; [exact Hi|]. split; [|exact Pi].
    assert (M : forall (a b : list bool) j, (j < List.length a)%nat -> (j < List.length b)%nat ->
      nth j (map2 (fun x y => andb x (negb y)) a b) false = andb (nth j a false) (negb (nth j b true))).
    { clear. induction a as [|x a IH]; intros [|y b] [|j] A B; simpl in *; try lia; [reflexivity|]. apply IH; lia. }
    rewrite M by lia. rewrite K0, K1. reflexivity. }
  destruct (ginc_total quad o phi C0 C1 li k0 ki Hr) as (G & G1 & G2 & E); 
    [congruence|congruence|rewrite L1; exact H0|rewrite L1; exact H1|exact Q|].
  assert (G = G1 + G2); [|subst; exists G1, G2; exact E].
  revert E. unfold ginc. destruct (negb _); [discriminate|]. destruct (negb _); [discriminate|]. cbv zeta.
  destruct (ginc_loop _ _ _ _ _ _ _) as [r|]; [|discriminate]. cbn [bind]. destruct (select _ li) as [|y l].
  - intros E. apply Ok_inj in E. inversion E. lra.
  - destruct (Rlt_dec 0 _); [|discriminate]. intros E. apply Ok_inj in E. inversion E. reflexivity.
Qed.

Lemma fine_proper system li mi ki : fine_lists system li mi ki -> proper_segments li ki /\ List.length ki = List.length li.
Proof.
  intros (N & V & P & i & I1 & I2 & I3). split.
  - split; [intros j Hj; apply P, nth_In, Hj|exists i; auto].
  - destruct (Nat.eq_dec (List.length li) (List.length ki)) as [E|E]; [auto|]. exfalso. apply V. right. left. exact E.
Qed.

Lemma run_lists eig solve quad o phi s kd kR : sound_solver solve -> complete_solver solve -> ready o -> stable (o_par o) ->
  kind_of (o_system o) = Some kd -> (kd = KPst -> o_mode o <> None) ->
  (kd = KPst -> o_mode o = Some ModeC -> o_phi o = phi /\
     fst (substitute_stiffness eig solve o (o_a o - o_td o) "rested" "rot") = Ok kR) ->
  (kd = KVpst -> o_mode o = None \/ o_mode o = Some ModeA) ->
  fine_lists (o_system o) (s_li s) (s_mi s) (s_ki s) -> fine_lists (o_system o) (s_li s) (s_mi s) (s_k0 s) -> cracks (s_li s) (s_ki s) (s_k0 s) ->
  analysed eig solve quad o phi kR s.
Proof.
  intros Hs Hc Hr Hst K M1 M2 M3 F1 F0 Cr.
  destruct (fine_proper _ _ _ _ F1) as (P1 & L1). destruct (fine_proper _ _ _ _ F0) as (P0 & L0).
  destruct F1 as (N & V1 & Pos & i1 & I1 & _ & J1). destruct F0 as (_ & V0 & _).
  destruct (well_posed eig solve o true phi (s_li s) (s_mi s) (s_k0 s) kd kR Hs Hc Hr Hst N V0 P0 K M1 M2 M3) as (C0 & A0 & B0 & X0 & Y0 & _).
  destruct (well_posed eig solve o true phi (s_li s) (s_mi s) (s_ki s) kd kR Hs Hc Hr Hst N V1 P1 K M1 M2 M3) as (C1 & A1 & B1 & X1 & Y1 & _).
  exists C0, C1. split; [exact A0|]. split; [exact A1|]. split; [split; assumption|]. split; [split; assumption|]. split; [exact B0|]. split; [exact B1|].
  split; [apply raster_run; [exact Hr|split; assumption|exact L0|exact Pos|exists i1; auto]|].
  split; [apply raster_run; [exact Hr|split; assumption|exact L1|exact Pos|exists i1; auto]|].
  split; [intros unit c Hu; exact (gdif_run o phi C1 (s_li s) (s_ki s) unit c Hr (conj X1 Y1) L1 Hu)|].
  apply ginc_run; auto; split; assumption.
Qed.

(** The lists of the built-in systems. *)
Lemma builtin_fine o li mi ki k0 L a m s : fine_crack (o_system o) li mi ki k0 L a -> o_a o = a -> (0 < a -> 0 < o_td o) ->
  segment_lists o li mi ki k0 L a m = Ok s ->
  fine_lists (o_system o) (s_li s) (s_mi s) (s_ki s) /\ fine_lists (o_system o) (s_li s) (s_mi s) (s_k0 s) /\ cracks (s_li s) (s_ki s) (s_k0 s).
Proof.
  intros [[I Ha]|[E F]] Ea Td0.
  - pose proof (Td0 (proj1 Ha)) as Td. intros H. assert (Hn : o_system o <> "skiers"%string).
    { intros E. rewrite E in I. simpl in I. repeat (destruct I as [I|I]; [discriminate|]). exact I. }
    destruct (segment_lists_valid o li mi ki k0 L a m s H Hn) as [V1 V0]. revert H V1 V0. unfold segment_lists. rewrite Ea.
    simpl in I.
    assert (G : forall x y : R, 0 < x -> 0 < y -> forall l, In l [x; y] -> 0 <= l) by (intros x y X Y l [<-|[<-|[]]]; lra).
    repeat (destruct I as [I|I]); try contradiction; rewrite <- I; simpl; intros H; apply Ok_inj in H; subst s; simpl; intros V1 V0.
    1: { split; [|split].
      - split; [simpl; lia|]. split; [exact V1|]. split; [apply G; lra|]. exists 0%nat. simpl. split; [lia|]. split; [reflexivity|lra].
      - split; [simpl; lia|]. split; [exact V0|]. split; [apply G; lra|]. exists 0%nat. simpl. split; [lia|]. split; [reflexivity|lra].
      - exists 1%nat. simpl. split; [lia|]. split; [reflexivity|]. split; [reflexivity|lra]. }
    1: { split; [|split].
      - split; [simpl; lia|]. split; [exact V1|]. split; [apply G; lra|]. exists 1%nat. simpl. split; [lia|]. split; [reflexivity|lra].
      - split; [simpl; lia|]. split; [exact V0|]. split; [apply G; lra|]. exists 1%nat. simpl. split; [lia|]. split; [reflexivity|lra].
      - exists 0%nat. simpl. split; [lia|]. split; [reflexivity|]. split; [reflexivity|lra]. }
    1: { split; [|split].
      - split; [simpl; lia|]. split; [exact V1|]. split; [apply G; lra|]. exists 0%nat. simpl. split; [lia|]. split; [reflexivity|lra].
      - split; [simpl; lia|]. split; [exact V0|]. split; [apply G; lra|]. exists 0%nat. simpl. split; [lia|]. split; [reflexivity|lra].
      - exists 1%nat. simpl. split; [lia|]. split; [reflexivity|]. split; [reflexivity|lra]. }
    1: { split; [|split].
      - split; [simpl; lia|]. split; [exact V1|]. split; [apply G; lra|]. exists 1%nat. simpl. split; [lia|]. split; [reflexivity|lra].
      - split; [simpl; lia|]. split; [exact V0|]. split; [apply G; lra|]. exists 1%nat. simpl. split; [lia|]. split; [reflexivity|lra].
      - exists 0%nat. simpl. split; [lia|]. split; [reflexivity|]. split; [reflexivity|lra]. }
    assert (G4 : forall l, In l [(L - a) / 2; a / 2; a / 2; (L - a) / 2] -> 0 <= l) by (intros l [<-|[<-|[<-|[<-|[]]]]]; lra).
    split; [|split].
    + split; [simpl; lia|]. split; [exact V1|]. split; [exact G4|]. exists 0%nat. simpl. split; [lia|]. split; [reflexivity|lra].
    + split; [simpl; lia|]. split; [exact V0|]. split; [exact G4|]. exists 0%nat. simpl. split; [lia|]. split; [reflexivity|lra].
    + exists 1%nat. simpl. split; [lia|]. split; [reflexivity|]. split; [reflexivity|lra].
  - unfold segment_lists. rewrite E at 1. simpl. intros H. apply Ok_inj in H. subst s. exact F.
Qed.

Lemma fine_kind system li mi ki k0 L a : fine_crack system li mi ki k0 L a ->
  exists kd, kind_of system = Some kd /\ (kd = KPst -> In system ["pst-"; "-pst"]%string) /\ (kd = KVpst -> In system ["vpst-"; "-vpst"]%string) /\
    (kd = KPst \/ kd = KVpst -> 0 < a).
Proof.
  intros [[I Ha]|[-> _]].
  - simpl in I. repeat (destruct I as [I|I]); try contradiction; subst system; eexists; (split; [reflexivity|]); simpl; intuition (try discriminate; lra).
  - exists KSkier. split; [reflexivity|]. intuition discriminate.
Qed.

Lemma run_after eig solve brent maxeval quad o li mi ki k0 L a m phi cf ratio s o' : sound_solver solve -> complete_solver solve -> stays_in_bracket brent ->
  ready o -> stable (o_par o) -> fresh eig o -> fine_crack (o_system o) li mi ki k0 L a -> 0 <= a ->
  calc_segments eig solve brent maxeval li mi ki k0 L a m phi cf ratio o = (Ok s, o') ->
  (In (o_system o) ["vpst-"; "-vpst"]%string -> o_mode o' = Some ModeA) ->
  (In (o_system o) ["pst-"; "-pst"]%string -> o_mode o' = Some ModeC -> substitute_ready eig o' "rested") ->
  exists kR, analysed eig solve quad o' phi kR s.
Proof.
  intros Hs Hc Hb Hr Hst Hf Fc Ha H Hv Hp.
  destruct (segments_state _ _ _ _ _ _ _ _ _ _ _ _ _ _ _ _ _ Hf H) as (md & td & Eo & Es & HC & HN & _).
  pose proof (td_bounds eig solve brent maxeval _ _ _ _ _ _ _ _ _ _ _ _ _ Hf Hb Ha H) as (_ & TN & TC & _).
  destruct (fine_kind _ _ _ _ _ _ _ Fc) as (kd & K & KP & KV & Ka).
  assert (Esys : o_system o' = o_system o) by (rewrite Eo; reflexivity).
  assert (Epar : o_par o' = o_par o) by (rewrite Eo; reflexivity).
  assert (Eeig : o_eig o' = o_eig o) by (rewrite Eo; reflexivity).
  assert (Emode : o_mode o' = Some md) by (rewrite Eo; reflexivity).
  assert (Ephi : o_phi o' = phi) by (rewrite Eo; reflexivity).
  assert (Ea : o_a o' = a) by (rewrite Eo; reflexivity).
  assert (Td : 0 < a -> 0 < o_td o').
  { intros P. destruct md; [rewrite TN by (rewrite Emode; discriminate); exact P|rewrite TN by (rewrite Emode; discriminate); exact P|].
    destruct (TC Emode). lra. }
  assert (Q : exists kR, kd = KPst -> o_mode o' = Some ModeC -> fst (substitute_stiffness eig solve o' (o_a o' - o_td o') "rested" "rot") = Ok kR).
  { destruct md; [exists 0; intros _ Q; congruence|exists 0; intros _ Q; congruence|].
    destruct kd; try (exists 0; discriminate).
    pose proof (TC Emode) as [T1 T2]. assert (0 < a) by (apply Ka; left; reflexivity).
    destruct (rot_positive eig solve o' (o_a o' - o_td o') "rested" Hs Hc (Hp (KP eq_refl) Emode)) as (k & Ek & _); [rewrite Ea; lra|].
    exists k. intros _ _. exact Ek. }
  destruct Q as (kR & Q). exists kR. rewrite <- Esys in Fc, K.
  destruct (builtin_fine o' li mi ki k0 L a m s Fc Ea Td Es) as (F1 & F0 & Cr).
  apply (run_lists eig solve quad o' phi s kd kR); try assumption.
  - destruct Hr as (R1 & R2 & R3). unfold ready. rewrite Epar, Eeig. auto.
  - rewrite Epar. exact Hst.
  - intros _. rewrite Emode. discriminate.
  - intros Kp Mc. split; [exact Ephi|exact (Q Kp Mc)].
  - intros Kv. right. apply Hv, KV, Kv.
Qed.
