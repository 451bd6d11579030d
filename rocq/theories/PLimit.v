(** The incremental energy release rate of a vanishing crack. *)
From Coquelicot Require Import Coquelicot.
Require Import Verif.Py Verif.MTools Verif.MEigen Verif.MFields Verif.MRaster Verif.MSolution Verif.MAnalysis
  Verif.SAdm Verif.SBeam Verif.SBvp Verif.SEig Verif.SEnergy Verif.SSplit Verif.PBeam Verif.PBeam2 Verif.PBalance Verif.PBvp Verif.PBvp5 Verif.PWell Verif.PWell2
  Verif.PWell3 Verif.PBvp6 Verif.PMirror Verif.PEnergy Verif.PEnergy2 Verif.PComplete Verif.PDepend Verif.PDepend2.
Local Open Scope R_scope.

Lemma finite_choice (P : nat -> list R -> Prop) n : (forall i, (i < n)%nat -> exists C, P i C) ->
  exists Cs, forall i, (i < n)%nat -> P i (nth i Cs []).
Proof.
  revert P. induction n as [|n IH]; intros P H; [exists []; intros; lia|].
  destruct (H 0%nat ltac:(lia)) as [C HC]. destruct (IH (fun i => P (S i)) ltac:(intros; apply H; lia)) as [Cs HCs].
  exists (C :: Cs). intros [|i] Hi; simpl; [exact HC|apply HCs; lia].
Qed.

(** Support of segments without length does not matter. *)
Section Tip.
Variables (o : obj) (kR phi : R) (li0 mi : list R) (k0 ki : list bool) (C0 C1 : list (list R)).
Let N := List.length li0.
Hypothesis Hr : ready o.
Hypothesis Hs : stable (o_par o).
Hypothesis HR : 0 <= kR.
Hypothesis HN : (0 < N)%nat.
Hypothesis Hdiff : forall i, (i < N)%nat -> nth i k0 false <> nth i ki false -> nth i k0 false = true /\ nth i li0 0 = 0.
Hypothesis Hend : nth 0 k0 false = nth 0 ki false /\ nth (N - 1) k0 false = nth (N - 1) ki false.
Hypothesis Hp : proper_segments li0 k0.
Hypothesis B0 : bvp o kR phi li0 mi k0 C0.
Hypothesis B1 : bvp o kR phi li0 mi ki C1.

Lemma tip_states i x : (i < N)%nat -> 0 <= x <= nth i li0 0 ->
  field o phi (nth i li0 0) (nth i k0 false) (nth i C0 []) x = field o phi (nth i li0 0) (nth i ki false) (nth i C1 []) x.
Proof.
  assert (Hne : li0 <> []) by (intros E; unfold N in HN; rewrite E in HN; simpl in HN; lia).
  pose proof (bvp_fbvp _ _ _ _ _ _ _ Hr Hne B0) as F0. pose proof (bvp_fbvp _ _ _ _ _ _ _ Hr Hne B1) as F1. fold N in F0, F1.
  set (y := fun i => field o phi (nth i li0 0) (nth i k0 false) (nth i C0 [])) in *.
  set (z := fun i => field o phi (nth i li0 0) (nth i ki false) (nth i C1 [])) in *.
  destruct (finite_choice (fun i C => field o phi (nth i li0 0) true C 0 = z i 0) N) as [Cs HCs].
  { intros j _. destruct (supported_state o (loads_of o phi) (nth j li0 0) (z j 0) Hr) as (C & _ & E). exists C. exact E. }
  set (z' := fun i => if Bool.eqb (nth i k0 false) (nth i ki false) then z i else field o phi (nth i li0 0) true (nth i Cs [])).
  assert (Z0 : forall j, (j < N)%nat -> z' j 0 = z j 0).
  { intros j Hj. unfold z'. destruct (Bool.eqb _ _); [reflexivity|]. apply HCs. exact Hj. }
  assert (Zl : forall j, (j < N)%nat -> z' j (nth j li0 0) = z j (nth j li0 0)).
  { intros j Hj. destruct (Bool.bool_dec (nth j k0 false) (nth j ki false)) as [E|E].
    - unfold z'. rewrite E, Bool.eqb_reflx. reflexivity.
    - destruct (Hdiff j Hj E) as [_ ->]. apply Z0. exact Hj. }
  assert (F : fbvp o kR phi (N - 1) (fun i => nth i li0 0) (fun i => nth i mi 0) (fun i => nth i k0 false) z').
  { destruct F1 as (A1 & A2 & A3 & A4). destruct Hend as [E0 EN]. split; [|split; [|split]].
    - rewrite E0, Z0 by lia. exact A1.
    - rewrite EN, Zl by lia. exact A2.
    - intros j Hj. rewrite Zl, Z0 by lia. apply A3. exact Hj.
    - intros j s Hj Hsx. unfold z'. destruct (Bool.eqb _ _) eqn:E.
      + apply Bool.eqb_prop in E. rewrite E. apply A4; assumption.
      + apply Bool.eqb_false_iff in E. destruct (Hdiff j ltac:(lia) E) as [-> _]. destruct Hr as (Hl & Hf & He).
        apply field_balance; [exact Hl|exact Hf|]. apply ready_eig. exact (conj Hl (conj Hf He)). }
  destruct Hp as (Hpos & i0 & I1 & I2 & I3). destruct Hr as (Hl & Hf & He). intros Hi Hx.
  assert (Q : forall j s, (j < N)%nat -> 0 <= s <= nth j li0 0 -> y j s = z' j s).
  { intros j s Hj Hsx. apply (fbvp_unique o kR phi (N - 1) (fun i => nth i li0 0) (fun i => nth i mi 0) (fun i => nth i k0 false) y z' i0 Hl Hf Hs HR);
      [intros; apply Hpos; unfold N in *; lia|unfold N in *; lia|exact I2|exact I3|exact F0|exact F|lia|exact Hsx]. }
  change (y i x = z i x). destruct (Bool.bool_dec (nth i k0 false) (nth i ki false)) as [E|E].
  - rewrite Q by assumption. unfold z'. rewrite E, Bool.eqb_reflx. reflexivity.
  - destruct (Hdiff i Hi E) as [_ EL]. rewrite EL in Hx. replace x with 0 by lra. rewrite Q by (rewrite ?EL; (lia || lra)). apply Z0. exact Hi.
Qed.
End Tip.

(** Products of nearby numbers. *)
Lemma near_product a b e : 0 < e -> exists d, 0 < d /\ forall x y, Rabs (x - a) <= d -> Rabs (y - b) <= d -> Rabs (x * y - a * b) <= e.
Proof.
  intros He. pose proof (Rabs_pos a) as A. pose proof (Rabs_pos b) as B.
  set (q := Rabs a + Rabs b + 1) in *. assert (Q : 0 < q) by (unfold q; lra). set (d := Rmin 1 (e / q)).
  assert (D0 : 0 < d) by (apply Rmin_glb_lt; [lra|apply Rdiv_lt_0_compat; lra]).
  assert (D1 : d <= 1) by apply Rmin_l. assert (D2 : d * q <= e).
  { assert (H : d <= e / q) by apply Rmin_r. apply (Rmult_le_compat_r q) in H; [|lra]. replace (e / q * q) with e in H by (field; lra). exact H. }
  exists d. split; [exact D0|]. intros x y Hx Hy. replace (x * y - a * b) with ((x - a) * b + a * (y - b) + (x - a) * (y - b)) by ring.
  eapply Rle_trans; [apply Rabs_triang|]. eapply Rle_trans; [apply Rplus_le_compat_r, Rabs_triang|]. rewrite !Rabs_mult.
  pose proof (Rabs_pos (x - a)). pose proof (Rabs_pos (y - b)).
  assert (Rabs (x - a) * Rabs b <= d * Rabs b) by (apply Rmult_le_compat_r; lra).
  assert (Rabs a * Rabs (y - b) <= Rabs a * d) by (apply Rmult_le_compat_l; lra).
  assert (Rabs (x - a) * Rabs (y - b) <= d * 1) by (apply Rmult_le_compat; lra).
  unfold q in D2. lra.
Qed.
Lemma near_product_k k a b e : 0 < k -> 0 < e -> exists d, 0 < d /\ forall x y, Rabs (x - a) <= d -> Rabs (y - b) <= d -> Rabs (k * (x * y - a * b)) <= e.
Proof.
  intros Hk He. destruct (near_product a b (e / k)) as (d & Hd & H); [apply Rdiv_lt_0_compat; lra|]. exists d. split; [exact Hd|].
  intros x y Hx Hy. specialize (H x y Hx Hy). rewrite Rabs_mult, (Rabs_pos_eq k) by lra.
  apply (Rmult_le_compat_l k) in H; [|lra]. replace (k * (e / k)) with e in H by (field; lra). exact H.
Qed.

(** Integrands near the tip state. *)
Lemma near_opening o e z0 : 0 < kn (o_par o) -> 0 < e -> exists d, 0 < d /\ forall phi l C C' x,
  close6 d (field o phi l true C x) z0 -> close6 d (field o phi l false C' x) z0 ->
  Rabs (opening o phi l C C' x - 2 * GI (o_par o) z0) <= e.
Proof.
  intros Hk He. destruct (near_product_k (kn (o_par o)) (z_w z0) (z_w z0) e Hk He) as (d & Hd & H). exists d. split; [exact Hd|].
  intros phi l C C' x (_ & _ & A & _) (_ & _ & B & _). specialize (H _ _ A B). eapply Rle_trans; [right|exact H]. f_equal.
  unfold opening, GI. field. lra.
Qed.
Definition slip (p : params) (z : vec6) : R := z_u z + hh p / 2 * z_psi z - wt p / 2 * z_dw z.
Lemma near_slip p e z0 : 0 < e -> exists d, 0 < d /\ forall z, close6 d z z0 -> Rabs (slip p z - slip p z0) <= e.
Proof.
  intros He. set (q := 1 + Rabs (hh p / 2) + Rabs (wt p / 2)). pose proof (Rabs_pos (hh p / 2)). pose proof (Rabs_pos (wt p / 2)).
  assert (Q : 0 < q) by (unfold q; lra). exists (e / q). split; [apply Rdiv_lt_0_compat; lra|].
  intros z (A & _ & _ & B & C & _). unfold slip.
  replace (z_u z + hh p / 2 * z_psi z - wt p / 2 * z_dw z - (z_u z0 + hh p / 2 * z_psi z0 - wt p / 2 * z_dw z0))
    with ((z_u z - z_u z0) + hh p / 2 * (z_psi z - z_psi z0) + (- (wt p / 2 * (z_dw z - z_dw z0)))) by ring.
  eapply Rle_trans; [apply Rabs_triang|]. eapply Rle_trans; [apply Rplus_le_compat_r, Rabs_triang|]. rewrite Rabs_Ropp, !Rabs_mult.
  assert (Rabs (hh p / 2) * Rabs (z_psi z - z_psi z0) <= Rabs (hh p / 2) * (e / q)) by (apply Rmult_le_compat_l; assumption).
  assert (Rabs (wt p / 2) * Rabs (z_dw z - z_dw z0) <= Rabs (wt p / 2) * (e / q)) by (apply Rmult_le_compat_l; assumption).
  replace e with (e / q * q) by (field; lra). unfold q at 2. lra.
Qed.
Lemma near_sliding o e z0 : 0 < kt (o_par o) -> 0 < e -> exists d, 0 < d /\ forall phi l C C' x,
  close6 d (field o phi l true C x) z0 -> close6 d (field o phi l false C' x) z0 ->
  Rabs (sliding o phi l C C' x - (- (2 * GII (o_par o) z0))) <= e.
Proof.
  intros Hk He. set (p := o_par o) in *. destruct (near_product_k (kt p) (slip p z0) (slip p z0) e Hk He) as (d & Hd & H).
  destruct (near_slip p d z0 Hd) as (d' & Hd' & H'). exists d'. split; [exact Hd'|].
  intros phi l C C' x A B. specialize (H _ _ (H' _ A) (H' _ B)). rewrite <- Rabs_Ropp in H.
  eapply Rle_trans; [right|exact H]. f_equal. unfold sliding, GII, s_tau, slip. fold p. field. lra.
Qed.
Lemma close6_le d d' x y : d <= d' -> close6 d x y -> close6 d' x y.
Proof. intros H (A1 & A2 & A3 & A4 & A5 & A6). unfold close6. repeat split; lra. Qed.

Lemma finite_min (P : nat -> R -> Prop) n : (forall i d d', 0 < d' <= d -> P i d -> P i d') ->
  (forall i, (i < n)%nat -> exists d, 0 < d /\ P i d) -> exists d, 0 < d /\ forall i, (i < n)%nat -> P i d.
Proof.
  intros HM. induction n as [|n IH]; intros H; [exists 1; split; [lra|intros; lia]|].
  destruct IH as (d & Hd & HP); [intros; apply H; lia|]. destruct (H n ltac:(lia)) as (d' & Hd' & HP').
  exists (Rmin d d'). assert (Q : 0 < Rmin d d') by (apply Rmin_glb_lt; assumption). pose proof (Rmin_l d d'). pose proof (Rmin_r d d').
  split; [exact Q|]. intros i Hi. destruct (Nat.eq_dec i n) as [->|].
  - apply (HM n d'); [lra|exact HP'].
  - apply (HM i d); [lra|]. apply HP. lia.
Qed.

Lemma RInt_near f c e l : 0 <= l -> (forall x, continuous f x) -> (forall x, 0 <= x <= l -> Rabs (f x - c) <= e) ->
  Rabs (RInt f 0 l - c * l) <= e * l.
Proof.
  intros Hl Hc H. assert (E : ex_RInt f 0 l) by (apply (@ex_RInt_continuous R_CompleteNormedModule); intros; apply Hc).
  assert (E2 : ex_RInt (fun _ => c) 0 l) by apply ex_RInt_const.
  replace (RInt f 0 l - c * l) with (RInt (fun x => f x - c) 0 l).
  - replace (e * l) with ((l - 0) * e) by ring. apply (abs_RInt_le_const (fun x => f x - c)); [exact Hl| |exact H].
    apply (ex_RInt_minus (V := R_NormedModule) f (fun _ => c)); assumption.
  - rewrite (RInt_ext _ (fun x => minus (f x) c)) by (intros; reflexivity).
    rewrite (RInt_minus f (fun _ => c)) by assumption. rewrite RInt_const. unfold minus, plus, opp, scal; simpl. unfold mult; simpl. ring.
Qed.

Lemma crack_sum_close k0 ki n f g h : (forall i, (i < n)%nat -> cracking k0 ki i = true -> Rabs (f i - g i) <= h i) ->
  Rabs (crack_sum k0 ki n f - crack_sum k0 ki n g) <= crack_sum k0 ki n h.
Proof.
  unfold crack_sum. intros H. assert (G : forall s m, (s + m <= n)%nat ->
    Rabs (rsum (map (fun i => if cracking k0 ki i then f i else 0) (seq s m)) - rsum (map (fun i => if cracking k0 ki i then g i else 0) (seq s m)))
    <= rsum (map (fun i => if cracking k0 ki i then h i else 0) (seq s m))).
  { intros s m. revert s. induction m as [|m IH]; intros s Hs; simpl; [rewrite Rminus_diag_eq, Rabs_R0 by reflexivity; lra|].
    eapply Rle_trans; [apply Rabs_pair|]. apply Rplus_le_compat; [|apply (IH (S s)); lia].
    destruct (cracking k0 ki s) eqn:E; [apply H; [lia|exact E]|rewrite Rminus_diag_eq, Rabs_R0 by reflexivity; lra]. }
  apply (G 0%nat n). lia.
Qed.
Lemma crack_sum_scale k0 ki n f c : crack_sum k0 ki n (fun i => c * f i) = c * crack_sum k0 ki n f.
Proof.
  unfold crack_sum. generalize (seq 0 n). intros l. induction l as [|i l IH]; simpl; [ring|]. rewrite IH.
  destruct (cracking k0 ki i); ring.
Qed.

Section Limit.
Variables (o : obj) (kR phi : R) (li0 mi : list R) (k0 ki : list bool) (kd : syskind) (C0 : list (list R)).
Let N := List.length li0.
Hypothesis Hr : ready o.
Hypothesis Hs : stable (o_par o).
Hypothesis Hkd : kind_of (o_system o) = Some kd.
Hypothesis HM : kd = KPst -> o_mode o <> None.
Hypothesis HC : kd = KPst -> o_mode o = Some ModeC -> o_phi o = phi.
Hypothesis HV : kd = KVpst -> o_mode o = None \/ o_mode o = Some ModeA.
Hypothesis HkR : 0 <= kR.
Hypothesis HN : (2 <= N)%nat.
Hypothesis Hinv : ~ invalid_segments (o_system o) li0 mi ki.
Hypothesis Hk0 : List.length k0 = N.
Hypothesis Hdiff : forall i, (i < N)%nat -> nth i k0 false <> nth i ki false -> nth i k0 false = true /\ nth i li0 0 = 0.
Hypothesis Hend : nth 0 k0 false = nth 0 ki false /\ nth (N - 1) k0 false = nth (N - 1) ki false.
Hypothesis Hp : proper_segments li0 k0.
Hypothesis H60 : six_each N C0.
Hypothesis B0 : bvp o kR phi li0 mi k0 C0.

Let tip i := field o phi 0 true (nth i C0 []) 0.

Lemma proper_ki : proper_segments li0 ki.
Proof.
  destruct Hp as (Hpos & i0 & I1 & I2 & I3). split; [exact Hpos|]. exists i0. split; [exact I1|]. split; [|exact I3].
  destruct (Bool.bool_dec (nth i0 k0 false) (nth i0 ki false)) as [E|E]; [congruence|]. destruct (Hdiff i0 I1 E) as [_ Z]. lra.
Qed.

Lemma limit_states e : 0 < e -> exists d, 0 < d /\ forall li Ca Cb, neighbour o kR phi k0 li0 mi d li mi Ca -> neighbour o kR phi ki li0 mi d li mi Cb ->
  forall i x, (i < N)%nat -> cracking k0 ki i = true -> 0 <= x <= nth i li 0 ->
    close6 e (field o phi (nth i li 0) true (nth i Ca []) x) (tip i) /\ close6 e (field o phi (nth i li 0) false (nth i Cb []) x) (tip i).
Proof.
  intros He. pose proof (proj2 (proj2 (check_iff o li0 mi ki)) Hinv) as Hchk. destruct (valid_lengths _ _ _ _ Hchk) as [Lk _].
  destruct (bvp_exists_unique o (Ok kR) kR phi li0 mi ki kd Hr Hs HN Hchk proper_ki Hkd
    ltac:(intros; split; [reflexivity|apply HC; assumption]) HV HM ltac:(intros r Er; injection Er as <-; exact HkR)) as (C1 & H61 & B1 & _).
  pose proof (tip_states o kR phi li0 mi k0 ki C0 C1 Hr Hs HkR ltac:(unfold N in HN; lia) Hdiff Hend Hp B0 B1) as TS.
  destruct (depend_all o kR phi k0 kd li0 mi C0 Hr Hs Hkd HM HC HV HkR HN Hk0 Hp H60 B0 N e (le_n _) He) as (d & Hd & Ha).
  destruct (depend_all o kR phi ki kd li0 mi C1 Hr Hs Hkd HM HC HV HkR HN Lk proper_ki H61 B1 N e (le_n _) He) as (d' & Hd' & Hb).
  exists (Rmin d d'). split; [apply Rmin_glb_lt; assumption|]. pose proof (Rmin_l d d'). pose proof (Rmin_r d d').
  intros li Ca Cb NA NB i x Hi Hcr Hx. unfold cracking in Hcr. apply andb_prop in Hcr. destruct Hcr as [E0 E1]. apply Bool.negb_true_iff in E1.
  assert (Z : nth i li0 0 = 0) by (apply (Hdiff i Hi); rewrite E0, E1; discriminate).
  assert (X : Rabs (x - 0) < Rmin d d').
  { destruct NA as (_ & _ & _ & NL & _). specialize (NL i Hi). rewrite Z, Rminus_0_r in NL. rewrite Rminus_0_r, Rabs_pos_eq by lra.
    rewrite Rabs_pos_eq in NL by lra. lra. }
  split.
  - pose proof (Ha li mi Ca i x 0 (neighbour_le _ _ _ _ _ _ _ _ _ _ _ H NA) Hi ltac:(rewrite Z; lra) ltac:(lra)) as Q. rewrite E0, Z in Q. exact Q.
  - pose proof (Hb li mi Cb i x 0 (neighbour_le _ _ _ _ _ _ _ _ _ _ _ H0 NB) Hi ltac:(rewrite Z; lra) ltac:(lra)) as Q.
    rewrite <- (TS i 0 Hi) in Q by (rewrite Z; lra). rewrite E0, E1, Z in Q. exact Q.
Qed.

Lemma limit_integrands e : 0 < e -> exists d, 0 < d /\ forall li Ca Cb, neighbour o kR phi k0 li0 mi d li mi Ca -> neighbour o kR phi ki li0 mi d li mi Cb ->
  forall i x, (i < N)%nat -> cracking k0 ki i = true -> 0 <= x <= nth i li 0 ->
    Rabs (opening o phi (nth i li 0) (nth i Ca []) (nth i Cb []) x - 2 * GI (o_par o) (tip i)) <= e /\
    Rabs (sliding o phi (nth i li 0) (nth i Ca []) (nth i Cb []) x - (- (2 * GII (o_par o) (tip i)))) <= e.
Proof.
  intros He. pose proof Hr as (_ & (Kn & Kt & _) & _).
  destruct (finite_min (fun i d => forall phi l C C' x, close6 d (field o phi l true C x) (tip i) -> close6 d (field o phi l false C' x) (tip i) ->
    Rabs (opening o phi l C C' x - 2 * GI (o_par o) (tip i)) <= e /\ Rabs (sliding o phi l C C' x - (- (2 * GII (o_par o) (tip i)))) <= e) N) as (d & Hd & HP).
  - intros i d d' Hd H phi' l C C' x A B. apply H; [apply (close6_le d'); [lra|exact A]|apply (close6_le d'); [lra|exact B]].
  - intros i _. destruct (near_opening o e (tip i) Kn He) as (d & Hd & HO). destruct (near_sliding o e (tip i) Kt He) as (d' & Hd' & HS).
    exists (Rmin d d'). split; [apply Rmin_glb_lt; assumption|]. pose proof (Rmin_l d d'). pose proof (Rmin_r d d'). intros phi' l C C' x A B. split.
    + apply HO; eapply close6_le; try eassumption.
    + apply HS; eapply close6_le; try eassumption.
  - destruct (limit_states d Hd) as (d' & Hd' & HL). exists d'. split; [exact Hd'|]. intros li Ca Cb NA NB i x Hi Hcr Hx.
    destruct (HL li Ca Cb NA NB i x Hi Hcr Hx) as [A B]. apply (HP i Hi); assumption.
Qed.

Lemma ginc_limit e : 0 < e -> exists d, 0 < d /\ forall quad li Ca Cb G G1 G2,
  neighbour o kR phi k0 li0 mi d li mi Ca -> neighbour o kR phi ki li0 mi d li mi Cb ->
  (forall i, (i < N)%nat -> 0 <= nth i li 0) -> (exists i, cracking k0 ki i = true) ->
  let da := crack_sum k0 ki N (fun i => nth i li 0) in
  accurate_quad quad (d * da) ->
  ginc quad (o_par o) (o_eig o) (loads_of o phi) Ca Cb li ki k0 = Ok (Some G, Some G1, Some G2) ->
  Rabs (G1 - crack_sum k0 ki N (fun i => nth i li 0 / da * GI (o_par o) (tip i))) <= e /\
  Rabs (G2 - - crack_sum k0 ki N (fun i => nth i li 0 / da * GII (o_par o) (tip i))) <= e.
Proof.
  intros He. destruct (limit_integrands e He) as (d & Hd & HI). pose proof (pos_INR N) as PN.
  set (d' := Rmin d (e / (INR N + 1))). exists d'.
  assert (D0 : 0 < d') by (apply Rmin_glb_lt; [exact Hd|apply Rdiv_lt_0_compat; lra]).
  assert (D1 : d' <= d) by apply Rmin_l. assert (D2 : INR N * d' <= e).
  { assert (Q : d' <= e / (INR N + 1)) by apply Rmin_r. apply (Rmult_le_compat_l (INR N + 1)) in Q; [|lra].
    replace ((INR N + 1) * (e / (INR N + 1))) with e in Q by (field; lra). lra. }
  split; [exact D0|]. intros quad li Ca Cb G G1 G2 NA NB Hpos Hcr da HQ HG.
  pose proof (neighbour_le _ _ _ _ _ _ _ _ _ _ _ D1 NA) as NA'. pose proof (neighbour_le _ _ _ _ _ _ _ _ _ _ _ D1 NB) as NB'.
  pose proof (ginc_value quad (d' * da) HQ o phi Ca Cb li ki k0 G G1 G2 Hr HG) as (_ & _ & HV').
  destruct NA as (LN & _). rewrite LN in HV'. fold N da in HV'. destruct (HV' Hcr) as (Da & V1 & V2). clear HV'.
  assert (QE : INR N * (d' * da) / (2 * da) <= e / 2) by (replace (INR N * (d' * da) / (2 * da)) with (INR N * d' / 2) by (field; lra); lra).
  assert (K : forall (H : nat -> R -> R) (c : nat -> R) Gv, (forall i x, continuous (H i) x) ->
    (forall i x, (i < N)%nat -> cracking k0 ki i = true -> 0 <= x <= nth i li 0 -> Rabs (H i x - c i) <= e) ->
    Rabs (Gv - 1 / (2 * da) * crack_sum k0 ki N (fun i => RInt (H i) 0 (nth i li 0))) <= INR N * (d' * da) / (2 * da) ->
    Rabs (Gv - 1 / (2 * da) * crack_sum k0 ki N (fun i => c i * nth i li 0)) <= e).
  { intros H c Gv HCo HB HG'.
    pose proof (crack_sum_close k0 ki N (fun i => RInt (H i) 0 (nth i li 0)) (fun i => c i * nth i li 0) (fun i => e * nth i li 0)) as CC.
    assert (CC' : Rabs (crack_sum k0 ki N (fun i => RInt (H i) 0 (nth i li 0)) - crack_sum k0 ki N (fun i => c i * nth i li 0)) <= e * da).
    { unfold da. rewrite <- crack_sum_scale. apply CC. intros i Hi Hcri. apply RInt_near; [apply Hpos; exact Hi|apply HCo|intros; apply HB; assumption]. }
    replace (Gv - 1 / (2 * da) * crack_sum k0 ki N (fun i => c i * nth i li 0)) with
      ((Gv - 1 / (2 * da) * crack_sum k0 ki N (fun i => RInt (H i) 0 (nth i li 0)))
       + 1 / (2 * da) * (crack_sum k0 ki N (fun i => RInt (H i) 0 (nth i li 0)) - crack_sum k0 ki N (fun i => c i * nth i li 0))) by ring.
    eapply Rle_trans; [apply Rabs_triang|]. rewrite (Rabs_mult (1 / (2 * da))).
    assert (P2 : 0 < 1 / (2 * da)) by (apply Rdiv_lt_0_compat; lra). rewrite (Rabs_pos_eq (1 / (2 * da))) by lra.
    apply (Rmult_le_compat_l (1 / (2 * da))) in CC'; [|lra]. replace (1 / (2 * da) * (e * da)) with (e / 2) in CC' by (field; lra). lra. }
  split.
  - pose proof (K (fun i => opening o phi (nth i li 0) (nth i Ca []) (nth i Cb [])) (fun i => 2 * GI (o_par o) (tip i)) G1
      (fun i x => opening_cont o phi _ _ _ x Hr) (fun i x A B C => proj1 (HI li Ca Cb NA' NB' i x A B C)) V1) as Q.
    eapply Rle_trans; [right|exact Q]. f_equal. f_equal. rewrite <- crack_sum_scale. f_equal.
    apply FunctionalExtensionality.functional_extensionality. intros i. field. lra.
  - pose proof (K (fun i => sliding o phi (nth i li 0) (nth i Ca []) (nth i Cb [])) (fun i => - (2 * GII (o_par o) (tip i))) G2
      (fun i x => sliding_cont o phi _ _ _ x Hr) (fun i x A B C => proj2 (HI li Ca Cb NA' NB' i x A B C)) V2) as Q.
    eapply Rle_trans; [right|exact Q]. f_equal. f_equal.
    replace (- crack_sum k0 ki N (fun i => nth i li 0 / da * GII (o_par o) (tip i)))
      with (-1 * crack_sum k0 ki N (fun i => nth i li 0 / da * GII (o_par o) (tip i))) by ring.
    rewrite <- !crack_sum_scale. f_equal.
    apply FunctionalExtensionality.functional_extensionality. intros i. field. lra.
Qed.
End Limit.

(** Sums with one cracking segment. *)
Lemma crack_sum_single k0 ki n j f : (j < n)%nat -> cracking k0 ki j = true -> (forall i, i <> j -> cracking k0 ki i = false) ->
  crack_sum k0 ki n f = f j.
Proof.
  intros Hj Hc Ho. unfold crack_sum.
  assert (Z : forall s m, (j < s \/ s + m <= j)%nat -> rsum (map (fun i => if cracking k0 ki i then f i else 0) (seq s m)) = 0).
  { intros s m. revert s. induction m as [|m IH]; intros s Hs; simpl; [reflexivity|]. rewrite Ho by lia. rewrite IH by lia. ring. }
  assert (G : forall s m, (s <= j < s + m)%nat -> rsum (map (fun i => if cracking k0 ki i then f i else 0) (seq s m)) = f j).
  { intros s m. revert s. induction m as [|m IH]; intros s Hs; simpl; [lia|]. destruct (Nat.eq_dec s j) as [->|].
    - rewrite Hc, Z by lia. ring.
    - rewrite Ho by lia. rewrite IH by lia. ring. }
  apply G. lia.
Qed.

(** Support lists that differ at one place. *)
Lemma cracking_one k1 k2 i : cracking (k1 ++ true :: k2) (k1 ++ false :: k2) i = true <-> i = List.length k1.
Proof.
  unfold cracking. split.
  - intros H. destruct (lt_eq_lt_dec i (List.length k1)) as [[L|L]|L]; [|exact L|].
    + rewrite !app_nth1 in H by exact L. destruct (nth i k1 false); discriminate.
    + rewrite !app_nth2 in H by lia. destruct (i - List.length k1)%nat as [|j] eqn:E; [lia|]. simpl in H. destruct (nth j k2 false); discriminate.
  - intros ->. rewrite !app_nth2 by lia. rewrite Nat.sub_diag. reflexivity.
Qed.
Lemma differ_one k1 k2 i : nth i (k1 ++ true :: k2) false <> nth i (k1 ++ false :: k2) false -> i = List.length k1.
Proof.
  intros H. destruct (lt_eq_lt_dec i (List.length k1)) as [[L|L]|L]; [|exact L|]; exfalso; apply H.
  - rewrite !app_nth1 by exact L. reflexivity.
  - rewrite !app_nth2 by lia. destruct (i - List.length k1)%nat as [|j] eqn:E; [lia|]. reflexivity.
Qed.
