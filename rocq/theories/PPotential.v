(** Proofs about the stored energy. *)
Require Import Verif.Py Verif.MTools Verif.MEigen Verif.MFields Verif.MRaster Verif.MSolution Verif.MAnalysis
  Verif.SAdm Verif.SBeam Verif.SBvp Verif.SEig Verif.SRaster Verif.SOutput Verif.PSetup Verif.PBeam2 Verif.PBvp Verif.PWell2 Verif.PBvp6 Verif.PRaster Verif.PRaster2.
Require Import Sorting.Sorted.

Lemma rsum_sq_nonneg {A} (f : A -> R) l : 0 <= rsum (map (fun a => a ^ 2) (map f l)).
Proof. induction l as [|a l IH]; simpl; [lra|]. pose proof (pow2_ge_0 (f a)). simpl in *. lra. Qed.
Lemma rsum_sq_bound {A} (f : A -> R) l B : (forall a, In a l -> f a ^ 2 <= B) ->
  rsum (map (fun a => a ^ 2) (map f l)) <= INR (List.length l) * B.
Proof.
  induction l as [|a l IH]; intros H; [simpl; lra|].
  change (f a ^ 2 + rsum (map (fun a => a ^ 2) (map f l)) <= INR (S (List.length l)) * B). rewrite S_INR.
  pose proof (H a (or_introl eq_refl)). specialize (IH (fun b I => H b (or_intror I))). lra.
Qed.
Lemma share_nonneg c n s : 0 <= c -> (0 < n)%nat -> 0 <= s -> 0 <= c / INR n * s.
Proof.
  intros Hc Hn Hs. apply Rmult_le_pos; [|exact Hs]. apply Rmult_le_pos; [exact Hc|]. left. apply Rinv_0_lt_compat. apply lt_0_INR. exact Hn.
Qed.
Lemma share_bound c n s B : 0 <= c -> (0 < n)%nat -> s <= INR n * B -> c / INR n * s <= c * B.
Proof.
  intros Hc Hn Hs. assert (0 < INR n) by (apply lt_0_INR; exact Hn).
  replace (c * B) with (c / INR n * (INR n * B)) by (field; lra). apply Rmult_le_compat_l; [|exact Hs].
  apply Rmult_le_pos; [exact Hc|]. left. apply Rinv_0_lt_compat. assumption.
Qed.
Lemma select_length_le {A} m (l : list A) : (List.length (select m l) <= List.length l)%nat.
Proof. revert l. induction m as [|b m IH]; intros [|a l]; simpl; try lia. destruct b; simpl; specialize (IH l); lia. Qed.
Lemma select_in {A} m (l : list A) a : In a (select m l) -> In a l.
Proof.
  revert l. induction m as [|b m IH]; intros [|c l]; simpl; try contradiction. destruct b; simpl; [intros [->|I]|intros I]; auto.
Qed.

(** The end column that carries the spring term. *)
Definition end_moment (o : obj) (zq : list vec6) : R :=
  if String.eqb (o_system o) "pst-" then sM (o_par o) (last zq (mkV 0 0 0 0 0 0))
  else if String.eqb (o_system o) "-pst" then sM (o_par o) (hd (mkV 0 0 0 0 0 0) zq) else 0.
Definition end_rotation (o : obj) (zq : list vec6) : R :=
  if String.eqb (o_system o) "pst-" then z_psi (last zq (mkV 0 0 0 0 0 0))
  else z_psi (hd (mkV 0 0 0 0 0 0) zq).

Lemma last_map_f {A} (f : A -> R) l d : l <> [] -> last (map f l) 0 = f (last l d).
Proof. induction l as [|a [|b l] IH]; intros H; [congruence|reflexivity|]. apply IH. discriminate. Qed.
Lemma hd_map_f {A} (f : A -> R) l d : l <> [] -> hd 0 (map f l) = f (hd d l).
Proof. destruct l; intros H; [congruence|reflexivity]. Qed.

(** Value of the potential: non-negative shares plus the spring term. *)
Lemma potential_split o phi L Cs li ki P xq zq xb : 
  internal_potential o phi L Cs li ki = Ok P ->
  rasterize_solution (o_par o) (o_eig o) (loads_of o phi) Cs li ki 250 = Ok (xq, zq, xb) ->
  (0 < List.length (present xb zq))%nat /\ zq <> [] /\ List.length xq = List.length zq /\
  let p := o_par o in
  let sq := fun l => rsum (map (fun a => a ^ 2) l) in
  P = L / 2 / A11 p / INR (List.length xq) * sq (map (sN p) zq)
      + L / 2 / (D11 p - B11 p ^ 2 / A11 p) / INR (List.length xq) * sq (map (sM p) zq)
      + L / 2 / kA55 p / INR (List.length xq) * sq (map (sV p) zq)
      + L * kn p / 2 / INR (List.length (present xb zq)) * sq (map z_w (present xb zq))
      + L * kt p / 2 / INR (List.length (present xb zq)) * sq (map (fun z => z_u z + hh p / 2 * z_psi z) (present xb zq))
      + 1 / 2 * end_moment o zq * end_rotation o zq ^ 2.
Proof.
  intros H HR. assert (H250 : (1 <= 250)%nat) by lia. destruct (raster_grid _ _ _ _ _ _ _ _ _ _ H250 HR) as (_ & _ & _ & _ & Ln & Lz & _).
  unfold internal_potential in H. rewrite HR in H. cbn [bind] in H. cbv zeta in H.
  destruct (Nat.eqb_spec (List.length (present xb zq)) 0) as [|N]; [discriminate|]. apply Ok_inj in H.
  assert (Hne : zq <> []) by (intros E; rewrite E in Lz; simpl in Lz; lia).
  split; [lia|]. split; [exact Hne|]. split; [congruence|]. cbv zeta. rewrite <- H. clear H.
  assert (Qf : forall (f g : vec6 -> R) l, (forall a, f a = g a) -> map f l = map g l) by (intros; apply map_ext; assumption).
  rewrite (Qf f_w z_w) by (intros; unfold f_w; ring).
  rewrite (Qf (f_u (hh (o_par o) / 2)) (fun z => z_u z + hh (o_par o) / 2 * z_psi z)) by (intros; unfold f_u, f_psi; ring).
  change (f_N (o_par o)) with (sN (o_par o)). change (f_M (o_par o)) with (sM (o_par o)). change (f_V (o_par o)) with (sV (o_par o)).
  change f_psi with z_psi. unfold end_moment, end_rotation, mem_str. simpl existsb. rewrite !orb_false_r.
  destruct (String.eqb (o_system o) "pst-"); [|destruct (String.eqb (o_system o) "-pst")].
  - rewrite (last_map_f (sM (o_par o)) zq (mkV 0 0 0 0 0 0) Hne), (last_map_f z_psi zq (mkV 0 0 0 0 0 0) Hne).
    repeat (f_equal; try (unfold Rdiv; ring)).
  - rewrite (hd_map_f (sM (o_par o)) zq (mkV 0 0 0 0 0 0) Hne), (hd_map_f z_psi zq (mkV 0 0 0 0 0 0) Hne).
    repeat (f_equal; try (unfold Rdiv; ring)).
  - rewrite Rmult_0_r, Rmult_0_l, Rplus_0_r. repeat (f_equal; try (unfold Rdiv; ring)).
Qed.

(** C54: without a negative end moment the potential is non-negative. *)
Lemma sum_nonneg o phi L Cs li ki P : lam_ok (o_par o) -> fnd_ok (o_par o) -> 0 <= L ->
  internal_potential o phi L Cs li ki = Ok P ->
  (forall xq zq xb, rasterize_solution (o_par o) (o_eig o) (loads_of o phi) Cs li ki 250 = Ok (xq, zq, xb) -> 0 <= end_moment o zq) ->
  0 <= P.
Proof.
  intros (HA & HD & HS & HK & HK0) (Hn & Ht & _) HL H HM.
  destruct (rasterize_solution (o_par o) (o_eig o) (loads_of o phi) Cs li ki 250) as [[[xq zq] xb]|er] eqn:HR.
  2:{ unfold internal_potential in H. rewrite HR in H. discriminate. }
  destruct (potential_split _ _ _ _ _ _ _ _ _ _ H HR) as (Nw & Hne & Lxz & ->). specialize (HM _ _ _ eq_refl).
  set (p := o_par o) in *.
  assert (Lx : (0 < List.length xq)%nat) by (rewrite Lxz; destruct zq; [congruence|simpl; lia]).
  assert (HDs : 0 < D11 p - B11 p ^ 2 / A11 p).
  { replace (D11 p - B11 p ^ 2 / A11 p) with ((A11 p * D11 p - B11 p ^ 2) / A11 p) by (field; lra).
    apply Rdiv_lt_0_compat; lra. }
  assert (forall c, 0 < c -> 0 <= L / 2 / c) by (intros c Hc; apply Rmult_le_pos; [lra|left; apply Rinv_0_lt_compat; exact Hc]).
  pose proof (share_nonneg (L / 2 / A11 p) _ _ (H0 _ HA) Lx (rsum_sq_nonneg (sN p) zq)).
  pose proof (share_nonneg (L / 2 / (D11 p - B11 p ^ 2 / A11 p)) _ _ (H0 _ HDs) Lx (rsum_sq_nonneg (sM p) zq)).
  pose proof (share_nonneg (L / 2 / kA55 p) _ _ (H0 _ HS) Lx (rsum_sq_nonneg (sV p) zq)).
  assert (A1 : 0 <= L * kn p / 2) by (assert (0 <= L * kn p) by (apply Rmult_le_pos; lra); lra).
  assert (A2 : 0 <= L * kt p / 2) by (assert (0 <= L * kt p) by (apply Rmult_le_pos; lra); lra).
  pose proof (share_nonneg (L * kn p / 2) _ _ A1 Nw (rsum_sq_nonneg z_w (present xb zq))).
  pose proof (share_nonneg (L * kt p / 2) _ _ A2 Nw (rsum_sq_nonneg (fun z => z_u z + hh p / 2 * z_psi z) (present xb zq))).
  pose proof (pow2_ge_0 (end_rotation o zq)).
  assert (0 <= 1 / 2 * end_moment o zq * end_rotation o zq ^ 2) by (apply Rmult_le_pos; [lra|assumption]).
  lra.
Qed.

(** End columns of a raster. *)
Lemma chain_nonneg {A} (s : list (R * A)) : 0 <= chain_length s.
Proof. unfold chain_length. induction s as [|q s IH]; simpl; [lra|]. pose proof (Rabs_pos (fst q)). unfold chain_length in IH. lra. Qed.
Lemma chain_cons {A} (q : R * A) s : chain_length (q :: s) = Rabs (fst q) + chain_length s.
Proof. reflexivity. Qed.
Lemma chain_app {A} (s t : list (R * A)) : chain_length (s ++ t) = chain_length s + chain_length t.
Proof. induction s as [|q s IH]; simpl app; [unfold chain_length at 2; simpl; lra|]. rewrite !chain_cons, IH. lra. Qed.
Lemma seg_bounds {A} x0 (s : list (R * A)) b l a : seg_at x0 s b l a -> x0 <= b /\ b + Rabs l <= x0 + chain_length s.
Proof.
  induction 1 as [x0 l a s|x0 l a s b l' a' H IH].
  - rewrite chain_cons. pose proof (chain_nonneg s). simpl. lra.
  - rewrite chain_cons. pose proof (Rabs_pos l). simpl. lra.
Qed.
Lemma seg_last {A} x0 (s : list (R * A)) l0 a0 b l a : l0 <> 0 -> seg_at x0 (s ++ [(l0, a0)]) b l a ->
  b + Rabs l = x0 + chain_length (s ++ [(l0, a0)]) -> l = l0 /\ a = a0.
Proof.
  intros Hl. revert x0. induction s as [|q s IH]; intros x0 H E.
  - inversion H as [|? ? ? ? ? ? ? H']; subst; [auto|]. inversion H'.
  - simpl app in *. rewrite chain_cons in E. inversion H as [? ? ? ?|? ? ? ? ? ? ? H']; subst.
    + exfalso. rewrite chain_app in E. unfold chain_length at 2 in E. simpl in E. pose proof (chain_nonneg s).
      pose proof (Rabs_pos_lt l0 Hl). lra.
    + apply (IH (x0 + Rabs l1)); [exact H'|]. simpl in E. lra.
Qed.
Lemma Forall2_last {A B} (P : A -> B -> Prop) l m d e : Forall2 P l m -> l <> [] -> P (last l d) (last m e).
Proof.
  induction 1 as [|a b l m H F IH]; intros N; [congruence|]. inversion F as [|a' b' l' m' H' F']; subst; [exact H|].
  apply IH. discriminate.
Qed.
Lemma combine_split_last {A B} (la : list A) (lb : list B) a b : List.length la = List.length lb ->
  combine (la ++ [a]) (lb ++ [b]) = combine la lb ++ [(a, b)].
Proof. revert lb. induction la as [|x la IH]; intros [|y lb] E; simpl in *; try discriminate; [reflexivity|]. rewrite IH by congruence. reflexivity. Qed.

Lemma raster_last_col p e ld Cs li ki l C k xq zq xb num : (1 <= num)%nat -> l <> 0 ->
  List.length Cs = List.length li -> List.length ki = List.length li ->
  rasterize_solution p e ld (Cs ++ [C]) (li ++ [l]) (ki ++ [k]) num = Ok (xq, zq, xb) ->
  last zq (mkV 0 0 0 0 0 0) = zsol p e ld (Rabs l) C (Rabs l) k.
Proof.
  intros Hn Hl L1 L2 HR. destruct (raster_grid _ _ _ _ _ _ _ _ _ _ Hn HR) as (_ & _ & G & _ & Ln & _).
  assert (Hne : xq <> []) by (intros E; rewrite E in Ln; simpl in Ln; lia).
  pose proof (Forall2_last _ _ _ 0 (mkV 0 0 0 0 0 0) (raster_columns _ _ _ _ _ _ _ _ _ _ Hn HR) Hne) as (b & l' & C' & k' & (S1 & S2 & S3) & E).
  rewrite G in S3, E. rewrite (combine_split_last li ki) in G, S3, E by congruence.
  rewrite (combine_split_last Cs ki), (combine_split_last li (combine Cs ki)) in S1, S3 by (rewrite ?combine_length; lia).
  assert (T : chain_length (combine li ki ++ [(l, k)]) = chain_length (combine li (combine Cs ki) ++ [(l, (C, k))])).
  { rewrite !chain_app. unfold chain_length. simpl. f_equal. clear - L1 L2. revert Cs ki L1 L2.
    induction li as [|x li IH]; intros [|c Cs] [|q ki] L1 L2; simpl in *; try discriminate; [reflexivity|]. f_equal. apply IH; congruence. }
  destruct (seg_bounds _ _ _ _ _ S1) as [_ B]. rewrite T in S3, E.
  assert (X : b + Rabs l' = 0 + chain_length (combine li (combine Cs ki) ++ [(l, (C, k))])).
  { destruct S3 as [S3|[S3 S4]]; lra. }
  destruct (seg_last _ _ _ _ _ _ _ Hl S1 X) as [-> Ea]. injection Ea as -> ->.
  rewrite E. f_equal. lra.
Qed.
Lemma raster_first_col p e ld Cs li ki l C k xq zq xb num : (1 <= num)%nat -> l <> 0 ->
  rasterize_solution p e ld (C :: Cs) (l :: li) (k :: ki) num = Ok (xq, zq, xb) ->
  hd (mkV 0 0 0 0 0 0) zq = zsol p e ld 0 C (Rabs l) k.
Proof.
  intros Hn Hl HR. destruct (raster_grid _ _ _ _ _ _ _ _ _ _ Hn HR) as (_ & G & _ & _ & Ln & Lz & _).
  pose proof (raster_columns _ _ _ _ _ _ _ _ _ _ Hn HR) as F. destruct xq as [|x0 xq]; [simpl in Ln; lia|].
  inversion F as [|? z0 ? zq' H F']; subst. simpl in G. subst x0. destruct H as (b & l' & C' & k' & (S1 & S2 & S3) & E). simpl.
  simpl in S1. destruct (seg_bounds _ _ _ _ _ S1) as [B1 _]. pose proof (Rabs_pos_lt _ S2). pose proof (Rabs_pos_lt _ Hl).
  assert (Hb : b = 0) by (destruct S3 as [S3|[S3 S4]]; lra). subst b.
  inversion S1 as [? ? ? ?|? ? ? ? ? ? ? H']; subst; [f_equal; lra|].
  destruct (seg_bounds _ _ _ _ _ H') as [B2 _]. lra.
Qed.

Lemma nth_last_snoc {A} (l : list A) a d : nth (List.length (l ++ [a]) - 1) (l ++ [a]) d = a.
Proof. rewrite app_length. simpl. replace (List.length l + 1 - 1)%nat with (List.length l) by lia. rewrite app_nth2, Nat.sub_diag by lia. reflexivity. Qed.

(** C54 for solved PST problems whose ends carry no moment, and for other systems. *)
Lemma stored_nonneg o kR phi L li mi ki Cs P : lam_ok (o_par o) -> fnd_ok (o_par o) -> 0 <= L ->
  List.length Cs = List.length li -> List.length ki = List.length li ->
  0 < nth 0 li 0 -> 0 < last li 0 -> bvp o kR phi li mi ki Cs ->
  (kind_of (o_system o) = Some KPst ->
     (nth 0 ki false = true \/ o_mode o = Some ModeA \/ o_mode o = Some ModeB) /\
     (nth (List.length li - 1) ki false = true \/ o_mode o = Some ModeA \/ o_mode o = Some ModeB)) ->
  internal_potential o phi L Cs li ki = Ok P -> 0 <= P.
Proof.
  intros Hl Hf HL L1 L2 P0 PN HB HK HP. apply (sum_nonneg o phi L Cs li ki P Hl Hf HL HP).
  intros xq zq xb HR. unfold end_moment. destruct HB as (BL & BR & _).
  assert (Z : forall sgn k z, pst_end o kR phi sgn k z -> (k = true \/ o_mode o = Some ModeA \/ o_mode o = Some ModeB) -> sM (o_par o) z = 0).
  { intros sgn k z H [->|[E|E]]; unfold pst_end in H; cbv zeta in H.
    - apply H. - destruct k; [apply H|]. rewrite E in H. apply H. - destruct k; [apply H|]. rewrite E in H. apply H. }
  destruct (String.eqb_spec (o_system o) "pst-") as [Es|N1]; [|destruct (String.eqb_spec (o_system o) "-pst") as [Es|N2]; [|lra]].
  - assert (Kd : kind_of (o_system o) = Some KPst) by (rewrite Es; reflexivity). destruct (HK Kd) as [_ HK2].
    unfold right_end in BR. rewrite Kd in BR. apply (Z _ _ _) in BR; [|exact HK2]. clear HK2 BL HK.
    destruct (@exists_last _ li) as (li' & l & ->); [intros E; rewrite E in PN; simpl in PN; lra|].
    destruct (@exists_last _ Cs) as (Cs' & C & ->); [intros E; rewrite E, app_length in L1; simpl in L1; lia|].
    destruct (@exists_last _ ki) as (ki' & k & ->); [intros E; rewrite E, app_length in L2; simpl in L2; lia|].
    rewrite last_last in PN. rewrite !app_length in L1, L2. simpl in L1, L2.
    assert (Hl0 : l <> 0) by (apply Rgt_not_eq; lra). assert (H250 : (1 <= 250)%nat) by lia.
    rewrite (raster_last_col _ _ _ Cs' li' ki' l C k xq zq xb 250 H250 Hl0 ltac:(lia) ltac:(lia) HR).
    rewrite (Rabs_pos_eq l) by lra.
    replace (nth (List.length (li' ++ [l]) - 1) (ki' ++ [k]) false) with k in BR
      by (replace (List.length (li' ++ [l])) with (List.length (ki' ++ [k])) by (rewrite !app_length; simpl; lia); symmetry; apply nth_last_snoc).
    replace (nth (List.length (li' ++ [l]) - 1) (Cs' ++ [C]) []) with C in BR
      by (replace (List.length (li' ++ [l])) with (List.length (Cs' ++ [C])) by (rewrite !app_length; simpl; lia); symmetry; apply nth_last_snoc).
    rewrite nth_last_snoc in BR. unfold field in BR. lra.
  - assert (Kd : kind_of (o_system o) = Some KPst) by (rewrite Es; reflexivity). destruct (HK Kd) as [HK1 _].
    unfold left_end in BL. rewrite Kd in BL. apply (Z _ _ _) in BL; [|exact HK1]. clear HK1 BR HK.
    destruct li as [|l li]; [simpl in P0; lra|]. destruct Cs as [|C Cs]; [discriminate|]. destruct ki as [|k ki]; [discriminate|].
    simpl in P0, BL. assert (Hl0 : l <> 0) by (apply Rgt_not_eq; lra). assert (H250 : (1 <= 250)%nat) by lia.
    rewrite (raster_first_col _ _ _ Cs li ki l C k xq zq xb 250 H250 Hl0 HR).
    rewrite (Rabs_pos_eq l) by lra. unfold field in BL. lra.
Qed.

(** C54 refuted for arbitrary constants: the spring term is cubic. *)
Lemma ex_loads0 system mode : exists Q, 1 <= Q <= 2 /\ loads_of (ex_obj system mode 0) 0 = mkLd (Q - 1) 0 1 0.
Proof.
  exists (200 * (1 / 1000000000000) * 9810 * 1 + 0 + 1). split; [lra|].
  unfold loads_of, get_weight_load, get_surface_load. replace (deg2rad 0) with 0 by (unfold deg2rad; field).
  rewrite sin_0, cos_0. simpl. f_equal; ring.
Qed.
Lemma vec6_ext a b : z_u a = z_u b -> z_du a = z_du b -> z_w a = z_w b -> z_dw a = z_dw b -> z_psi a = z_psi b ->
  z_dpsi a = z_dpsi b -> a = b.
Proof. destruct a, b. simpl. intros. subst. reflexivity. Qed.
Lemma ex_field_free e Q x : zsol ex_par e (mkLd (Q - 1) 0 1 0) x [0; 0; 10; 0; 0; 0] 1 false
  = mkV 0 0 (Q * x ^ 4 / 24 + 10 * x ^ 2) (Q * x ^ 3 / 6 + 20 * x) (- Q * x ^ 3 / 6 - 2 * Q * x / 25 - 20 * x) (- Q * (x ^ 2 / 2 + 2 / 25) - 20).
Proof.
  apply vec6_ext; unfold zsol, zh, zh_free, zp, ex_par, vadd, vscale, lincomb, vzero; simpl; field.
Qed.
Lemma lincomb_six_zeros cols : lincomb cols [0; 0; 0; 0; 0; 0] = vzero.
Proof.
  assert (Z : forall c r, r = vzero -> vadd (vscale 0 c) r = vzero).
  { intros c r ->. destruct c. unfold vadd, vscale, vzero; simpl. f_equal; ring. }
  destruct cols as [|c0 [|c1 [|c2 [|c3 [|c4 [|c5 r]]]]]]; simpl; repeat apply Z; try reflexivity. destruct r; reflexivity.
Qed.
Lemma ex_field_bed e Q x : zsol ex_par e (mkLd (Q - 1) 0 1 0) x [0; 0; 0; 0; 0; 0] 1 true
  = mkV 0 0 (Q / 25) 0 0 0.
Proof.
  unfold zsol. rewrite lincomb_six_zeros. unfold zp, ex_par, vadd, vzero. simpl. f_equal; field.
Qed.
Lemma ex_negative : exists P,
  internal_potential (ex_obj "pst-" (Some ModeC) 0) 0 2 [[0; 0; 0; 0; 0; 0]; [0; 0; 10; 0; 0; 0]] [1; 1] [true; false] = Ok P /\ P < 0.
Proof.
  set (o := ex_obj "pst-" (Some ModeC) 0). destruct (ex_loads0 "pst-" (Some ModeC)) as (Q & HQ & EL). fold o in EL.
  set (Cs := [[0; 0; 0; 0; 0; 0]; [0; 0; 10; 0; 0; 0]]). assert (H250 : (1 <= 250)%nat) by lia.
  destruct (raster_accepts (o_par o) (o_eig o) (loads_of o 0) Cs [1; 1] [true; false] 250) as ([[xq zq] xb] & HR);
    [reflexivity|reflexivity|exists 1; split; [left; reflexivity|lra]| |].
  { intros b l C k H _ x. rewrite (six_zh o (ready_six o (ex_ready _ _ _))). simpl in H.
    inversion H as [|? ? ? ? ? ? ? H1]; subst; [reflexivity|]. inversion H1 as [|? ? ? ? ? ? ? H2]; subst; [reflexivity|]. inversion H2. }
  destruct (raster_grid _ _ _ _ _ _ _ _ _ _ H250 HR) as (Hs & Hhd & _ & Hin & Ln & Lz & Lb).
  assert (Cols : forall z, In z zq -> (z = mkV 0 0 (Q / 25) 0 0 0) \/ exists x, 0 <= x <= 1 /\
     z = mkV 0 0 (Q * x ^ 4 / 24 + 10 * x ^ 2) (Q * x ^ 3 / 6 + 20 * x) (- Q * x ^ 3 / 6 - 2 * Q * x / 25 - 20 * x) (- Q * (x ^ 2 / 2 + 2 / 25) - 20)).
  { pose proof (raster_columns _ _ _ _ _ _ _ _ _ _ H250 HR) as F. intros z I. clear - F I EL.
    induction F as [|x y xq zq H F IH]; [contradiction|]. destruct I as [->|I]; [|apply IH; exact I].
    destruct H as (b & l & C & k & (S1 & S2 & S3) & ->). rewrite EL. change (o_par o) with ex_par. change (o_eig o) with (calc_eigensystem ex_ews).
    simpl in S1. inversion S1 as [|? ? ? ? ? ? ? H1]; subst.
    - left. rewrite Rabs_pos_eq by lra. apply ex_field_bed.
    - right. inversion H1 as [|? ? ? ? ? ? ? H2]; subst; [|inversion H2]. rewrite Rabs_pos_eq by lra. rewrite Rabs_pos_eq in S3 by lra.
      exists (x - (0 + 1)). split; [destruct S3 as [S3|[S3 S4]]; lra|]. apply ex_field_free. }
  assert (La : last zq (mkV 0 0 0 0 0 0) = mkV 0 0 (Q * 1 ^ 4 / 24 + 10 * 1 ^ 2) (Q * 1 ^ 3 / 6 + 20 * 1)
     (- Q * 1 ^ 3 / 6 - 2 * Q * 1 / 25 - 20 * 1) (- Q * (1 ^ 2 / 2 + 2 / 25) - 20)).
  { rewrite (raster_last_col _ _ _ [[0; 0; 0; 0; 0; 0]] [1] [true] 1 [0; 0; 10; 0; 0; 0] false xq zq xb 250 H250 R1_neq_R0 eq_refl eq_refl HR).
    rewrite EL, Rabs_pos_eq by lra. apply ex_field_free. }
  (* foundation columns *)
  assert (Hpos : (0 < List.length (present xb zq))%nat).
  { pose proof (raster_foundation _ _ _ _ _ _ _ _ _ _ H250 HR) as F. destruct xq as [|x0 xq]; [simpl in Ln; lia|]. destruct zq as [|z0 zq]; [simpl in Lz; lia|].
    inversion F as [|? y0 ? yq H F']; subst. simpl in Hhd. subst x0. destruct H as [[_ ->]|[N _]]; [unfold present; simpl; lia|].
    exfalso. apply N. exists 0, 1. split; [simpl; constructor|]. rewrite Rabs_pos_eq by lra. lra. }
  assert (Cw : forall z, In z (present xb zq) -> z = mkV 0 0 (Q / 25) 0 0 0 \/ z = mkV 0 0 0 0 0 (- Q * (2 / 25) - 20)).
  { pose proof (raster_foundation _ _ _ _ _ _ _ _ _ _ H250 HR) as F. pose proof (raster_columns _ _ _ _ _ _ _ _ _ _ H250 HR) as G.
    intros z I. clear - F G I EL. unfold present in I. revert zq G I. induction F as [|x y xq xb H F IH]; intros zq G I; [contradiction|].
    inversion G as [|? z0 ? zq' H0 G']; subst. destruct H as [[Hf ->]|[Hf ->]].
    2:{ apply (IH zq'); [exact G'|exact I]. }
    destruct I as [->|I]; [|apply (IH zq'); [exact G'|exact I]].
    destruct H0 as (b & l & C & k & (S1 & S2 & S3) & ->). rewrite EL. change (o_par o) with ex_par. change (o_eig o) with (calc_eigensystem ex_ews).
    simpl in S1. inversion S1 as [|? ? ? ? ? ? ? H1]; subst.
    - left. rewrite Rabs_pos_eq by lra. apply ex_field_bed.
    - right. inversion H1 as [|? ? ? ? ? ? ? H2]; subst; [|inversion H2]. rewrite Rabs_pos_eq by lra. rewrite Rabs_pos_eq in * by lra.
      destruct Hf as (b & l & Sf & _ & Bf). simpl in Sf. inversion Sf as [|? ? ? ? ? ? ? H3]; subst.
      + rewrite (Rabs_pos_eq 1) in * by lra. assert (x = 1) by (destruct S3 as [S3|[S3 S4]]; lra). subst x.
        rewrite ex_field_free. replace (1 - (0 + 1)) with 0 by ring. f_equal; field.
      + inversion H3 as [|? ? ? ? ? ? ? H4]; subst. inversion H4. }
  assert (EP : exists P, internal_potential o 0 2 Cs [1; 1] [true; false] = Ok P).
  { unfold internal_potential. rewrite HR. cbn [bind]. cbv zeta. destruct (Nat.eqb_spec (List.length (present xb zq)) 0); [lia|]. eexists. reflexivity. }
  destruct EP as [P EP]. exists P. split; [exact EP|].
  destruct (potential_split _ _ _ _ _ _ _ _ _ _ EP HR) as (_ & Hne & _ & ->). change (o_par o) with ex_par.
  unfold end_moment, end_rotation. change (String.eqb (o_system o) "pst-") with true. cbv iota. rewrite La. change (o_par o) with ex_par.
  assert (B1 : 2 / 2 / A11 ex_par / INR (List.length xq) * rsum (map (fun a => a ^ 2) (map (sN ex_par) zq)) <= 2 / 2 / A11 ex_par * 0).
  { apply share_bound; [simpl; lra|lia|]. rewrite <- Lz. apply rsum_sq_bound. intros z I. destruct (Cols z I) as [->|(x & Hx & ->)]; unfold sN; simpl; lra. }
  assert (B2 : 2 / 2 / (D11 ex_par - B11 ex_par ^ 2 / A11 ex_par) / INR (List.length xq) * rsum (map (fun a => a ^ 2) (map (sM ex_par) zq))
     <= 2 / 2 / (D11 ex_par - B11 ex_par ^ 2 / A11 ex_par) * 484).
  { apply share_bound; [simpl; lra|lia|]. rewrite <- Lz. apply rsum_sq_bound. intros z I. destruct (Cols z I) as [->|(x & Hx & ->)]; unfold sM; simpl; [lra|].
    assert (0 <= Q * (x * (x * 1) / 2 + 2 / 25) <= 2) by nra. nra. }
  assert (B3 : 2 / 2 / kA55 ex_par / INR (List.length xq) * rsum (map (fun a => a ^ 2) (map (sV ex_par) zq)) <= 2 / 2 / kA55 ex_par * 4).
  { apply share_bound; [simpl; lra|lia|]. rewrite <- Lz. apply rsum_sq_bound. intros z I. destruct (Cols z I) as [->|(x & Hx & ->)]; unfold sV; simpl; [lra|].
    replace (25 / 2 * _ * _) with ((Q * x) ^ 2) by field. assert (0 <= Q * x <= 2) by nra. nra. }
  assert (B4 : 2 * kn ex_par / 2 / INR (List.length (present xb zq)) * rsum (map (fun a => a ^ 2) (map z_w (present xb zq))) <= 2 * kn ex_par / 2 * (4 / 625)).
  { apply share_bound; [simpl; lra|lia|]. apply rsum_sq_bound. intros z I. destruct (Cw z I) as [-> | ->]; simpl; nra. }
  assert (B5 : 2 * kt ex_par / 2 / INR (List.length (present xb zq)) * rsum (map (fun a => a ^ 2) (map (fun z => z_u z + hh ex_par / 2 * z_psi z) (present xb zq)))
     <= 2 * kt ex_par / 2 * 0).
  { apply share_bound; [simpl; lra|lia|]. apply rsum_sq_bound. intros z I. destruct (Cw z I) as [-> | ->]; simpl; lra. }
  assert (B6 : 1 / 2 * sM ex_par (mkV 0 0 (Q * 1 ^ 4 / 24 + 10 * 1 ^ 2) (Q * 1 ^ 3 / 6 + 20 * 1)
     (- Q * 1 ^ 3 / 6 - 2 * Q * 1 / 25 - 20 * 1) (- Q * (1 ^ 2 / 2 + 2 / 25) - 20))
     * z_psi (mkV 0 0 (Q * 1 ^ 4 / 24 + 10 * 1 ^ 2) (Q * 1 ^ 3 / 6 + 20 * 1)
     (- Q * 1 ^ 3 / 6 - 2 * Q * 1 / 25 - 20 * 1) (- Q * (1 ^ 2 / 2 + 2 / 25) - 20)) ^ 2 <= - 4000).
  { unfold sM. simpl. replace (- Q * (1 * (1 * (1 * 1))) / 6) with (- Q / 6) by field.
    assert (400 <= (- Q / 6 - 2 * Q * 1 / 25 - 20 * 1) ^ 2) by nra. nra. }
  simpl A11 in *. simpl D11 in *. simpl B11 in *. simpl kA55 in *. simpl kn in *. simpl kt in *. lra.
Qed.

(** C71: what the shares of the potential are. *)
Lemma mean_share c f (l : list vec6) (n : nat) g : n = List.length l -> (forall z, f z = c * g z ^ 2) ->
  c / INR n * rsum (map (fun a => a ^ 2) (map g l)) = mean f l.
Proof.
  intros -> H. unfold mean. assert (E : rsum (map f l) = c * rsum (map (fun a => a ^ 2) (map g l))).
  { induction l as [|a l IH]; simpl; [ring|]. rewrite H. rewrite IH. simpl. ring. }
  rewrite E. unfold Rdiv. ring.
Qed.
Lemma mean_plus f g l : mean f l + mean g l = mean (fun z => f z + g z) l.
Proof.
  unfold mean. assert (E : rsum (map (fun z => f z + g z) l) = rsum (map f l) + rsum (map g l)).
  { induction l as [|a l IH]; simpl; [ring|]. rewrite IH. ring. }
  rewrite E. unfold Rdiv. ring.
Qed.
Lemma mean_scale c f l : mean (fun z => c * f z) l = c * mean f l.
Proof.
  unfold mean. assert (E : rsum (map (fun z => c * f z) l) = c * rsum (map f l)).
  { induction l as [|a l IH]; simpl; [ring|]. rewrite IH. ring. }
  rewrite E. unfold Rdiv. ring.
Qed.
Lemma mean_ext f g l : (forall z, f z = g z) -> mean f l = mean g l.
Proof. intros H. unfold mean. rewrite (map_ext f g H). reflexivity. Qed.

Definition coupling_error (p : params) (z : vec6) : R :=
  (2 * B11 p * sN p z * sM p z / A11 p - (B11 p * sN p z / A11 p) ^ 2) / (2 * (D11 p - B11 p ^ 2 / A11 p)).
Lemma potential_shares o phi L Cs li ki P xq zq xb : lam_ok (o_par o) -> 
  internal_potential o phi L Cs li ki = Ok P ->
  rasterize_solution (o_par o) (o_eig o) (loads_of o phi) Cs li ki 250 = Ok (xq, zq, xb) ->
  let p := o_par o in
  P = L * mean (slab_energy p) zq + L * mean (coupling_error p) zq
      + L * mean (fun z => kn p * z_w z ^ 2 / 2 + kt p * (z_u z + hh p / 2 * z_psi z) ^ 2 / 2) (present xb zq)
      + 1 / 2 * end_moment o zq * end_rotation o zq ^ 2.
Proof.
  intros (HA & HD & HS & HK & HK0) H HR. destruct (potential_split _ _ _ _ _ _ _ _ _ _ H HR) as (_ & _ & Lx & ->). cbv zeta.
  set (p := o_par o) in *.
  assert (HDs : 0 < A11 p * D11 p - B11 p ^ 2) by lra.
  rewrite (mean_share _ (fun z => L / 2 / A11 p * sN p z ^ 2)) by (try assumption; reflexivity).
  rewrite (mean_share _ (fun z => L / 2 / (D11 p - B11 p ^ 2 / A11 p) * sM p z ^ 2)) by (try assumption; reflexivity).
  rewrite (mean_share _ (fun z => L / 2 / kA55 p * sV p z ^ 2)) by (try assumption; reflexivity).
  rewrite (mean_share _ (fun z => L * kn p / 2 * z_w z ^ 2)) by reflexivity.
  rewrite (mean_share _ (fun z => L * kt p / 2 * (z_u z + hh p / 2 * z_psi z) ^ 2)) by reflexivity.
  f_equal. rewrite !Rplus_assoc. rewrite mean_plus. rewrite <- !Rplus_assoc. rewrite !mean_plus. rewrite <- !mean_scale, !mean_plus. f_equal; apply mean_ext; intros z.
  - unfold slab_energy, coupling_error, sN, sM, sV. field. repeat split; lra.
  - field.
Qed.
Lemma no_coupling_error p z : B11 p = 0 -> coupling_error p z = 0.
Proof. intros H. unfold coupling_error. rewrite H. unfold Rdiv. ring. Qed.

(** The stored energy counts the weak layer over the whole length. *)
Lemma ex_shares : exists o phi Cs li ki P xq zq xb, adm (o_par o) /\ B11 (o_par o) = 0 /\ kind_of (o_system o) = Some KSkier /\
  internal_potential o phi 2 Cs li ki = Ok P /\
  rasterize_solution (o_par o) (o_eig o) (loads_of o phi) Cs li ki 250 = Ok (xq, zq, xb) /\
  li = [1; 1] /\ ki = [true; false] /\
  P <> 2 * mean (slab_energy (o_par o)) zq + 1 * mean (layer_energy (o_par o)) (present xb zq).
Proof.
  set (o := ex_obj "skiers" None 0). destruct (ex_loads0 "skiers" None) as (Q & HQ & EL). fold o in EL.
  set (Cs := [[0; 0; 0; 0; 0; 0]; [0; 0; 10; 0; 0; 0]]). assert (H250 : (1 <= 250)%nat) by lia.
  destruct (raster_accepts (o_par o) (o_eig o) (loads_of o 0) Cs [1; 1] [true; false] 250) as ([[xq zq] xb] & HR);
    [reflexivity|reflexivity|exists 1; split; [left; reflexivity|lra]| |].
  { intros b l C k H _ x. rewrite (six_zh o (ready_six o (ex_ready _ _ _))). simpl in H.
    inversion H as [|? ? ? ? ? ? ? H1]; subst; [reflexivity|]. inversion H1 as [|? ? ? ? ? ? ? H2]; subst; [reflexivity|]. inversion H2. }
  destruct (raster_grid _ _ _ _ _ _ _ _ _ _ H250 HR) as (Hs & Hhd & _ & Hin & Ln & Lz & Lb).
  (* foundation columns *)
  assert (Hpos : (0 < List.length (present xb zq))%nat).
  { pose proof (raster_foundation _ _ _ _ _ _ _ _ _ _ H250 HR) as F. destruct xq as [|x0 xq]; [simpl in Ln; lia|]. destruct zq as [|z0 zq]; [simpl in Lz; lia|].
    inversion F as [|? y0 ? yq H F']; subst. simpl in Hhd. subst x0. destruct H as [[_ ->]|[N _]]; [unfold present; simpl; lia|].
    exfalso. apply N. exists 0, 1. split; [simpl; constructor|]. rewrite Rabs_pos_eq by lra. lra. }
  assert (Cw : forall z, In z (present xb zq) -> z = mkV 0 0 (Q / 25) 0 0 0 \/ z = mkV 0 0 0 0 0 (- Q * (2 / 25) - 20)).
  { pose proof (raster_foundation _ _ _ _ _ _ _ _ _ _ H250 HR) as F. pose proof (raster_columns _ _ _ _ _ _ _ _ _ _ H250 HR) as G.
    intros z I. clear - F G I EL. unfold present in I. revert zq G I. induction F as [|x y xq xb H F IH]; intros zq G I; [contradiction|].
    inversion G as [|? z0 ? zq' H0 G']; subst. destruct H as [[Hf ->]|[Hf ->]].
    2:{ apply (IH zq'); [exact G'|exact I]. }
    destruct I as [->|I]; [|apply (IH zq'); [exact G'|exact I]].
    destruct H0 as (b & l & C & k & (S1 & S2 & S3) & ->). rewrite EL. change (o_par o) with ex_par. change (o_eig o) with (calc_eigensystem ex_ews).
    simpl in S1. inversion S1 as [|? ? ? ? ? ? ? H1]; subst.
    - left. rewrite Rabs_pos_eq by lra. apply ex_field_bed.
    - right. inversion H1 as [|? ? ? ? ? ? ? H2]; subst; [|inversion H2]. rewrite Rabs_pos_eq by lra. rewrite Rabs_pos_eq in * by lra.
      destruct Hf as (b & l & Sf & _ & Bf). simpl in Sf. inversion Sf as [|? ? ? ? ? ? ? H3]; subst.
      + rewrite (Rabs_pos_eq 1) in * by lra. assert (x = 1) by (destruct S3 as [S3|[S3 S4]]; lra). subst x.
        rewrite ex_field_free. replace (1 - (0 + 1)) with 0 by ring. f_equal; field.
      + inversion H3 as [|? ? ? ? ? ? ? H4]; subst. inversion H4. }
  assert (EP : exists P, internal_potential o 0 2 Cs [1; 1] [true; false] = Ok P).
  { unfold internal_potential. rewrite HR. cbn [bind]. cbv zeta. destruct (Nat.eqb_spec (List.length (present xb zq)) 0); [lia|]. eexists. reflexivity. }
  destruct EP as [P EP]. exists o, 0, Cs, [1; 1], [true; false], P, xq, zq, xb.
  split; [split; [exact ex_lam_ok|split; [exact ex_fnd_ok|simpl; lra]]|]. split; [reflexivity|]. split; [reflexivity|].
  split; [exact EP|]. split; [exact HR|]. split; [reflexivity|]. split; [reflexivity|].
  rewrite (potential_shares o 0 2 Cs [1; 1] [true; false] P xq zq xb ex_lam_ok EP HR).
  change (o_par o) with ex_par.
  assert (EM : end_moment o zq = 0) by reflexivity. rewrite EM.
  assert (EC : mean (coupling_error ex_par) zq = 0).
  { unfold mean. replace (rsum (map (coupling_error ex_par) zq)) with 0; [unfold Rdiv; ring|].
    generalize zq. induction zq0 as [|z l IH]; [reflexivity|]. simpl. rewrite <- IH, no_coupling_error by reflexivity. ring. }
  rewrite EC.
  assert (M1 : mean (fun z => kn ex_par * z_w z ^ 2 / 2 + kt ex_par * (z_u z + hh ex_par / 2 * z_psi z) ^ 2 / 2) (present xb zq)
    = mean (layer_energy ex_par) (present xb zq)).
  { unfold mean. f_equal. f_equal. apply map_ext_in. intros z I. unfold layer_energy, s_sig, s_tau.
    destruct (Cw z I) as [-> | ->]; simpl; field. }
  rewrite M1.
  assert (M2 : 0 < mean (layer_energy ex_par) (present xb zq)).
  { unfold mean. apply Rdiv_lt_0_compat; [|apply lt_0_INR; exact Hpos].
    pose proof (raster_first_col _ _ _ [[0; 0; 10; 0; 0; 0]] [1] [false] 1 [0; 0; 0; 0; 0; 0] true xq zq xb 250 H250 R1_neq_R0 HR) as H1.
    pose proof (raster_foundation _ _ _ _ _ _ _ _ _ _ H250 HR) as F.
    destruct xq as [|x0 xq]; [simpl in Ln; lia|]. destruct zq as [|z0 zq]; [simpl in Lz; lia|].
    inversion F as [|? y0 ? yq H F']; subst. simpl in Hhd. subst x0. destruct H as [[_ ->]|[N _]].
    2:{ exfalso. apply N. exists 0, 1. split; [simpl; constructor|]. rewrite Rabs_pos_eq by lra. lra. }
    simpl in H1. rewrite EL, Rabs_pos_eq, ex_field_bed in H1 by lra. subst z0.
    change (0 < layer_energy ex_par (mkV 0 0 (Q / 25) 0 0 0) + rsum (map (layer_energy ex_par) (present yq zq))).
    assert (0 < layer_energy ex_par (mkV 0 0 (Q / 25) 0 0 0)).
    { unfold layer_energy, s_sig, s_tau. simpl. nra. }
    assert (G : 0 <= rsum (map (layer_energy ex_par) (present yq zq))).
    { generalize (present yq zq). induction l as [|z l IH]; simpl; [lra|].
      assert (0 <= layer_energy ex_par z); [|lra]. unfold layer_energy. simpl kn. simpl kt.
      pose proof (pow2_ge_0 (s_sig ex_par true z)). pose proof (pow2_ge_0 (s_tau ex_par true z)). lra. }
    lra. }
  lra.
Qed.
