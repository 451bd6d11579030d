(** Proofs: the solution depends continuously on segment lengths and skier weights (C91). *)
From Coquelicot Require Import Coquelicot.
Require Import Verif.Py Verif.MTools Verif.MEigen Verif.MFields Verif.SAdm
  Verif.MSolution Verif.SBeam Verif.SBvp Verif.SEig Verif.PSetup Verif.PBeam Verif.PBeam2
  Verif.PBvp Verif.PBvp2 Verif.PBvp3 Verif.PBvp4 Verif.PBvp5 Verif.PLinAlg
  Verif.PWell Verif.PIndep Verif.PWell2 Verif.PWell3 Verif.PComplete.
Open Scope R_scope.

(** * Bounded inverse *)
Lemma sumn_Rabs n f : Rabs (sumn n f) <= sumn n (fun i => Rabs (f i)).
Proof.
  induction n as [|n IH]; simpl; [rewrite Rabs_R0; lra|]. pose proof (Rabs_triang (sumn n f) (f n)). lra.
Qed.
Lemma sumn_le n f g : (forall i, (i < n)%nat -> f i <= g i) -> sumn n f <= sumn n g.
Proof.
  induction n as [|n IH]; intros H; simpl; [lra|]. assert (sumn n f <= sumn n g) by (apply IH; intros; apply H; lia).
  pose proof (H n ltac:(lia)). lra.
Qed.
Lemma sumn_nonneg n f : (forall i, (i < n)%nat -> 0 <= f i) -> 0 <= sumn n f.
Proof. intros H. rewrite <- (sumn_zero n (fun _ => 0)) by reflexivity. apply sumn_le. exact H. Qed.
Lemma sumn_term n f i : (forall j, (j < n)%nat -> 0 <= f j) -> (i < n)%nat -> f i <= sumn n f.
Proof.
  induction n as [|n IH]; intros H Hi; [lia|]. simpl. assert (0 <= sumn n f) by (apply sumn_nonneg; intros; apply H; lia).
  pose proof (H n ltac:(lia)). destruct (Nat.eq_dec i n) as [->|]; [lra|].
  assert (f i <= sumn n f) by (apply IH; [intros; apply H|]; lia). lra.
Qed.
Lemma sumn_const n c : sumn n (fun _ => c) = INR n * c.
Proof. induction n as [|n IH]; [simpl; ring|]. rewrite S_INR. simpl sumn. rewrite IH. ring. Qed.
Lemma sumn_swap n m (f : nat -> nat -> R) : sumn n (fun i => sumn m (f i)) = sumn m (fun j => sumn n (fun i => f i j)).
Proof.
  induction n as [|n IH]; simpl; [symmetry; apply sumn_zero; reflexivity|]. rewrite IH, <- sumn_plusf. reflexivity.
Qed.

Lemma bounded_inverse n A : trivial_kernel n A -> exists b, 0 <= b /\ forall x y c, (c < n)%nat ->
  Rabs (x c - y c) <= b * sumn n (fun r => Rabs (sumn n (fun c => A r c * x c) - sumn n (fun c => A r c * y c))).
Proof.
  intros HK.
  set (B := fun r => match elim_solve n A (fun r' => if Nat.eqb r' r then 1 else 0) with Ok x => x | Err _ => fun _ => 0 end).
  assert (HB : forall r, lin_solves n A (B r) (fun r' => if Nat.eqb r' r then 1 else 0)).
  { intros r. unfold B. destruct (elim_complete n A HK (fun r' => if Nat.eqb r' r then 1 else 0)) as [x E]. rewrite E. exact (elim_sound _ _ _ _ E). }
  exists (sumn n (fun r => sumn n (fun c => Rabs (B r c)))). split.
  { apply sumn_nonneg. intros. apply sumn_nonneg. intros. apply Rabs_pos. }
  intros x y c Hc. set (d := fun r => sumn n (fun c => A r c * x c) - sumn n (fun c => A r c * y c)).
  assert (E : x c - y c = sumn n (fun r => B r c * d r)).
  { set (u := fun c => x c - y c). set (v := fun c => sumn n (fun r => B r c * d r)).
    apply (kernel_unique n A HK d u v); [| |exact Hc].
    - intros r Hr. unfold u, d. rewrite (sumn_ext n _ (fun c => A r c * x c + (-1) * (A r c * y c))) by (intros; ring).
      rewrite sumn_plusf, sumn_scalf. ring.
    - intros r Hr. unfold v. rewrite (sumn_ext n _ (fun c => sumn n (fun r' => d r' * (A r c * B r' c)))).
      2:{ intros c' _. rewrite <- sumn_scalf. apply sumn_ext. intros; ring. }
      rewrite sumn_swap. rewrite (sumn_ext n _ (fun r' => d r' * (if Nat.eqb r r' then 1 else 0))).
      2:{ intros r' _. rewrite sumn_scalf. f_equal. apply (HB r' r Hr). }
      rewrite (sumn_one n _ r Hr); [rewrite Nat.eqb_refl; ring|]. intros i Hi Hn. destruct (Nat.eqb_spec r i); [congruence|ring]. }
  rewrite E. eapply Rle_trans; [apply sumn_Rabs|]. rewrite Rmult_comm, <- sumn_scalf. apply sumn_le. intros r Hr. rewrite Rabs_mult.
  rewrite Rmult_comm. apply Rmult_le_compat; try apply Rabs_pos.
  - apply (sumn_term n (fun r => Rabs (d r))); [intros; apply Rabs_pos|exact Hr].
  - apply (sumn_term n (fun c => Rabs (B r c))); [intros; apply Rabs_pos|exact Hc].
Qed.

(** * Limits *)
Section F.
Context {T : Type} (F : (T -> Prop) -> Prop) {FF : Filter F}.
Definition tends (f : T -> R) (a : R) : Prop := filterlim f F (locally a).
Lemma tends_const a : tends (fun _ => a) a.
Proof. apply filterlim_const. Qed.
Lemma tends_plus f g a b : tends f a -> tends g b -> tends (fun t => f t + g t) (a + b).
Proof. intros H1 H2. eapply filterlim_comp_2; [exact H1|exact H2|]. apply (@filterlim_plus R_AbsRing R_NormedModule). Qed.
Lemma tends_mult f g a b : tends f a -> tends g b -> tends (fun t => f t * g t) (a * b).
Proof. intros H1 H2. eapply filterlim_comp_2; [exact H1|exact H2|]. apply (@filterlim_mult R_AbsRing). Qed.
Lemma tends_opp f a : tends f a -> tends (fun t => - f t) (- a).
Proof. intros H. eapply filterlim_comp; [exact H|]. apply (@filterlim_opp R_AbsRing R_NormedModule). Qed.
Lemma tends_comp (h : R -> R) f a : continuous h a -> tends f a -> tends (fun t => h (f t)) (h a).
Proof. intros H1 H2. eapply filterlim_comp; [exact H2|exact H1]. Qed.
Lemma tends_ext f g a b : (forall t, f t = g t) -> a = b -> tends f a -> tends g b.
Proof. intros E <- H. unfold tends. eapply filterlim_ext; [|exact H]. exact E. Qed.
Lemma tends_spec f a : tends f a <-> forall eps, 0 < eps -> F (fun t => Rabs (f t - a) <= eps).
Proof.
  unfold tends. split.
  - intros H eps He. apply (H (fun y => Rabs (y - a) <= eps)). exists (mkposreal eps He). intros y Hy.
    unfold ball in Hy. simpl in Hy. unfold AbsRing_ball, abs, minus, plus, opp in Hy. simpl in Hy. left. exact Hy.
  - intros H P [d Hd]. unfold filtermap. pose proof (H (d / 2) ltac:(destruct d; simpl; lra)) as G. revert G. apply filter_imp. intros t Ht. apply Hd.
    unfold ball. simpl. unfold AbsRing_ball, abs, minus, plus, opp. simpl. destruct d as [d Hd']; simpl in *. unfold Rminus in Ht. lra.
Qed.

(** Continuous columns of the solution formula. *)
Lemma tends_pow f a n : tends f a -> tends (fun t => f t ^ n) (a ^ n).
Proof. intros H. induction n as [|n IH]; simpl; [apply tends_const|apply tends_mult; assumption]. Qed.
Lemma tends_exp f a : tends f a -> tends (fun t => exp (f t)) (exp a).
Proof. apply (tends_comp exp). apply (ex_derive_continuous exp a). auto_derive. trivial. Qed.
Lemma tends_cos f a : tends f a -> tends (fun t => cos (f t)) (cos a).
Proof. apply (tends_comp cos). apply (ex_derive_continuous cos a). auto_derive. trivial. Qed.
Lemma tends_sin f a : tends f a -> tends (fun t => sin (f t)) (sin a).
Proof. apply (tends_comp sin). apply (ex_derive_continuous sin a). auto_derive. trivial. Qed.
Lemma tends_dot r (z : T -> vec6) z0 : tends (fun t => z_u (z t)) (z_u z0) -> tends (fun t => z_du (z t)) (z_du z0) ->
  tends (fun t => z_w (z t)) (z_w z0) -> tends (fun t => z_dw (z t)) (z_dw z0) -> tends (fun t => z_psi (z t)) (z_psi z0) ->
  tends (fun t => z_dpsi (z t)) (z_dpsi z0) -> tends (fun t => dot6 r (z t)) (dot6 r z0).
Proof. intros. unfold dot6. repeat apply tends_plus; apply tends_mult; try apply tends_const; assumption. Qed.

Variables (s l : T -> R) (s0 l0 : R).
Hypothesis Hs : tends s s0.
Hypothesis Hl : tends l l0.
Ltac tend := repeat match goal with
  | |- tends (fun t => s t) _ => exact Hs
  | |- tends s _ => exact Hs
  | |- tends (fun t => l t) _ => exact Hl
  | |- tends l _ => exact Hl
  | |- tends (fun _ => ?c) _ => apply (tends_const c)
  | |- tends (fun t => @?f t + @?g t) _ => apply (tends_plus f g)
  | |- tends (fun t => @?f t * @?g t) _ => apply (tends_mult f g)
  | |- tends (fun t => - @?f t) _ => apply (tends_opp f)
  | |- tends (fun t => @?f t ^ ?n) _ => apply (tends_pow f)
  | |- tends (fun t => exp (@?f t)) _ => apply (tends_exp f)
  | |- tends (fun t => cos (@?f t)) _ => apply (tends_cos f)
  | |- tends (fun t => sin (@?f t)) _ => apply (tends_sin f)
  end.
Lemma tends_colR r e : tends (fun t => dot6 r (colR (s t) (l t) e)) (dot6 r (colR s0 l0 e)).
Proof. unfold colR. apply (tends_ext (fun t => exp (fst e * (s t + l t * shiftR (fst e))) * dot6 r (snd e)) _ (exp (fst e * (s0 + l0 * shiftR (fst e))) * dot6 r (snd e))); [intros; rewrite dot_scale; reflexivity|rewrite dot_scale; reflexivity|]. tend. Qed.
Lemma tends_colC1 r e : tends (fun t => dot6 r (colC1 (s t) (l t) e)) (dot6 r (colC1 s0 l0 e)).
Proof.
  destruct e as [[re im] [vr vi]]. unfold colC1.
  apply (tends_ext (fun t => exp (re * (s t + l t * shiftC (re, im))) * (cos (im * s t) * dot6 r vr + - sin (im * s t) * dot6 r vi)) _ (exp (re * (s0 + l0 * shiftC (re, im))) * (cos (im * s0) * dot6 r vr + - sin (im * s0) * dot6 r vi))).
  - intros t. rewrite dot_scale, dot_add, !dot_scale. reflexivity.
  - rewrite dot_scale, dot_add, !dot_scale. reflexivity.
  - tend.
Qed.
Lemma tends_colC2 r e : tends (fun t => dot6 r (colC2 (s t) (l t) e)) (dot6 r (colC2 s0 l0 e)).
Proof.
  destruct e as [[re im] [vr vi]]. unfold colC2.
  apply (tends_ext (fun t => exp (re * (s t + l t * shiftC (re, im))) * (cos (im * s t) * dot6 r vi + sin (im * s t) * dot6 r vr)) _ (exp (re * (s0 + l0 * shiftC (re, im))) * (cos (im * s0) * dot6 r vi + sin (im * s0) * dot6 r vr))).
  - intros t. rewrite dot_scale, dot_add, !dot_scale. reflexivity.
  - rewrite dot_scale, dot_add, !dot_scale. reflexivity.
  - tend.
Qed.
Lemma tends_zh r p e k j : tends (fun t => dot6 r (nth j (zh p e (s t) (l t) k) vzero)) (dot6 r (nth j (zh p e s0 l0 k) vzero)).
Proof.
  destruct k; unfold zh.
  - unfold zh_bedded.
    set (cols := map (fun e x y => colR x y e) (eR e) ++ map (fun e x y => colC1 x y e) (eC e) ++ map (fun e x y => colC2 x y e) (eC e)).
    assert (E : forall x y, map (colR x y) (eR e) ++ map (colC1 x y) (eC e) ++ map (colC2 x y) (eC e) = map (fun f => f x y) cols).
    { intros x y. unfold cols. rewrite !map_app, !map_map. reflexivity. }
    assert (N : forall x y, nth j (map (fun f : R -> R -> vec6 => f x y) cols) vzero = nth j cols (fun _ _ => vzero) x y).
    { intros x y. exact (map_nth (fun f : R -> R -> vec6 => f x y) cols (fun _ _ => vzero) j). }
    apply (tends_ext (fun t => dot6 r (nth j cols (fun _ _ => vzero) (s t) (l t))) _ (dot6 r (nth j cols (fun _ _ => vzero) s0 l0)));
      [intros; rewrite E, N; reflexivity|rewrite E, N; reflexivity|].
    destruct (Nat.lt_ge_cases j (List.length cols)) as [Hj|Hj].
    + pose proof (nth_In cols (fun _ _ => vzero) Hj) as I. set (f := nth j cols (fun _ _ => vzero)) in *. clearbody f. unfold cols in I.
      rewrite !in_app_iff, !in_map_iff in I. destruct I as [(q & <- & _)|[(q & <- & _)|(q & <- & _)]]; [apply tends_colR|apply tends_colC1|apply tends_colC2].
    + rewrite nth_overflow by exact Hj. apply tends_const.
  - unfold zh_free. cbv zeta.
    destruct j as [|[|[|[|[|[|j]]]]]]; cbn [nth];
      try apply tends_const.
    + apply (tends_dot r (fun t => mkV 0 0 (s t) 1 (-1) 0)); simpl; tend.
    + apply (tends_dot r (fun t => mkV 0 0 (s t ^ 2) (2 * s t) (- 2 * s t) (-2))); cbn [z_u z_du z_w z_dw z_psi z_dpsi]; tend.
    + apply (tends_dot r (fun t => mkV (3 * B11 p / A11 p * s t ^ 2) (6 * B11 p / A11 p * s t) (s t ^ 3) (3 * s t ^ 2) (- 3 * s t ^ 2 + 6 * K0 p / (A11 p * kA55 p)) (- 6 * s t)));
        cbn [z_u z_du z_w z_dw z_psi z_dpsi]; tend.
    + apply (tends_dot r (fun t => mkV (s t) 1 0 0 0 0)); simpl; tend.
Qed.
Lemma tends_zp r p ld k : tends (fun t => dot6 r (zp p ld (s t) k)) (dot6 r (zp p ld s0 k)).
Proof.
  destruct k; [apply tends_const|]. unfold zp. 
  apply (tends_dot r (fun t => mkV ((- 3 * (qt ld + pt ld) / A11 p - B11 p * (qn ld + pn ld) * s t / K0 p) / 6 * s t ^ 2)
        ((- 2 * (qt ld + pt ld) / A11 p - B11 p * (qn ld + pn ld) * s t / K0 p) / 2 * s t)
        (- A11 p * (qn ld + pn ld) * s t ^ 4 / (24 * K0 p))
        (- A11 p * (qn ld + pn ld) * s t ^ 3 / (6 * K0 p))
        (A11 p * (qn ld + pn ld) * s t ^ 3 / (6 * K0 p)
         + ((zs p - B11 p / A11 p) * qt ld - hh p * pt ld / 2 - (qn ld + pn ld) * s t) / kA55 p)
        ((qn ld + pn ld) * (A11 p * s t ^ 2 / (2 * K0 p) - 1 / kA55 p)))); cbn [z_u z_du z_w z_dw z_psi z_dpsi]; unfold Rminus, Rdiv;
    tend.
Qed.
End F.

Lemma dot_lincomb r cols x i : List.length cols = 6%nat ->
  dot6 r (lincomb cols (block x i)) = sumn 6 (fun j => dot6 r (nth j cols vzero) * x (6 * i + j)%nat).
Proof.
  intros L. destruct cols as [|c0 [|c1 [|c2 [|c3 [|c4 [|c5 [|]]]]]]]; try discriminate L.
  unfold block. cbn [seq map]. rewrite lincomb6. cbn [sumn nth]. ring.
Qed.
Lemma block_flat n Cs i : six_each n Cs -> (i < n)%nat -> block (flat Cs) i = nth i Cs [].
Proof. intros H Hi. rewrite <- (nth_reshape n) by exact Hi. rewrite reshape_flat by exact H. reflexivity. Qed.

Section Depend.
Context {T : Type} (F : (T -> Prop) -> Prop) {FF : Filter F}.
Variables (o : obj) (kR phi : R) (ki : list bool) (kd : syskind).
Variables (li0 mi0 : list R) (C0 : list (list R)).
Variables (li mi : T -> list R) (Cs : T -> list (list R)).
Let N := List.length li0.
Hypothesis Hr : ready o.
Hypothesis Hs : stable (o_par o).
Hypothesis Hkd : kind_of (o_system o) = Some kd.
Hypothesis HM : kd = KPst -> o_mode o <> None.
Hypothesis HC : kd = KPst -> o_mode o = Some ModeC -> o_phi o = phi.
Hypothesis HV : kd = KVpst -> o_mode o = None \/ o_mode o = Some ModeA.
Hypothesis HkR : 0 <= kR.
Hypothesis HN : (2 <= N)%nat.
Hypothesis Hk : List.length ki = N.
Hypothesis Hp : proper_segments li0 ki.
Hypothesis H60 : six_each N C0.
Hypothesis B0 : bvp o kR phi li0 mi0 ki C0.
Hypothesis HB : F (fun t => List.length (li t) = N /\ six_each N (Cs t) /\ bvp o kR phi (li t) (mi t) ki (Cs t)).
Hypothesis Hl : forall i, (i < N)%nat -> tends F (fun t => nth i (li t) 0) (nth i li0 0).
Hypothesis Hm : forall i, (S i < N)%nat -> tends F (fun t => nth i (mi t) 0) (nth i mi0 0).

Let X t := flat (Cs t).
Let X0 := flat C0.
Let nX t := sumn (6 * N) (fun c => Rabs (X t c)).
Definition small (g : T -> R) : Prop := forall eps, 0 < eps -> F (fun t => Rabs (g t) <= eps * (1 + nX t)).

Lemma nX_pos t : 0 <= nX t.
Proof. apply sumn_nonneg. intros. apply Rabs_pos. Qed.
Lemma small_tends g : tends F g 0 -> small g.
Proof.
  intros H eps He. pose proof (proj1 (tends_spec F g 0) H) as H'. clear H. rename H' into H. specialize (H eps He). revert H. apply filter_imp. intros t Ht.
  rewrite Rminus_0_r in Ht. pose proof (nX_pos t). nra.
Qed.
Lemma small_ext g h : F (fun t => h t = g t) -> small g -> small h.
Proof.
  intros E H eps He. specialize (H eps He). generalize (filter_and _ _ E H). apply filter_imp. intros t [-> Ht]. exact Ht.
Qed.
Lemma small_plus g h : small g -> small h -> small (fun t => g t + h t).
Proof.
  intros H1 H2 eps He. assert (E2 : 0 < eps / 2) by (apply Rdiv_lt_0_compat; [exact He|apply Rlt_0_2]). generalize (filter_and _ _ (H1 _ E2) (H2 _ E2)). apply filter_imp.
  intros t [A B]. pose proof (Rabs_triang (g t) (h t)). lra.
Qed.
Lemma small_sum n (g : nat -> T -> R) : (forall i, (i < n)%nat -> small (g i)) -> small (fun t => sumn n (fun i => g i t)).
Proof.
  induction n as [|n IH]; intros H; simpl.
  - apply small_tends. apply (tends_const F).
  - apply small_plus; [apply IH; intros; apply H; lia|apply H; lia].
Qed.
Lemma small_abs g : small g -> small (fun t => Rabs (g t)).
Proof. intros H eps He. generalize (H eps He). apply filter_imp. intros t. rewrite Rabs_Rabsolu. tauto. Qed.
Lemma small_mult g c : tends F g 0 -> (c < 6 * N)%nat -> small (fun t => g t * X t c).
Proof.
  intros H Hc eps He. pose proof (proj1 (tends_spec F g 0) H) as H'. clear H. rename H' into H. generalize (H eps He). apply filter_imp. intros t Ht. rewrite Rminus_0_r in Ht.
  rewrite Rabs_mult. assert (Rabs (X t c) <= nX t) by (apply (sumn_term (6 * N) (fun c => Rabs (X t c))); [intros; apply Rabs_pos|exact Hc]).
  pose proof (Rabs_pos (X t c)). pose proof (Rabs_pos (g t)). nra.
Qed.

Lemma small_state r i s s0 : (i < N)%nat -> tends F s s0 ->
  small (fun t => dot6 r (zi o phi li0 ki (X t) i s0) - dot6 r (zi o phi (li t) ki (X t) i (s t))).
Proof.
  intros Hi Ht. pose proof (six_zh o (ready_six o Hr)) as H6.
  set (k := nth i ki false).
  set (g := fun j t => dot6 r (nth j (zh (o_par o) (o_eig o) s0 (nth i li0 0) k) vzero) - dot6 r (nth j (zh (o_par o) (o_eig o) (s t) (nth i (li t) 0) k) vzero)).
  set (q := fun t => dot6 r (zp (o_par o) (loads_of o phi) s0 k) - dot6 r (zp (o_par o) (loads_of o phi) (s t) k)).
  assert (Z : forall f a, tends F f a -> tends F (fun t => a - f t) 0).
  { intros f a H. apply (tends_ext F (fun t => a + - f t) _ (a + - a)); [intros; ring|ring|]. apply (@tends_plus T F FF (fun _ => a) (fun t => - f t)); [exact (@tends_const T F FF a)|]. exact (tends_opp F f a H). }
  apply (small_ext (fun t => sumn 6 (fun j => g j t * X t (6 * i + j)%nat) + q t)).
  - apply filter_forall. intros t. unfold zi, field, zsol. rewrite !dot_add, !dot_lincomb by apply H6. fold k.
    cbn [sumn]. unfold g, q. ring.
  - apply small_plus.
    + apply (small_sum 6 (fun j t => g j t * X t (6 * i + j)%nat)). intros j Hj. apply small_mult; [|nia]. unfold g. apply Z.
      apply (tends_zh F s (fun t => nth i (li t) 0) s0 (nth i li0 0) Ht (Hl i Hi)).
    + apply small_tends. unfold q. apply Z. apply (tends_zp F s s0 Ht).
Qed.

Lemma ends_dep k : ends_defined o (Ok kR) k.
Proof.
  exists kd. split; [exact Hkd|]. intros E _. split; [apply HM; exact E|]. intros _. exists kR. reflexivity.
Qed.
Lemma nth_dot (b : list vec6) z c : (c < List.length b)%nat -> nth c (map (fun r => dot6 r z) b) 0 = dot6 (nth c b vzero) z.
Proof. intros H. apply nth_map_dot. exact H. Qed.

Lemma end_values pos sgn k b l m C : (sgn = -1 /\ pos = "l"%string \/ sgn = 1 /\ pos = "r"%string) -> bc_rows o (Ok kR) k pos = Ok b ->
  (if Rlt_dec sgn 0 then left_end o kR phi k (field o phi l m C (if Rlt_dec sgn 0 then 0 else l)) else right_end o kR phi k (field o phi l m C (if Rlt_dec sgn 0 then 0 else l))) ->
  forall c, (c < 3)%nat -> dot6 (nth c b vzero) (field o phi l m C (if Rlt_dec sgn 0 then 0 else l)) = nth c (end_vec o phi sgn k) 0.
Proof.
  intros Hpos Hb HE c Hc. rewrite <- nth_dot by (rewrite (bc_rows_len _ _ _ _ _ Hb); exact Hc).
  refine (proj2 (end_rows o (Ok kR) kR phi sgn k pos b _ kd Hkd Hpos (fun A B => conj eq_refl (HC A B)) (fun A => or_intror (HV A)) Hb) HE c Hc).
Qed.

Lemma rows_small M v : assemble_lhs o (Ok kR) phi N 0 li0 ki (fun _ _ => 0, fun _ => 0) = Ok (M, v) ->
  forall r, (r < 6 * N)%nat -> small (fun t => sumn (6 * N) (fun c => M r c * X t c) - sumn (6 * N) (fun c => M r c * X0 c)).
Proof.
  intros HA. destruct (lhs_rows o (Ok kR) phi li0 ki M v (ready_six o Hr) HN Hk HA) as (bl & br & Hbl & Hbr & HR). fold N in Hbr, HR. cbv zeta in HR.
  pose proof (bc_rows_len _ _ _ _ _ Hbl) as Ll. pose proof (bc_rows_len _ _ _ _ _ Hbr) as Lr.
  assert (Dif : forall r t, sumn (6 * N) (fun c => M r c * X t c) - sumn (6 * N) (fun c => M r c * X0 c)
     = (sumn (6 * N) (fun c => M r c * X t c) + v r) - (sumn (6 * N) (fun c => M r c * X0 c) + v r)) by (intros; ring).
  assert (Z0 : forall i, (i < N)%nat -> zi o phi li0 ki X0 i = field o phi (nth i li0 0) (nth i ki false) (nth i C0 [])).
  { intros i Hi. unfold zi, X0. rewrite (block_flat N) by assumption. reflexivity. }
  assert (Zt : F (fun t => List.length (li t) = N /\ bvp o kR phi (li t) (mi t) ki (Cs t) /\
     forall i, (i < N)%nat -> zi o phi (li t) ki (X t) i = field o phi (nth i (li t) 0) (nth i ki false) (nth i (Cs t) []))).
  { generalize HB. apply filter_imp. intros t (L & S6 & B). split; [exact L|]. split; [exact B|]. intros i Hi. unfold zi, X. rewrite (block_flat N) by assumption. reflexivity. }
  destruct B0 as (A1 & A2 & A3). fold N in A2, A3.
  apply (rows_split N _ HN). split; [|split].
  - intros c Hc.
    apply (small_ext (fun t => dot6 (nth c bl vzero) (zi o phi li0 ki (X t) 0 0) - dot6 (nth c bl vzero) (zi o phi (li t) ki (X t) 0 0))).
    2:{ apply (small_state (nth c bl vzero) 0 (fun _ => 0) 0); [lia|apply (tends_const F)]. }
    generalize Zt. apply filter_imp. intros t (L & (E1 & _ & _) & Z). rewrite Dif.
    destruct (HR (X t)) as (R1 & _ & _). destruct (HR X0) as (Q1 & _ & _). rewrite R1, Q1, !nth_dot by (exact Hc || lia). f_equal.
    rewrite Z0, Z by lia.
    pose proof (end_values "l" (-1) _ bl (nth 0 li0 0) (nth 0 ki false) (nth 0 C0 []) (or_introl (conj eq_refl eq_refl)) Hbl) as V0.
    pose proof (end_values "l" (-1) _ bl (nth 0 (li t) 0) (nth 0 ki false) (nth 0 (Cs t) []) (or_introl (conj eq_refl eq_refl)) Hbl) as Vt.
    destruct (Rlt_dec (-1) 0) as [_|n]; [|lra]. rewrite (V0 A1 c Hc), (Vt E1 c Hc). reflexivity.
  - intros c Hc.
    apply (small_ext (fun t => dot6 (nth c br vzero) (zi o phi li0 ki (X t) (N - 1) (nth (N - 1) li0 0)) - dot6 (nth c br vzero) (zi o phi (li t) ki (X t) (N - 1) (nth (N - 1) (li t) 0)))).
    2:{ apply (small_state (nth c br vzero) (N - 1) (fun t => nth (N - 1) (li t) 0) (nth (N - 1) li0 0)); [lia|apply Hl; lia]. }
    generalize Zt. apply filter_imp. intros t (L & (_ & E2 & _) & Z). rewrite Dif.
    destruct (HR (X t)) as (_ & R2 & _). destruct (HR X0) as (_ & Q2 & _). rewrite R2, Q2, !nth_dot by (exact Hc || lia). f_equal.
    rewrite Z0, Z by lia. rewrite L in E2.
    pose proof (end_values "r" 1 _ br (nth (N - 1) li0 0) (nth (N - 1) ki false) (nth (N - 1) C0 []) (or_intror (conj eq_refl eq_refl)) Hbr) as V0.
    pose proof (end_values "r" 1 _ br (nth (N - 1) (li t) 0) (nth (N - 1) ki false) (nth (N - 1) (Cs t) []) (or_intror (conj eq_refl eq_refl)) Hbr) as Vt.
    destruct (Rlt_dec 1 0) as [n|_]; [lra|]. rewrite (V0 A2 c Hc), (Vt E2 c Hc). reflexivity.
  - intros i c Hi Hc. set (r := nth c (inner_rows (o_par o)) vzero).
    assert (IV : forall z, inner_val o z c = dot6 r z). { intros z. unfold inner_val. apply nth_dot. exact Hc. }
    set (w := fun t => nth c ([0; 0; 0] ++ mid_vec o phi (mi t) i) 0 - nth c ([0; 0; 0] ++ mid_vec o phi mi0 i) 0).
    apply (small_ext (fun t => ((dot6 r (zi o phi li0 ki (X t) i (nth i li0 0)) - dot6 r (zi o phi (li t) ki (X t) i (nth i (li t) 0))) +
       (dot6 (vscale (-1) r) (zi o phi li0 ki (X t) (S i) 0) - dot6 (vscale (-1) r) (zi o phi (li t) ki (X t) (S i) 0))) + w t)).
    + generalize Zt. apply filter_imp. intros t (L & (_ & _ & E3) & Z). rewrite Dif.
      destruct (HR (X t)) as (_ & _ & R3). destruct (HR X0) as (_ & _ & Q3). rewrite (R3 i c Hi Hc), (Q3 i c Hi Hc), !IV, !dot_scale_l. rewrite !Z0, !Z by lia.
      rewrite L in E3. specialize (E3 i Hi). specialize (A3 i Hi). apply transition_rows with (1 := E3) in Hc as Vt. apply transition_rows with (1 := A3) in Hc as V0.
      rewrite !IV in Vt, V0. unfold w. lra.
    + apply small_plus; [apply small_plus|].
      * apply (small_state r i (fun t => nth i (li t) 0) (nth i li0 0)); [lia|apply Hl; lia].
      * apply (small_state (vscale (-1) r) (S i) (fun _ => 0) 0); [lia|apply (tends_const F)].
      * apply small_tends. unfold w.
        assert (G : exists a, forall mi, nth c ([0; 0; 0] ++ mid_vec o phi mi i) 0 = a * nth i mi 0).
        { unfold mid_vec, skier_vec, get_skier_load. destruct (kind_of (o_system o)) as [[]|]; cbn [app];
            destruct c as [|[|[|[|[|[|c]]]]]]; try lia; cbn [nth];
            first [exists 0; intros; ring
                  | eexists (- (1 / 1000 * o_g o / o_lski o * sin (deg2rad phi))); intros; unfold Rdiv; ring
                  | eexists (hh (o_par o) / 2 * (1 / 1000 * o_g o / o_lski o * sin (deg2rad phi))); intros; unfold Rdiv; ring
                  | eexists (1 / 1000 * o_g o / o_lski o * cos (deg2rad phi)); intros; unfold Rdiv; ring]. }
        destruct G as [a G]. apply (tends_ext F (fun t => a * (nth i (mi t) 0 + - nth i mi0 0)) _ (a * (nth i mi0 0 + - nth i mi0 0)));
          [intros t; rewrite !G; ring|ring|].
        apply (@tends_mult T F FF); [exact (@tends_const T F FF a)|]. apply (@tends_plus T F FF); [apply Hm; exact Hi|exact (@tends_const T F FF _)].
Qed.

Lemma constants_tend : forall c, (c < 6 * N)%nat -> tends F (fun t => X t c) (X0 c).
Proof.
  destruct (assemble_succeeds o (Ok kR) phi li0 mi0 ki (ready_six o Hr) HN Hk (ends_dep _) (ends_dep _)) as (zh0 & zp0 & rhs & E).
  unfold assemble in E. fold N in E. destruct (assemble_lhs o (Ok kR) phi N 0 li0 ki (fun _ _ => 0, fun _ => 0)) as [[M v]|] eqn:EL; [|discriminate]. clear E.
  pose proof (rows_small M v EL) as RS.
  assert (HK : trivial_kernel (6 * N) M).
  { destruct Hp as [P1 P2]. apply (assembled_kernel o (Ok kR) phi li0 ki M v Hr Hs HN Hk); [intros r0 Er; apply Ok_inj in Er; lra|exact P1|exact P2|exact EL]. }
  destruct (bounded_inverse _ _ HK) as (b & Hb & HBd).
  set (D := fun t => sumn (6 * N) (fun r => Rabs (sumn (6 * N) (fun c => M r c * X t c) - sumn (6 * N) (fun c => M r c * X0 c)))).
  assert (SD : small D).
  { apply (small_sum (6 * N) (fun r t => Rabs (sumn (6 * N) (fun c => M r c * X t c) - sumn (6 * N) (fun c => M r c * X0 c)))).
    intros r Hr'. apply small_abs. apply RS. exact Hr'. }
  set (n0 := sumn (6 * N) (fun c => Rabs (X0 c))). set (K := INR (6 * N)).
  assert (K0 : 0 <= K) by apply pos_INR. assert (N0 : 0 <= n0) by (apply sumn_nonneg; intros; apply Rabs_pos).
  intros c Hc. apply (tends_spec F). intros eps He.
  set (e := Rmin (1 / (2 * (K * b + 1))) (eps / ((b + 1) * (2 * n0 + 2)))).
  assert (Q1 : 0 < K * b + 1) by (assert (0 <= K * b) by (apply Rmult_le_pos; assumption); lra).
  assert (Q2 : 0 < (b + 1) * (2 * n0 + 2)) by (apply Rmult_lt_0_compat; lra).
  assert (He' : 0 < e) by (apply Rmin_glb_lt; apply Rdiv_lt_0_compat; lra).
  generalize (SD e He'). apply filter_imp. intros t Ht.
  assert (DP : 0 <= D t) by (apply sumn_nonneg; intros; apply Rabs_pos).
  rewrite Rabs_pos_eq in Ht by exact DP.
  assert (Bd : forall c, (c < 6 * N)%nat -> Rabs (X t c - X0 c) <= b * D t) by (intros c' Hc'; apply HBd; exact Hc').
  assert (NB : nX t <= n0 + K * (b * D t)).
  { unfold nX, n0, K. rewrite <- sumn_const, <- sumn_plusf. apply sumn_le. intros i Hi. pose proof (Bd i Hi).
    replace (X t i) with (X0 i + (X t i - X0 i)) by ring. pose proof (Rabs_triang (X0 i) (X t i - X0 i)). lra. }
  pose proof (nX_pos t) as NP.
  assert (E1 : e * (K * b + 1) <= 1 / 2).
  { assert (e <= 1 / (2 * (K * b + 1))) by apply Rmin_l. apply (Rmult_le_compat_r (K * b + 1)) in H; [|lra].
    replace (1 / (2 * (K * b + 1)) * (K * b + 1)) with (1 / 2) in H by (field; lra). exact H. }
  assert (E2 : e * ((b + 1) * (2 * n0 + 2)) <= eps).
  { assert (e <= eps / ((b + 1) * (2 * n0 + 2))) by apply Rmin_r. apply (Rmult_le_compat_r ((b + 1) * (2 * n0 + 2))) in H; [|lra].
    replace (eps / ((b + 1) * (2 * n0 + 2)) * ((b + 1) * (2 * n0 + 2))) with eps in H by (field; lra). exact H. }
  assert (NB2 : 1 + nX t <= 2 * n0 + 2).
  { assert (K * (b * D t) <= K * b * (e * (1 + nX t))). { rewrite <- Rmult_assoc. apply Rmult_le_compat_l; [apply Rmult_le_pos; assumption|exact Ht]. }
    assert (K * b * (e * (1 + nX t)) <= 1 / 2 * (1 + nX t)). { replace (K * b * (e * (1 + nX t))) with ((e * (K * b)) * (1 + nX t)) by ring. apply Rmult_le_compat_r; lra. }
    lra. }
  eapply Rle_trans; [apply Bd; exact Hc|].
  assert (b * D t <= (b + 1) * (e * (2 * n0 + 2))).
  { apply Rmult_le_compat; [exact Hb|exact DP|lra|]. eapply Rle_trans; [exact Ht|]. apply Rmult_le_compat_l; lra. }
  lra.
Qed.

Lemma field_tends r i s s0 : (i < N)%nat -> tends F s s0 ->
  tends F (fun t => dot6 r (field o phi (nth i (li t) 0) (nth i ki false) (nth i (Cs t) []) (s t)))
    (dot6 r (field o phi (nth i li0 0) (nth i ki false) (nth i C0 []) s0)).
Proof.
  intros Hi Ht. pose proof (six_zh o (ready_six o Hr)) as H6. set (k := nth i ki false).
  set (g := fun t => sumn 6 (fun j => dot6 r (nth j (zh (o_par o) (o_eig o) (s t) (nth i (li t) 0) k) vzero) * X t (6 * i + j)%nat) + dot6 r (zp (o_par o) (loads_of o phi) (s t) k)).
  unfold tends. apply (filterlim_ext_loc g).
  - generalize HB. apply filter_imp. intros t (L & S6 & _). unfold g, field, zsol. rewrite dot_add. rewrite <- (block_flat N) by assumption. rewrite dot_lincomb by apply H6. reflexivity.
  - unfold field at 1, zsol. rewrite dot_add. rewrite <- (block_flat N) by assumption. rewrite dot_lincomb by apply H6. fold X0.
    change (tends F g (sumn 6 (fun j => dot6 r (nth j (zh (o_par o) (o_eig o) s0 (nth i li0 0) k) vzero) * X0 (6 * i + j)%nat) + dot6 r (zp (o_par o) (loads_of o phi) s0 k))).
    apply (@tends_plus T F FF); [|apply (tends_zp F s s0 Ht)].
    assert (G : forall n, (n <= 6)%nat -> tends F (fun t => sumn n (fun j => dot6 r (nth j (zh (o_par o) (o_eig o) (s t) (nth i (li t) 0) k) vzero) * X t (6 * i + j)%nat))
      (sumn n (fun j => dot6 r (nth j (zh (o_par o) (o_eig o) s0 (nth i li0 0) k) vzero) * X0 (6 * i + j)%nat))).
    { induction n as [|n IH]; intros Hn; simpl sumn; [exact (@tends_const T F FF 0)|].
      apply (@tends_plus T F FF); [apply IH; lia|]. apply (@tends_mult T F FF); [apply (tends_zh F s (fun t => nth i (li t) 0) s0 (nth i li0 0) Ht (Hl i Hi))|].
      apply constants_tend. nia. }
    apply G. lia.
Qed.
End Depend.
