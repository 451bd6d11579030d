(** Proofs about the energy released below a slab with free ends that rests uniformly before it cracks. *)
From Coquelicot Require Import Coquelicot.
Require Import Verif.Py Verif.MTools Verif.MEigen Verif.MFields Verif.MRaster Verif.MSolution Verif.MAnalysis
  Verif.SAdm Verif.SBeam Verif.SBvp Verif.SEig Verif.SEnergy Verif.SOutput Verif.SWork Verif.SRelease Verif.PSetup Verif.PBeam Verif.PBeam2
  Verif.PBvp Verif.PBvp2 Verif.PBalance Verif.PLinAlg Verif.PEnergy2 Verif.PWork Verif.PWell Verif.PWell3 Verif.PBvp6 Verif.PRelease.

Section Free.
Variables (o : obj) (phi : R) (li mi : list R) (ki : list bool).
Let n := List.length li.
Let p := o_par o.
Let ld := loads_of o phi.
Let l i := nth i li 0.
Let sb i := nth i ki false.
Let at_rest := zp p ld 0 true.
Hypothesis Hr : ready o.
Hypothesis Hn : (2 <= n)%nat.
Hypothesis Hk : kind_of (o_system o) = Some KPst.
Hypothesis Hm : o_mode o = Some ModeA.
Hypothesis Hmi : forall i, nth i mi 0 = 0.
Hypothesis Hflat : qt ld * (hh p + wt p - 2 * zs p) + pt ld * (2 * hh p + wt p) = 0.
Hypothesis Hmiss : B11 p * pt ld = 0.

Lemma rest_forces : forces p at_rest 0 0 0 /\ z_psi at_rest = 0 /\ z_dw at_rest = 0 /\ s_tau p true at_rest = qt ld + pt ld
  /\ kn p * z_w at_rest = qn ld + pn ld.
Proof.
  destruct Hr as ((HA & _ & HS & _) & (Hkn & Hkt & _) & _). fold p in HA, HS, Hkn, Hkt.
  unfold forces, at_rest, zp, sN, sM, sV, s_tau. cbn [z_u z_du z_w z_dw z_psi z_dpsi]. rewrite Hflat.
  repeat split; try ring; try (field; lra).
  transitivity (qt ld + pt ld + kt p * (hh p / (4 * kA55 p)) * (qt ld * (hh p + wt p - 2 * zs p) + pt ld * (2 * hh p + wt p))); [field; lra|].
  rewrite Hflat. ring.
Qed.

Lemma end_free kR sgn k z : pst_end o kR phi sgn k z -> forces p z 0 0 0.
Proof. unfold pst_end. rewrite Hm. destruct k; auto. Qed.

Lemma free_transition z1 z2 : transition o phi 0 z1 z2 ->
  z_u z1 = z_u z2 /\ z_w z1 = z_w z2 /\ z_psi z1 = z_psi z2 /\ sN p z1 = sN p z2 /\ sM p z1 = sM p z2 /\ sV p z1 = sV p z2.
Proof.
  unfold transition. rewrite Hk. cbv zeta. intros (H1 & H2 & H3 & H4 & H5 & H6). fold p in H4, H5, H6.
  replace (0 * o_g o / 1000 / o_lski o) with 0 in H4, H5, H6 by (unfold Rdiv; ring). repeat split; lra.
Qed.

Lemma rest_bvp kR k0 : (forall i, (i < n)%nat -> nth i k0 false = true) -> bvp o kR phi li mi k0 (repeat zeros n).
Proof.
  intros H0. destruct rest_forces as (F & _). assert (Z : forall i, (i < n)%nat -> nth i (repeat zeros n) [] = zeros).
  { intros i Hi. rewrite (nth_indep _ [] zeros) by (rewrite repeat_length; exact Hi). apply nth_repeat. }
  split; [|split]; cbv zeta; fold n.
  - unfold left_end. rewrite Hk, !H0, Z, uniform_field by lia. exact F.
  - unfold right_end. rewrite Hk, !H0, Z, uniform_field by lia. exact F.
  - intros i Hi. rewrite !H0, !Z, !uniform_field, Hmi by lia. unfold transition. rewrite Hk. cbv zeta.
    repeat split; unfold Rdiv; ring.
Qed.

Variables (kR : R) (Cb : list (list R)).
Hypothesis Bb : bvp o kR phi li mi ki Cb.
Let b i := field o phi (l i) (sb i) (nth i Cb []).

Lemma b_left : forces p (b 0%nat 0) 0 0 0.
Proof. destruct Bb as (H & _). unfold left_end in H. rewrite Hk in H. exact (end_free _ _ _ _ H). Qed.
Lemma b_right : forces p (b (n - 1)%nat (l (n - 1))) 0 0 0.
Proof. destruct Bb as (_ & H & _). unfold right_end in H. rewrite Hk in H. exact (end_free _ _ _ _ H). Qed.
Lemma b_next i : (S i < n)%nat -> z_u (b i (l i)) = z_u (b (S i) 0) /\ z_w (b i (l i)) = z_w (b (S i) 0) /\ z_psi (b i (l i)) = z_psi (b (S i) 0) /\
  sN p (b i (l i)) = sN p (b (S i) 0) /\ sM p (b i (l i)) = sM p (b (S i) 0) /\ sV p (b i (l i)) = sV p (b (S i) 0).
Proof. intros Hi. destruct Bb as (_ & _ & H). specialize (H i Hi). rewrite Hmi in H. apply free_transition. exact H. Qed.
Lemma b_balance i x : balance p ld (sb i) 0 (b i) x.
Proof.
  destruct (ready_eig_ok o Hr) as (Hl & Hf & He). pose proof (field_balance o phi (l i) (sb i) (nth i Cb []) x Hl Hf He) as H.
  fold p in H. fold ld in H. replace (extra_moment p ld (sb i)) with 0 in H; [exact H|].
  unfold extra_moment. destruct (sb i); [reflexivity|]. destruct Hl as (HA & _). fold p in HA.
  replace (B11 p / A11 p * pt ld) with (B11 p * pt ld / A11 p) by (field; lra). rewrite Hmiss. unfold Rdiv. ring.
Qed.

Lemma gam_continuous i x : continuous (fun s => gam (b i s)) x.
Proof.
  destruct (fields_continuous o phi (l i) (sb i) (nth i Cb []) x Hr) as (_ & _ & _ & D & P & _). fold (b i) in D, P.
  apply (cont_plus (fun s => z_dw (b i s)) (fun s => z_psi (b i s))); assumption.
Qed.
Lemma tau_continuous i x : continuous (fun s => s_tau p (sb i) (b i s)) x.
Proof. destruct Hr as ((_ & _ & HS & _) & _). fold p in HS. apply (traction_continuous p ld (sb i) 0 (b i) x HS (b_balance i x)). Qed.

Lemma segment_moment i : kA55 p * RInt (fun s => gam (b i s)) 0 (l i)
  = sM p (b i (l i)) - sM p (b i 0) - (hh p + wt p) / 2 * RInt (fun s => s_tau p (sb i) (b i s)) 0 (l i) + (zs p * qt ld - hh p / 2 * pt ld) * l i.
Proof.
  assert (C1 := gam_continuous i). assert (C2 := tau_continuous i).
  rewrite <- !RInt_scalR by assumption.
  set (f := fun x => kA55 p * gam (b i x)). set (g := fun x => (hh p + wt p) / 2 * s_tau p (sb i) (b i x)).
  assert (Cf : forall x, continuous f x) by (intros x; apply (continuous_scal_r (V := R_NormedModule) (kA55 p)); apply C1).
  assert (Cg : forall x, continuous g x) by (intros x; apply (continuous_scal_r (V := R_NormedModule) ((hh p + wt p) / 2)); apply C2).
  assert (Hc : exists c, c = zs p * qt ld - hh p / 2 * pt ld) by (eexists; reflexivity). destruct Hc as [c Hc]. rewrite <- Hc.
  enough (E : RInt (fun x => f x + g x) 0 (l i) = (sM p (b i (l i)) + c * l i) - (sM p (b i 0) + c * 0)).
  { rewrite RInt_plusR in E by assumption. lra. }
  apply is_RInt_unique. apply (ftc (fun s => sM p (b i s) + c * s) (fun x => f x + g x)).
  - intros x. destruct (b_balance i x) as (_ & _ & _ & _ & _ & H6).
    eapply is_derive_eq; [apply is_derive_plusR; [exact H6|]|].
    + eapply is_derive_eq; [auto_derive; [trivial|reflexivity]|]. reflexivity.
    + cbv beta. unfold f, g, sV, gam. rewrite Hc. ring.
  - intros x. apply cont_plus; [apply Cf|apply Cg].
Qed.

Lemma free_telescope (F : vec6 -> R) : (forall i, (S i < n)%nat -> F (b i (l i)) = F (b (S i) 0)) ->
  total n (fun i => F (b i (l i)) - F (b i 0)) = F (b (n - 1)%nat (l (n - 1))) - F (b 0%nat 0).
Proof.
  intros H. destruct n as [|m]; [lia|]. replace (S m - 1)%nat with m by lia.
  pose proof (PWork.telescope m (fun i => F (b i (l i))) (fun i => F (b i 0)) (fun _ => 0)) as T. cbv beta in T.
  rewrite T; [|intros i Hi; rewrite H by lia; ring].
  assert (Z : total m (fun _ => 0) = 0). { clear. induction m as [|m IH]; [reflexivity|]. rewrite total_S, IH. ring. }
  rewrite Z. ring.
Qed.
Lemma total_scal c m f : total m (fun i => c * f i) = c * total m f.
Proof. induction m as [|m IH]; [unfold total; simpl; ring|]. rewrite !total_S, IH. ring. Qed.

Let L := total n l.
Lemma sum_tau : total n (fun i => RInt (fun s => s_tau p (sb i) (b i s)) 0 (l i)) = (qt ld + pt ld) * L.
Proof.
  assert (HS : 0 < kA55 p) by apply Hr.
  rewrite (total_ext n _ (fun i => (sN p (b i (l i)) - sN p (b i 0)) + (qt ld + pt ld) * l i)).
  2:{ intros i _. apply (segment_force_balance p ld (sb i) 0 (b i) (l i) HS (b_balance i)). }
  rewrite total_plus, total_scal, free_telescope by (intros i Hi; apply (b_next i Hi)).
  destruct b_left as (-> & _). destruct b_right as (-> & _). unfold L. ring.
Qed.
Lemma sum_gam : total n (fun i => RInt (fun s => gam (b i s)) 0 (l i)) = 0.
Proof.
  assert (HS : 0 < kA55 p) by apply Hr.
  apply (Rmult_eq_reg_l (kA55 p)); [|lra]. rewrite <- total_scal.
  rewrite (total_ext n _ (fun i => ((sM p (b i (l i)) - sM p (b i 0)) + - ((hh p + wt p) / 2) * RInt (fun s => s_tau p (sb i) (b i s)) 0 (l i)) + (zs p * qt ld - hh p / 2 * pt ld) * l i)).
  2:{ intros i _. rewrite segment_moment. ring. }
  rewrite !total_plus, !total_scal, sum_tau, free_telescope by (intros i Hi; apply (b_next i Hi)).
  destruct b_left as (_ & -> & _). destruct b_right as (_ & -> & _). fold L.
  transitivity (- L / 2 * (qt ld * (hh p + wt p - 2 * zs p) + pt ld * (2 * hh p + wt p))); [field|]. rewrite Hflat. ring.
Qed.

(** The uncracked slab rests uniformly. *)
Variables (k0 : list bool) (Ca : list (list R)) (kRa : R).
Hypothesis H0 : forall i, (i < n)%nat -> nth i k0 false = true.
Hypothesis Lk0 : List.length k0 = n.
Hypothesis Lmi : n = S (List.length mi).
Hypothesis Hs : stable p.
Hypothesis Hpos : forall i, (i < n)%nat -> 0 <= l i.
Hypothesis Hsome : exists i, (i < n)%nat /\ 0 < l i.
Hypothesis C6 : six_each n Ca.
Hypothesis Ba : bvp o kRa phi li mi k0 Ca.

Lemma rest_unique : Ca = repeat zeros n.
Proof.
  destruct (well_posed (fun _ => []) elim_solve o true phi li mi k0 KPst kRa elim_sound elim_complete Hr Hs Hn) as (Cs & _ & _ & _ & _ & U).
  - intros [H|[H|[H|[H _]]]].
    + assert (E : nth 0 k0 false = true) by (apply H0; lia). rewrite (H (nth 0 k0 false)) in E; [discriminate|]. apply nth_In. rewrite Lk0. lia.
    + apply H. rewrite Lk0. reflexivity.
    + apply H. exact Lmi.
    + apply H. clear - Hk. unfold kind_of in Hk. unfold finite_ends.
      destruct (String.eqb_spec (o_system o) "pst-"); [auto|]. destruct (String.eqb_spec (o_system o) "-pst"); [auto|]. simpl in Hk.
      destruct (_ || _)%bool in Hk; [discriminate|]. destruct (_ || _)%bool in Hk; [discriminate|].
      destruct (String.eqb _ _) in Hk; [discriminate|]. destruct (String.eqb _ _) in Hk; discriminate.
  - split; [exact Hpos|]. destruct Hsome as (i & Hi & Hl). exists i. split; [exact Hi|]. split; [apply H0; exact Hi|exact Hl].
  - exact Hk.
  - intros _. rewrite Hm. discriminate.
  - intros _ E. rewrite Hm in E. discriminate.
  - discriminate.
  - rewrite (U (repeat zeros n)); [|rewrite repeat_length; reflexivity| |apply rest_bvp; exact H0].
    + apply U; [apply C6|apply C6|exact Ba].
    + apply Forall_forall. intros C HC. apply repeat_spec in HC. subst C. reflexivity.
Qed.
Let a i := field o phi (l i) (nth i k0 false) (nth i Ca []).
Lemma a_rest i x : (i < n)%nat -> a i x = at_rest.
Proof.
  intros Hi. unfold a. rewrite H0 by exact Hi. rewrite rest_unique. rewrite (nth_indep _ [] zeros) by (rewrite repeat_length; exact Hi).
  rewrite nth_repeat. apply uniform_field.
Qed.

Hypothesis Hsub : forall i, nth i ki false = true -> nth i k0 false = true.
Hypothesis Hcr : exists i, cracking k0 ki i = true.
Variables (quad : (R -> R) -> R -> R -> R) (eps G G1 G2 : R).
Hypothesis HQ : accurate_quad quad eps.
Hypothesis HG : ginc quad p (o_eig o) ld Ca Cb li ki k0 = Ok (Some G, Some G1, Some G2).
Let da := crack_sum k0 ki n l.
Let W := total n (fun i => RInt (fun x => load_power p ld (b i x)) 0 (l i) - RInt (fun x => load_power p ld (a i x)) 0 (l i)).
Lemma free_release : 0 < da /\ G = G1 + G2 /\ Rabs (2 * da * (G1 - G2) - W) <= 2 * (INR n * eps).
Proof.
  destruct (release quad eps o kRa kR phi li mi k0 ki Ca Cb G G1 G2 HQ Hr ltac:(fold n; lia) Ba Bb Hsub Hcr HG) as (D & E & V).
  split; [exact D|]. split; [exact E|].
  match type of V with Rabs (_ - ?T) <= _ => replace T with W in V end; [exact V|]. symmetry.
  fold n p ld.
  change (W + total (n - 1) (fun i => point_power o phi (nth i mi 0) (b i (l i)) - point_power o phi (nth i mi 0) (a i (l i)))
    + (section_cross p (a (n - 1)%nat (l (n - 1)%nat)) (b (n - 1)%nat (l (n - 1)%nat))
       - section_cross p (b (n - 1)%nat (l (n - 1)%nat)) (a (n - 1)%nat (l (n - 1)%nat)))
    - (section_cross p (a 0%nat 0) (b 0%nat 0) - section_cross p (b 0%nat 0) (a 0%nat 0))
    - total n (fun i => RInt (fun x => slip_cross p (nth i k0 false) (sb i) (a i x) (b i x)) 0 (l i))
    + total n (fun i => extra_moment p ld (sb i) * RInt (fun x => z_psi (a i x)) 0 (l i)
                        - extra_moment p ld (nth i k0 false) * RInt (fun x => z_psi (b i x)) 0 (l i)) = W).
  assert (Z : forall m, total m (fun _ => 0) = 0). { clear. induction m as [|m IH]; [reflexivity|]. rewrite total_S, IH. ring. }
  destruct rest_forces as ((RN & RM & RV) & RP & RD & RT & _).
  rewrite (total_ext (n - 1) _ (fun _ => 0)), Z.
  2:{ intros i _. rewrite Hmi. unfold point_power, point_Fn, point_Ft. rewrite Hk. unfold Rdiv. ring. }
  rewrite (total_ext n (fun i => extra_moment p ld (sb i) * _ - _) (fun _ => 0)), Z.
  2:{ intros i Hi. assert (X : forall k, extra_moment p ld k = 0).
      { intros k. unfold extra_moment. destruct k; [reflexivity|]. assert (HA : 0 < A11 p) by apply Hr.
        replace (B11 p / A11 p * pt ld) with (B11 p * pt ld / A11 p) by (field; lra). rewrite Hmiss. unfold Rdiv. ring. }
      rewrite !X. ring. }
  rewrite !a_rest by lia. unfold section_cross. rewrite RN, RM, RV.
  destruct b_left as (-> & -> & ->). destruct b_right as (-> & -> & ->).
  rewrite (total_ext n (fun i => RInt (fun x => slip_cross p (nth i k0 false) (sb i) (a i x) (b i x)) 0 (l i))
    (fun i => wt p / 2 * (qt ld + pt ld) * RInt (fun x => gam (b i x)) 0 (l i))).
  2:{ intros i Hi. rewrite <- RInt_scalR by (intros; apply gam_continuous). apply RInt_extR. intros x. rewrite a_rest, H0 by exact Hi.
      unfold slip_cross, gam. rewrite RT, RP, RD. ring. }
  rewrite total_scal, sum_gam. ring.
Qed.
(** No shear before, no mode II. *)
Lemma free_level : qt ld + pt ld = 0 -> Rabs (2 * da * G2) <= INR n * eps.
Proof.
  intros Hq. destruct (ginc_value quad eps HQ o phi Ca Cb li ki k0 G G1 G2 Hr HG) as (_ & _ & V). destruct (V Hcr) as (Hd & _ & V2). clear V.
  fold n in Hd, V2. change (crack_sum k0 ki n (fun i => nth i li 0)) with da in Hd, V2. apply scaled_error in V2; [|exact Hd].
  match type of V2 with Rabs (_ - ?X) <= _ => replace X with 0 in V2 end; [rewrite Rminus_0_r in V2; exact V2|]. symmetry.
  rewrite <- total_crack. rewrite (total_ext n _ (fun _ => 0)).
  { clear. induction n as [|m IH]; [reflexivity|]. rewrite total_S, IH. ring. }
  intros i Hi. destruct (cracking k0 ki i); [|reflexivity].
  rewrite (RInt_extR _ (fun _ => 0)).
  - rewrite (RInt_const (V := R_CompleteNormedModule)). unfold scal; simpl. unfold mult; simpl. ring.
  - intros x. unfold sliding. pose proof (a_rest i x Hi) as E. unfold a, l in E. rewrite H0 in E by exact Hi. rewrite E.
    destruct rest_forces as (_ & _ & _ & RT & _). fold p. rewrite RT, Hq. ring.
Qed.

(** On a vertical face the uncracked slab only shears, and opening a crack releases energy although mode II counts it negative. *)
Let Q := qt ld + pt ld.
Hypothesis Hwall : qn ld + pn ld = 0.
Hypothesis HQ0 : Q <> 0.
Let F i x := work p (b i x) - Q / kt p * sN p (b i x).
Let dF i x := (s_tau p (sb i) (b i x) - Q) * (slip p (b i x) - Q / kt p + wt p / 2 * gam (b i x))
  + (A11 p * z_du (b i x) ^ 2 + 2 * B11 p * z_du (b i x) * z_dpsi (b i x) + D11 p * z_dpsi (b i x) ^ 2)
  + kA55 p * gam (b i x) ^ 2 - s_sig p (sb i) (b i x) * z_w (b i x).
Lemma F_derive i x : is_derive (F i) x (dF i x).
Proof.
  destruct (b_balance i x) as (H1 & H2 & H3 & H4 & H5 & H6).
  assert (M : forall f g df dg, is_derive f x df -> is_derive g x dg -> is_derive (fun s => f s * g s) x (df * g x + f x * dg)).
  { intros f g df dg Df Dg. exact (is_derive_mult (K := R_AbsRing) _ _ _ _ _ Df Dg ltac:(intros; apply Rmult_comm)). }
  assert (K4 : is_derive (fun s => sN p (b i s)) x (s_tau p (sb i) (b i x) - Q)) by (eapply is_derive_eq; [exact H4|unfold Q; ring]).
  assert (K5 : is_derive (fun s => sV p (b i s)) x (- s_sig p (sb i) (b i x))) by (eapply is_derive_eq; [exact H5|lra]).
  assert (K6 : is_derive (fun s => sM p (b i s)) x (sV p (b i x) + (hh p + wt p) / 2 * (s_tau p (sb i) (b i x) - Q))) by (eapply is_derive_eq; [exact H6|unfold Q; lra]).
  assert (K0 : is_derive (fun _ : R => - (Q / kt p)) x 0) by apply (is_derive_const (V := R_NormedModule)).
  assert (Hx : is_derive (fun s => (sN p (b i s) * z_u (b i s) + sM p (b i s) * z_psi (b i s) + sV p (b i s) * z_w (b i s)) + (fun _ => - (Q / kt p)) s * sN p (b i s)) x (dF i x)).
  { eapply is_derive_eq.
    - apply is_derive_plusR; [apply is_derive_plusR; [apply is_derive_plusR|]|]; apply M; eassumption.
    - cbv beta. unfold dF, gam, slip.
      set (ta := s_tau p (sb i) (b i x)). set (si := s_sig p (sb i) (b i x)). clearbody ta si. unfold sN, sM, sV. field. apply Rgt_not_eq, Hr. }
  eapply is_derive_ext; [|exact Hx]. intros s. unfold F, work. simpl. ring.
Qed.
Let c0 := Q ^ 2 * (16 * kA55 p - kt p * wt p ^ 2) / (16 * kA55 p * kt p).
Lemma c0_pos : 0 < c0.
Proof.
  unfold c0. assert (0 < kA55 p) by apply Hr. assert (0 < kt p) by apply Hr. unfold stable in Hs. fold p in Hs.
  apply Rdiv_lt_0_compat; [|apply Rmult_lt_0_compat; lra]. apply Rmult_lt_0_compat; [|lra]. rewrite <- Rsqr_pow2. apply Rsqr_pos_lt. exact HQ0.
Qed.
Lemma bend_nonneg z : 0 <= A11 p * z_du z ^ 2 + 2 * B11 p * z_du z * z_dpsi z + D11 p * z_dpsi z ^ 2.
Proof.
  destruct Hr as ((HA & HD & HS & HK & HK0) & _). fold p in HA, HD, HS, HK, HK0.
  destruct (quad_pos (A11 p) (B11 p) (D11 p) (z_du z) (z_dpsi z) HA ltac:(lra)) as [Q1 _]. exact Q1.
Qed.
Lemma dF_supported i x : sb i = true -> 0 <= dF i x.
Proof.
  intros Hb. unfold dF. rewrite Hb. assert (HB := bend_nonneg (b i x)). destruct Hr as ((_ & _ & HS & _) & (Hkn & Hkt & _) & _). fold p in HS, Hkn, Hkt.
  unfold stable in Hs. fold p in Hs. unfold s_tau, s_sig. change (z_u (b i x) + hh p / 2 * z_psi (b i x) - wt p / 2 * z_dw (b i x)) with (slip p (b i x)).
  set (y := slip p (b i x) - Q / kt p). set (g := gam (b i x)).
  replace (kt p * slip p (b i x) - Q) with (kt p * y) by (unfold y; field; lra).
  destruct (quad_pos (kt p) (kt p * wt p / 4) (kA55 p) y g Hkt) as [S1 _]; [nra|].
  assert (0 <= kn p * z_w (b i x) ^ 2) by (apply Rmult_le_pos; [lra|apply pow2_ge_0]).
  replace (kt p * y * (y + wt p / 2 * g)) with (kt p * y ^ 2 + 2 * (kt p * wt p / 4) * y * g) by field.
  set (Y := kt p * y ^ 2 + 2 * (kt p * wt p / 4) * y * g) in *. nra.
Qed.
Lemma dF_cracked i x : sb i = false -> c0 - Q * slip p (b i x) <= dF i x.
Proof.
  intros Hb. unfold dF. rewrite Hb. assert (HB := bend_nonneg (b i x)). destruct Hr as ((_ & _ & HS & _) & (Hkn & Hkt & _) & _). fold p in HS, Hkn, Hkt.
  unfold s_tau, s_sig. set (g := gam (b i x)). set (y := slip p (b i x)).
  assert (E : (0 - Q) * (y - Q / kt p + wt p / 2 * g) + kA55 p * g ^ 2 - (c0 - Q * y) = kA55 p * (g - Q * wt p / (4 * kA55 p)) ^ 2).
  { unfold c0. field. lra. }
  assert (0 <= kA55 p * (g - Q * wt p / (4 * kA55 p)) ^ 2) by (apply Rmult_le_pos; [lra|apply pow2_ge_0]). lra.
Qed.
Lemma slip_continuous i x : continuous (fun s => slip p (b i s)) x.
Proof.
  destruct (fields_continuous o phi (l i) (sb i) (nth i Cb []) x Hr) as (U & _ & _ & D & P & _). fold (b i) in U, D, P.
  apply (continuous_extR (fun s => z_u (b i s) + (hh p / 2 * z_psi (b i s) + - (wt p / 2) * z_dw (b i s)))); [|cont]. intros s. unfold slip. ring.
Qed.
Lemma F_incr i : (i < n)%nat -> (if cracking k0 ki i then c0 * l i - Q * RInt (fun s => slip p (b i s)) 0 (l i) else 0) <= F i (l i) - F i 0.
Proof.
  intros Hi. assert (Hl := Hpos i Hi). unfold cracking. rewrite H0 by exact Hi. fold (sb i). destruct (sb i) eqn:Eb; simpl.
  - enough (F i 0 <= F i (l i)) by lra. apply (derive_nonneg_incr (F i) (dF i) 0 (l i) Hl); [intros; apply F_derive|intros; apply dF_supported; exact Eb].
  - set (s := fun x => slip p (b i x)).
    assert (D : forall x, is_derive (fun y => RInt s 0 y) x (s x)).
    { intros x. apply (is_derive_RInt (V := R_NormedModule) s _ 0 x).
      - exists (mkposreal 1 Rlt_0_1). intros y _. apply (RInt_correct (V := R_CompleteNormedModule)). apply ex_RInt_cont. intros; apply slip_continuous.
      - apply slip_continuous. }
    enough (H : F i 0 + Q * RInt s 0 0 + - c0 * 0 <= F i (l i) + Q * RInt s 0 (l i) + - c0 * l i).
    { rewrite RInt_point in H. change (@zero R_CompleteNormedModule) with 0 in H. lra. }
    apply (derive_nonneg_incr (fun x => F i x + Q * RInt s 0 x + - c0 * x) (fun x => dF i x + Q * s x + - c0) 0 (l i) Hl).
    + intros x _. apply is_derive_plusR; [apply is_derive_plusR; [apply F_derive|]|].
      * apply (is_derive_scal (fun y => RInt s 0 y) x Q). apply D.
      * assert (X : forall c : R, is_derive (fun y : R => c * y) x c) by (intros c; auto_derive; [trivial|ring]). apply X.
    + intros x _. pose proof (dF_cracked i x Eb). unfold s. lra.
Qed.
Lemma total_le m f g : (forall i, (i < m)%nat -> f i <= g i) -> total m f <= total m g.
Proof.
  induction m as [|m IH]; intros H; [unfold total; simpl; lra|]. rewrite !total_S. pose proof (H m ltac:(lia)). assert (total m f <= total m g) by (apply IH; intros; apply H; lia). lra.
Qed.
Lemma F_total : total n (fun i => F i (l i) - F i 0) = 0.
Proof.
  pose proof (free_telescope (fun z => work p z - Q / kt p * sN p z)) as T. cbv beta in T.
  change (total n (fun i => F i (l i) - F i 0)) with (total n (fun i => (work p (b i (l i)) - Q / kt p * sN p (b i (l i))) - (work p (b i 0) - Q / kt p * sN p (b i 0)))).
  rewrite T.
  - unfold work. destruct b_left as (-> & -> & ->). destruct b_right as (-> & -> & ->). ring.
  - intros i Hi. unfold work. destruct (b_next i Hi) as (-> & -> & -> & -> & -> & ->). reflexivity.
Qed.
Lemma wall_slides : c0 * da <= Q * crack_sum k0 ki n (fun i => RInt (fun s => slip p (b i s)) 0 (l i)).
Proof.
  pose proof (total_le n _ _ F_incr) as H. rewrite F_total, total_crack in H.
  unfold da. unfold crack_sum in *. enough (E : forall f g, rsum (map (fun i => if cracking k0 ki i then c0 * f i - Q * g i else 0) (seq 0 n))
    = c0 * rsum (map (fun i => if cracking k0 ki i then f i else 0) (seq 0 n)) - Q * rsum (map (fun i => if cracking k0 ki i then g i else 0) (seq 0 n))).
  { rewrite E in H. lra. }
  clear. intros f g. generalize (seq 0 n) as q. clearbody c0 Q. clear. induction q as [|j r IH]; simpl; [ring|]. rewrite IH. destruct (cracking k0 ki j); ring.
Qed.
Lemma crack_sum_ext f g : (forall i, (i < n)%nat -> f i = g i) -> crack_sum k0 ki n f = crack_sum k0 ki n g.
Proof. intros H. rewrite <- !total_crack. apply total_ext. intros i Hi. rewrite H by exact Hi. reflexivity. Qed.
Lemma wall_rates : eps = 0 -> G1 = 0 /\ G2 < 0 /\ W = - (2 * da * G2).
Proof.
  intros He. destruct (ginc_value quad eps HQ o phi Ca Cb li ki k0 G G1 G2 Hr HG) as (_ & _ & V). destruct (V Hcr) as (Hd & V1 & V2). clear V.
  fold n in Hd, V1, V2. change (crack_sum k0 ki n (fun i => nth i li 0)) with da in Hd, V1, V2.
  apply scaled_error in V1; [|exact Hd]. apply scaled_error in V2; [|exact Hd]. rewrite He, Rmult_0_r in V1, V2.
  assert (A : forall x, Rabs x <= 0 -> x = 0) by (intros x Hx; pose proof (Rabs_pos x); destruct (Req_dec x 0) as [E|E]; [exact E|]; pose proof (Rabs_pos_lt x E); lra).
  apply A in V1. apply A in V2.
  destruct rest_forces as (_ & _ & _ & RT & RW). rewrite Hwall in RW. fold Q in RT.
  assert (X1 : crack_sum k0 ki n (fun i => RInt (opening o phi (nth i li 0) (nth i Ca []) (nth i Cb [])) 0 (nth i li 0)) = 0).
  { rewrite <- total_crack. rewrite (total_ext n _ (fun _ => 0)).
    { clear. induction n as [|m IH]; [reflexivity|]. rewrite total_S, IH. ring. }
    intros i Hi. destruct (cracking k0 ki i); [|reflexivity]. rewrite (RInt_extR _ (fun _ => 0)).
    - rewrite (RInt_const (V := R_CompleteNormedModule)). unfold scal; simpl. unfold mult; simpl. ring.
    - intros x. unfold opening. pose proof (a_rest i x Hi) as E. unfold a, l in E. rewrite H0 in E by exact Hi. rewrite E. fold p. rewrite RW. ring. }
  assert (X2 : crack_sum k0 ki n (fun i => RInt (sliding o phi (nth i li 0) (nth i Ca []) (nth i Cb [])) 0 (nth i li 0))
    = - (Q * crack_sum k0 ki n (fun i => RInt (fun s => slip p (b i s)) 0 (l i)))).
  { transitivity (total n (fun i => - Q * (if cracking k0 ki i then RInt (fun s => slip p (b i s)) 0 (l i) else 0))).
    2:{ rewrite total_scal, total_crack. ring. }
    rewrite <- total_crack. apply total_ext. intros i Hi. destruct (cracking k0 ki i) eqn:Ec; [|ring].
    rewrite <- RInt_scalR by (intros; apply slip_continuous). apply RInt_extR. intros x. unfold sliding.
    pose proof (a_rest i x Hi) as E. unfold a, l in E. rewrite H0 in E by exact Hi. rewrite E. fold p. rewrite RT.
    unfold cracking in Ec. rewrite H0 in Ec by exact Hi. unfold b, sb, slip, l. destruct (nth i ki false); [discriminate|]. ring. }
  rewrite X1 in V1. rewrite X2 in V2. pose proof wall_slides as WS. pose proof c0_pos as CP.
  assert (0 < c0 * da) by (apply Rmult_lt_0_compat; assumption).
  assert (E1 : G1 = 0). { assert (2 * da * G1 = 0) by lra. apply Rmult_integral in H1. destruct H1; lra. }
  split; [exact E1|]. split.
  - assert (da * G2 < 0) by lra. destruct (Rlt_dec G2 0) as [|N]; [assumption|]. exfalso. assert (0 <= da * G2) by (apply Rmult_le_pos; lra). lra.
  - destruct free_release as (_ & _ & R0). rewrite He, E1 in R0. replace (2 * (INR n * 0)) with 0 in R0 by ring. apply A in R0. lra.
Qed.
End Free.
