(** Substitute stiffness (C25, C26, C27, C68). *)
From Coquelicot Require Import Coquelicot.
Require Import Verif.Py Verif.MTools Verif.MEigen Verif.MFields Verif.SAdm Verif.MRaster
  Verif.MSolution Verif.SBeam Verif.SBvp Verif.SEig Verif.SContact Verif.PSetup Verif.PBeam Verif.PBeam2
  Verif.PBvp Verif.PBvp2 Verif.PBvp3 Verif.PBvp4 Verif.PBvp5 Verif.PBalance Verif.PLinAlg
  Verif.PWell Verif.PIndep Verif.PWell2 Verif.PWell3 Verif.PBvp6.

Section Sub.
Variable eig : mat6 -> list eigpair.
Variable solve : nat -> matrix -> vector -> res vector.

(** The object while the substitute system is solved. *)
Definition subst_obj (o : obj) (support dof : string) : obj :=
  let o1 := if mem_str dof ["rot"]%string then with_system o "rot"
            else if mem_str dof ["trans"]%string then with_system o "trans"
            else o in
  if mem_str support ["rested"]%string then
    o_calc_eigensystem eig
      (with_kn_kt o1 (o_ratio o1 * kn (o_par o1)) (o_ratio o1 * kt (o_par o1)))
  else o1.

Lemma params_eta q : mkPar (kn q) (kt q) (wt q) (hh q) (zs q) (A11 q) (B11 q) (D11 q) (kA55 q) (K0 q) = q.
Proof. destruct q; reflexivity. Qed.
Lemma mem1 s t : mem_str s [t] = String.eqb s t.
Proof. unfold mem_str; simpl. apply orb_false_r. Qed.
Lemma with_system_id o : with_system o (o_system o) = o.
Proof. destruct o; reflexivity. Qed.
Lemma with_system_twice o s t : with_system (with_system o s) t = with_system o t.
Proof. reflexivity. Qed.

(** ** C25 *)
Lemma sub_final o L support dof k o' :
  substitute_stiffness eig solve o L support dof = (Ok k, o') ->
  o' = if String.eqb support "rested" then o_calc_eigensystem eig o else o.
Proof.
  unfold substitute_stiffness. rewrite mem1.
  destruct (assemble_and_solve_with _ _ _ _ _ _ _ _) as [C|]; [|discriminate].
  destruct (rasterize_solution _ _ _ _ _ _ _) as [[[xq zq] b]|]; [|discriminate].
  destruct zq as [|z0 zq]; [discriminate|].
  destruct (mem_str dof ["rot"; "trans"]%string) eqn:Ed; [|discriminate].
  intros H. injection H; intros <- _. clear H.
  assert (D : dof = "rot"%string \/ dof = "trans"%string).
  { apply mem_str_In in Ed. simpl in Ed. intuition auto. }
  destruct o as [g lski tol system wE wnu pp slab kk phi par eg td a LL tc ratio mode td'].
  destruct par.
  destruct (String.eqb support "rested"), D as [->| ->]; reflexivity.
Qed.
Lemma sub_restores o L support dof k o' : fresh eig o ->
  substitute_stiffness eig solve o L support dof = (Ok k, o') -> o' = o.
Proof.
  intros Hf H. rewrite (sub_final _ _ _ _ _ _ H).
  destruct (String.eqb support "rested"); [|reflexivity].
  unfold o_calc_eigensystem. rewrite <- Hf. destruct o; reflexivity.
Qed.

(** ** Rasterised end values *)
Lemma ceil_nat_1 : ceil_nat 1 = 1%nat.
Proof.
  unfold ceil_nat, ceilZ. replace (Int_part (- (1))) with (-1)%Z; [reflexivity|].
  unfold Int_part. replace (up (- (1))) with (0)%Z; [reflexivity|].
  apply tech_up; simpl; lra.
Qed.
Lemma raster_first p e ld C0 C1 L : 0 < L ->
  List.length (zh p e 0 L true) = List.length C0 ->
  List.length (zh p e L L true) = List.length C0 ->
  exists xq zq xb, rasterize_solution p e ld [C0; C1] [L; 0] [true; true] 1
    = Ok (xq, zsol p e ld 0 C0 L true :: zq, xb).
Proof.
  intros HL E0 E1. unfold rasterize_solution. cbn [List.length Nat.eqb andb negb map].
  rewrite (Rabs_right L) by lra. rewrite Rabs_R0.
  unfold Rltb. destruct (Rlt_dec 0 L) as [_|]; [|contradiction].
  destruct (Rlt_dec 0 0) as [|_]; [lra|]. cbn [select].
  unfold raster_counts. cbn [map rsum fold_right].
  replace (L / (L + 0) * INR 1) with 1 by (simpl; field; lra).
  rewrite ceil_nat_1. cbn [incr_last raster_zq].
  unfold raster_local, linspace. cbn [Nat.sub seq map mapM].
  replace (0 + INR 0 * ((L - 0) / INR 1)) with 0 by (simpl; field).
  replace (0 + INR 1 * ((L - 0) / INR 1)) with L by (simpl; field).
  unfold zsol_checked. rewrite E0, E1, Nat.eqb_refl. cbn [bind app].
  eexists _, _, _. reflexivity.
Qed.

(** ** The solved substitute problem is the end-loaded beam *)
Lemma loads_flat o : qt (loads_of o 0) = 0 /\ pt (loads_of o 0) = 0.
Proof.
  unfold loads_of, get_weight_load, get_surface_load, deg2rad. simpl.
  replace (0 * (PI / 180)) with 0 by ring. rewrite sin_0. split; ring.
Qed.
Lemma zp_flat o x : kA55 (o_par o) <> 0 ->
  zp (o_par o) (loads_of o 0) x true = mkV 0 0 ((qn (loads_of o 0) + pn (loads_of o 0)) / kn (o_par o)) 0 0 0.
Proof.
  intros HS. destruct (loads_flat o) as [E1 E2]. unfold zp. rewrite E1, E2.
  apply vec6_eq; simpl; try reflexivity; unfold Rdiv; ring.
Qed.

Lemma bvp_beam o kR L Cs M0 V0 : ready o ->
  (kind_of (o_system o) = Some KRot /\ M0 = 1 /\ V0 = 0 \/
   kind_of (o_system o) = Some KTrans /\ M0 = 0 /\ V0 = 1) ->
  bvp o kR 0 [L; 0] [0] [true; true] Cs ->
  let z := fun s => lincomb (zh (o_par o) (o_eig o) s L true) (nth 0 Cs []) in
  end_loaded_beam (o_par o) L M0 V0 z /\
  field o 0 L true (nth 0 Cs []) 0
    = vadd (z 0) (mkV 0 0 ((qn (loads_of o 0) + pn (loads_of o 0)) / kn (o_par o)) 0 0 0).
Proof.
  intros Hr Hk (BL & BR & BT) z. pose proof Hr as ((HA & HD & HS & HK & HK0) & Hf & ews & He & HG).
  assert (Hl : lam_ok (o_par o)) by (repeat split; assumption).
  set (wp := (qn (loads_of o 0) + pn (loads_of o 0)) / kn (o_par o)).
  assert (F : forall s, field o 0 L true (nth 0 Cs []) s = vadd (z s) (mkV 0 0 wp 0 0 0)).
  { intros s. unfold field, zsol. rewrite zp_flat by lra. reflexivity. }
  split; [|apply F].
  assert (S3 : forall s, sN (o_par o) (field o 0 L true (nth 0 Cs []) s) = sN (o_par o) (z s) /\
    sM (o_par o) (field o 0 L true (nth 0 Cs []) s) = sM (o_par o) (z s) /\
    sV (o_par o) (field o 0 L true (nth 0 Cs []) s) = sV (o_par o) (z s)).
  { intros s. rewrite F. unfold sN, sM, sV; simpl. repeat split; ring. }
  split; [|split].
  - intros x _. unfold z. rewrite He. apply zh_equilibrium; [exact Hl|]. apply HG.
  - unfold left_end in BL. cbn [nth] in BL. destruct (S3 0) as (E1 & E2 & E3).
    destruct Hk as [(Hk & -> & ->)|(Hk & -> & ->)]; rewrite Hk in BL; destruct BL as (B1 & B2 & B3);
      repeat split; congruence.
  - specialize (BT 0%nat ltac:(simpl; lia)). cbn [nth] in BT. unfold transition in BT.
    cbn [List.length Nat.sub nth] in BR. unfold right_end in BR. destruct (S3 L) as (E1 & E2 & E3).
    destruct Hk as [(Hk & _)|(Hk & _)]; rewrite Hk in BT, BR; destruct BR as (B1 & B2 & B3);
      destruct BT as (_ & _ & _ & T1 & T2 & T3); rewrite ?Rmult_0_l in *;
      unfold forces; repeat split; lra.
Qed.

(** ** Uniqueness and sign of the end-loaded beam *)
Lemma balance_scale p c f x bed : balance p no_loads bed 0 f x ->
  balance p no_loads bed 0 (fun s => vscale c (f s)) x.
Proof.
  intros (H1 & H2 & H3 & H4 & H5 & H6). cbn [no_loads qn qt pn pt] in *.
  assert (Sc : forall (g : R -> R) d, is_derive g x d -> is_derive (fun s => c * g s) x (c * d)).
  { intros g d Hg. exact (is_derive_scal g x c d Hg). }
  unfold balance. cbn [no_loads qn qt pn pt]. split6.
  - exact (Sc _ _ H1).
  - exact (Sc _ _ H2).
  - exact (Sc _ _ H3).
  - eapply is_derive_eq.
    + eapply is_derive_extR; [|apply (Sc _ _ H4)]. intros s; unfold sN, vscale; simpl; ring.
    + destruct bed; unfold s_tau, vscale; simpl; ring.
  - eapply is_derive_eq.
    + eapply is_derive_extR; [|apply (Sc _ _ H5)]. intros s; unfold sV, vscale; simpl; ring.
    + destruct bed; unfold s_sig, vscale; simpl; ring.
  - eapply is_derive_eq.
    + eapply is_derive_extR; [|apply (Sc _ _ H6)]. intros s; unfold sM, vscale; simpl; ring.
    + destruct bed; unfold s_tau, sV, vscale; simpl; ring.
Qed.

Lemma beam_zero p L z : lam_ok p -> fnd_ok p -> stable p -> 0 < L ->
  (forall x, 0 <= x <= L -> balance p no_loads true 0 z x) ->
  0 <= work p (z 0) -> work p (z L) <= 0 -> forall x, 0 <= x <= L -> z x = vzero.
Proof.
  intros Hl Hf Hs HL HB H0 H1 x Hx.
  apply (homogeneous_unique p 0 (fun _ => L) (fun _ => true) (fun _ => z) 0%nat Hl Hf Hs
    (fun _ _ => Rlt_le _ _ HL) (fun _ x _ => HB x) ltac:(intros i Hi; lia) H0 H1 (le_n 0) eq_refl HL 0%nat x (le_n 0) Hx).
Qed.

Lemma beam_unique p L M0 V0 f g : lam_ok p -> fnd_ok p -> stable p -> 0 < L ->
  end_loaded_beam p L M0 V0 f -> end_loaded_beam p L M0 V0 g -> f 0 = g 0.
Proof.
  intros Hl Hf Hs HL (F1 & (F2 & F3 & F4) & (F5 & F6 & F7)) (G1 & (G2 & G3 & G4) & (G5 & G6 & G7)).
  set (d := fun s => vadd (f s) (vscale (-1) (g s))).
  assert (Z : d 0 = vzero).
  { apply (beam_zero p L d Hl Hf Hs HL).
    - intros x Hx.
      pose proof (balance_add _ _ _ _ _ _ _ _ _ (equilibrium_balance _ _ _ _ _ (F1 x Hx))
        (balance_scale p (-1) g x true (equilibrium_balance _ _ _ _ _ (G1 x Hx)))) as B.
      cbn [no_loads qn qt pn pt] in B. rewrite !Rplus_0_l in B. exact B.
    - unfold work, d.
      replace (sN p (vadd (f 0) (vscale (-1) (g 0)))) with (sN p (f 0) - sN p (g 0)) by (unfold sN; simpl; ring).
      replace (sM p (vadd (f 0) (vscale (-1) (g 0)))) with (sM p (f 0) - sM p (g 0)) by (unfold sM; simpl; ring).
      replace (sV p (vadd (f 0) (vscale (-1) (g 0)))) with (sV p (f 0) - sV p (g 0)) by (unfold sV; simpl; ring).
      rewrite F2, F3, F4, G2, G3, G4. right. ring.
    - unfold work, d.
      replace (sN p (vadd (f L) (vscale (-1) (g L)))) with (sN p (f L) - sN p (g L)) by (unfold sN; simpl; ring).
      replace (sM p (vadd (f L) (vscale (-1) (g L)))) with (sM p (f L) - sM p (g L)) by (unfold sM; simpl; ring).
      replace (sV p (vadd (f L) (vscale (-1) (g L)))) with (sV p (f L) - sV p (g L)) by (unfold sV; simpl; ring).
      rewrite F5, F6, F7, G5, G6, G7. right. ring.
    - lra. }
  unfold d in Z. apply vec6_eq;
    [apply (f_equal z_u) in Z|apply (f_equal z_du) in Z|apply (f_equal z_w) in Z|
     apply (f_equal z_dw) in Z|apply (f_equal z_psi) in Z|apply (f_equal z_dpsi) in Z]; simpl in Z; lra.
Qed.

(** The end yields against the load. *)
Lemma beam_sign p L M0 V0 z : lam_ok p -> fnd_ok p -> stable p -> 0 < L ->
  end_loaded_beam p L M0 V0 z -> (M0 <> 0 \/ V0 <> 0) -> M0 * z_psi (z 0) + V0 * z_w (z 0) < 0.
Proof.
  intros Hl Hf Hs HL (B & (E1 & E2 & E3) & (E4 & E5 & E6)) Hn.
  destruct (Rlt_or_le (M0 * z_psi (z 0) + V0 * z_w (z 0)) 0) as [|Hc]; [assumption|exfalso].
  assert (Z : z 0 = vzero).
  { apply (beam_zero p L z Hl Hf Hs HL).
    - intros x Hx. apply equilibrium_balance. apply B. exact Hx.
    - unfold work. rewrite E1, E2, E3. lra.
    - unfold work. rewrite E4, E5, E6. lra.
    - lra. }
  rewrite Z in E2, E3. unfold sM, sV in E2, E3. simpl in E2, E3. lra.
Qed.

(** ** End to end *)
Lemma subst_ready o support dof : substitute_ready eig o support -> (dof = "rot"%string \/ dof = "trans"%string) ->
  let o2 := subst_obj o support dof in
  ready o2 /\ stable (o_par o2) /\ o_par o2 = foundation_of o support /\
  (forall phi, loads_of o2 phi = loads_of o phi) /\ o_system o2 = dof.
Proof.
  intros ((Hl & Hf & HE) & Hfr & Hf2 & Hs & HG) Hd o2.
  assert (Hl2 : lam_ok (foundation_of o support)).
  { unfold foundation_of. destruct (String.eqb support "rested"); exact Hl. }
  assert (P : o_par o2 = foundation_of o support).
  { unfold o2, subst_obj, foundation_of. rewrite mem1.
    destruct Hd as [->| ->]; destruct (String.eqb support "rested"); reflexivity. }
  split; [|split; [rewrite P; exact Hs|split; [exact P|]]].
  - unfold ready. rewrite P. split; [exact Hl2|]. split; [exact Hf2|].
    exists (eig (calc_system_matrix (foundation_of o support))). split; [|exact HG].
    rewrite <- P. unfold o2, subst_obj. rewrite mem1.
    destruct Hd as [->| ->]; destruct (String.eqb support "rested"); try reflexivity; exact Hfr.
  - unfold o2, subst_obj. rewrite mem1.
    destruct Hd as [->| ->]; destruct (String.eqb support "rested"); split; reflexivity.
Qed.

Lemma sub_unfold o L support dof C0 C1 : (dof = "rot"%string \/ dof = "trans"%string) ->
  let o2 := subst_obj o support dof in
  ready o2 -> 0 < L -> List.length C0 = 6%nat ->
  assemble_and_solve_with solve (Err RuntimeError) o2 false 0 [L; 0] [0] [true; true] = Ok [C0; C1] ->
  fst (substitute_stiffness eig solve o L support dof) =
    Ok (Rabs (1 / (if String.eqb dof "rot" then z_psi (field o2 0 L true C0 0) else z_w (field o2 0 L true C0 0)))).
Proof.
  intros Hd o2 Hr HL L6 H. unfold substitute_stiffness. fold (subst_obj o support dof). fold o2. rewrite H.
  pose proof (ready_six o2 Hr) as H6.
  destruct (raster_first (o_par o2) (o_eig o2) (loads_of o2 0) C0 C1 L HL) as (xq & zq & xb & E).
  { transitivity 6%nat; [exact (H6 0 L)|symmetry; exact L6]. } { transitivity 6%nat; [exact (H6 L L)|symmetry; exact L6]. }
  rewrite E. unfold field, f_psi, f_w.
  destruct Hd as [->| ->]; cbn [mem_str existsb String.eqb Ascii.eqb Bool.eqb orb fst]; [reflexivity|].
  rewrite Rmult_1_l. reflexivity.
Qed.

Lemma sub_solver_returns o L support dof : sound_solver solve -> complete_solver solve ->
  substitute_ready eig o support -> 0 < L -> (dof = "rot"%string \/ dof = "trans"%string) ->
  let o2 := subst_obj o support dof in
  exists C0 C1, List.length C0 = 6%nat /\
  assemble_and_solve_with solve (Err RuntimeError) o2 false 0 [L; 0] [0] [true; true] = Ok [C0; C1].
Proof.
  intros Hso Hco Hsr HL Hd o2. destruct (subst_ready o support dof Hsr Hd) as (Hr & Hs & P & _ & Es). fold o2 in Hr, Hs, P, Es.
  assert (Hkd : exists kd, kind_of (o_system o2) = Some kd /\ kd <> KPst /\ kd <> KVpst).
  { rewrite Es. destruct Hd as [->| ->]; eexists; (split; [reflexivity|split; discriminate]). }
  destruct Hkd as (kd & Hkd & N1 & N2).
  assert (Hchk : check_segments o2 [L; 0] [0] [true; true] = Ok tt).
  { apply check_iff. rewrite Es. unfold invalid_segments, finite_ends. simpl.
    intros [A|[A|[A|[A1 [A|A]]]]]; try discriminate; try (apply A; reflexivity).
    specialize (A true ltac:(auto)); discriminate. }
  assert (Hp : proper_segments [L; 0] [true; true]).
  { split; [intros i Hi; destruct i as [|[|]]; simpl; try lra; simpl in Hi; lia|].
    exists 0%nat. simpl. repeat split; [lia|exact HL]. }
  destruct (solver_returns o2 (Err RuntimeError) 0 0 [L; 0] [0] [true; true] kd Hr Hs ltac:(simpl; lia) Hchk Hp Hkd
    ltac:(intros; contradiction) ltac:(intros; contradiction) ltac:(intros; contradiction) ltac:(discriminate)
    solve Hso Hco false) as (Cs & E & (H6 & HF) & _).
  destruct Cs as [|C0 [|C1 [|]]]; simpl in H6; try discriminate.
  exists C0, C1. split; [inversion HF; assumption|exact E].
Qed.

Lemma sub_beam o L support dof C0 C1 : sound_solver solve ->
  substitute_ready eig o support -> (dof = "rot"%string \/ dof = "trans"%string) ->
  let o2 := subst_obj o support dof in
  assemble_and_solve_with solve (Err RuntimeError) o2 false 0 [L; 0] [0] [true; true] = Ok [C0; C1] ->
  exists z, end_loaded_beam (foundation_of o support) L (if String.eqb dof "rot" then 1 else 0)
      (if String.eqb dof "rot" then 0 else 1) z /\
    field o2 0 L true C0 0
    = vadd (z 0) (mkV 0 0 ((qn (loads_of o 0) + pn (loads_of o 0)) / kn (foundation_of o support)) 0 0 0).
Proof.
  intros Hso Hsr Hd o2 H. destruct (subst_ready o support dof Hsr Hd) as (Hr & Hs & P & Hld & Es). fold o2 in Hr, Hs, P, Hld, Es.
  assert (Hk : (kind_of (o_system o2) = Some KRot /\ (if String.eqb dof "rot" then 1 else 0) = 1 /\ (if String.eqb dof "rot" then 0 else 1) = 0 \/
     kind_of (o_system o2) = Some KTrans /\ (if String.eqb dof "rot" then 1 else 0) = 0 /\ (if String.eqb dof "rot" then 0 else 1) = 1)).
  { rewrite Es. destruct Hd as [->| ->]; [left|right]; repeat split; reflexivity. }
  assert (Hkd : exists kd, kind_of (o_system o2) = Some kd /\ kd <> KPst /\ kd <> KVpst).
  { rewrite Es. destruct Hd as [->| ->]; eexists; (split; [reflexivity|split; discriminate]). }
  destruct Hkd as (kd & Hkd & N1 & N2).
  pose proof (solved_with solve (Err RuntimeError) 0 o2 false 0 [L; 0] [0] [true; true] [C0; C1] kd Hso (ready_six o2 Hr)
    ltac:(simpl; lia) Hkd ltac:(intros; contradiction) ltac:(intros; contradiction) H) as HB.
  destruct (bvp_beam o2 0 L [C0; C1] _ _ Hr Hk HB) as [B1 B2].
  exists (fun s => lincomb (zh (o_par o2) (o_eig o2) s L true) (nth 0 [C0; C1] [])).
  rewrite P in *. rewrite Hld in B2. split; [exact B1|exact B2].
Qed.

Lemma sub_rot o L support z : sound_solver solve -> complete_solver solve ->
  substitute_ready eig o support -> 0 < L ->
  end_loaded_beam (foundation_of o support) L 1 0 z ->
  z_psi (z 0) < 0 /\
  fst (substitute_stiffness eig solve o L support "rot") = Ok (1 / - z_psi (z 0)).
Proof.
  intros Hso Hco Hsr HL Hz.
  destruct (subst_ready o support "rot" Hsr (or_introl eq_refl)) as (Hr & Hs & P & Hld & Es).
  destruct (sub_solver_returns o L support "rot" Hso Hco Hsr HL (or_introl eq_refl)) as (C0 & C1 & L6 & E).
  destruct (sub_beam o L support "rot" C0 C1 Hso Hsr (or_introl eq_refl) E) as (z' & B & F). cbn [String.eqb Ascii.eqb Bool.eqb] in B.
  rewrite (sub_unfold o L support "rot" C0 C1 (or_introl eq_refl) Hr HL L6 E).
  pose proof Hr as (Hl & Hf & _). rewrite P in Hl, Hf, Hs.
  assert (Ez : z' 0 = z 0) by (apply (beam_unique _ L 1 0 z' z Hl Hf Hs HL); assumption).
  cbn [String.eqb Ascii.eqb Bool.eqb]. rewrite F, Ez. cbn [vadd z_psi].
  pose proof (beam_sign _ L 1 0 z Hl Hf Hs HL Hz ltac:(left; lra)) as Sg.
  assert (Hn : z_psi (z 0) < 0) by lra. split; [exact Hn|].
  rewrite Rplus_0_r. f_equal. replace (1 / z_psi (z 0)) with (- (1 / - z_psi (z 0))) by (field; lra).
  rewrite Rabs_Ropp. apply Rabs_right. apply Rle_ge, Rlt_le. apply Rdiv_lt_0_compat; lra.
Qed.

Lemma sub_trans o L support z : sound_solver solve -> complete_solver solve ->
  substitute_ready eig o support -> 0 < L ->
  end_loaded_beam (foundation_of o support) L 0 1 z ->
  z_w (z 0) < 0 /\
  fst (substitute_stiffness eig solve o L support "trans")
    = Ok (Rabs (1 / (z_w (z 0) + (qn (loads_of o 0) + pn (loads_of o 0)) / kn (foundation_of o support)))).
Proof.
  intros Hso Hco Hsr HL Hz.
  destruct (subst_ready o support "trans" Hsr (or_intror eq_refl)) as (Hr & Hs & P & Hld & Es).
  destruct (sub_solver_returns o L support "trans" Hso Hco Hsr HL (or_intror eq_refl)) as (C0 & C1 & L6 & E).
  destruct (sub_beam o L support "trans" C0 C1 Hso Hsr (or_intror eq_refl) E) as (z' & B & F). cbn [String.eqb Ascii.eqb Bool.eqb] in B.
  rewrite (sub_unfold o L support "trans" C0 C1 (or_intror eq_refl) Hr HL L6 E).
  pose proof Hr as (Hl & Hf & _). rewrite P in Hl, Hf, Hs.
  assert (Ez : z' 0 = z 0) by (apply (beam_unique _ L 0 1 z' z Hl Hf Hs HL); assumption).
  cbn [String.eqb Ascii.eqb Bool.eqb]. rewrite F, Ez. cbn [vadd z_w].
  pose proof (beam_sign _ L 0 1 z Hl Hf Hs HL Hz ltac:(right; lra)) as Sg.
  split; [lra|reflexivity].
Qed.

End Sub.

(** The end-loaded beam problem has a solution. *)
Lemma beam_exists eig o L support : substitute_ready eig o support -> 0 < L ->
  (exists z, end_loaded_beam (foundation_of o support) L 1 0 z) /\
  (exists z, end_loaded_beam (foundation_of o support) L 0 1 z).
Proof.
  intros Hsr HL. split.
  - destruct (sub_solver_returns eig elim_solve o L support "rot" elim_sound elim_complete Hsr HL (or_introl eq_refl))
      as (C0 & C1 & L6 & E).
    destruct (sub_beam eig elim_solve o L support "rot" C0 C1 elim_sound Hsr (or_introl eq_refl) E) as (z & B & _).
    exists z; exact B.
  - destruct (sub_solver_returns eig elim_solve o L support "trans" elim_sound elim_complete Hsr HL (or_intror eq_refl))
      as (C0 & C1 & L6 & E).
    destruct (sub_beam eig elim_solve o L support "trans" C0 C1 elim_sound Hsr (or_intror eq_refl) E) as (z & B & _).
    exists z; exact B.
Qed.
