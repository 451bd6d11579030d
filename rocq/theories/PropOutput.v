(** Property theorems C52-C54 and C71: output arrays, units and stored energy. *)
Require Import Verif.Py Verif.MTools Verif.MEigen Verif.MFields Verif.MRaster Verif.MSolution Verif.MAnalysis
  Verif.SAdm Verif.SBeam Verif.SBvp Verif.SEig Verif.SRaster Verif.SOutput Verif.PBeam2 Verif.PBvp Verif.PWell2 Verif.PBvp6 Verif.PLinAlg
  Verif.PRaster2 Verif.POutput Verif.PPotential.

(** C52: coordinate-stress pairs of the weak layer, shear ... *)
Theorem C52_shear o unit x z removeNaNs xs ss : get_weaklayer_shearstress o x z unit removeNaNs = Ok (xs, ss) ->
  List.length x = List.length z /\ exists c, stress_unit unit c /\
  if removeNaNs
  then exists P, P = supported_pairs x (map (fun a => c * s_tau (o_par o) true a) z) /\
       xs = map (fun q => Some (fst q)) P /\ ss = map (fun q => Some (snd q)) P
  else List.length xs = List.length x /\ List.length ss = List.length x /\
       forall i, (i < List.length x)%nat ->
         match nth i x None with
         | Some a => nth i xs None = Some (a / 10) /\ nth i ss None = Some (c * s_tau (o_par o) true (nth i z (mkV 0 0 0 0 0 0)))
         | None => nth i xs None = None /\ nth i ss None = None
         end.
Proof. exact (stress_pairs stress_unit (tau_unit (o_par o)) _ (tau_units (o_par o)) stress_unit_fun unit x z removeNaNs xs ss). Qed.
Print Assumptions C52_shear.
(** ... and normal stress. *)
Theorem C52_normal o unit x z removeNaNs xs ss : get_weaklayer_normalstress o x z unit removeNaNs = Ok (xs, ss) ->
  List.length x = List.length z /\ exists c, stress_unit unit c /\
  if removeNaNs
  then exists P, P = supported_pairs x (map (fun a => c * s_sig (o_par o) true a) z) /\
       xs = map (fun q => Some (fst q)) P /\ ss = map (fun q => Some (snd q)) P
  else List.length xs = List.length x /\ List.length ss = List.length x /\
       forall i, (i < List.length x)%nat ->
         match nth i x None with
         | Some a => nth i xs None = Some (a / 10) /\ nth i ss None = Some (c * s_sig (o_par o) true (nth i z (mkV 0 0 0 0 0 0)))
         | None => nth i xs None = None /\ nth i ss None = None
         end.
Proof. exact (stress_pairs stress_unit (sig_unit (o_par o)) _ (sig_units (o_par o)) stress_unit_fun unit x z removeNaNs xs ss). Qed.
Print Assumptions C52_normal.
(** Arrays of equal length in a known unit are accepted. *)
Theorem C52_accepted o unit c x z removeNaNs : stress_unit unit c -> List.length x = List.length z ->
  (exists xs ss, get_weaklayer_shearstress o x z unit removeNaNs = Ok (xs, ss)) /\
  (exists xs ss, get_weaklayer_normalstress o x z unit removeNaNs = Ok (xs, ss)).
Proof.
  intros U L. split.
  - exact (stress_total stress_unit (tau_unit (o_par o)) _ (tau_units (o_par o)) stress_unit_fun unit x z removeNaNs c U L).
  - exact (stress_total stress_unit (sig_unit (o_par o)) _ (sig_units (o_par o)) stress_unit_fun unit x z removeNaNs c U L).
Qed.
Print Assumptions C52_accepted.
Example C52_example : stress_unit "kPa" 1000 /\
  supported_pairs [Some 0; None; Some 20; Some 30] [1; 2; 3; 4] = [(0 / 10, 1); (20 / 10, 3); (30 / 10, 4)] /\
  exists ss, get_weaklayer_normalstress (ex_obj "skier" None 30) [Some 0; None; Some 20]
    [mkV 0 0 1 0 0 0; mkV 0 0 2 0 0 0; mkV 0 0 3 0 0 0] "kPa" true = Ok ([Some (0 / 10); Some (20 / 10)], ss) /\ List.length ss = 2%nat.
Proof. split; [constructor|]. split; [reflexivity|]. eexists. split; reflexivity. Qed.

(** C53: values and units of single columns; a unit gives a value iff it is known. *)
Theorem C53_units p z0 unit z v :
  (w_unit unit z = Ok v <-> exists c, length_unit unit c /\ v = c * z_w z) /\
  (u_unit z0 unit z = Ok v <-> exists c, length_unit unit c /\ v = c * (z_u z + z0 * z_psi z)) /\
  (psi_unit unit z = Ok v <-> exists c, angle_unit unit c /\ v = c * z_psi z) /\
  (tau_unit p unit z = Ok v <-> exists c, stress_unit unit c /\ v = c * s_tau p true z) /\
  (sig_unit p unit z = Ok v <-> exists c, stress_unit unit c /\ v = c * s_sig p true z).
Proof.
  exact (conj (w_units unit z v) (conj (u_units z0 unit z v) (conj (psi_units unit z v)
    (conj (tau_units p unit z v) (sig_units p unit z v))))).
Qed.
Print Assumptions C53_units.
(** Output arrays. *)
Theorem C53_arrays o x z loc unit xs vs :
  (get_slab_displacement o x z loc unit = Ok (xs, vs) <->
    exists c a, length_unit unit c /\ location (hh (o_par o)) loc a /\
      xs = map (option_map (fun v => v / 10)) x /\ vs = map (fun q => c * (z_u q + a * z_psi q)) z) /\
  (get_slab_deflection x z unit = Ok (xs, vs) <->
    exists c, length_unit unit c /\ xs = map (option_map (fun v => v / 10)) x /\ vs = map (fun q => c * z_w q) z) /\
  (get_slab_rotation x z unit = Ok (xs, vs) <->
    exists c, angle_unit unit c /\ xs = map (option_map (fun v => v / 10)) x /\ vs = map (fun q => c * z_psi q) z).
Proof.
  exact (conj (displacement_out o x z loc unit xs vs) (conj (deflection_out x z unit xs vs) (rotation_out x z unit xs vs))).
Qed.
Print Assumptions C53_arrays.
Theorem C53_top_bottom o x z unit xt ut xb ub :
  get_slab_displacement o x z "top" unit = Ok (xt, ut) -> get_slab_displacement o x z "bot" unit = Ok (xb, ub) ->
  exists c, length_unit unit c /\ List.length ut = List.length z /\ List.length ub = List.length z /\
    forall i, (i < List.length z)%nat -> nth i ub 0 - nth i ut 0 = c * (hh (o_par o) * z_psi (nth i z (mkV 0 0 0 0 0 0))).
Proof. exact (top_bottom o x z unit xt ut xb ub). Qed.
Print Assumptions C53_top_bottom.
Example C53_example : exists xt ut xb ub,
  get_slab_displacement (ex_obj "skier" None 30) [Some 0; Some 5] [mkV 1 0 0 0 2 0; mkV 0 0 0 0 1 0] "top" "cm" = Ok (xt, ut) /\
  get_slab_displacement (ex_obj "skier" None 30) [Some 0; Some 5] [mkV 1 0 0 0 2 0; mkV 0 0 0 0 1 0] "bot" "cm" = Ok (xb, ub) /\
  nth 0 ub 0 - nth 0 ut 0 = 1 / 10 * 2.
Proof. eexists _, _, _, _. split; [reflexivity|]. split; [reflexivity|]. simpl. unfold f_u. simpl. lra. Qed.

(** C54: the stored energy of a solution of the boundary value problem is not negative if no end rests
    on a rotational spring (stage C of a touchdown). *)
Theorem C54_nonneg_partial o kR phi L li mi ki Cs P : lam_ok (o_par o) -> fnd_ok (o_par o) -> 0 <= L ->
  List.length Cs = List.length li -> List.length ki = List.length li ->
  0 < nth 0 li 0 -> 0 < last li 0 -> bvp o kR phi li mi ki Cs ->
  (kind_of (o_system o) = Some KPst ->
     (nth 0 ki false = true \/ o_mode o = Some ModeA \/ o_mode o = Some ModeB) /\
     (nth (List.length li - 1) ki false = true \/ o_mode o = Some ModeA \/ o_mode o = Some ModeB)) ->
  internal_potential o phi L Cs li ki = Ok P -> 0 <= P.
Proof. exact (stored_nonneg o kR phi L li mi ki Cs P). Qed.
Print Assumptions C54_nonneg_partial.
Lemma seg_at_Forall {A B} (Q : A -> Prop) x0 li (Cs : list A) (ki : list B) b l C k :
  Forall Q Cs -> seg_at x0 (combine li (combine Cs ki)) b l (C, k) -> Q C.
Proof.
  revert x0 Cs ki. induction li as [|l0 li IH]; intros x0 [|c Cs] [|k0 ki] F H; simpl in H; try (inversion H; fail).
  inversion F; subst. inversion H; subst; [assumption|]. eapply IH; eassumption.
Qed.
Lemma ex_potential system mode phi0 phi L Cs li ki : List.length Cs = List.length li -> List.length ki = List.length li ->
  Forall (fun C => List.length C = 6%nat) Cs -> li <> [] -> Forall (fun l => 0 < l) li -> hd false ki = true ->
  exists P, internal_potential (ex_obj system mode phi0) phi L Cs li ki = Ok P.
Proof.
  intros L1 L2 F6 Hn Hl Hk. set (o := ex_obj system mode phi0).
  destruct (raster_accepts (o_par o) (o_eig o) (loads_of o phi) Cs li ki 250 L1 L2) as ([[xq zq] xb] & E).
  - destruct li as [|l li]; [congruence|]. exists l. inversion Hl; subst. split; [left; reflexivity|lra].
  - intros b l C k H _ x. rewrite (six_zh o (ready_six o (ex_ready system mode phi0)) x (Rabs l) k).
    symmetry. exact (seg_at_Forall (fun C => List.length C = 6%nat) _ _ _ _ _ _ _ _ F6 H).
  - unfold internal_potential. rewrite E. cbn [bind].
    assert (H1 : (0 < List.length (present xb zq))%nat).
    { assert (H250 : (1 <= 250)%nat) by lia.
      pose proof (raster_foundation _ _ _ _ _ _ _ _ _ _ H250 E) as RF.
      destruct (raster_grid _ _ _ _ _ _ _ _ _ _ H250 E) as (_ & H0 & _ & _ & LL & LZ & _).
      destruct li as [|l li]; [congruence|]. destruct ki as [|k ki]; [discriminate|]. simpl in Hk. subst k.
      destruct xq as [|x0 xq]; [simpl in LL; lia|]. simpl in H0. subst x0.
      destruct zq as [|z0 zq]; [discriminate|]. inversion RF as [|? y ? yb Hy _]; subst.
      destruct Hy as [[_ ->]|[N _]]; [simpl; lia|]. exfalso. apply N. exists 0, l. split; [simpl; constructor|].
      inversion Hl; subst. pose proof (Rabs_pos l). split; [lra|split; lra]. }
    destruct (Nat.eqb_spec (List.length (present xb zq)) 0) as [Z|_]; [lia|]. eexists. reflexivity.
Qed.
Example C54_example : exists Cs P, bvp (ex_obj "pst-" (Some ModeA) 30) 0 (-30) [8; 2] [0] [true; false] Cs /\
  List.length Cs = 2%nat /\ internal_potential (ex_obj "pst-" (Some ModeA) 30) (-30) 10 Cs [8; 2] [true; false] = Ok P.
Proof.
  destruct (well_posed (fun _ => ex_ews) elim_solve (ex_obj "pst-" (Some ModeA) 30) true (-30)
    [8; 2] [0] [true; false] KPst 0 elim_sound elim_complete
    (ex_ready _ _ _) ex_stable ltac:(simpl; lia) ex_valid_pst ex_proper_pst eq_refl
    ltac:(discriminate) ltac:(discriminate) ltac:(discriminate)) as (Cs & _ & HB & L6 & F6 & _).
  destruct (ex_potential "pst-" (Some ModeA) 30 (-30) 10 Cs [8; 2] [true; false] L6 eq_refl F6) as (P & E);
    [discriminate|repeat constructor; lra|reflexivity|].
  exists Cs, P. split; [exact HB|]. split; [exact L6|exact E].
Qed.

(** C54 is false in stage C: the end term is the end moment times the squared end rotation. *)
Theorem C54_refuted : exists o phi L Cs li ki P, adm (o_par o) /\ 0 < L /\
  internal_potential o phi L Cs li ki = Ok P /\ P < 0.
Proof.
  destruct ex_negative as (P & E & N). eexists _, _, _, _, _, _, P. split; [|split; [|split; [exact E|exact N]]].
  - split; [exact ex_lam_ok|]. split; [exact ex_fnd_ok|simpl; lra].
  - lra.
Qed.
Print Assumptions C54_refuted.

(** C71: what the stored energy consists of. The slab's share is its strain energy plus an error
    that depends on the bending-extension coupling. *)
Theorem C71_shares_partial o phi L Cs li ki P xq zq xb : lam_ok (o_par o) ->
  internal_potential o phi L Cs li ki = Ok P ->
  rasterize_solution (o_par o) (o_eig o) (loads_of o phi) Cs li ki 250 = Ok (xq, zq, xb) ->
  let p := o_par o in
  P = L * mean (slab_energy p) zq + L * mean (coupling_error p) zq
      + L * mean (fun z => kn p * z_w z ^ 2 / 2 + kt p * (z_u z + hh p / 2 * z_psi z) ^ 2 / 2) (present xb zq)
      + 1 / 2 * end_moment o zq * end_rotation o zq ^ 2.
Proof. exact (potential_shares o phi L Cs li ki P xq zq xb). Qed.
Print Assumptions C71_shares_partial.
Theorem C71_no_coupling_partial p z : B11 p = 0 -> coupling_error p z = 0.
Proof. exact (no_coupling_error p z). Qed.
Print Assumptions C71_no_coupling_partial.
(** C71 is false: the weak layer's share is scaled with the whole length, here 2, instead of the supported length 1. *)
Theorem C71_refuted : exists o phi Cs li ki P xq zq xb, adm (o_par o) /\ B11 (o_par o) = 0 /\ kind_of (o_system o) = Some KSkier /\
  internal_potential o phi 2 Cs li ki = Ok P /\
  rasterize_solution (o_par o) (o_eig o) (loads_of o phi) Cs li ki 250 = Ok (xq, zq, xb) /\
  li = [1; 1] /\ ki = [true; false] /\
  P <> 2 * mean (slab_energy (o_par o)) zq + 1 * mean (layer_energy (o_par o)) (present xb zq).
Proof. exact ex_shares. Qed.
Print Assumptions C71_refuted.
(** The coupling error does not vanish in general. *)
Theorem C71_coupling_refuted : exists p z, adm p /\ coupling_error p z <> 0.
Proof.
  exists (mkPar 1 1 1 1 0 2 1 2 1 (-3)), (mkV 0 1 0 0 0 0). split.
  - unfold adm, lam_ok, fnd_ok. simpl. repeat split; lra.
  - unfold coupling_error, sN, sM. simpl. intros H. field_simplify in H. lra.
Qed.
Print Assumptions C71_coupling_refuted.
