(** Proofs about the outputs. *)
Require Import Verif.Py Verif.MTools Verif.MEigen Verif.MFields Verif.MRaster Verif.MSolution Verif.MAnalysis
  Verif.SAdm Verif.SBeam Verif.SOutput Verif.PSetup.

Lemma conv_len_iff unit c : conv_len unit = Ok c <-> length_unit unit c.
Proof.
  split.
  - unfold conv_len.
    destruct (String.eqb_spec unit "m") as [->|]; [intros E; apply Ok_inj in E; subst; constructor|].
    destruct (String.eqb_spec unit "cm") as [->|]; [intros E; apply Ok_inj in E; subst; constructor|].
    destruct (String.eqb_spec unit "mm") as [->|]; [intros E; apply Ok_inj in E; subst; constructor|].
    destruct (String.eqb_spec unit "um") as [->|]; [intros E; apply Ok_inj in E; subst; constructor|discriminate].
  - intros []; reflexivity.
Qed.
Lemma conv_stress_iff unit c : conv_stress unit = Ok c <-> stress_unit unit c.
Proof.
  split.
  - unfold conv_stress.
    destruct (String.eqb_spec unit "kPa") as [->|]; [intros E; apply Ok_inj in E; subst; constructor|].
    destruct (String.eqb_spec unit "MPa") as [->|]; [intros E; apply Ok_inj in E; subst; constructor|discriminate].
  - intros []; reflexivity.
Qed.
Lemma mem_str_iff s l : mem_str s l = true <-> In s l.
Proof.
  unfold mem_str. rewrite existsb_exists. split.
  - intros (y & I & E). apply String.eqb_eq in E. subst. exact I.
  - intros I. exists s. split; [exact I|apply String.eqb_refl].
Qed.

(** C53, single columns. *)
Lemma w_units unit z v : w_unit unit z = Ok v <-> exists c, length_unit unit c /\ v = c * z_w z.
Proof.
  unfold w_unit. split.
  - destruct (conv_len unit) as [c|] eqn:E; [|discriminate]. intros H; apply Ok_inj in H. exists c. split; [apply conv_len_iff; exact E|congruence].
  - intros (c & E & ->). apply conv_len_iff in E. rewrite E. reflexivity.
Qed.
Lemma u_units z0 unit z v : u_unit z0 unit z = Ok v <-> exists c, length_unit unit c /\ v = c * (z_u z + z0 * z_psi z).
Proof.
  unfold u_unit. split.
  - destruct (conv_len unit) as [c|] eqn:E; [|discriminate]. intros H; apply Ok_inj in H. exists c. split; [apply conv_len_iff; exact E|].
    rewrite <- H. reflexivity.
  - intros (c & E & ->). apply conv_len_iff in E. rewrite E. reflexivity.
Qed.
Lemma psi_units unit z v : psi_unit unit z = Ok v <-> exists c, angle_unit unit c /\ v = c * z_psi z.
Proof.
  unfold psi_unit. split.
  - destruct (mem_str unit ["deg"; "degree"; "degrees"]%string) eqn:E1.
    + intros H; apply Ok_inj in H. exists (180 / PI). split; [constructor; apply mem_str_iff; exact E1|rewrite <- H; ring].
    + destruct (mem_str unit ["rad"; "radian"; "radians"]%string) eqn:E2; [|discriminate].
      intros H; apply Ok_inj in H. exists 1. split; [constructor; apply mem_str_iff; exact E2|rewrite <- H; ring].
  - intros (c & [s I|s I] & ->).
    + apply mem_str_iff in I. rewrite I. f_equal. ring.
    + assert (E1 : mem_str s ["deg"; "degree"; "degrees"]%string = false).
      { destruct I as [<-|[<-|[<-|[]]]]; reflexivity. }
      apply mem_str_iff in I. rewrite E1, I. f_equal. ring.
Qed.
Lemma tau_units p unit z v : tau_unit p unit z = Ok v <-> exists c, stress_unit unit c /\ v = c * s_tau p true z.
Proof.
  unfold tau_unit. split.
  - destruct (conv_stress unit) as [c|] eqn:E; [|discriminate]. intros H; apply Ok_inj in H. exists c. split; [apply conv_stress_iff; exact E|].
    rewrite <- H. unfold f_dw, f_u, f_psi, s_tau. field.
  - intros (c & E & ->). apply conv_stress_iff in E. rewrite E. cbn [bind]. f_equal. unfold f_dw, f_u, f_psi, s_tau. field.
Qed.
Lemma sig_units p unit z v : sig_unit p unit z = Ok v <-> exists c, stress_unit unit c /\ v = c * s_sig p true z.
Proof.
  unfold sig_unit. split.
  - destruct (conv_stress unit) as [c|] eqn:E; [|discriminate]. intros H; apply Ok_inj in H. exists c. split; [apply conv_stress_iff; exact E|].
    rewrite <- H. unfold f_w, s_sig. ring.
  - intros (c & E & ->). apply conv_stress_iff in E. rewrite E. cbn [bind]. f_equal. unfold f_w, s_sig. ring.
Qed.

(** Arrays of columns. *)
Section Cols.
Variables (U : string -> R -> Prop) (f : string -> vec6 -> res R) (g : vec6 -> R).
Hypothesis Hf : forall unit z v, f unit z = Ok v <-> exists c, U unit c /\ v = c * g z.
Hypothesis U_fun : forall unit c d, U unit c -> U unit d -> c = d.

Lemma columns_iff unit z vs : columns (f unit) z = Ok vs <-> exists c, U unit c /\ vs = map (fun a => c * g a) z.
Proof.
  unfold columns. split.
  - destruct (f unit (mkV 0 0 0 0 0 0)) as [v0|] eqn:E0; [|discriminate]. cbn [bind]. intros H.
    apply Hf in E0. destruct E0 as (c & Hc & _). exists c. split; [exact Hc|].
    revert vs H. induction z as [|a z IH]; intros vs H; simpl in H; [apply Ok_inj in H; subst; reflexivity|].
    destruct (f unit a) as [v|] eqn:Ea; [|discriminate]. simpl in H. destruct (mapM (f unit) z) as [ws|] eqn:Ew; [|discriminate].
    simpl in H. apply Ok_inj in H. subst vs. rewrite (IH ws eq_refl). simpl. f_equal.
    apply Hf in Ea. destruct Ea as (d & Hd & ->). rewrite (U_fun _ _ _ Hd Hc). reflexivity.
  - intros (c & Hc & ->). assert (E0 : f unit (mkV 0 0 0 0 0 0) = Ok (c * g (mkV 0 0 0 0 0 0))) by (apply Hf; eauto).
    rewrite E0. cbn [bind]. induction z as [|a z IH]; simpl; [reflexivity|].
    assert (Ea : f unit a = Ok (c * g a)) by (apply Hf; eauto). rewrite Ea. simpl. rewrite IH. reflexivity.
Qed.

Lemma stress_pairs unit x z removeNaNs xs ss : weaklayer_stress (f unit) x z removeNaNs = Ok (xs, ss) ->
  List.length x = List.length z /\ exists c, U unit c /\
  if removeNaNs
  then exists P, P = supported_pairs x (map (fun a => c * g a) z) /\ xs = map (fun q => Some (fst q)) P /\ ss = map (fun q => Some (snd q)) P
  else List.length xs = List.length x /\ List.length ss = List.length x /\
       forall i, (i < List.length x)%nat ->
         match nth i x None with
         | Some a => nth i xs None = Some (a / 10) /\ nth i ss None = Some (c * g (nth i z (mkV 0 0 0 0 0 0)))
         | None => nth i xs None = None /\ nth i ss None = None
         end.
Proof.
  unfold weaklayer_stress. destruct (columns (f unit) z) as [s|] eqn:Es; [|discriminate]. cbn [bind].
  destruct (Nat.eqb_spec (List.length x) (List.length z)) as [L|]; [|discriminate]. cbn [negb].
  apply columns_iff in Es. destruct Es as (c & Hc & ->). intros H. split; [exact L|]. exists c. split; [exact Hc|].
  destruct removeNaNs; apply Ok_inj in H.
  - eexists. split; [reflexivity|]. injection H as <- <-. unfold present, to_cm.
    revert z L. induction x as [|[a|] x IH]; intros [|b z] L; simpl in L; try discriminate; [split; reflexivity| |].
    + destruct (IH z ltac:(congruence)) as [I1 I2]. simpl. split; f_equal; [exact I1|exact I2].
    + destruct (IH z ltac:(congruence)) as [I1 I2]. simpl. split; [exact I1|exact I2].
  - injection H as <- <-. unfold to_cm. rewrite map_length. split; [reflexivity|].
    revert z L. induction x as [|a x IH]; intros [|b z] L; simpl in L; try discriminate.
    + split; [reflexivity|]. intros i Hi. simpl in Hi. lia.
    + destruct (IH z ltac:(congruence)) as [I1 I2]. split; [simpl in *; congruence|].
      intros [|i] Hi; [destruct a; simpl; auto|]. simpl in Hi. specialize (I2 i ltac:(lia)). exact I2.
Qed.
Lemma stress_total unit x z removeNaNs c : U unit c -> List.length x = List.length z ->
  exists xs ss, weaklayer_stress (f unit) x z removeNaNs = Ok (xs, ss).
Proof.
  intros Hc L. unfold weaklayer_stress.
  assert (E : columns (f unit) z = Ok (map (fun a => c * g a) z)) by (apply columns_iff; eauto).
  rewrite E. cbn [bind]. rewrite L, Nat.eqb_refl. simpl. destruct removeNaNs; eauto.
Qed.
End Cols.

Lemma length_unit_fun u c d : length_unit u c -> length_unit u d -> c = d.
Proof. intros [] H; inversion H; reflexivity. Qed.
Lemma stress_unit_fun u c d : stress_unit u c -> stress_unit u d -> c = d.
Proof. intros [] H; inversion H; reflexivity. Qed.
Lemma angle_unit_fun u c d : angle_unit u c -> angle_unit u d -> c = d.
Proof.
  intros [s I|s I] H; inversion H as [s' J|s' J]; subst; try reflexivity; exfalso;
    destruct I as [<-|[<-|[<-|[]]]]; destruct J as [J|[J|[J|[]]]]; discriminate.
Qed.

Lemma slab_loc_iff o loc a : slab_loc o loc = Ok a <-> location (hh (o_par o)) loc a.
Proof.
  unfold slab_loc. split.
  - destruct (String.eqb_spec loc "top") as [->|]; [intros E; apply Ok_inj in E; subst; constructor|].
    destruct (String.eqb_spec loc "mid") as [->|]; [intros E; apply Ok_inj in E; subst; constructor|].
    destruct (String.eqb_spec loc "bot") as [->|]; [intros E; apply Ok_inj in E; subst; constructor|discriminate].
  - intros []; reflexivity.
Qed.

(** C53, outputs. *)
Lemma displacement_out o x z loc unit xs us : get_slab_displacement o x z loc unit = Ok (xs, us) <->
  exists c a, length_unit unit c /\ location (hh (o_par o)) loc a /\
    xs = map (option_map (fun v => v / 10)) x /\ us = map (fun q => c * (z_u q + a * z_psi q)) z.
Proof.
  unfold get_slab_displacement. split.
  - destruct (slab_loc o loc) as [a|] eqn:E; [|discriminate]. cbn [bind]. apply slab_loc_iff in E.
    destruct (columns (u_unit a unit) z) as [u|] eqn:Eu; [|discriminate]. cbn [bind]. intros H; apply Ok_inj in H. injection H as <- <-.
    apply (columns_iff _ (u_unit a) (fun q => z_u q + a * z_psi q) (fun un q v => u_units a un q v) length_unit_fun) in Eu.
    destruct Eu as (c & Hc & ->). exists c, a. auto.
  - intros (c & a & Hc & Ha & -> & ->). apply slab_loc_iff in Ha. rewrite Ha. cbn [bind].
    assert (E : columns (u_unit a unit) z = Ok (map (fun q => c * (z_u q + a * z_psi q)) z)).
    { apply (columns_iff _ (u_unit a) (fun q => z_u q + a * z_psi q) (fun un q v => u_units a un q v) length_unit_fun). eauto. }
    rewrite E. reflexivity.
Qed.
Lemma deflection_out x z unit xs ws : get_slab_deflection x z unit = Ok (xs, ws) <->
  exists c, length_unit unit c /\ xs = map (option_map (fun v => v / 10)) x /\ ws = map (fun q => c * z_w q) z.
Proof.
  unfold get_slab_deflection. split.
  - destruct (columns (w_unit unit) z) as [u|] eqn:Eu; [|discriminate]. cbn [bind]. intros H; apply Ok_inj in H. injection H as <- <-.
    apply (columns_iff _ w_unit z_w w_units length_unit_fun) in Eu. destruct Eu as (c & Hc & ->). exists c. auto.
  - intros (c & Hc & -> & ->). assert (E : columns (w_unit unit) z = Ok (map (fun q => c * z_w q) z)).
    { apply (columns_iff _ w_unit z_w w_units length_unit_fun). eauto. }
    rewrite E. reflexivity.
Qed.
Lemma rotation_out x z unit xs rs : get_slab_rotation x z unit = Ok (xs, rs) <->
  exists c, angle_unit unit c /\ xs = map (option_map (fun v => v / 10)) x /\ rs = map (fun q => c * z_psi q) z.
Proof.
  unfold get_slab_rotation. split.
  - destruct (columns (psi_unit unit) z) as [u|] eqn:Eu; [|discriminate]. cbn [bind]. intros H; apply Ok_inj in H. injection H as <- <-.
    apply (columns_iff _ psi_unit z_psi psi_units angle_unit_fun) in Eu. destruct Eu as (c & Hc & ->). exists c. auto.
  - intros (c & Hc & -> & ->). assert (E : columns (psi_unit unit) z = Ok (map (fun q => c * z_psi q) z)).
    { apply (columns_iff _ psi_unit z_psi psi_units angle_unit_fun). eauto. }
    rewrite E. reflexivity.
Qed.
Lemma top_bottom o x z unit xt ut xb ub :
  get_slab_displacement o x z "top" unit = Ok (xt, ut) -> get_slab_displacement o x z "bot" unit = Ok (xb, ub) ->
  exists c, length_unit unit c /\ List.length ut = List.length z /\ List.length ub = List.length z /\
    forall i, (i < List.length z)%nat -> nth i ub 0 - nth i ut 0 = c * (hh (o_par o) * z_psi (nth i z (mkV 0 0 0 0 0 0))).
Proof.
  intros E1 E2. apply displacement_out in E1, E2. destruct E1 as (c & a & Hc & Ha & _ & ->). destruct E2 as (d & b & Hd & Hb & _ & ->).
  rewrite (length_unit_fun _ _ _ Hd Hc). inversion Ha; inversion Hb; subst. exists c. rewrite !map_length. repeat split; [exact Hc|].
  intros i Hi.
  rewrite (nth_indep _ 0 (c * (z_u (mkV 0 0 0 0 0 0) + hh (o_par o) / 2 * z_psi (mkV 0 0 0 0 0 0)))) by (rewrite map_length; exact Hi).
  rewrite (nth_indep (map (fun q => c * (z_u q + - hh (o_par o) / 2 * z_psi q)) z) 0 (c * (z_u (mkV 0 0 0 0 0 0) + - hh (o_par o) / 2 * z_psi (mkV 0 0 0 0 0 0)))) by (rewrite map_length; exact Hi).
  rewrite (map_nth (fun q => c * (z_u q + hh (o_par o) / 2 * z_psi q))), (map_nth (fun q => c * (z_u q + - hh (o_par o) / 2 * z_psi q))). field.
Qed.
