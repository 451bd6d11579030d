(** Centre of gravity (C01), layer subdivision at the level of the raw
    functions, vertical-face wedge (C06, C07). *)
From Coquelicot Require Import Coquelicot.
Require Import Verif.Py Verif.MTools Verif.MEigen Verif.SSlab Verif.PSlab.

Fixpoint upsum (c : R) (l : list (R * R)) : R :=
  match l with
  | [] => 0
  | (rho, h) :: r => (c - h / 2) * h * rho + upsum (c - h) r
  end.

Lemma cog_moment k l c :
  rsum (map3 (fun z hj r => z * hj * r)
          (map (fun j => c - rsum (firstn j (map snd l)) - nth j (map snd l) 0 / 2)
             (seq 0 (List.length l)))
          (map snd l) (map (fun x => k * fst x) l)) = k * upsum c l.
Proof.
  revert c; induction l as [|[rho h] r IH]; intros c; [simpl; ring|].
  cbn [List.length seq map map3 firstn nth rsum fold_right fst snd].
  fold (rsum (map3 (fun z hj r => z * hj * r)
     (map (fun j => c - rsum (firstn j (h :: map snd r)) - nth j (h :: map snd r) 0 / 2)
        (seq 1 (List.length r))) (map snd r) (map (fun x => k * fst x) r))).
  rewrite <- seq_shift, map_map.
  rewrite (map_ext _ (fun j => (c - h) - rsum (firstn j (map snd r))
                               - nth j (map snd r) 0 / 2)).
  - rewrite IH. simpl. field.
  - intros j. cbn [firstn nth rsum fold_right]. unfold rsum. ring.
Qed.

Lemma rsum_app a b : rsum (a ++ b) = rsum a + rsum b.
Proof. induction a as [|x a IH]; simpl; [|rewrite IH]; ring. Qed.

Lemma rsum_snd l : rsum (map snd l) = thickness l.
Proof. induction l as [|[c h] r IH]; simpl; congruence. Qed.

Lemma rsum_mass k l : rsum (map2 Rmult (map snd l) (map (fun x => k * fst x) l))
  = k * pint F0 0 l.
Proof.
  assert (G : forall z0, rsum (map2 Rmult (map snd l) (map (fun x => k * fst x) l))
                         = k * pint F0 z0 l).
  { induction l as [|[c h] r IH]; intros z0; simpl; [ring|].
    rewrite (IH (z0 + h)). unfold F0. ring. }
  apply G.
Qed.

Lemma pint_F0_shift z0 z1 l : pint F0 z0 l = pint F0 z1 l.
Proof.
  revert z0 z1; induction l as [|[c h] r IH]; intros z0 z1; simpl; [ring|].
  rewrite (IH (z0 + h) (z1 + h)). unfold F0; ring.
Qed.

Lemma pint_F0_rev z0 z1 l : pint F0 z0 (rev l) = pint F0 z1 l.
Proof.
  rewrite (pint_rev_odd F0 (-1)).
  - rewrite (pint_F0_shift _ z1). ring.
  - ring.
  - intros; unfold F0; ring.
Qed.

Lemma upsum_pint c l : upsum c l = pint F1 (c - thickness l) (rev l).
Proof.
  revert c; induction l as [|[rho h] r IH]; intros c; simpl; [ring|].
  rewrite IH, pint_app, thickness_rev; simpl. unfold F1.
  replace (c - (h + thickness r) + thickness r) with (c - h) by ring.
  replace (c - (h + thickness r)) with (c - h - thickness r) by ring. field.
Qed.

Lemma cog_closed layers :
  calc_center_of_gravity layers
  = (thickness layers,
     (1 / 1000000000000 * pint F1 (- thickness layers / 2) layers)
     / (1 / 1000000000000 * pint F0 (- thickness layers / 2) layers)).
Proof.
  unfold calc_center_of_gravity.
  rewrite rsum_snd, thickness_rev. f_equal.
  rewrite rsum_mass. rewrite <- (rev_length layers), cog_moment.
  rewrite upsum_pint, rev_involutive, thickness_rev.
  rewrite (pint_F0_rev 0 (- thickness layers / 2)).
  replace (thickness layers / 2 - thickness layers)
    with (- thickness layers / 2) by field.
  reflexivity.
Qed.

Lemma cog_snd layers : pos_layers layers -> layers <> [] ->
  snd (calc_center_of_gravity layers)
  = pint F1 (- thickness layers / 2) layers / pint F0 (- thickness layers / 2) layers.
Proof.
  intros Hp Hn. rewrite cog_closed; simpl.
  pose proof (pint_F0_pos layers (- thickness layers / 2) Hp Hn).
  field. lra.
Qed.

Lemma cog_centroid layers : pos_layers layers -> layers <> [] ->
  calc_center_of_gravity layers
  = (thickness layers,
     depth_integral layers (fun z => z) / depth_integral layers (fun _ => 1)).
Proof.
  intros Hp Hn.
  rewrite (surjective_pairing (calc_center_of_gravity layers)).
  rewrite cog_snd by assumption. rewrite cog_closed; simpl.
  rewrite depth0, depth1 by (apply pos_layers_thick; assumption). reflexivity.
Qed.

Lemma cog_inside layers : pos_layers layers -> layers <> [] ->
  - thickness layers / 2 < snd (calc_center_of_gravity layers) < thickness layers / 2.
Proof.
  intros Hp Hn. rewrite cog_snd by assumption.
  pose proof (pint_F0_pos layers (- thickness layers / 2) Hp Hn) as P0.
  pose proof (pint_F1_bounds layers (- thickness layers / 2) Hp Hn) as [B1 B2].
  replace (- thickness layers / 2 + thickness layers)
    with (thickness layers / 2) in B2 by field.
  split.
  - apply (Rlt_div_r _ _ _ P0); exact B1.
  - apply (Rlt_div_l _ _ _ P0); exact B2.
Qed.

Lemma pos_layers_rev l : pos_layers l -> pos_layers (rev l).
Proof. apply Forall_rev. Qed.

Lemma cog_rev layers : pos_layers layers -> layers <> [] ->
  calc_center_of_gravity (rev layers)
  = (fst (calc_center_of_gravity layers), - snd (calc_center_of_gravity layers)).
Proof.
  intros Hp Hn.
  assert (Hr : rev layers <> []).
  { intros E; apply Hn. rewrite <- (rev_involutive layers), E; reflexivity. }
  rewrite (surjective_pairing (calc_center_of_gravity (rev layers))).
  rewrite !cog_snd by (trivial; apply pos_layers_rev; trivial).
  rewrite !cog_closed; simpl. rewrite thickness_rev. f_equal.
  rewrite (pint_rev_odd F1 1).
  2: ring. 2: intros; unfold F1; field.
  rewrite (pint_F0_rev _ (- thickness layers / 2)).
  replace (- (- thickness layers / 2) - thickness layers)
    with (- thickness layers / 2) by field.
  pose proof (pint_F0_pos layers (- thickness layers / 2) Hp Hn). field. lra.
Qed.
