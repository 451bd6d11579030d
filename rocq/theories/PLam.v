(** Laminate stiffness (C02-C05, C09) and object-level set-up. *)
From Coquelicot Require Import Coquelicot.
From Coq Require Import Sorted.
Require Import Verif.Py Verif.MTools Verif.MEigen Verif.SSlab Verif.PSlab
  Verif.PCog Verif.SAdm.

(** Plane-strain modulus and shear modulus over the depth. *)
Definition ps (slab : list ply) : list (R * R) :=
  map (fun q => (p_E q / (1 - p_nu q ^ 2), p_h q)) slab.
Definition sh (slab : list ply) : list (R * R) :=
  map (fun q => (p_G q, p_h q)) slab.
Definition slab_h (slab : list ply) : R := rsum (map p_h slab).

Lemma thickness_ps slab : thickness (ps slab) = slab_h slab.
Proof. induction slab as [|q r IH]; simpl; [reflexivity|]. unfold slab_h in *; simpl; congruence. Qed.
Lemma thickness_sh slab : thickness (sh slab) = slab_h slab.
Proof. induction slab as [|q r IH]; simpl; [reflexivity|]. unfold slab_h in *; simpl; congruence. Qed.

Lemma laminate_loop_closed slab h k acc A B D Sk :
  laminate_loop slab
    (map (fun c => c - h / 2) (acc :: cumsum_from acc (map p_h slab))) k A B D Sk
  = (A + pint F0 (acc - h / 2) (ps slab),
     B + pint F1 (acc - h / 2) (ps slab),
     D + pint F2 (acc - h / 2) (ps slab),
     Sk + k * pint F0 (acc - h / 2) (sh slab)).
Proof.
  revert acc A B D Sk; induction slab as [|q r IH]; intros acc A B D Sk.
  - simpl. f_equal; [f_equal; [f_equal|]|]; ring.
  - cbn [map cumsum_from laminate_loop ps sh pint].
    fold (ps r). fold (sh r).
    pose proof (IH (acc + p_h q)) as IH'. cbn [map] in IH'. rewrite IH'.
    replace (acc - h / 2 + p_h q) with (acc + p_h q - h / 2) by ring.
    unfold F0, F1, F2.
    f_equal; [f_equal; [f_equal|]|]; unfold Rdiv; ring.
Qed.

Lemma laminate_closed slab h k :
  calc_laminate_stiffness_matrix slab h k
  = let A := pint F0 (- h / 2) (ps slab) in
    let B := pint F1 (- h / 2) (ps slab) in
    let D := pint F2 (- h / 2) (ps slab) in
    let Sk := k * pint F0 (- h / 2) (sh slab) in
    (A, B, D, Sk, B ^ 2 - A * D).
Proof.
  unfold calc_laminate_stiffness_matrix, get_ply_coordinates, cumsum.
  cbn [cumsum_from]. replace (0 + 0) with 0 by ring.
  rewrite laminate_loop_closed.
  replace (0 - h / 2) with (- h / 2) by field.
  cbv zeta. rewrite !Rplus_0_l. reflexivity.
Qed.

(** C03 *)
Lemma laminate_integrals slab k :
  Forall (fun q => 0 < p_h q) slab ->
  let h := slab_h slab in
  let '(A, B, D, Sk, _) := calc_laminate_stiffness_matrix slab h k in
  A = depth_integral (ps slab) (fun _ => 1) /\
  B = depth_integral (ps slab) (fun z => z) /\
  D = depth_integral (ps slab) (fun z => z ^ 2) /\
  Sk = k * depth_integral (sh slab) (fun _ => 1).
Proof.
  intros H h. rewrite laminate_closed. cbv zeta.
  assert (pos_thick (ps slab)).
  { unfold ps. apply Forall_map. exact H. }
  assert (pos_thick (sh slab)).
  { unfold sh. apply Forall_map. exact H. }
  rewrite depth0, depth1, depth2, depth0 by assumption.
  rewrite thickness_ps, thickness_sh. auto.
Qed.

(** Ply coordinates. *)
Lemma cumsum_from_length acc l : List.length (cumsum_from acc l) = List.length l.
Proof. revert acc; induction l; intros; simpl; congruence. Qed.

Lemma cumsum_from_last acc l d :
  last (acc :: cumsum_from acc l) d = acc + rsum l.
Proof.
  revert acc; induction l as [|x l IH]; intros acc; [simpl; ring|].
  specialize (IH (acc + x)). cbn [cumsum_from].
  change (last (acc :: acc + x :: cumsum_from (acc + x) l) d)
    with (last (acc + x :: cumsum_from (acc + x) l) d).
  rewrite IH. simpl. ring.
Qed.

Lemma last_map {A B} (f : A -> B) l d d' : l <> [] ->
  last (map f l) d' = f (last l d).
Proof.
  induction l as [|a l IH]; [congruence|]. intros _.
  destruct l as [|b l']; [reflexivity|]. apply IH; discriminate.
Qed.

Lemma cumsum_from_sorted acc l : Forall (fun x => 0 < x) l ->
  Sorted Rlt (acc :: cumsum_from acc l).
Proof.
  intros H; revert acc; induction H as [|x l Hx Hl IH]; intros acc.
  - simpl; repeat constructor.
  - simpl. constructor; [apply IH|constructor; lra].
Qed.

Lemma Sorted_map {A B} (P : A -> A -> Prop) (Q : B -> B -> Prop) (f : A -> B) l :
  (forall a b, P a b -> Q (f a) (f b)) ->
  Sorted P l -> Sorted Q (map f l).
Proof.
  intros Hf; induction 1 as [|a l Hl IH Hh]; simpl; constructor; trivial.
  destruct Hh; simpl; constructor; auto.
Qed.

Lemma ply_coordinates slab :
  Forall (fun q => 0 < p_h q) slab ->
  let h := slab_h slab in
  let z := get_ply_coordinates slab h in
  List.length z = S (List.length slab) /\
  nth 0 z 0 = - h / 2 /\ last z 0 = h / 2 /\
  Sorted Rlt z.
Proof.
  intros H h z. unfold z, get_ply_coordinates, cumsum. cbn [cumsum_from].
  replace (0 + 0) with 0 by ring.
  split; [|split; [|split]].
  - rewrite map_length; simpl. rewrite cumsum_from_length, map_length. reflexivity.
  - simpl. field.
  - rewrite (last_map _ _ 0) by discriminate. rewrite cumsum_from_last. fold (slab_h slab). fold h. field.
  - apply (Sorted_map Rlt); [intros; lra|].
    apply cumsum_from_sorted. apply Forall_map. exact H.
Qed.

(** C04: positive definiteness. *)
Lemma pint_quadratic_pos s z0 l : pos_layers l -> l <> [] ->
  0 < s ^ 2 * pint F0 z0 l + 2 * s * pint F1 z0 l + pint F2 z0 l.
Proof.
  revert z0; induction l as [|[c h] r IH]; intros z0 Hp Hn; [congruence|].
  inversion Hp as [|x y [Hc Hh] Hr]; subst; simpl in Hc, Hh.
  cbn [pint].
  assert (P : 0 < s ^ 2 * (c * (F0 (z0 + h) - F0 z0))
              + 2 * s * (c * (F1 (z0 + h) - F1 z0))
              + c * (F2 (z0 + h) - F2 z0)).
  { unfold F0, F1, F2.
    replace (s ^ 2 * (c * (z0 + h - z0)) + 2 * s * (c * ((z0 + h) ^ 2 / 2 - z0 ^ 2 / 2))
             + c * ((z0 + h) ^ 3 / 3 - z0 ^ 3 / 3))
      with ((c * h) * ((s + z0 + h / 2) ^ 2 + h ^ 2 / 12)) by field.
    apply Rmult_lt_0_compat; [apply Rmult_lt_0_compat; lra|].
    pose proof (pow2_ge_0 (s + z0 + h / 2)). assert (0 < h ^ 2) by (apply pow_lt; lra).
    lra. }
  destruct r as [|l' r'].
  - simpl; lra.
  - specialize (IH (z0 + h) Hr ltac:(discriminate)). lra.
Qed.

Lemma good_ps slab : Forall good_ply slab -> pos_layers (ps slab).
Proof.
  intros H. unfold ps. apply Forall_map. eapply Forall_impl; [|exact H].
  intros q (Hh & HE & HG & Hn); simpl. split; [|exact Hh].
  apply Rdiv_lt_0_compat; [exact HE|]. nra.
Qed.
Lemma good_sh slab : Forall good_ply slab -> pos_layers (sh slab).
Proof.
  intros H. unfold sh. apply Forall_map. eapply Forall_impl; [|exact H].
  intros q (Hh & HE & HG & Hn); simpl. split; assumption.
Qed.

Lemma laminate_pos_def slab h k :
  Forall good_ply slab -> slab <> [] -> 0 < k ->
  let '(A, B, D, Sk, K) := calc_laminate_stiffness_matrix slab h k in
  0 < A /\ 0 < D /\ 0 < Sk /\ B ^ 2 < A * D /\ K < 0.
Proof.
  intros Hg Hn Hk. rewrite laminate_closed. cbv zeta.
  assert (Np : ps slab <> []) by (destruct slab; [congruence|discriminate]).
  assert (Ns : sh slab <> []) by (destruct slab; [congruence|discriminate]).
  pose proof (good_ps slab Hg) as Hp. pose proof (good_sh slab Hg) as Hs.
  pose proof (pint_F0_pos (ps slab) (- h / 2) Hp Np) as PA.
  pose proof (pint_F0_pos (sh slab) (- h / 2) Hs Ns) as PS.
  set (A := pint F0 (- h / 2) (ps slab)) in *.
  set (B := pint F1 (- h / 2) (ps slab)) in *.
  set (D := pint F2 (- h / 2) (ps slab)) in *.
  assert (Q0 : 0 < D).
  { pose proof (pint_quadratic_pos 0 (- h / 2) (ps slab) Hp Np) as Q.
    fold A B D in Q. lra. }
  assert (Q1 : B ^ 2 < A * D).
  { pose proof (pint_quadratic_pos (- B / A) (- h / 2) (ps slab) Hp Np) as Q.
    fold A B D in Q.
    replace ((- B / A) ^ 2 * A + 2 * (- B / A) * B + D)
      with ((A * D - B ^ 2) / A) in Q by (field; lra).
    apply Rmult_lt_compat_r with (r := A) in Q; [|exact PA].
    unfold Rdiv in Q. rewrite Rmult_assoc, Rinv_l in Q by lra. lra. }
  repeat split; try lra. apply Rmult_lt_0_compat; assumption.
Qed.

(** * Object level *)
Lemma pl_eq (p q : params) : kn p = kn q -> kt p = kt q -> wt p = wt q ->
  hh p = hh q -> zs p = zs q -> A11 p = A11 q -> B11 p = B11 q ->
  D11 p = D11 q -> kA55 p = kA55 q -> K0 p = K0 q -> p = q.
Proof. destruct p, q; simpl; intros; subst; reflexivity. Qed.

(** The slab matrix. *)
Definition user_slab (layers : list layer) (C0 C1 nu : R) : list ply :=
  map (fun l => let e := bergfeld (fst l) 917 C0 C1 in
                mkPly (fst l) (snd l) e (e / (2 * (1 + nu))) nu) layers.

Lemma build_user_slab layers C0 C1 nu :
  build_slab layers (map (fun r => bergfeld (fst r) 917 C0 C1) layers) nu
  = user_slab layers C0 C1 nu.
Proof.
  unfold build_slab, user_slab. induction layers as [|l r IH]; simpl; congruence.
Qed.

Lemma user_slab_h layers C0 C1 nu : slab_h (user_slab layers C0 C1 nu) = thickness layers.
Proof.
  unfold slab_h. induction layers as [|[a b] r IH]; simpl; [reflexivity|]. congruence.
Qed.

Section O.
Variable eig : mat6 -> list eigpair.

Lemma set_beam_list o layers C0 C1 nu update :
  layers <> [] ->
  set_beam_properties eig o (LList layers) C0 C1 nu update
  = Ok (let o1 := with_slab o (5 / 6) (fst (calc_center_of_gravity layers))
                    (snd (calc_center_of_gravity layers))
                    (user_slab layers C0 C1 nu) in
        if update then o_calc_fundamental_system eig o1 else o1).
Proof.
  intros Hn. destruct layers as [|l r]; [congruence|].
  unfold set_beam_properties. cbn [bind].
  destruct (calc_center_of_gravity (l :: r)) as [H z] eqn:E.
  rewrite build_user_slab. reflexivity.
Qed.

Lemma fundamental_par o :
  let o' := o_calc_fundamental_system eig o in
  let q := o_par o in
  let p := o_par o' in
  let lam := calc_laminate_stiffness_matrix (o_slab o) (hh q) (o_k o) in
  let fnd := calc_foundation_stiffness (o_weakE o) (o_weaknu o) (wt q) in
  p = mkPar (fst fnd) (snd fnd) (wt q) (hh q) (zs q)
        (fst (fst (fst (fst lam)))) (snd (fst (fst (fst lam))))
        (snd (fst (fst lam))) (snd (fst lam)) (snd lam)
  /\ o_eig o' = calc_eigensystem (eig (calc_system_matrix p))
  /\ o_slab o' = o_slab o.
Proof.
  destruct o as [g lski tol sys wE wnu p0 slab k phi q e td a L tc ra mo tdl].
  cbv zeta. simpl.
  unfold o_calc_fundamental_system, o_calc_laminate, o_calc_foundation_stiffness.
  simpl.
  destruct (calc_foundation_stiffness wE wnu (wt q)) as [n t] eqn:EF. simpl.
  destruct (calc_laminate_stiffness_matrix slab (hh q) k) as [[[[A B] D] Sk] K] eqn:EL.
  simpl. auto.
Qed.
End O.
