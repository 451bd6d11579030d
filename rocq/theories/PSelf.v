(** Proofs about self-propagation (C88). *)
From Coquelicot Require Import Coquelicot.
Require Import Verif.Py Verif.MTools Verif.MEigen Verif.MFields Verif.SAdm Verif.SSlab Verif.MRaster
  Verif.MSolution Verif.MAnalysis Verif.SBeam Verif.SBvp Verif.SEig Verif.SEnergy Verif.SContact Verif.SMirror Verif.MEnvelope Verif.MCriterion
  Verif.SSegment Verif.SSelf Verif.PLam Verif.PSetup Verif.PBvp Verif.PWell2 Verif.PBvp6 Verif.PEnergy Verif.PEnergy2 Verif.PContact Verif.PMirror Verif.PropEnergy Verif.PropMirror
  Verif.PCreate Verif.PCreate2.
Open Scope R_scope.

Lemma tip_sum_none ki n f : (forall j, (j < n)%nat -> ~ is_tip ki j) -> tip_sum ki n f = 0.
Proof.
  intros H. unfold tip_sum. assert (G : forall l, (forall j, In j l -> (j < n)%nat) ->
    rsum (map (fun j => if Bool.bool_dec (nth j ki false) (nth (S j) ki false) then 0 else f j) l) = 0).
  { induction l as [|j l IH]; intros Hl; [reflexivity|]. cbn [map]. unfold rsum in *. cbn [fold_right].
    destruct (Bool.bool_dec (nth j ki false) (nth (S j) ki false)) as [E|E]; [|destruct (H j (Hl j (or_introl eq_refl)) E)].
    rewrite IH; [lra|]. intros i Hi. apply Hl. right. exact Hi. }
  apply G. intros j Hj. apply in_seq in Hj. lia.
Qed.

Section S.
Variable eig : mat6 -> list eigpair.
Variable solve : nat -> matrix -> vector -> res vector.
Variable brent : R -> R -> list (R * R) -> bstep.
Variable maxeval : nat.

Lemma differential_value o phi Cs li ki mi cx cs ct :
  ready o -> List.length ki = List.length li -> List.length Cs = List.length li -> Forall (fun C => List.length C = 6%nat) Cs ->
  exists v, differential phi (mkSk o Cs li mi ki cx cs ct) = Ok v /\
  forall w, tip_weights ki (List.length li) w ->
    let z := end_state o phi li ki Cs in
    let n := (List.length li - 1)%nat in
    v = fracture_toughness_criterion (1000 * tip_sum ki n (fun j => w j * GI (o_par o) (z j)))
          (1000 * tip_sum ki n (fun j => w j * GII (o_par o) (z j))).
Proof.
  intros Rd Lk LC L6. unfold differential. cbn [k_obj k_C k_li k_ki].
  destruct (gdif_accepts (o_par o) (o_eig o) (loads_of o phi) Cs li ki "kJ/m^2" 1 ltac:(right; left; auto) Lk) as [[[g g1] g2] Eg].
  { intros j Hj _. split; [lia|]. rewrite six_zh by (apply ready_six; exact Rd).
    rewrite Forall_forall in L6. symmetry. apply L6. apply nth_In. lia. }
  rewrite Eg. cbn [bind]. exists (fracture_toughness_criterion (1000 * g1) (1000 * g2)). split; [reflexivity|]. intros w Hw. cbv zeta. set (z := end_state o phi li ki Cs). set (n := (List.length li - 1)%nat).
  destruct (gdif_value2 _ _ _ _ _ _ _ _ _ _ w Lk Hw Eg) as [(H & _ & H1 & H2)|(c & Hc & V)].
  - rewrite !tip_sum_none by (intros j Hj; apply H; unfold n in Hj; lia). rewrite H1, H2. reflexivity.
  - cbv zeta in V. destruct V as (V1 & V2 & _). destruct Hc as [[X _]|[[_ ->]|[X _]]]; try discriminate.
    rewrite V1, V2, !Rmult_1_l. reflexivity.
Qed.

Section Profile.
Variables (layers : list (R * R)) (E t : R).
Hypothesis P : pos_layers layers.
Hypothesis HE : 0 < E.
Hypothesis Ht : 0 < t.
Hypothesis So : sound_solver solve.
Hypothesis Co : complete_solver solve.
Hypothesis G : forall o, Layered eig "skiers" (LList layers) false = Ok o ->
  stable (o_par (model_obj eig o E t)) /\
  good_eigenpairs (calc_system_matrix (o_par (model_obj eig o E t))) (eig (calc_system_matrix (o_par (model_obj eig o E t)))).

Lemma check_value w phi li ki mi : (2 <= List.length li)%nat -> List.length ki = List.length li ->
  nth 0 ki false = true -> last ki false = true -> proper_segments li ki -> skier_weights li (List.length ki) w = Ok mi ->
  exists k o v, create_skier_object eig solve brent maxeval (LList layers) w phi li ki true E t = Ok k /\
    Layered eig "skiers" (LList layers) false = Ok o /\ same_model (model_obj eig o E t) (k_obj k) /\ ready (k_obj k) /\
    bvp (k_obj k) 0 phi li mi ki (k_C k) /\ differential phi k = Ok v /\
    (List.length (k_C k) = List.length li /\ Forall (fun C => List.length C = 6%nat) (k_C k)) /\
    forall w, tip_weights ki (List.length li) w ->
    let z := end_state (k_obj k) phi li ki (k_C k) in
    let n := (List.length li - 1)%nat in
    v = fracture_toughness_criterion (1000 * tip_sum ki n (fun j => w j * GI (o_par (k_obj k)) (z j)))
          (1000 * tip_sum ki n (fun j => w j * GII (o_par (k_obj k)) (z j))).
Proof.
  intros N2 Lk K0 K1 Pr Em.
  destruct (create_full eig solve brent maxeval layers w phi li ki true E t mi P HE Ht So Co G N2 Lk K0 K1 Pr Em)
    as (k & o & H1 & H2 & H3 & H4 & H5 & H6 & H7 & H8 & H9 & H10).
  destruct (differential_value (k_obj k) phi (k_C k) li ki (k_mi k) (k_x k) (k_sig k) (k_tau k) H4 Lk H9 H10) as (v & V1 & V2).
  assert (V : differential phi k = Ok v) by (rewrite <- V1; f_equal; destruct k; cbn in *; congruence).
  exists k, o, v. repeat (split; [first [exact H1|exact H2|exact H3|exact H4|exact H5|exact V|exact (conj H9 H10)]|]). exact V2.
Qed.

Lemma crack_weights total a : 0 < a < total -> skier_weights (middle_crack total a) 4 0 = Ok [0; 0; 0].
Proof.
  intros H. unfold skier_weights, middle_crack, rsum. cbn [Nat.eqb fold_right median_loop].
  unfold Rleb, Reqb. destruct (Rle_dec _ _) as [X|X]; [exfalso; lra|]. destruct (Rle_dec _ _) as [Y|Y]; [|exfalso; lra].
  destruct (Req_EM_T _ _) as [Z|Z]; [exfalso; lra|]. reflexivity.
Qed.
Lemma crack_proper total a : 0 < a < total -> proper_segments (middle_crack total a) middle_support.
Proof.
  intros H. split.
  - intros i Hi. unfold middle_crack in *. do 4 (destruct i as [|i]; [simpl; lra|]). simpl in Hi. lia.
  - exists 0%nat. unfold middle_crack. simpl. split; [lia|]. split; [reflexivity|lra].
Qed.
Lemma crack_tip_weights total a : tip_weights middle_support (List.length (middle_crack total a)) (fun _ => 1 / 2).
Proof.
  intros j Hj T. split; [|reflexivity]. intros [X|X]; exfalso.
  - specialize (X 0%nat ltac:(lia)). discriminate.
  - specialize (X 3%nat). simpl in X, Hj. destruct j as [|[|[|j]]]; [specialize (X ltac:(lia))|specialize (X ltac:(lia))|specialize (X ltac:(lia))|lia]; discriminate.
Qed.
Definition mean_of (f : vec6 -> R) (z : nat -> vec6) : R := (f (z 0%nat) + f (z 2%nat)) / 2.
Lemma crack_tip_sum total a f z : tip_sum middle_support (List.length (middle_crack total a) - 1) (fun j => 1 / 2 * f (z j)) = mean_of f z.
Proof.
  unfold tip_sum, mean_of, rsum, middle_support, middle_crack. cbn [List.length Nat.sub seq map nth fold_right].
  destruct (Bool.bool_dec true false) as [X|X]; [discriminate|]. destruct (Bool.bool_dec false false) as [Y|Y]; [|congruence].
  destruct (Bool.bool_dec false true) as [Z|Z]; [discriminate|]. lra.
Qed.

Lemma crack_value phi a : let total := 1000 * rsum (map snd layers) in 0 < a < total ->
  exists k o v, create_skier_object eig solve brent maxeval (LList layers) 0 phi (middle_crack total a) middle_support true E t = Ok k /\
    Layered eig "skiers" (LList layers) false = Ok o /\ same_model (model_obj eig o E t) (k_obj k) /\ ready (k_obj k) /\
    bvp (k_obj k) 0 phi (middle_crack total a) [0; 0; 0] middle_support (k_C k) /\ differential phi k = Ok v /\
    let z := end_state (k_obj k) phi (middle_crack total a) middle_support (k_C k) in
    v = fracture_toughness_criterion (1000 * mean_of (GI (o_par (k_obj k))) z) (1000 * mean_of (GII (o_par (k_obj k))) z).
Proof.
  intros total H. destruct (check_value 0 phi (middle_crack total a) middle_support [0; 0; 0]) as (k & o & v & H1 & H2 & H3 & H4 & H5 & H6 & _ & H8).
  - simpl. lia.
  - reflexivity.
  - reflexivity.
  - reflexivity.
  - apply crack_proper. exact H.
  - apply crack_weights. exact H.
  - exists k, o, v. repeat (split; [assumption|]). specialize (H8 _ (crack_tip_weights total a)). cbv zeta in H8 |- *. rewrite !crack_tip_sum in H8. exact H8.
Qed.

Lemma objective_eq phi a target : let total := 1000 * rsum (map snd layers) in
  g_delta_diff_objective eig solve brent maxeval a (LList layers) phi E t target
  = bind (create_skier_object eig solve brent maxeval (LList layers) 0 phi (middle_crack total a) middle_support true E t)
      (fun k => bind (differential phi k) (fun g => Ok (g - target))).
Proof.
  intros total. unfold g_delta_diff_objective, thickness. cbn [bind]. fold total. unfold middle_crack, middle_support.
  replace ((total - a) / 2) with (total / 2 - a / 2) by lra. reflexivity.
Qed.
Lemma same_obj w phi phi' li ki crack k k' :
  create_skier_object eig solve brent maxeval (LList layers) w phi li ki crack E t = Ok k ->
  create_skier_object eig solve brent maxeval (LList layers) w phi' li ki crack E t = Ok k' -> k_obj k = k_obj k'.
Proof.
  unfold create_skier_object. destruct (Layered eig "skiers" (LList layers) false) as [o|e]; [|discriminate]. cbn [bind].
  destruct (skier_weights li (List.length ki) w) as [mi|e]; [|discriminate]. cbn [bind].
  match goal with |- context [calc_segments ?a ?b ?c ?d ?e ?f ?g ?h ?i ?j ?k0 ?l ?m ?n ?o] => destruct (calc_segments a b c d e f g h i j k0 l m n o) as [[s|e'] o'] eqn:EC; [|discriminate] end.
  intros A B.
  destruct (assemble_and_solve eig solve o' false phi (s_li s) (s_mi s) (if crack then s_ki s else s_k0 s)) as [C|e]; [|discriminate]. cbn [bind] in A.
  destruct (rasterize_solution (o_par o') (o_eig o') (loads_of o' phi) C (s_li s) (if crack then s_ki s else s_k0 s) 800) as [[[xq z] xb]|e]; [|discriminate]. cbn [bind] in A.
  destruct (get_weaklayer_shearstress o' xb z "kPa" false) as [xt|e]; [|discriminate]. cbn [bind] in A.
  destruct (get_weaklayer_normalstress o' xb z "kPa" false) as [xs|e]; [|discriminate]. cbn [bind] in A.
  destruct (assemble_and_solve eig solve o' false phi' (s_li s) (s_mi s) (if crack then s_ki s else s_k0 s)) as [C'|e]; [|discriminate]. cbn [bind] in B.
  destruct (rasterize_solution (o_par o') (o_eig o') (loads_of o' phi') C' (s_li s) (if crack then s_ki s else s_k0 s) 800) as [[[xq' z'] xb']|e]; [|discriminate]. cbn [bind] in B.
  destruct (get_weaklayer_shearstress o' xb' z' "kPa" false) as [xt'|e]; [|discriminate]. cbn [bind] in B.
  destruct (get_weaklayer_normalstress o' xb' z' "kPa" false) as [xs'|e]; [|discriminate]. cbn [bind] in B.
  apply Ok_inj in A. apply Ok_inj in B. subst k k'. reflexivity.
Qed.
End Profile.
End S.

(** Mirrored states have the same energy release rates. *)
Lemma GI_mirror p z : GI p (mirror z) = GI p z. Proof. reflexivity. Qed.
Lemma GII_mirror p z : GII p (mirror z) = GII p z.
Proof. unfold GII, mirror. cbn [z_u z_psi z_dw]. f_equal. ring. Qed.
Lemma unloaded_continuous o phi x y : lam_ok (o_par o) -> transition o phi 0 x y ->
  GI (o_par o) x = GI (o_par o) y /\ GII (o_par o) x = GII (o_par o) y.
Proof.
  intros La (U & W & Ps & _ & _ & V). assert (K : 0 < kA55 (o_par o)) by (unfold lam_ok in La; tauto).
  assert (D : z_dw x = z_dw y).
  { unfold sV in V. rewrite Ps in V.
    assert (Z : kA55 (o_par o) * (z_dw x - z_dw y) = 0).
    { transitivity ((kA55 (o_par o) * (z_dw x + z_psi y)) - (kA55 (o_par o) * (z_dw y + z_psi y))); [ring|]. rewrite V.
      destruct (kind_of (o_system o)) as [[]|]; unfold Rdiv; ring. }
    apply Rmult_integral in Z. destruct Z; lra. }
  unfold GI, GII. rewrite U, W, Ps, D. auto.
Qed.
Lemma mirrored_tips o phi total a Cs Cs' : 0 < a < total -> ready o -> stable (o_par o) -> kind_of (o_system o) = Some KSkier ->
  bvp o 0 phi (middle_crack total a) [0; 0; 0] middle_support Cs ->
  bvp o 0 (- phi) (middle_crack total a) [0; 0; 0] middle_support Cs' ->
  forall f, f = GI \/ f = GII ->
  f (o_par o) (end_state o (- phi) (middle_crack total a) middle_support Cs' 0) = f (o_par o) (end_state o phi (middle_crack total a) middle_support Cs 2) /\
  f (o_par o) (end_state o (- phi) (middle_crack total a) middle_support Cs' 2) = f (o_par o) (end_state o phi (middle_crack total a) middle_support Cs 0).
Proof.
  intros H Rd St Kd B B' f Hf.
  assert (M := C24_mirror o o 0 phi KSkier (middle_crack total a) [0; 0; 0] middle_support Cs Cs'
    ltac:(repeat split) ltac:(repeat split) Kd Kd ltac:(auto) Rd St ltac:(lra) (crack_proper total a H) eq_refl eq_refl B B').
  assert (T : forall j, (j < 3)%nat -> forall phi Cs, bvp o 0 phi (middle_crack total a) [0; 0; 0] middle_support Cs ->
    transition o phi 0 (end_state o phi (middle_crack total a) middle_support Cs j)
      (field o phi (nth (S j) (middle_crack total a) 0) (nth (S j) middle_support false) (nth (S j) Cs []) 0)).
  { intros j Hj ph D (_ & _ & Q). specialize (Q j ltac:(simpl; lia)). replace (nth j [0; 0; 0] 0) with 0 in Q by (do 3 (destruct j as [|j]; [reflexivity|]); lia). exact Q. }
  assert (La : lam_ok (o_par o)) by apply Rd.
  assert (Fm : forall z, f (o_par o) (mirror z) = f (o_par o) z) by (intros z; destruct Hf; subst f; [apply GI_mirror|apply GII_mirror]).
  assert (Fc : forall phi x y, transition o phi 0 x y -> f (o_par o) x = f (o_par o) y).
  { intros ph x y Hx. destruct (unloaded_continuous o ph x y La Hx). destruct Hf; subst f; assumption. }
  split.
  - rewrite (Fc _ _ _ (T 2%nat ltac:(lia) _ _ B)). specialize (M 3%nat ((total - a) / 2) ltac:(simpl; lia) ltac:(simpl; lra)).
    unfold end_state. cbn [List.length middle_crack middle_support Nat.sub nth] in M |- *. rewrite M, Fm. replace ((total - a) / 2 - (total - a) / 2) with 0 by lra. reflexivity.
  - rewrite (Fc _ _ _ (T 0%nat ltac:(lia) _ _ B)). specialize (M 1%nat (a / 2) ltac:(simpl; lia) ltac:(simpl; lra)).
    unfold end_state. cbn [List.length middle_crack middle_support Nat.sub nth] in M |- *. rewrite M, Fm. replace (a / 2 - a / 2) with 0 by lra. reflexivity.
Qed.
