(** Facts about [create_skier_object] (C64 and NaN-freeness of uncracked stresses). *)
Require Import Verif.Py Verif.MTools Verif.MEigen Verif.MFields Verif.MRaster Verif.MSolution
  Verif.MAnalysis Verif.MEnvelope Verif.MCriterion Verif.SSegment Verif.PSetup.

Section S.
Variable eig : mat6 -> list eigpair.
Variable solve : nat -> matrix -> vector -> res vector.
Variable brent : R -> R -> list (R * R) -> bstep.
Variable maxeval : nat.

Lemma recalc_system o : o_system (o_calc_fundamental_system eig o) = o_system o /\ o_touchdown (o_calc_fundamental_system eig o) = o_touchdown o.
Proof.
  unfold o_calc_fundamental_system, o_calc_foundation_stiffness, o_calc_laminate, o_calc_eigensystem.
  destruct (calc_foundation_stiffness _ _ _) as [n t]. unfold with_kn_kt, with_par, with_eig. simpl.
  destruct (calc_laminate_stiffness_matrix _ _ _) as [[[[A B] D] Sk] K]. simpl. auto.
Qed.
Lemma layered_system system la td o : Layered eig system la td = Ok o -> o_system o = system /\ o_touchdown o = td.
Proof.
  unfold Layered. match goal with |- bind ?m _ = _ -> _ => destruct m as [o1|e] eqn:E; [|discriminate] end.
  cbn [bind]. intros H. apply Ok_inj in H. subst o.
  match goal with |- context [o_calc_fundamental_system eig ?x] => destruct (recalc_system x) as [-> ->] end.
  unfold set_foundation_properties, with_weak. simpl. unfold set_beam_properties in E.
  match type of E with bind ?m _ = _ => destruct m as [[ly El]|e]; [|discriminate] end. cbn [bind] in E.
  destruct (calc_center_of_gravity ly) as [h z]. apply Ok_inj in E. subst o1. auto.
Qed.
Lemma skiers_segments li mi ki k0 L a m phi cf ratio o s o' : o_system o = "skiers"%string -> o_touchdown o = false ->
  calc_segments eig solve brent maxeval li mi ki k0 L a m phi cf ratio o = (Ok s, o') -> s = mkSeg li mi ki k0.
Proof.
  intros S T. unfold calc_segments, sbind, calc_touchdown_system, sbind, calc_touchdown_mode.
  assert (E : o_touchdown (set_touchdown_attributes L a cf phi ratio o) = false) by exact T.
  rewrite E. unfold calc_touchdown_length, set_mode. cbn [o_mode].
  unfold segment_lists. intros H. injection H as H _. simpl in H. rewrite S in H. simpl in H. apply Ok_inj in H. symmetry. exact H.
Qed.
Lemma create_keeps profile w phi li ki crack E t k :
  create_skier_object eig solve brent maxeval profile w phi li ki crack E t = Ok k ->
  k_li k = li /\ skier_weights li (List.length ki) w = Ok (k_mi k) /\ k_ki k = (if crack then ki else map (fun _ => true) ki).
Proof.
  unfold create_skier_object. destruct (Layered eig "skiers" profile false) as [o|e] eqn:EL; [|discriminate]. cbn [bind].
  destruct (layered_system _ _ _ _ EL) as [S T].
  destruct (skier_weights li (List.length ki) w) as [mi|e]; [|discriminate]. cbn [bind].
  match goal with |- context [calc_segments ?a ?b ?c ?d ?e ?f ?g ?h ?i ?j ?k0 ?l ?m ?n ?o] => destruct (calc_segments a b c d e f g h i j k0 l m n o) as [[s|e'] o'] eqn:EC; [|discriminate] end.
  assert (Es : s = mkSeg li mi ki (map (fun _ => true) ki)).
  { refine (skiers_segments _ _ _ _ _ _ _ _ _ _ _ _ _ _ _ EC).
    - unfold set_foundation_properties. destruct (recalc_system (with_weak o E (1 / 4) t)) as [-> _]. exact S.
    - unfold set_foundation_properties. destruct (recalc_system (with_weak o E (1 / 4) t)) as [_ ->]. exact T. }
  subst s. cbn [s_li s_mi s_ki s_k0].
  destruct (assemble_and_solve _ _ _ _ _ _ _ _) as [C|e]; [|discriminate]. cbn [bind].
  destruct (rasterize_solution _ _ _ _ _ _ _) as [[[xq z] xb]|e]; [|discriminate]. cbn [bind].
  destruct (get_weaklayer_shearstress _ _ _ _ _) as [xt|e]; [|discriminate]. cbn [bind].
  destruct (get_weaklayer_normalstress _ _ _ _ _) as [xs|e]; [|discriminate]. cbn [bind].
  intros H. apply Ok_inj in H. subst k. auto.
Qed.

(** Uncracked solutions have no NaN stresses. *)
Lemma set_nth_true l i : Forall (fun b => b = true) l -> Forall (fun b => b = true) (set_nth l i true).
Proof. intros H. revert i. induction H as [|a l A H IH]; intros i; destruct i; simpl; auto. Qed.
Lemma tips_true ki : Forall (fun b => b = true) ki -> forall nq n m, Forall (fun b => b = true) m ->
  Forall (fun b => b = true) (raster_tips ki nq n m).
Proof.
  induction 1 as [|a l A H IH]; intros nq n m M; [destruct nq; exact M|]. destruct l as [|b l]; [destruct nq; exact M|].
  destruct nq as [|q nq]; [exact M|]. cbn [raster_tips]. apply IH. inversion H; subst. simpl. apply set_nth_true. exact M.
Qed.
Lemma mask0_true ki : Forall (fun b => b = true) ki -> forall nq, Forall (fun b => b = true) (raster_mask0 ki nq).
Proof.
  induction 1 as [|a l A H IH]; intros nq; [constructor|]. destruct nq as [|q nq]; [constructor|]. cbn [raster_mask0].
  apply Forall_app. split; [|apply IH]. rewrite A. apply Forall_forall. intros x X. apply repeat_spec in X. exact X.
Qed.
Lemma select_true m l : Forall (fun b : bool => b = true) l -> Forall (fun b => b = true) (select m l).
Proof. intros H. revert m. induction H as [|a l A H IH]; intros [|b m]; simpl; auto. destruct b; auto. Qed.
Definition present_all {A} (l : list (option A)) : Prop := Forall (fun v => v <> None) l.
Lemma raster_present p e ld Cs li ki num xq zq xb : Forall (fun b => b = true) ki ->
  rasterize_solution p e ld Cs li ki num = Ok (xq, zq, xb) -> present_all xb.
Proof.
  intros K. unfold rasterize_solution. destruct (negb _); [discriminate|].
  destruct (select _ (map Rabs li)) as [|l0 l1] eqn:E; [discriminate|]. rewrite <- E.
  destruct (raster_zq _ _ _ _ _ _ _) as [z|er]; [|discriminate]. cbn [bind]. intros H. apply Ok_inj in H.
  injection H as <- <- <-. set (m := raster_mask _ _).
  assert (M : Forall (fun b => b = true) m).
  { apply tips_true; [apply select_true; exact K|]. apply mask0_true, select_true, K. }
  set (x := raster_xq _ _ _). clearbody m x. clear - M. revert x. induction M as [|b m B M IH]; intros [|x xs]; simpl; constructor; [|apply IH].
  rewrite B. discriminate.
Qed.
Lemma stress_present f x z xs : present_all x -> weaklayer_stress f x z false = Ok xs -> present_all (fst xs) /\ present_all (snd xs).
Proof.
  intros P. unfold weaklayer_stress. destruct (columns f z) as [s|er]; [|discriminate]. cbn [bind].
  destruct (negb _); [discriminate|]. intros H. apply Ok_inj in H. subst xs. cbn [fst snd].
  assert (Q : present_all (to_cm x)).
  { unfold to_cm. clear - P. induction P as [|a l A P IH]; simpl; constructor; [destruct a; simpl; congruence|exact IH]. }
  split; [exact Q|]. clear - Q. revert s. induction Q as [|a l A Q IH]; intros [|b s]; simpl; constructor; [destruct a; congruence|apply IH].
Qed.
Lemma create_present profile w phi li ki E t k :
  create_skier_object eig solve brent maxeval profile w phi li ki false E t = Ok k ->
  present_all (k_x k) /\ present_all (k_sig k) /\ present_all (k_tau k).
Proof.
  unfold create_skier_object. destruct (Layered eig "skiers" profile false) as [o|e] eqn:EL; [|discriminate]. cbn [bind].
  destruct (layered_system _ _ _ _ EL) as [S T].
  destruct (skier_weights li (List.length ki) w) as [mi|e]; [|discriminate]. cbn [bind].
  match goal with |- context [calc_segments ?a ?b ?c ?d ?e ?f ?g ?h ?i ?j ?k0 ?l ?m ?n ?o] => destruct (calc_segments a b c d e f g h i j k0 l m n o) as [[s|e'] o'] eqn:EC; [|discriminate] end.
  assert (Es : s = mkSeg li mi ki (map (fun _ => true) ki)).
  { refine (skiers_segments _ _ _ _ _ _ _ _ _ _ _ _ _ _ _ EC).
    - unfold set_foundation_properties. destruct (recalc_system (with_weak o E (1 / 4) t)) as [-> _]. exact S.
    - unfold set_foundation_properties. destruct (recalc_system (with_weak o E (1 / 4) t)) as [_ ->]. exact T. }
  subst s. cbn [s_li s_mi s_ki s_k0].
  destruct (assemble_and_solve _ _ _ _ _ _ _ _) as [C|e]; [|discriminate]. cbn [bind].
  destruct (rasterize_solution _ _ _ _ _ _ _) as [[[xq z] xb]|e] eqn:ER; [|discriminate]. cbn [bind].
  assert (P : present_all xb).
  { refine (raster_present _ _ _ _ _ _ _ _ _ _ _ ER). clear. induction ki; simpl; auto. }
  destruct (get_weaklayer_shearstress _ _ _ _ _) as [xt|e] eqn:ET; [|discriminate]. cbn [bind].
  destruct (get_weaklayer_normalstress _ _ _ _ _) as [xs|e] eqn:ES; [|discriminate]. cbn [bind].
  destruct (stress_present _ _ _ _ P ET) as [_ Q1]. destruct (stress_present _ _ _ _ P ES) as [Q2 Q3].
  intros H. apply Ok_inj in H. subst k. auto.
Qed.
End S.

(** Maximum and minimum of present values. *)
Lemma oreduce_some f l : present_all l -> forall a, exists m, oreduce f (Some a) l = Some m.
Proof. induction 1 as [|v l V P IH]; intros a; simpl; [eauto|]. destruct v as [v|]; [apply IH|congruence]. Qed.
Lemma oreduce_max l : forall a m, oreduce Rmax (Some a) l = Some m ->
  (Some a = Some m \/ In (Some m) l) /\ a <= m /\ forall v, In (Some v) l -> v <= m.
Proof.
  induction l as [|b l IH]; intros a m; simpl.
  - intros H. injection H as <-. split; [auto|]. split; [lra|tauto].
  - destruct b as [b|].
    + intros H. destruct (IH _ _ H) as (A & B & C). pose proof (Rmax_l a b). pose proof (Rmax_r a b).
      split; [|split; [lra|intros v [V|V]; [injection V as <-; lra|apply C, V]]].
      destruct A as [A|A]; [|auto]. unfold Rmax in A. destruct (Rle_dec a b); injection A as <-; auto.
    + clear IH. intros H. exfalso. revert H. induction l as [|c l IH]; simpl; [discriminate|]. destruct c; exact IH.
Qed.
Lemma oreduce_min l : forall a m, oreduce Rmin (Some a) l = Some m ->
  (Some a = Some m \/ In (Some m) l) /\ m <= a /\ forall v, In (Some v) l -> m <= v.
Proof.
  induction l as [|b l IH]; intros a m; simpl.
  - intros H. injection H as <-. split; [auto|]. split; [lra|tauto].
  - destruct b as [b|].
    + intros H. destruct (IH _ _ H) as (A & B & C). pose proof (Rmin_l a b). pose proof (Rmin_r a b).
      split; [|split; [lra|intros v [V|V]; [injection V as <-; lra|apply C, V]]].
      destruct A as [A|A]; [|auto]. unfold Rmin in A. destruct (Rle_dec a b); injection A as <-; auto.
    + clear IH. intros H. exfalso. revert H. induction l as [|c l IH]; simpl; [discriminate|]. destruct c; exact IH.
Qed.
Lemma envelope_present e k d : present_all (k_sig k) -> present_all (k_tau k) -> envelope_of e k = Ok d -> present_all d.
Proof.
  unfold envelope_of, stress_envelope. destruct (stress_envelope1 _ _ _ _ 0 0) as [r|er]; [|discriminate]. cbn [bind].
  intros S T. generalize (k_tau k) T. clear T. induction S as [|s l A S IH] in d |- *; intros t T; simpl.
  - intros H. apply Ok_inj in H. subst d. constructor.
  - destruct t as [|t0 t]; [intros H; apply Ok_inj in H; subst d; constructor|]. inversion T as [|? ? T1 T2]; subst.
    destruct s as [s|]; [|congruence]. destruct t0 as [t0|]; [|congruence]. cbn [mapM].
    destruct (stress_envelope1 _ _ _ _ s t0) as [v|er]; [|discriminate]. cbn [bind].
    destruct (mapM _ (combine l t)) as [vs|er] eqn:EM; [|discriminate]. cbn [bind]. intros H. apply Ok_inj in H. subst d.
    constructor; [discriminate|]. exact (IH _ _ T2 EM).
Qed.
Lemma distances_extreme e k mx mn : present_all (k_sig k) -> present_all (k_tau k) -> distances e k = Ok (mx, mn) ->
  exists d M m, envelope_of e k = Ok d /\ mx = Some M /\ mn = Some m /\ In (Some M) d /\ In (Some m) d /\
    (forall v, In v d -> exists x, v = Some x /\ m <= x <= M).
Proof.
  intros S T. unfold distances. destruct (envelope_of e k) as [d|er] eqn:ED; [|discriminate]. cbn [bind].
  pose proof (envelope_present _ _ _ S T ED) as P. unfold np_max, np_min. destruct d as [|a d]; [discriminate|]. cbn [bind].
  intros H. apply Ok_inj in H. injection H as Hx Hn. inversion P as [|? ? A Q]; subst. destruct a as [a|]; [|congruence].
  destruct (oreduce_some Rmax d Q a) as [M EM]. destruct (oreduce_some Rmin d Q a) as [m Em].
  destruct (oreduce_max _ _ _ EM) as (M1 & M2 & M3). destruct (oreduce_min _ _ _ Em) as (m1 & m2 & m3).
  exists (Some a :: d), M, m. split; [reflexivity|]. split; [assumption|]. split; [assumption|].
  split; [destruct M1 as [M1|M1]; [rewrite M1; left; reflexivity|right; exact M1]|].
  split; [destruct m1 as [m1|m1]; [rewrite m1; left; reflexivity|right; exact m1]|].
  intros v [V|V]; [subst v; exists a; split; [reflexivity|lra]|].
  pose proof (proj1 (Forall_forall _ _) Q v V) as N. destruct v as [v|]; [|congruence]. exists v. split; [reflexivity|]. split; [apply m3, V|apply M3, V].
Qed.
