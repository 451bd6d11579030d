(** The object behind a skier model does not depend on the skier (C103). *)
From Coquelicot Require Import Coquelicot.
Require Import Verif.Py Verif.MTools Verif.MEigen Verif.MFields Verif.SAdm Verif.SSlab Verif.MRaster
  Verif.MSolution Verif.MAnalysis Verif.SBeam Verif.SBvp Verif.SEig Verif.SEnergy Verif.SContact Verif.MEnvelope Verif.MCriterion
  Verif.SSegment Verif.SSelf Verif.PSetup Verif.PSegment Verif.PCreate Verif.PCreate2.
Open Scope R_scope.

Section S.
Variable eig : mat6 -> list eigpair.
Variable solve : nat -> matrix -> vector -> res vector.
Variable brent : R -> R -> list (R * R) -> bstep.
Variable maxeval : nat.

Lemma skiers_obj li mi mi' ki k0 o : o_system o = "skiers"%string -> o_touchdown o = false ->
  snd (calc_segments eig solve brent maxeval li mi ki k0 10000 0 0 0 (1 / 2) 1000 o)
  = snd (calc_segments eig solve brent maxeval li mi' ki k0 10000 0 0 0 (1 / 2) 1000 o).
Proof.
  intros S T. unfold calc_segments, sbind, calc_touchdown_system, sbind, calc_touchdown_mode.
  assert (E : o_touchdown (set_touchdown_attributes 10000 0 (1 / 2) 0 1000 o) = false) by exact T.
  rewrite E. unfold calc_touchdown_length, set_mode. cbn [o_mode]. unfold segment_lists. simpl.
  reflexivity.
Qed.

Lemma same_obj_weight layers E t w w' phi li ki crack k k' :
  create_skier_object eig solve brent maxeval (LList layers) w phi li ki crack E t = Ok k ->
  create_skier_object eig solve brent maxeval (LList layers) w' phi li ki crack E t = Ok k' -> k_obj k = k_obj k'.
Proof.
  unfold create_skier_object. destruct (Layered eig "skiers" (LList layers) false) as [o|e] eqn:L; [|discriminate]. cbn [bind].
  destruct (skier_weights li (List.length ki) w) as [mi|e]; [|discriminate].
  destruct (skier_weights li (List.length ki) w') as [mi'|e]; [|discriminate]. cbn [bind].
  destruct (layered_system _ _ _ _ _ L) as [S T].
  pose proof (skiers_obj li mi mi' ki (map (fun _ => true) ki) (model_obj eig o E t)) as Q.
  assert (S1 : o_system (model_obj eig o E t) = "skiers"%string /\ o_touchdown (model_obj eig o E t) = false).
  { unfold model_obj, set_foundation_properties. destruct (recalc_system eig (with_weak o E (1 / 4) t)) as [-> ->]. split; [exact S|exact T]. }
  specialize (Q (proj1 S1) (proj2 S1)). unfold model_obj in Q.
  match goal with |- context [calc_segments ?a ?b ?c ?d ?e mi ?g ?h ?i ?j ?k0 ?l ?m ?n ?o] => destruct (calc_segments a b c d e mi g h i j k0 l m n o) as [[s|e'] o1] eqn:EC; [|discriminate] end.
  match goal with |- context [calc_segments ?a ?b ?c ?d ?e mi' ?g ?h ?i ?j ?k0 ?l ?m ?n ?o] => destruct (calc_segments a b c d e mi' g h i j k0 l m n o) as [[s'|e'] o2] eqn:EC'; [|discriminate] end.
  cbn [snd] in Q. subst o2.
  intros A B.
  destruct (assemble_and_solve eig solve o1 false phi (s_li s) (s_mi s) (if crack then s_ki s else s_k0 s)) as [C|e]; [|discriminate]. cbn [bind] in A.
  destruct (rasterize_solution (o_par o1) (o_eig o1) (loads_of o1 phi) C (s_li s) (if crack then s_ki s else s_k0 s) 800) as [[[xq z] xb]|e]; [|discriminate]. cbn [bind] in A.
  destruct (get_weaklayer_shearstress o1 xb z "kPa" false) as [xt|e]; [|discriminate]. cbn [bind] in A.
  destruct (get_weaklayer_normalstress o1 xb z "kPa" false) as [xs|e]; [|discriminate]. cbn [bind] in A.
  destruct (assemble_and_solve eig solve o1 false phi (s_li s') (s_mi s') (if crack then s_ki s' else s_k0 s')) as [C'|e]; [|discriminate]. cbn [bind] in B.
  destruct (rasterize_solution (o_par o1) (o_eig o1) (loads_of o1 phi) C' (s_li s') (if crack then s_ki s' else s_k0 s') 800) as [[[xq' z'] xb']|e]; [|discriminate]. cbn [bind] in B.
  destruct (get_weaklayer_shearstress o1 xb' z' "kPa" false) as [xt'|e]; [|discriminate]. cbn [bind] in B.
  destruct (get_weaklayer_normalstress o1 xb' z' "kPa" false) as [xs'|e]; [|discriminate]. cbn [bind] in B.
  apply Ok_inj in A. apply Ok_inj in B. subst k k'. reflexivity.
Qed.
End S.

(** Placing skiers is linear in their weight. *)
Lemma weights_lin li n w mi : skier_weights li n w = Ok mi -> forall w', exists mi', skier_weights li n w' = Ok mi'.
Proof.
  unfold skier_weights. destruct (Nat.eqb n 0); [discriminate|]. destruct (median_loop _ _ _ _) as [m|e]; [|discriminate]. cbn [bind].
  destruct (Nat.ltb _ _); [|discriminate]. intros _ w'. eexists. reflexivity.
Qed.
Lemma weights_between li n w1 w2 t m1 m2 m3 : skier_weights li n w1 = Ok m1 -> skier_weights li n w2 = Ok m2 ->
  skier_weights li n ((1 - t) * w1 + t * w2) = Ok m3 -> forall i, nth i m3 0 = (1 - t) * nth i m1 0 + t * nth i m2 0.
Proof.
  unfold skier_weights. destruct (Nat.eqb n 0); [discriminate|]. destruct (median_loop _ _ _ _) as [m|e]; [|discriminate]. cbn [bind].
  set (j := match m with Some i => i | None => (n - 1 - 1)%nat end).
  destruct (Nat.ltb_spec j (n - 1)) as [L|L]; [|discriminate]. intros A B C i.
  apply Ok_inj in A. apply Ok_inj in B. apply Ok_inj in C. subst m1 m2 m3.
  destruct (set_nth_repeat _ _ w1 L) as (_ & A1 & A2). destruct (set_nth_repeat _ _ w2 L) as (_ & B1 & B2).
  destruct (set_nth_repeat _ _ ((1 - t) * w1 + t * w2) L) as (_ & C1 & C2).
  destruct (Nat.eq_dec i j) as [->|N]; [rewrite A1, B1, C1; reflexivity|rewrite (A2 i N), (B2 i N), (C2 i N); ring].
Qed.
