(** Cracks just beyond full contact (C109): springs are continuous in the length, and the bracket of the contact length
    misses its root. *)
From Coq Require Import Lra Lia.
From Coquelicot Require Import Coquelicot.
Require Import Verif.Py Verif.MTools Verif.MEigen Verif.MFields Verif.SAdm Verif.MRaster
  Verif.MSolution Verif.SBeam Verif.SBvp Verif.SEig Verif.SSplit Verif.SContact Verif.SWindow Verif.PSetup Verif.PBeam Verif.PBeam2
  Verif.PBalance Verif.PWell Verif.PBvp5 Verif.PWell2 Verif.PWell3 Verif.PSub Verif.PTouch Verif.PContact Verif.PropDepend Verif.PRigid Verif.PWindow Verif.PWindow2.
Open Scope R_scope.

(** ** Continuity of the springs *)
Section Springs.
Variable eig : mat6 -> list eigpair.
Variable solve : nat -> matrix -> vector -> res vector.
Hypotheses (Hso : sound_solver solve) (Hco : complete_solver solve).
Variables (o : obj) (support dof : string).
Hypotheses (Hsr : substitute_ready eig o support) (Hd : dof = "rot"%string \/ dof = "trans"%string).
Let o2 := subst_obj eig o support dof.

Definition top_of (l : R) : R :=
  match assemble_and_solve_with solve (Err RuntimeError) o2 false 0 [l; 0] [0] [true; true] with
  | Ok (C0 :: _) => if String.eqb dof "rot" then z_psi (field o2 0 l true C0 0) else z_w (field o2 0 l true C0 0)
  | _ => 0
  end.
Lemma top_spring l : 0 < l -> spring_of eig solve o support dof l = Rabs (1 / top_of l).
Proof.
  intros Hl. destruct (subst_ready eig o support dof Hsr Hd) as (Hr & _).
  destruct (sub_solver_returns eig solve o l support dof Hso Hco Hsr Hl Hd) as (C0 & C1 & L6 & E).
  unfold spring_of. rewrite (sub_unfold eig solve o l support dof C0 C1 Hd Hr Hl L6 E).
  unfold top_of, o2. rewrite E. reflexivity.
Qed.
Lemma top_continuous l0 e : 0 < l0 -> 0 < e -> exists d, 0 < d /\ forall l, 0 < l -> Rabs (l - l0) < d -> Rabs (top_of l - top_of l0) <= e.
Proof.
  intros H0 He. destruct (subst_ready eig o support dof Hsr Hd) as (Hr & Hs & _ & _ & Es). fold o2 in Hr, Hs, Es.
  assert (Hkd : exists kd, kind_of (o_system o2) = Some kd /\ kd <> KPst /\ kd <> KVpst).
  { rewrite Es. destruct Hd as [->| ->]; eexists; (split; [reflexivity|split; discriminate]). }
  destruct Hkd as (kd & Hkd & N1 & N2).
  assert (HB : forall l, 0 < l -> exists C0 C1, List.length C0 = 6%nat /\ List.length C1 = 6%nat /\ bvp o2 0 0 [l; 0] [0] [true; true] [C0; C1] /\
    assemble_and_solve_with solve (Err RuntimeError) o2 false 0 [l; 0] [0] [true; true] = Ok [C0; C1]).
  { intros l Hl. destruct (sub_solver_returns eig solve o l support dof Hso Hco Hsr Hl Hd) as (C0 & C1 & L6 & E). fold o2 in E.
    exists C0, C1. split; [exact L6|].
    pose proof (solved_with solve (Err RuntimeError) 0 o2 false 0 [l; 0] [0] [true; true] [C0; C1] kd Hso (ready_six o2 Hr)
      ltac:(simpl; lia) Hkd ltac:(intros; contradiction) ltac:(intros; contradiction) E) as B.
    split; [|split; [exact B|exact E]].
    unfold assemble_and_solve_with in E. destruct (check_segments _ _ _ _); [|discriminate]. cbn [bind] in E.
    destruct (Nat.eqb_spec (List.length [l; 0]) 1) as [C|_]; [discriminate|]. cbn [bind] in E.
    destruct (assemble _ _ _ _ _ _) as [[[zh0 zp0] rhs]|]; [|discriminate]. cbn [bind] in E.
    destruct (solve _ _ _) as [x|]; [|discriminate]. cbn [bind] in E. injection E as <- <-. reflexivity. }
  destruct (HB l0 H0) as (C0 & C1 & L0 & L1 & B0 & E0).
  assert (Hp : proper_segments [l0; 0] [true; true]).
  { split; [intros i Hi; destruct i as [|[|]]; simpl; try lra; simpl in Hi; lia|].
    exists 0%nat. simpl. repeat split; [lia|exact H0]. }
  destruct (C91_continuous o2 0 0 [true; true] kd [l0; 0] [0] [C0; C1] e Hr Hs Hkd ltac:(intros; contradiction) ltac:(intros; contradiction)
    ltac:(intros; contradiction) ltac:(lra) ltac:(simpl; lia) eq_refl Hp ltac:(split; [reflexivity|repeat constructor; assumption]) B0 He) as (d & Pd & H).
  exists d. split; [exact Pd|]. intros l Hl Hn. destruct (HB l Hl) as (D0 & D1 & M0 & M1 & B & E).
  destruct (H [l; 0] [0] [D0; D1] eq_refl ltac:(split; [reflexivity|repeat constructor; assumption]) B) with (i := 0%nat) (s := 0) (s0 := 0)
    as (_ & _ & K1 & _ & K2 & _).
  - intros i Hi. destruct i as [|[|]]; simpl; [exact Hn|rewrite Rminus_diag_eq, Rabs_R0 by reflexivity; exact Pd|simpl in Hi; lia].
  - intros i Hi. destruct i as [|]; simpl; [rewrite Rminus_diag_eq, Rabs_R0 by reflexivity; exact Pd|simpl in Hi; lia].
  - simpl; lia.
  - simpl; lra.
  - rewrite Rminus_diag_eq, Rabs_R0 by reflexivity; exact Pd.
  - unfold top_of. rewrite E, E0. destruct (String.eqb dof "rot"); [exact K2|exact K1].
Qed.
Lemma spring_continuous l0 : 0 < l0 -> 0 < spring_of eig solve o support dof l0 -> continuous (spring_of eig solve o support dof) l0.
Proof.
  intros H0 Hk. rewrite top_spring in Hk by exact H0.
  assert (Z : top_of l0 <> 0).
  { intros Z. rewrite Z in Hk. unfold Rdiv in Hk. rewrite Rinv_0, Rmult_0_r, Rabs_R0 in Hk. lra. }
  assert (CT : continuous top_of l0).
  { apply continuity_pt_filterlim. intros e He. destruct (top_continuous l0 (e / 2) H0 ltac:(lra)) as (d & Pd & H).
    exists (Rmin d l0). split; [apply Rmin_glb_lt; lra|]. intros x [_ Hx]. unfold dist in *. simpl in *. unfold R_dist in *.
    pose proof (Rmin_l d l0). pose proof (Rmin_r d l0). apply Rle_lt_trans with (e / 2); [|lra].
    apply H; [|lra]. apply Rabs_def2 in Hx. lra. }
  apply (continuous_ext_loc _ (fun l => Rabs (/ top_of l))).
  - exists (mkposreal l0 H0). intros y Hy. unfold ball in Hy. simpl in Hy. unfold AbsRing_ball, abs, minus, plus, opp in Hy. simpl in Hy.
    rewrite top_spring; [unfold Rdiv; rewrite Rmult_1_l; reflexivity|]. apply Rabs_def2 in Hy. lra.
  - apply (continuous_comp (fun l => / top_of l) Rabs); [|apply continuous_Rabs].
    apply (continuous_comp top_of Rinv); [exact CT|]. apply continuous_Rinv. exact Z.
Qed.
End Springs.
