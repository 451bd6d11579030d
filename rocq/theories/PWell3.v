(** Existence and uniqueness of the solution (C67), substitute stiffness (C68). *)
From Coquelicot Require Import Coquelicot.
From Coq Require Import Permutation.
Require Import Verif.Py Verif.MTools Verif.MEigen Verif.MFields Verif.SAdm Verif.MRaster
  Verif.MSolution Verif.SBeam Verif.SBvp Verif.SEig Verif.PSetup Verif.PBeam Verif.PBeam2
  Verif.PBvp Verif.PBvp2 Verif.PBvp3 Verif.PBvp4 Verif.PBvp5 Verif.PBalance Verif.PLinAlg
  Verif.PWell Verif.PIndep Verif.PWell2.

Definition six_each (n : nat) (Cs : list (list R)) : Prop :=
  List.length Cs = n /\ Forall (fun C => List.length C = 6%nat) Cs.

Definition flat (Cs : list (list R)) : nat -> R := fun r => nth (r mod 6) (nth (r / 6) Cs []) 0.

Lemma reshape_flat n Cs : six_each n Cs -> reshape_constants n (flat Cs) = Cs.
Proof.
  intros [HL HF]. apply (nth_ext _ _ [] []).
  - unfold reshape_constants. rewrite map_length, seq_length. congruence.
  - intros i Hi. unfold reshape_constants in Hi. rewrite map_length, seq_length in Hi.
    rewrite nth_reshape by exact Hi.
    assert (L6 : List.length (nth i Cs []) = 6%nat).
    { rewrite Forall_forall in HF. apply HF. apply nth_In. lia. }
    apply (nth_ext _ _ 0 0); [rewrite L6; reflexivity|].
    intros j Hj. change (List.length (block (flat Cs) i)) with 6%nat in Hj.
    unfold block. rewrite (nth_indep _ 0 (flat Cs (6 * i + 0)%nat)) by (rewrite map_length, seq_length; exact Hj).
    rewrite (map_nth (fun j => flat Cs (6 * i + j)%nat)). rewrite seq_nth by exact Hj.
    unfold flat. replace (6 * i + (0 + j))%nat with (j + i * 6)%nat by lia.
    rewrite Nat.mod_add, Nat.div_add by lia.
    rewrite Nat.mod_small, Nat.div_small by exact Hj. reflexivity.
Qed.
Lemma reshape_six n x : six_each n (reshape_constants n x).
Proof.
  split; unfold reshape_constants; [rewrite map_length, seq_length; reflexivity|].
  apply Forall_map, Forall_forall. intros i _. rewrite map_length, seq_length. reflexivity.
Qed.

Lemma valid_lengths o li mi ki : check_segments o li mi ki = Ok tt ->
  List.length ki = List.length li /\ List.length li = S (List.length mi).
Proof.
  intros H. unfold check_segments in H.
  destruct (negb (existsb (fun b => b) ki)); [discriminate|].
  destruct (Nat.eqb_spec (List.length li) (List.length ki)) as [Lk|]; [|discriminate].
  destruct (Nat.eqb_spec (List.length li) (S (List.length mi))) as [Lm|]; [|discriminate].
  split; congruence.
Qed.

Section Solve.
Variable o : obj.
Variables kR : res R.
Variable kRv phi : R.
Variables li mi : list R.
Variable ki : list bool.
Variable kd : syskind.
Let N := List.length li.
Hypothesis Hr : ready o.
Hypothesis Hs : stable (o_par o).
Hypothesis HN : (2 <= N)%nat.
Hypothesis Hchk : check_segments o li mi ki = Ok tt.
Hypothesis Hprop : proper_segments li ki.
Hypothesis Hkd : kind_of (o_system o) = Some kd.
Hypothesis HC : kd = KPst -> o_mode o = Some ModeC -> kR = Ok kRv /\ o_phi o = phi.
Hypothesis HV : kd = KVpst -> o_mode o = None \/ o_mode o = Some ModeA.
Hypothesis HM : kd = KPst -> o_mode o <> None.
Hypothesis HR : forall r, kR = Ok r -> 0 <= r.

Lemma ends_ok k : ends_defined o kR k.
Proof.
  exists kd. split; [exact Hkd|]. intros E _. split; [apply HM; exact E|].
  intros E2. exists kRv. apply HC; assumption.
Qed.

Lemma system_regular : exists zh0 zp0 rhs,
  assemble o kR phi li mi ki = Ok (zh0, zp0, rhs) /\ trivial_kernel (6 * N) zh0.
Proof.
  destruct (valid_lengths o li mi ki Hchk) as [Lk Lm].
  destruct (assemble_succeeds o kR phi li mi ki (ready_six o Hr) HN Lk (ends_ok _) (ends_ok _))
    as (zh0 & zp0 & rhs & E).
  exists zh0, zp0, rhs. split; [exact E|].
  unfold assemble in E. destruct (assemble_lhs o kR phi (List.length li) 0 li ki (fun _ _ => 0, fun _ => 0)) as [[M v]|] eqn:EL; [|discriminate].
  cbn [bind] in E. destruct (build_rhs o kR phi li mi ki (List.length li)) as [rhs'|]; [|discriminate].
  cbn [bind fst snd] in E. apply Ok_inj in E. injection E; intros _ _ <-.
  destruct Hprop as [P1 P2].
  apply (assembled_kernel o kR phi li ki M v Hr Hs HN Lk HR P1 P2 EL).
Qed.

Lemma bvp_exists_unique : exists Cs, six_each N Cs /\ bvp o kRv phi li mi ki Cs /\
  forall Cs', six_each N Cs' -> bvp o kRv phi li mi ki Cs' -> Cs' = Cs.
Proof.
  destruct system_regular as (zh0 & zp0 & rhs & E & HK).
  assert (B : forall x, lin_solves (6 * N) zh0 x (fun r => rhs r - zp0 r)
     <-> bvp o kRv phi li mi ki (reshape_constants N x)).
  { intros x. apply (assemble_bvp o kR kRv phi li mi ki zh0 zp0 rhs x kd (ready_six o Hr) HN Hchk Hkd HC HV E). }
  destruct (kernel_solvable _ _ HK (fun r => rhs r - zp0 r)) as [x Hx].
  exists (reshape_constants N x). split; [apply reshape_six|]. split; [apply B; exact Hx|].
  intros Cs' H6 HB. rewrite <- (reshape_flat N Cs' H6) in HB |- *. apply B in HB.
  apply map_ext_in. intros i Hi. apply map_ext_in. intros j Hj.
  apply in_seq in Hi. apply in_seq in Hj.
  apply (kernel_unique _ _ HK _ _ _ HB Hx). lia.
Qed.

Lemma solver_returns solve : sound_solver solve -> complete_solver solve ->
  forall aslist, exists Cs,
  assemble_and_solve_with solve kR o aslist phi li mi ki = Ok Cs /\ six_each N Cs /\
  bvp o kRv phi li mi ki Cs.
Proof.
  intros Hso Hco aslist.
  destruct system_regular as (zh0 & zp0 & rhs & E & HK).
  destruct (Hco _ _ HK (fun r => rhs r - zp0 r)) as [x Hx].
  exists (reshape_constants N x). split; [|split].
  - unfold assemble_and_solve_with. rewrite Hchk. cbn [bind].
    destruct (Nat.eqb_spec (List.length li) 1) as [E1|_]; [unfold N in HN; lia|].
    cbn [bind]. rewrite E. cbn [bind]. fold N. rewrite Hx. reflexivity.
  - apply reshape_six.
  - apply (assemble_bvp o kR kRv phi li mi ki zh0 zp0 rhs x kd (ready_six o Hr) HN Hchk Hkd HC HV E).
    apply Hso. exact Hx.
Qed.
End Solve.

(** The substitute stiffness is never negative. *)
Lemma substitute_nonneg eig solve o L support dof r :
  fst (substitute_stiffness eig solve o L support dof) = Ok r -> 0 <= r.
Proof.
  unfold substitute_stiffness. intros H.
  destruct (assemble_and_solve_with _ _ _ _ _ _ _ _) as [C|]; [|discriminate].
  destruct (rasterize_solution _ _ _ _ _ _ _) as [[[xq zq] b]|]; [|discriminate].
  destruct zq as [|z0 zq]; [discriminate|].
  destruct (mem_str dof ["rot"; "trans"]%string); [|discriminate].
  cbn [fst] in H. apply Ok_inj in H. subst r.
  destruct (mem_str dof ["rot"]%string); apply Rabs_pos.
Qed.
