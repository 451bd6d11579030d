(** Square linear systems: unique solvability from a trivial kernel. *)
From Coquelicot Require Import Coquelicot.
Require Import Verif.Py Verif.MTools Verif.MEigen Verif.MFields Verif.MRaster Verif.MSolution
  Verif.SBvp Verif.PBvp Verif.PBvp2.

Lemma sumn_plusf n f g : sumn n (fun i => f i + g i) = sumn n f + sumn n g.
Proof. induction n as [|n IH]; simpl; [ring|]. rewrite IH; ring. Qed.
Lemma sumn_scalf n c f : sumn n (fun i => c * f i) = c * sumn n f.
Proof. induction n as [|n IH]; simpl; [ring|]. rewrite IH; ring. Qed.

Definition swap (a b r : nat) : nat :=
  if Nat.eqb r a then b else if Nat.eqb r b then a else r.

Lemma first_nonzero (f : nat -> R) n :
  (forall r, (r < n)%nat -> f r = 0) + {r | (r < n)%nat /\ f r <> 0}.
Proof.
  induction n as [|n [IH|(r & Hr & Hf)]].
  - left; intros r Hr; lia.
  - destruct (Req_EM_T (f n) 0) as [E|E].
    + left. intros r Hr. destruct (Nat.eq_dec r n) as [->|]; [exact E|]. apply IH; lia.
    + right. exists n. split; [lia|exact E].
  - right. exists r. split; [lia|exact Hf].
Qed.

(** m homogeneous equations in m + 1 unknowns have a non-trivial solution. *)
Lemma homogeneous_nontrivial m : forall A : nat -> nat -> R,
  { x : nat -> R | (exists c, (c < S m)%nat /\ x c <> 0) /\
    forall r, (r < m)%nat -> sumn (S m) (fun c => A r c * x c) = 0 }.
Proof.
  induction m as [|m IH]; intros A.
  - exists (fun _ => 1). split; [exists 0%nat; split; [lia|lra]|]. intros r Hr; lia.
  - destruct (first_nonzero (fun r => A r (S m)) (S m)) as [Hz|(r0 & Hr0 & Hp)].
    + exists (fun c => if Nat.eqb c (S m) then 1 else 0). split.
      * exists (S m). split; [lia|]. rewrite Nat.eqb_refl. lra.
      * intros r Hr. apply sumn_zero. intros c Hc.
        destruct (Nat.eqb_spec c (S m)) as [->|]; [rewrite Hz by exact Hr|]; ring.
    + set (B := fun r c => A (swap r0 m r) c).
      set (piv := B m (S m)).
      assert (Hpiv : piv <> 0).
      { unfold piv, B, swap. destruct (Nat.eqb_spec m r0) as [->|]; [exact Hp|].
        rewrite Nat.eqb_refl. exact Hp. }
      destruct (IH (fun r c => B r c - B r (S m) / piv * B m c)) as (x & Hx0' & Hx).
      set (s := sumn (S m) (fun c => B m c * x c)).
      set (y := fun c => if Nat.eqb c (S m) then - s / piv else x c).
      assert (Hy : forall r, sumn (S (S m)) (fun c => B r c * y c)
                 = sumn (S m) (fun c => B r c * x c) - B r (S m) * (s / piv)).
      { intros r. rewrite sumn_S. unfold y at 2. rewrite Nat.eqb_refl.
        rewrite (sumn_ext (S m) (fun c => B r c * y c) (fun c => B r c * x c)).
        - field. exact Hpiv.
        - intros c Hc. unfold y. destruct (Nat.eqb_spec c (S m)); [lia|reflexivity]. }
      assert (HB : forall r, (r < S m)%nat -> sumn (S (S m)) (fun c => B r c * y c) = 0).
      { intros r Hr. rewrite Hy. destruct (Nat.eq_dec r m) as [->|Hrm].
        - fold s. fold piv. field. exact Hpiv.
        - specialize (Hx r ltac:(lia)). cbv beta in Hx.
          rewrite (sumn_ext (S m) _ (fun c => B r c * x c + (- (B r (S m) / piv)) * (B m c * x c))) in Hx
            by (intros; ring).
          rewrite sumn_plusf, sumn_scalf in Hx. fold s in Hx.
          replace (B r (S m) * (s / piv)) with (B r (S m) / piv * s) by (field; exact Hpiv). lra. }
      exists y. split.
      * destruct Hx0' as (c0 & Hc0 & Hx0). exists c0. split; [lia|]. unfold y. destruct (Nat.eqb_spec c0 (S m)); [lia|exact Hx0].
      * intros r Hr.
        assert (E : exists r', (r' < S m)%nat /\ swap r0 m r' = r).
        { destruct (Nat.eq_dec r r0) as [->|].
          - exists m. split; [lia|]. unfold swap. destruct (Nat.eqb_spec m r0); [assumption|].
            rewrite Nat.eqb_refl. reflexivity.
          - destruct (Nat.eq_dec r m) as [->|].
            + exists r0. split; [lia|]. unfold swap. rewrite Nat.eqb_refl. reflexivity.
            + exists r. split; [lia|]. unfold swap.
              destruct (Nat.eqb_spec r r0); [contradiction|].
              destruct (Nat.eqb_spec r m); [contradiction|reflexivity]. }
        destruct E as (r' & Hr' & <-). apply (HB r' Hr').
Qed.

Definition trivial_kernel (n : nat) (A : nat -> nat -> R) : Prop :=
  forall x, lin_solves n A x (fun _ => 0) -> forall c, (c < n)%nat -> x c = 0.

(** Trivial kernel: exactly one solution for every right-hand side. *)
Lemma kernel_solvable n A : trivial_kernel n A ->
  forall b, exists x, lin_solves n A x b.
Proof.
  intros HK b.
  destruct (homogeneous_nontrivial n (fun r c => if Nat.eqb c n then - b r else A r c))
    as (x & (c0 & Hc0 & Hx0) & Hx).
  assert (Hx' : forall r, (r < n)%nat -> sumn n (fun c => A r c * x c) = b r * x n).
  { intros r Hr. specialize (Hx r Hr). rewrite sumn_S, Nat.eqb_refl in Hx.
    rewrite (sumn_ext n _ (fun c => A r c * x c)) in Hx; [lra|].
    intros c Hc. destruct (Nat.eqb_spec c n); [lia|reflexivity]. }
  destruct (Req_EM_T (x n) 0) as [E|E].
  - exfalso. apply Hx0. destruct (Nat.eq_dec c0 n) as [->|]; [exact E|].
    apply HK; [|lia]. intros r Hr. rewrite Hx' by exact Hr. rewrite E; ring.
  - exists (fun c => x c / x n). intros r Hr.
    rewrite (sumn_ext n _ (fun c => / x n * (A r c * x c))) by (intros; unfold Rdiv; ring).
    rewrite sumn_scalf, Hx' by exact Hr. field. exact E.
Qed.
Lemma kernel_unique n A : trivial_kernel n A ->
  forall b x y, lin_solves n A x b -> lin_solves n A y b -> forall c, (c < n)%nat -> x c = y c.
Proof.
  intros HK b x y Hx Hy c Hc.
  assert (x c - y c = 0); [|lra].
  apply (HK (fun c => x c - y c)); [|exact Hc].
  intros r Hr.
  rewrite (sumn_ext n _ (fun c => A r c * x c + (-1) * (A r c * y c))) by (intros; ring).
  rewrite sumn_plusf, sumn_scalf, Hx, Hy by exact Hr. ring.
Qed.

(** A linear solver by elimination (used as a concrete instance of the solver
    assumptions): solve the augmented homogeneous system. *)
Definition aug (n : nat) (A : nat -> nat -> R) (b : nat -> R) : nat -> nat -> R :=
  fun r c => if Nat.eqb c n then - b r else A r c.
Definition elim_solve (n : nat) (A : nat -> nat -> R) (b : nat -> R) : res (nat -> R) :=
  let x := proj1_sig (homogeneous_nontrivial n (aug n A b)) in
  if Req_EM_T (x n) 0 then Err LinAlgError else Ok (fun c => x c / x n).

Lemma elim_rows n A b : let x := proj1_sig (homogeneous_nontrivial n (aug n A b)) in
  forall r, (r < n)%nat -> sumn n (fun c => A r c * x c) = b r * x n.
Proof.
  intros x r Hr. pose proof (proj2 (proj2_sig (homogeneous_nontrivial n (aug n A b))) r Hr) as Hx.
  cbv beta in Hx. fold x in Hx. rewrite sumn_S in Hx. unfold aug in Hx at 2. rewrite Nat.eqb_refl in Hx.
  rewrite (sumn_ext n _ (fun c => A r c * x c)) in Hx; [lra|].
  intros c Hc. unfold aug. destruct (Nat.eqb_spec c n); [lia|reflexivity].
Qed.
Lemma elim_sound : sound_solver elim_solve.
Proof.
  intros n A b y H. unfold elim_solve in H.
  pose proof (elim_rows n A b) as Hx. cbv zeta in Hx.
  set (x := proj1_sig (homogeneous_nontrivial n (aug n A b))) in *. clearbody x.
  destruct (Req_EM_T (x n) 0) as [E|E]; [discriminate|].
  assert (y = fun c => x c / x n) as -> by congruence.
  intros r Hr.
  rewrite (sumn_ext n _ (fun c => / x n * (A r c * x c))) by (intros; unfold Rdiv; ring).
  rewrite sumn_scalf, Hx by exact Hr. field. exact E.
Qed.
Lemma elim_complete n A : trivial_kernel n A -> forall b, exists x, elim_solve n A b = Ok x.
Proof.
  intros HK b. unfold elim_solve.
  pose proof (elim_rows n A b) as Hx. cbv zeta in Hx.
  pose proof (proj1 (proj2_sig (homogeneous_nontrivial n (aug n A b)))) as Hne.
  cbv zeta beta in *.
  set (x := proj1_sig (homogeneous_nontrivial n (aug n A b))) in *. clearbody x.
  destruct (Req_EM_T (x n) 0) as [E|E]; [|eexists; reflexivity].
  exfalso. destruct Hne as (c0 & Hc0 & Hn). apply Hn.
  destruct (Nat.eq_dec c0 n) as [->|]; [exact E|].
  apply HK; [|lia]. intros r Hr. rewrite Hx by exact Hr. rewrite E; ring.
Qed.
