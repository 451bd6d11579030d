(** Property theorems C59 and C61 (continued): stress envelopes of arrays of stresses, and the extreme
    values that the minimum force search reports. *)
Require Import Verif.Py Verif.MTools Verif.MEigen Verif.MFields Verif.SAdm Verif.SSlab Verif.MSolution Verif.MAnalysis
  Verif.SBvp Verif.SEig Verif.SExact Verif.MEnvelope Verif.MCriterion Verif.PSetup Verif.PRaster Verif.PForce Verif.PCreate Verif.PCreate2 Verif.PropForce Verif.PLinAlg Verif.PExact3 Verif.PropExact.
Open Scope R_scope.

(** C59: of arrays of stresses the envelope has one value for each sample; where both stresses are known
    it is the value for that pair, and where one is missing it is missing for the two quadratic
    envelopes, but "unloaded" for those of Mede. Unknown names raise ValueError. *)
Theorem C59_arrays s sf om rho sigma tau : List.length tau = List.length sigma ->
  (known_envelope s ->
     exists d, stress_envelope s sf om rho sigma tau = Ok d /\ List.length d = List.length sigma /\
       forall i v, nth_error d i = Some v -> exists a b, nth_error sigma i = Some a /\ nth_error tau i = Some b /\
         match a, b with
         | Some a, Some b => exists x, stress_envelope1 s sf om rho a b = Ok x /\ v = Some x
         | _, _ => (In s ["adam_unpublished"; "schottner"]%string -> v = None) /\
                   (In s ["mede_s-RG1"; "mede_s-RG2"; "mede_s-FCDH"]%string -> v = Some 0)
         end) /\
  (~ known_envelope s -> stress_envelope s sf om rho sigma tau = Err ValueError).
Proof.
  intros L. split; intros N.
  - unfold stress_envelope. destruct (envelope_total s sf om rho 0 0 N) as [v0 ->]. cbn [bind].
    revert tau L. induction sigma as [|a sigma IH]; intros [|b tau] L; try discriminate.
    + exists []. split; [reflexivity|]. split; [reflexivity|]. intros [|i] v H; discriminate.
    + injection L as L. destruct (IH tau L) as (d & D & DL & DI). cbn [combine mapM]. rewrite D.
      assert (Q : forall v, (match a, b with
         | Some a, Some b => exists x, stress_envelope1 s sf om rho a b = Ok x /\ v = Some x
         | _, _ => (In s ["adam_unpublished"; "schottner"]%string -> v = None) /\
                   (In s ["mede_s-RG1"; "mede_s-RG2"; "mede_s-FCDH"]%string -> v = Some 0)
         end) -> exists d0, Ok (v :: d) = Ok d0 /\ List.length d0 = List.length (a :: sigma) /\
           forall i w, nth_error d0 i = Some w -> exists a' b', nth_error (a :: sigma) i = Some a' /\ nth_error (b :: tau) i = Some b' /\
         match a', b' with
         | Some a, Some b => exists x, stress_envelope1 s sf om rho a b = Ok x /\ w = Some x
         | _, _ => (In s ["adam_unpublished"; "schottner"]%string -> w = None) /\
                   (In s ["mede_s-RG1"; "mede_s-RG2"; "mede_s-FCDH"]%string -> w = Some 0)
         end).
      { intros v V. exists (v :: d). split; [reflexivity|]. split; [simpl; congruence|]. intros [|i] w W; cbn [nth_error] in *; [|exact (DI i w W)].
        injection W as <-. exists a, b. auto. }
      assert (M : (In s ["adam_unpublished"; "schottner"]%string -> (if mem_str s ["adam_unpublished"; "schottner"]%string then None else Some 0) = None) /\
        (In s ["mede_s-RG1"; "mede_s-RG2"; "mede_s-FCDH"]%string -> (if mem_str s ["adam_unpublished"; "schottner"]%string then None else Some 0) = Some 0)).
      { split; intros H; cbn [In] in H; decompose [or] H; subst; try contradiction; reflexivity. }
      destruct a as [a|]; [destruct b as [b|]|]; [|apply (Q _ M)|apply (Q _ M)].
      destruct (envelope_total s sf om rho a b N) as [x X]. rewrite X. cbn [bind]. apply Q. exists x. auto.
  - unfold stress_envelope. replace (stress_envelope1 s sf om rho 0 0) with (@Err R ValueError); [reflexivity|].
    unfold stress_envelope1. unfold known_envelope in N. cbn [In] in N.
    repeat match goal with |- context [String.eqb s ?k] => destruct (String.eqb_spec s k) as [->|?]; [exfalso; apply N; tauto|] end. reflexivity.
Qed.
Print Assumptions C59_arrays.
Example C59_example_arrays : known_envelope "schottner" /\ known_envelope "mede_s-RG1" /\ ~ known_envelope "mohr" /\
  (exists x, stress_envelope "schottner" 1 1 250 [Some 1; None] [Some 2; Some 3] = Ok [Some x; None]) /\
  exists x, stress_envelope "mede_s-RG1" 1 1 250 [Some 1; None] [Some 2; Some 3] = Ok [Some x; Some 0].
Proof.
  split; [cbv; tauto|]. split; [cbv; tauto|]. split; [intros H; cbn [known_envelope In] in H; decompose [or] H; try discriminate; contradiction|].
  split; eexists; reflexivity.
Qed.

(** C61: the result of the search belongs to one weight; the reported values are the largest and the
    smallest value of the envelope over all samples of the weak layer under this weight; and the weight is
    reported when it is 1 and no sample is below the envelope, or when the largest value is 1 within one
    percent. *)
Theorem C61_values eig solve brent maxeval profile phi E t e li ki r :
  find_minimum_force eig solve brent maxeval profile phi E t e li ki = Ok r ->
  exists w M m, create_skier_object eig solve brent maxeval profile w phi li ki false E t = Ok (f_sk r) /\
    f_max r = Some M /\ f_min r = Some m /\
    (let value i v := exists a b, nth_error (k_sig (f_sk r)) i = Some (Some a) /\ nth_error (k_tau (f_sk r)) i = Some (Some b) /\
        stress_envelope1 (e_name e) (e_sf e) (e_om e) (e_rho e) a b = Ok v in
     (exists i, value i M) /\ (exists i, value i m) /\
     forall i, (i < List.length (k_sig (f_sk r)))%nat -> exists v, value i v /\ m <= v <= M) /\
    (f_weight r = w /\ (w = 1 /\ 1 <= m \/ Rabs (M - 1) <= 1 / 100) \/ f_weight r = 0).
Proof.
  intros H. unfold find_minimum_force in H. destruct (C61_result _ _ _ H) as (w & W1 & W2 & W3).
  destruct (create_present _ _ _ _ _ _ _ _ _ _ _ _ W1) as (_ & P1 & P2). destruct (create_lengths _ _ _ _ _ _ _ _ _ _ _ _ _ W1) as [L _].
  destruct (distances_extreme e _ _ _ P1 P2 W2) as (d & M & m & D & EM & Em & IM & Im & B).
  exists w, M, m. split; [exact W1|]. split; [exact EM|]. split; [exact Em|]. split.
  - assert (V : forall i v, nth_error d i = Some v -> exists a b, nth_error (k_sig (f_sk r)) i = Some (Some a) /\ nth_error (k_tau (f_sk r)) i = Some (Some b) /\
        exists x, stress_envelope1 (e_name e) (e_sf e) (e_om e) (e_rho e) a b = Ok x /\ v = Some x).
    { assert (N : known_envelope (e_name e)).
      { destruct (in_dec string_dec (e_name e) ["adam_unpublished"; "schottner"; "mede_s-RG1"; "mede_s-RG2"; "mede_s-FCDH"]%string) as [I|I]; [exact I|].
        unfold envelope_of in D. rewrite (proj2 (C59_arrays _ _ _ _ _ _ L) I) in D. discriminate. }
      destruct (proj1 (C59_arrays _ (e_sf e) (e_om e) (e_rho e) _ _ L) N) as (d' & D' & _ & I). unfold envelope_of in D. rewrite D' in D. apply Ok_inj in D. subst d'.
      intros i v Hv. destruct (I i v Hv) as (a & b & A & Bb & C). unfold present_all in P1, P2. rewrite Forall_forall in P1, P2.
      pose proof (P1 _ (nth_error_In _ _ A)). pose proof (P2 _ (nth_error_In _ _ Bb)). destruct a as [a|]; [|congruence]. destruct b as [b|]; [|congruence]. exists a, b. auto. }
    assert (DL : List.length d = List.length (k_sig (f_sk r))).
    { unfold envelope_of, stress_envelope in D. destruct (stress_envelope1 _ _ _ _ 0 0); [|discriminate]. cbn [bind] in D. apply mapM_Ok in D.
      assert (Q : List.length d = List.length (combine (k_sig (f_sk r)) (k_tau (f_sk r)))) by (clear - D; induction D; simpl; congruence). rewrite Q, combine_length. lia. }
    cbv zeta. split; [|split].
    + apply In_nth_error in IM. destruct IM as [i Hi]. destruct (V i _ Hi) as (a & b & A & Bb & x & X & Ex). injection Ex as <-. exists i, a, b. auto.
    + apply In_nth_error in Im. destruct Im as [i Hi]. destruct (V i _ Hi) as (a & b & A & Bb & x & X & Ex). injection Ex as <-. exists i, a, b. auto.
    + intros i Hi. rewrite <- DL in Hi. apply nth_error_Some in Hi. destruct (nth_error d i) as [v|] eqn:Ev; [|congruence].
      destruct (V i v Ev) as (a & b & A & Bb & x & X & ->). destruct (B _ (nth_error_In _ _ Ev)) as (y & Y & Z). injection Y as <-. exists x. split; [exists a, b; auto|exact Z].
  - destruct W3 as [[W4 W5]|W4]; [left|right; exact W4]. split; [exact W4|]. destruct W5 as [[W6 (m' & E1 & E2)]|[W6|(x & E1 & E2)]].
    + left. rewrite Em in E1. injection E1 as <-. auto.
    + rewrite EM in W6. discriminate.
    + right. rewrite EM in E1. injection E1 as <-. exact E2.
Qed.
Print Assumptions C61_values.
(** The hypothesis is met: see [C61_example_accepted]. *)
Example C61_example_values brent maxeval : exists r M m,
  find_minimum_force exact_eig elim_solve brent maxeval (LList [(917, 90)]) 30 (1 / 4) 30
    (mkEnv "schottner" 1 1 250) [5000; 0; 0; 5000] [true; true; true; true] = Ok r /\ f_max r = Some M /\ f_min r = Some m /\ m <= M.
Proof.
  destruct (C61_example_accepted brent maxeval) as [r R]. destruct (C61_values _ _ _ _ _ _ _ _ _ _ _ _ R) as (w & M & m & _ & EM & Em & ((i & a & b & A & B & V) & _ & I) & _).
  exists r, M, m. split; [exact R|]. split; [exact EM|]. split; [exact Em|].
  destruct (I i) as (v & (a' & b' & A' & B' & V') & Z); [apply nth_error_Some; congruence|]. lra.
Qed.
