(** Property theorems C61: minimum force search, for every stress response. *)
Require Import Verif.Py Verif.MTools Verif.MEigen Verif.MEnvelope Verif.MCriterion Verif.PSetup Verif.PEnvelope Verif.PForce.

(** C61: what is returned belongs to one evaluation of the response, at a weight [w]; either [w] is
    reported, and it is 1 with all envelope values at least 1, or the maximum is 1 within the
    tolerance (or NaN); or the failure value 0 is reported. *)
Theorem C61_result create dist r :
  find_minimum_force_with create dist = Ok r ->
  exists w, create w = Ok (f_sk r) /\ dist (f_sk r) = Ok (f_max r, f_min r) /\
    (f_weight r = w /\ ((w = 1 /\ exists m, f_min r = Some m /\ 1 <= m) \/ f_max r = None \/
                        exists x, f_max r = Some x /\ Rabs (x - 1) <= 1 / 100)
     \/ f_weight r = 0).
Proof. exact (force_ok create dist r). Qed.
Print Assumptions C61_result.
Theorem C61_result_dampened create dist d damping r :
  find_minimum_force_dampened create dist d damping = Ok r ->
  exists w, create w = Ok (f_sk r) /\ dist (f_sk r) = Ok (f_max r, f_min r) /\
    (f_weight r = w /\ ((w = 1 /\ exists m, f_min r = Some m /\ 1 <= m) \/ f_max r = None \/
                        exists x, f_max r = Some x /\ Rabs (x - 1) <= 1 / 100)
     \/ f_weight r = 0).
Proof. exact (dampened_ok create dist d damping r). Qed.
Print Assumptions C61_result_dampened.
(** The search returns whenever the evaluations do. *)
Theorem C61_total create dist :
  (forall w, exists k d, create w = Ok k /\ dist k = Ok d) ->
  (exists r, find_minimum_force_with create dist = Ok r) /\
  forall d damping, exists r, find_minimum_force_dampened create dist d damping = Ok r.
Proof.
  intros T. assert (M : forall w, exists s, measure create dist w = Ok s).
  { intros w. destruct (T w) as (k & d & A & B). unfold measure. rewrite A. cbn [bind]. rewrite B. cbn [bind]. eauto. }
  split; [apply force_total; exact M|]. intros d damping. apply dampened_total. exact M.
Qed.
Print Assumptions C61_total.
(** It finds the critical weight of every response whose maximum a + b w is affine in the weight,
    unless the fixed part a is too close to 1 for 49 steps. *)
Theorem C61_affine create dist a b K n :
  0 <= a < 1 -> 0 < b ->
  (forall w, 0 < w -> exists k m, create w = Ok k /\ dist k = Ok (Some (a + b * w), Some m) /\ m < 1) ->
  b / (1 - a) <= K -> (1 - a) / b <= K -> (n < 50)%nat -> (1 - a) * a ^ n * (K - 1) <= 5 / 1000 ->
  exists r, find_minimum_force_with create dist = Ok r /\ 0 < f_weight r /\
    f_max r = Some (a + b * f_weight r) /\ Rabs (a + b * f_weight r - 1) <= 5 / 1000.
Proof.
  intros A B R K1 K2 N T.
  destruct (force_affine create dist a b A B R K n K1) as (r & x & E & W & M & -> & X).
  - replace (/ (b / (1 - a))) with ((1 - a) / b); [exact K2|]. field. lra.
  - exact N.
  - exact T.
  - exists r. auto.
Qed.
Print Assumptions C61_affine.
(** Stress response 1/2 + w/100: the critical weight is 50 within half a kilogram. *)
Definition ex_create (w : R) : res sk := Ok (mkSk (init_obj "skiers" false) [] [] [w] [] [] [] []).
Definition ex_dist (k : sk) : res (option R * option R) := Ok (Some (1 / 2 + 1 / 100 * hd 0 (k_mi k)), Some (1 / 4)).
Example C61_example : exists r, find_minimum_force_with ex_create ex_dist = Ok r /\ 99 / 2 <= f_weight r <= 101 / 2.
Proof.
  destruct (C61_affine ex_create ex_dist (1 / 2) (1 / 100) 50 13) as (r & E & W & M & X); try lra; try lia.
  - intros w _. eexists. eexists. split; [reflexivity|]. split; [reflexivity|lra].
  - exists r. split; [exact E|]. unfold Rabs in X. destruct (Rcase_abs _); lra.
Qed.
(** A response that stays below 1: the failure value 0. *)
Example C61_example_failure : exists r, find_minimum_force_with ex_create (fun _ => Ok (Some (1 / 2), Some (1 / 4))) = Ok r /\ f_weight r = 0.
Proof.
  destruct (proj1 (C61_total ex_create (fun _ => Ok (Some (1 / 2), Some (1 / 4))) ltac:(intros w; eexists; eexists; split; reflexivity))) as [r E].
  exists r. split; [exact E|]. destruct (C61_result _ _ _ E) as (w & _ & D & H). injection D as D1 D2. rewrite <- D1, <- D2 in H.
  destruct H as [[_ [[_ (m & M & L)]|[H|(x & X & L)]]]|H]; [injection M as <-; lra|discriminate| |exact H].
  injection X as <-. unfold Rabs in L. destruct (Rcase_abs _); lra.
Qed.
