(** Property theorem C72: the anticrack follows from the places where the stress criterion is crossed. *)
From Coq Require Import Lia Lra.
Require Import Verif.Py Verif.MTools Verif.MEigen Verif.MRaster Verif.MSolution Verif.MCriterion Verif.SSegment Verif.PSetup
  Verif.PSegment Verif.PRoots.

(** C72: for increasing crossings inside the model, the unsupported points are those between the first
    and second, third and fourth, ... crossing; lengths add up to the model. *)
Theorem C72_segments total roots : inside_increasing total roots -> roots <> [] ->
  let '(ls, ks) := segments_of_roots total roots in
  List.length ks = List.length ls /\ (forall l, In l ls -> 0 <= l) /\ rsum ls = total /\
  cracked_length ls ks = pair_length roots /\ forall x, carries ls ks x false <-> between_pair roots x.
Proof.
  intros I N. assert (L : (1 <= List.length roots)%nat) by (destruct roots; [congruence|simpl; lia]).
  pose proof (segments_good total roots I L) as G. pose proof (cracked_roots total roots I N) as CR.
  assert (C : forall x, let '(ls, ks) := segments_of_roots total roots in carries ls ks x false <-> between_pair roots x) by (intros x; apply roots_carry; assumption).
  destruct (segments_of_roots total roots) as [ls ks]. destruct G as (G1 & G2 & G3 & _). repeat split; try assumption; apply C.
Qed.
Print Assumptions C72_segments.
(** If the criterion is not exceeded at either end, the unsupported points are exactly those where it is
    exceeded. *)
Theorem C72_exceeded_partial f total roots : sign_changes f total roots -> roots <> [] -> f 0 < 0 -> f total < 0 ->
  let '(ls, ks) := segments_of_roots total roots in
  forall x, 0 < x < total -> ~ In x roots -> (carries ls ks x false <-> 0 < f x).
Proof.
  intros SC N F0 FT. pose proof (C72_segments total roots (sc_order _ _ _ SC) N) as C. destruct (segments_of_roots total roots) as [ls ks].
  destruct C as (_ & _ & _ & _ & C). intros x X NI. rewrite C. symmetry. apply (between_positive f total roots SC); try assumption. lra.
Qed.
Print Assumptions C72_exceeded_partial.
(** The same for the result of the whole search: if the first crossing lies before the middle, splitting at
    the middle changes nothing, and the reported length is that of the exceeded parts. *)
Theorem C72_anticrack eig solve brent maxeval profile phi E t e w li ki k roots crack li' ki' :
  let total := rsum li in
  create_skier_object eig solve brent maxeval profile w phi [total / 2; total / 2] [true; true] false E t = Ok k ->
  find_roots_around_x brent maxeval e k [total / 2; total / 2] phi = Ok roots ->
  find_new_anticrack_length eig solve brent maxeval profile phi E t e w li ki = Ok (crack, li', ki') ->
  inside_increasing total roots -> (exists r, nth_error roots 0 = Some r /\ r < total / 2) ->
  crack = pair_length roots /\ rsum li' = total /\ List.length ki' = List.length li' /\
  (exists j, (j <= List.length li')%nat /\ seg_start li' j = total / 2) /\
  forall x, x <> total / 2 -> (carries li' ki' x false <-> between_pair roots x).
Proof.
  intros total K Rt F I (r & R0 & RM). unfold find_new_anticrack_length in F. fold total in F. rewrite K in F. cbn [bind] in F.
  destruct (distances e k) as [d|]; [|discriminate]. cbn [bind] in F. rewrite Rt in F. cbn [bind] in F.
  assert (N : roots <> []) by (intros ->; discriminate). 
  pose proof (C72_segments total roots I N) as C. assert (L : (1 <= List.length roots)%nat) by (destruct roots; [congruence|simpl; lia]).
  pose proof (segments_good total roots I L) as G.
  assert (F' : (lk <- (let '(l, ks) := segments_of_roots total roots in split_segments_at_midpoint l ks) ;; let '(li, ki) := lk in Ok (cracked_length li ki, li, ki)) = Ok (crack, li', ki')).
  { destruct roots; [congruence|exact F]. }
  clear F. destruct (segments_of_roots total roots) as [ls ks]. destruct C as (C1 & C2 & C3 & C4 & C5). destruct G as (_ & _ & _ & G4).
  rewrite R0 in G4. injection G4 as G4. assert (HM : nth 0 ls 0 < rsum ls / 2) by (rewrite <- G4, C3; exact RM).
  destruct (split_sound ls ks C1 HM C2) as (l' & k' & Es & S1 & S2 & S3 & S4 & S5). rewrite Es in F'. cbn [bind] in F'. injection F' as <- <- <-.
  assert (NE : ls <> []) by (intros ->; unfold rsum in C3; simpl in C3; pose proof (proj1 I 0%nat r R0); lra).
  rewrite (cracked_split ls ks l' k' C1 HM NE Es). rewrite C3 in *. split; [exact C4|]. split; [exact S3|]. split; [exact S1|]. split; [exact S4|].
  intros x X. rewrite S5 by exact X. apply C5.
Qed.
Print Assumptions C72_anticrack.
(** Refuted otherwise: with the criterion exceeded at the right end only, nothing is unsupported; with the
    criterion exceeded at both ends, the part in between, where it is not exceeded, is unsupported. *)
Theorem C72_refuted :
  (exists f total roots x, sign_changes f total roots /\ roots <> [] /\ f 0 < 0 /\ 0 < x < total /\ 0 < f x /\
     let '(ls, ks) := segments_of_roots total roots in ~ carries ls ks x false) /\
  (exists f total roots x, sign_changes f total roots /\ roots <> [] /\ 0 < x < total /\ f x < 0 /\
     let '(ls, ks) := segments_of_roots total roots in carries ls ks x false).
Proof.
  split.
  - exists (fun x => x - 1), 2, [1], (3 / 2).
    assert (I : inside_increasing 2 [1]).
    { split; [intros [|[|i]] a H; try discriminate; injection H as <-; lra|intros [|[|i]] a b H H'; discriminate]. }
    split; [|split; [discriminate|split; [lra|split; [lra|split; [lra|]]]]].
    + split; [exact I|intros x _; reg|intros x _ H; left; lra|]. intros r [<-|[]]. exists 1. split; [lra|]. intros d D. nra.
    + pose proof (C72_segments 2 [1] I ltac:(discriminate)) as C. destruct (segments_of_roots 2 [1]) as [ls ks]. destruct C as (_ & _ & _ & _ & C).
      rewrite C. intros (j & a & b & _ & H & _). assert (Q : (2 * j + 1 < List.length [1%R])%nat) by (apply nth_error_Some; congruence). simpl in Q. lia.
  - exists (fun x => (x - 1) * (x - 2)), 3, [1; 2], (3 / 2).
    assert (I : inside_increasing 3 [1; 2]).
    { split; [intros [|[|[|i]]] a H; try discriminate; injection H as <-; lra|intros [|[|[|i]]] a b H H'; try discriminate]. injection H as <-. injection H' as <-. lra. }
    split; [|split; [discriminate|split; [lra|split; [lra|]]]].
    + split; [exact I|intros x _; reg| |].
      * intros x _ H. apply Rmult_integral in H. destruct H as [H|H]; [left; lra|right; left; lra].
      * intros r [<-|[<-|[]]]; exists (1 / 2); (split; [lra|]); intros d D.
        -- replace ((1 - d - 1) * (1 - d - 2) * ((1 + d - 1) * (1 + d - 2))) with (- (d * d * ((1 + d) * (1 - d)))) by ring. assert (0 < d * d) by nra. assert (0 < (1 + d) * (1 - d)) by nra. nra.
        -- replace ((2 - d - 1) * (2 - d - 2) * ((2 + d - 1) * (2 + d - 2))) with (- (d * d * ((1 + d) * (1 - d)))) by ring. assert (0 < d * d) by nra. assert (0 < (1 + d) * (1 - d)) by nra. nra.
    + pose proof (C72_segments 3 [1; 2] I ltac:(discriminate)) as C. destruct (segments_of_roots 3 [1; 2]) as [ls ks]. destruct C as (_ & _ & _ & _ & C).
      rewrite C. exists 0%nat, 1, 2. split; [reflexivity|]. split; [reflexivity|]. lra.
Qed.
Print Assumptions C72_refuted.
Example C72_example : sign_changes (fun x => (x - 1) * (2 - x)) 3 [1; 2] /\ (fun x => (x - 1) * (2 - x)) 0 < 0 /\ (fun x => (x - 1) * (2 - x)) 3 < 0 /\
  inside_increasing 3 [1; 2].
Proof.
  assert (I : inside_increasing 3 [1; 2]).
  { split; [intros [|[|[|i]]] a H; try discriminate; injection H as <-; lra|intros [|[|[|i]]] a b H H'; try discriminate]. injection H as <-. injection H' as <-. lra. }
  split; [|split; [lra|split; [lra|exact I]]]. split; [exact I|intros x _; reg| |].
  - intros x _ H. apply Rmult_integral in H. destruct H as [H|H]; [left; lra|right; left; lra].
  - intros r [<-|[<-|[]]]; exists (1 / 2); (split; [lra|]); intros d D.
    + replace ((1 - d - 1) * (2 - (1 - d)) * ((1 + d - 1) * (2 - (1 + d)))) with (- (d * d * ((1 + d) * (1 - d)))) by ring. assert (0 < d * d) by nra. assert (0 < (1 + d) * (1 - d)) by nra. nra.
    + replace ((2 - d - 1) * (2 - (2 - d)) * ((2 + d - 1) * (2 - (2 + d)))) with (- (d * d * ((1 + d) * (1 - d)))) by ring. assert (0 < d * d) by nra. assert (0 < (1 + d) * (1 - d)) by nra. nra.
Qed.
