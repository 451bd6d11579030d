(** Property theorem C59: Mede's criterion on Mede's plotted curve. *)
Require Import Verif.Py Verif.MEnvelope Verif.PEnvelope.

Lemma mede_line p0 tT pT s : 0 < p0 -> 0 < tT -> 0 < pT -> pT < p0 -> 0 <= s <= pT ->
  0 <= tT / p0 * s + (tT - tT * pT / p0) /\
  mede_value (p0, tT, pT) (Rabs s) (Rabs (tT / p0 * s + (tT - tT * pT / p0))) = 1.
Proof.
  intros A B C D [H1 H2].
  assert (T : 0 <= tT / p0 * s + (tT - tT * pT / p0)).
  { replace (tT / p0 * s + (tT - tT * pT / p0)) with (tT / p0 * (s + (p0 - pT))) by (field; lra).
    apply Rmult_le_pos; [|lra]. apply Rlt_le. apply Rdiv_lt_0_compat; assumption. }
  split; [exact T|]. rewrite !Rabs_pos_eq by assumption. unfold mede_value.
  rewrite Rltb_false, Rleb_true, Rleb_true by lra. cbn [andb]. field. lra.
Qed.
Lemma mede_cap p0 tT pT s : 0 < p0 -> 0 < tT -> 0 < pT -> pT < s <= pT + p0 ->
  mede_value (p0, tT, pT) (Rabs s) (Rabs (sqrt (tT ^ 2 - tT ^ 2 / p0 ^ 2 * (s - pT) ^ 2))) = tT ^ 2.
Proof.
  intros A B C [H1 H2]. rewrite (Rabs_pos_eq s) by lra. rewrite (Rabs_pos_eq (sqrt _)) by apply sqrt_pos.
  unfold mede_value. rewrite Rltb_true by lra.
  assert (Q : 0 <= tT ^ 2 - tT ^ 2 / p0 ^ 2 * (s - pT) ^ 2).
  { replace (tT ^ 2 - tT ^ 2 / p0 ^ 2 * (s - pT) ^ 2) with ((tT / p0) ^ 2 * ((p0 - (s - pT)) * (p0 + (s - pT)))) by (field; lra).
    apply Rmult_le_pos; [apply pow2_ge_0|]. apply Rmult_le_pos; lra. }
  rewrite <- (Rsqr_pow2 (sqrt _)), Rsqr_sqrt by exact Q. field. lra.
Qed.

(** C59: on the line of the plotted curve of every sample of Mede the criterion is 1. On its cap the
    criterion is the square of the largest shear strength instead, which is not 1. *)
Theorem C59_mede_curve sample p0 tT pT sf om rho s :
  (sample, p0, tT, pT) = ("s-RG1"%string, 7, 353 / 100, 149 / 100) \/
  (sample, p0, tT, pT) = ("s-RG2"%string, 233 / 100, 122 / 100, 19 / 100) \/
  (sample, p0, tT, pT) = ("s-FCDH"%string, 145 / 100, 61 / 100, 17 / 100) ->
  0 <= s <= pT + p0 ->
  exists t, failure_envelope_mede sample s = Ok t /\ 0 <= t /\
    stress_envelope1 (String.append "mede_" sample) sf om rho s t = Ok (if Rle_dec s pT then 1 else tT ^ 2) /\ tT ^ 2 <> 1.
Proof.
  intros H Hs.
  assert (P : 0 < p0 /\ 0 < tT /\ 0 < pT /\ pT < p0 /\ tT ^ 2 <> 1).
  { destruct H as [H|[H|H]]; injection H as _ -> -> ->; repeat split; try lra; intros E; lra. }
  destruct P as (A & B & C & D & N).
  assert (V : exists t, failure_envelope_mede sample s = Ok t /\ 0 <= t /\
    mede_value (p0, tT, pT) (Rabs s) (Rabs t) = (if Rle_dec s pT then 1 else tT ^ 2)).
  { assert (F : failure_envelope_mede sample s =
      Ok (if (Rleb (pT - p0) s && Rleb s pT)%bool then tT / p0 * s + (tT - tT * pT / p0)
          else if (Rltb pT s && Rleb s (pT + p0))%bool then sqrt (tT ^ 2 - tT ^ 2 / p0 ^ 2 * (s - pT) ^ 2) else 0))
      by (destruct H as [H|[H|H]]; injection H as -> -> -> ->; reflexivity).
    rewrite F. destruct (Rle_dec s pT) as [L|L].
    - rewrite (Rleb_true (pT - p0)), (Rleb_true s pT) by lra. cbn [andb]. eexists. split; [reflexivity|].
      exact (mede_line p0 tT pT s A B C D ltac:(lra)).
    - rewrite (Rleb_false s pT) by lra. rewrite andb_false_r, (Rltb_true pT s), (Rleb_true s (pT + p0)) by lra. cbn [andb].
      eexists. split; [reflexivity|]. split; [apply sqrt_pos|]. exact (mede_cap p0 tT pT s A B C ltac:(lra)). }
  destruct V as (t & V1 & V2 & V3). exists t. split; [exact V1|]. split; [exact V2|]. split; [|exact N]. rewrite <- V3.
  destruct H as [H|[H|H]]; injection H as -> -> -> ->; reflexivity.
Qed.
Print Assumptions C59_mede_curve.
(** Compression of 1 kPa on the line and of 5 kPa on the cap of the first sample. *)
Example C59_mede_curve_example :
  (exists t, failure_envelope_mede "s-RG1" 1 = Ok t /\ stress_envelope1 "mede_s-RG1" 1 1 250 1 t = Ok 1) /\
  (exists t, failure_envelope_mede "s-RG1" 5 = Ok t /\ stress_envelope1 "mede_s-RG1" 1 1 250 5 t = Ok ((353 / 100) ^ 2)).
Proof.
  split.
  - destruct (C59_mede_curve "s-RG1" 7 (353 / 100) (149 / 100) 1 1 250 1 (or_introl eq_refl) ltac:(lra)) as (t & E & _ & V & _).
    exists t. split; [exact E|]. cbn [String.append] in V. rewrite V. destruct (Rle_dec _ _); [reflexivity|lra].
  - destruct (C59_mede_curve "s-RG1" 7 (353 / 100) (149 / 100) 1 1 250 5 (or_introl eq_refl) ltac:(lra)) as (t & E & _ & V & _).
    exists t. split; [exact E|]. cbn [String.append] in V. rewrite V. destruct (Rle_dec _ _); [lra|reflexivity].
Qed.
