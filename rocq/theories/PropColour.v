(** Property theorems C99: lighter and darker colours. *)
Require Import Verif.Py Verif.MColour Verif.SColour Verif.PColour.

Lemma lightness_range c l : colour c -> lightness c l -> 0 <= l <= 1 /\ forall v, In v (parts c) -> Rabs (v - l) <= room l.
Proof.
  intros C (a & b & Ia & Ib & F & ->). unfold colour in C. rewrite Forall_forall in C, F. pose proof (C a Ia). pose proof (C b Ib).
  split; [specialize (F a Ia); lra|]. intros v Iv. specialize (F v Iv). unfold room, Rmin. apply Rabs_le. destruct Rle_dec; lra.
Qed.
Lemma some_lightness c : exists l, lightness c l.
Proof.
  destruct c as [[r g] b]. exists ((min3 r g b + max3 r g b) / 2), (min3 r g b), (max3 r g b). cbn [parts]. unfold min3, max3, Rmin, Rmax.
  repeat destruct Rle_dec; (split; [cbn; auto|]); (split; [cbn; auto|]); (split; [|reflexivity]);
  (apply Forall_cons; [lra|]); (apply Forall_cons; [lra|]); (apply Forall_cons; [lra|]); apply Forall_nil.
Qed.

(** C99: the result is a colour whose lightness is [amount] times the old one (at most 1), and every part keeps its place
    between darkest and brightest possible part: hue and saturation stay. *)
Theorem C99_adjust c l amount : colour c -> lightness c l -> 0 <= amount ->
  let c' := adjust_lightness c amount in
  exists l', colour c' /\ lightness c' l' /\ (amount * l <= 1 -> l' = amount * l) /\ (1 < amount * l -> l' = 1) /\
  Forall2 (fun v v' => (v' - l') * room l = (v - l) * room l') (parts c) (parts c').
Proof.
  destruct c as [[r g] b]. intros C Hl Ha c'. destruct (lightness_range _ _ C Hl) as [L01 Rg]. destruct (adjusted r g b amount C l Hl) as (f & Hf & E). fold c' in E.
  set (L := Rmax 0 (Rmin 1 (amount * l))) in *. assert (Al : 0 <= amount * l) by (apply Rmult_le_pos; lra).
  assert (L1 : (amount * l <= 1 -> L = amount * l) /\ (1 < amount * l -> L = 1)) by (unfold L, Rmax, Rmin; repeat destruct Rle_dec; lra).
  assert (HL : 0 <= L <= 1) by (unfold L, Rmax, Rmin; repeat destruct Rle_dec; lra). clearbody L.
  assert (R0 : 0 <= room l /\ 0 <= room L) by (unfold room, Rmin; repeat destruct Rle_dec; lra).
  assert (K : exists k, 0 <= k /\ k * room l = room L * (if Req_EM_T (room l) 0 then 0 else 1) /\ forall v, In v (parts (r, g, b)) -> f * (v - l) = k * (v - l)).
  { destruct (Req_EM_T (room l) 0) as [Z|Z].
    - exists 0. split; [lra|]. split; [lra|]. intros v Iv. specialize (Rg v Iv). rewrite Z in Rg. pose proof (Rabs_pos (v - l)).
      assert (v - l = 0) as -> by (destruct (Req_EM_T (v - l) 0) as [W|W]; [exact W|apply Rabs_no_R0 in W; lra]). ring.
    - exists f. split; [rewrite (Hf Z); apply Rmult_le_pos; [apply R0|left; apply Rinv_0_lt_compat; lra]|]. split; [rewrite (Hf Z); field; exact Z|]. reflexivity. }
  destruct K as (k & K0 & K1 & K2).
  assert (E' : c' = (L + k * (r - l), L + k * (g - l), L + k * (b - l))).
  { rewrite E, !K2 by (cbn; auto). reflexivity. }
  rewrite E'. clear E E' Hf K2. exists L. split; [|split; [|split; [apply L1|split; [apply L1|]]]].
  - assert (G : forall v, In v (parts (r, g, b)) -> 0 <= L + k * (v - l) <= 1).
    { intros v Iv. specialize (Rg v Iv). assert (Q : Rabs (k * (v - l)) <= room L).
      { rewrite Rabs_mult, (Rabs_pos_eq k K0). apply Rle_trans with (k * room l); [apply Rmult_le_compat_l; assumption|]. rewrite K1. destruct Req_EM_T; lra. }
      assert (Q' := Rle_abs (k * (v - l))); assert (Q2 := Rle_abs (- (k * (v - l)))); rewrite Rabs_Ropp in Q2. unfold room, Rmin in Q. destruct Rle_dec; lra. }
    unfold colour. cbn [parts]. repeat (apply Forall_cons || apply Forall2_cons || apply Forall_nil || apply Forall2_nil); apply G; cbn; auto.
  - destruct Hl as (a & d & Ia & Id & F & El). exists (L + k * (a - l)), (L + k * (d - l)). cbn [parts] in *.
    split; [destruct Ia as [<-|[<-|[<-|[]]]]; cbn; auto|]. split; [destruct Id as [<-|[<-|[<-|[]]]]; cbn; auto|].
    split; [|rewrite El; field]. inversion F as [|? ? F1 F4]; subst. inversion F4 as [|? ? F2 F5]; subst. inversion F5 as [|? ? F3 _]; subst.
    set (l := (a + d) / 2) in *.
    assert (G : forall v, a <= v <= d -> L + k * (a - l) <= L + k * (v - l) <= L + k * (d - l)) by (intros v Hv; split; apply Rplus_le_compat_l, Rmult_le_compat_l; lra).
    repeat (apply Forall_cons || apply Forall_nil); apply G; assumption.
  - assert (G : forall v, In v (parts (r, g, b)) -> (L + k * (v - l) - L) * room l = (v - l) * room L).
    { intros v Iv. replace ((L + k * (v - l) - L) * room l) with (k * room l * (v - l)) by ring. rewrite K1. destruct Req_EM_T as [Z|Z]; [|ring].
      specialize (Rg v Iv). rewrite Z in Rg. pose proof (Rabs_pos (v - l)).
      assert (v - l = 0) as -> by (destruct (Req_EM_T (v - l) 0) as [W|W]; [exact W|apply Rabs_no_R0 in W; lra]). ring. }
    cbn [parts]. repeat (apply Forall_cons || apply Forall2_cons || apply Forall_nil || apply Forall2_nil); apply G; cbn; auto.
Qed.
Print Assumptions C99_adjust.

(** Amount 1 keeps every colour: the conversion to hue, lightness and saturation and back is exact. *)
Theorem C99_identity c : colour c -> adjust_lightness c 1 = c.
Proof.
  intros C. destruct (some_lightness c) as (l & Hl). destruct (lightness_range _ _ C Hl) as [L01 Rg]. destruct c as [[r g] b].
  destruct (adjusted r g b 1 C l Hl) as (f & Hf & ->). replace (Rmax 0 (Rmin 1 (1 * l))) with l in * by (unfold Rmax, Rmin; repeat destruct Rle_dec; lra).
  assert (G : forall v, In v (parts (r, g, b)) -> l + f * (v - l) = v).
  { intros v Iv. destruct (Req_EM_T (room l) 0) as [Z|Z].
    - specialize (Rg v Iv). rewrite Z in Rg. pose proof (Rabs_pos (v - l)).
      assert (W : v - l = 0) by (destruct (Req_EM_T (v - l) 0) as [W|W]; [exact W|apply Rabs_no_R0 in W; lra]). rewrite W. lra.
    - rewrite (Hf Z). field. exact Z. }
  rewrite !G by (cbn; auto). reflexivity.
Qed.
Print Assumptions C99_identity.
(** A dark blue, 10 percent darker as in weac/plot.py:364. *)
Example C99_example : colour (0, 1 / 5, 3 / 5) /\ lightness (0, 1 / 5, 3 / 5) (3 / 10) /\
  adjust_lightness (0, 1 / 5, 3 / 5) (9 / 10) = (0, 9 / 50, 27 / 50).
Proof.
  assert (C : colour (0, 1 / 5, 3 / 5)) by (unfold colour; cbn [parts]; repeat (apply Forall_cons || apply Forall_nil); lra).
  assert (Hl : lightness (0, 1 / 5, 3 / 5) (3 / 10)).
  { exists 0, (3 / 5). cbn [parts]. split; [cbn; auto|]. split; [cbn; auto|]. split; [repeat (apply Forall_cons || apply Forall_nil); lra|lra]. }
  split; [exact C|]. split; [exact Hl|]. destruct (adjusted _ _ _ (9 / 10) C _ Hl) as (f & Hf & ->).
  replace (Rmax 0 (Rmin 1 (9 / 10 * (3 / 10)))) with (27 / 100) in * by (unfold Rmax, Rmin; repeat destruct Rle_dec; lra).
  assert (E1 : room (3 / 10) = 3 / 10) by (unfold room, Rmin; destruct Rle_dec; lra). assert (E2 : room (27 / 100) = 27 / 100) by (unfold room, Rmin; destruct Rle_dec; lra).
  rewrite E1, E2 in Hf. rewrite (Hf ltac:(lra)). f_equal; [f_equal|]; lra.
Qed.
