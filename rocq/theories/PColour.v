(** Lightness of colours. *)
Require Import Verif.Py Verif.MColour Verif.SColour.
From Coq Require Import Psatz.

Lemma mod1_at x y n : x = y + IZR n -> 0 <= y < 1 -> mod1 x = y.
Proof.
  intros -> H. unfold mod1. assert (E : Int_part (y + IZR n) = n).
  { unfold Int_part. assert (U : (up (y + IZR n) = n + 1)%Z) by (symmetry; apply tech_up; rewrite plus_IZR; lra). rewrite U. lia. }
  rewrite E. lra.
Qed.
Lemma hue_at m1 m2 hue y n w : hue = y + IZR n -> 0 <= y < 1 ->
  (y <= 1 / 6 /\ w = 6 * y) \/ (1 / 6 <= y <= 1 / 2 /\ w = 1) \/ (1 / 2 <= y <= 2 / 3 /\ w = (2 / 3 - y) * 6) \/ (2 / 3 <= y /\ w = 0) ->
  hue_part m1 m2 hue = m1 + (m2 - m1) * w.
Proof.
  intros E Hy H. unfold hue_part. rewrite (mod1_at hue y n E Hy). cbv zeta.
  destruct (Rlt_dec y (1 / 6)), (Rlt_dec y (1 / 2)), (Rlt_dec y (2 / 3)); try lra;
  destruct H as [[A ->]|[[A ->]|[[A ->]|[A ->]]]]; try lra; try ring;
  try (assert (y = 1 / 6) as -> by lra; lra); try (assert (y = 1 / 2) as -> by lra; lra); try (assert (y = 2 / 3) as -> by lra; lra).
Qed.
Lemma mod1_shift x : exists k, mod1 x = x + IZR k.
Proof. exists (- Int_part x)%Z. unfold mod1. rewrite opp_IZR. ring. Qed.

Ltac split_lra := repeat (match goal with |- _ /\ _ => split end); first [lra | idtac]; first [left; split; lra | right; left; split; lra | right; right; left; split; lra | right; right; right; split; lra | idtac].
(** The three hue parts are the relative positions between least and greatest part. *)
Lemma hue_parts r g b m1 m2 : let M := max3 r g b in let m := min3 r g b in m <> M ->
  let rc := (M - r) / (M - m) in let gc := (M - g) / (M - m) in let bc := (M - b) / (M - m) in
  let h := mod1 ((if Req_EM_T r M then bc - gc else if Req_EM_T g M then 2 + rc - bc else 4 + gc - rc) / 6) in
  hue_part m1 m2 (h + 1 / 3) = m1 + (m2 - m1) * (1 - rc) /\ hue_part m1 m2 h = m1 + (m2 - m1) * (1 - gc) /\
  hue_part m1 m2 (h - 1 / 3) = m1 + (m2 - m1) * (1 - bc).
Proof.
  intros M m N rc gc bc.
  assert (B : m <= r <= M /\ m <= g <= M /\ m <= b <= M /\ (m = r \/ m = g \/ m = b) /\ (M = r \/ M = g \/ M = b)).
  { unfold M, m, max3, min3, Rmax, Rmin. repeat destruct Rle_dec; repeat split; try lra; auto. }
  clearbody M m. assert (D : 0 < M - m) by lra.
  assert (Q : forall c, m <= c <= M -> 0 <= (M - c) / (M - m) <= 1).
  { intros c Hc. split; [apply Rmult_le_reg_r with (M - m)|apply Rmult_le_reg_r with (M - m)]; try lra; unfold Rdiv; rewrite Rmult_assoc, Rinv_l by lra; lra. }
  destruct B as (B1 & B2 & B3 & Bm & BM). pose proof (Q r B1) as Qr. pose proof (Q g B2) as Qg. pose proof (Q b B3) as Qb. fold rc in Qr. fold gc in Qg. fold bc in Qb.
  assert (Zr : r = M -> rc = 0) by (intros ->; unfold rc; field; lra). assert (Zg : g = M -> gc = 0) by (intros ->; unfold gc; field; lra). assert (Zb : b = M -> bc = 0) by (intros ->; unfold bc; field; lra).
  assert (O : rc = 1 \/ gc = 1 \/ bc = 1).
  { destruct Bm as [<-|[<-|<-]]; [left; unfold rc|right; left; unfold gc|right; right; unfold bc]; field; lra. }
  clearbody rc gc bc.
  set (h0 := if Req_EM_T r M then bc - gc else if Req_EM_T g M then 2 + rc - bc else 4 + gc - rc). intros h. destruct (mod1_shift (h0 / 6)) as (k & Ek). fold h in Ek. rewrite Ek. clear Ek h.
  assert (G : exists yr yg yb (nr ng nb : Z), 
     h0 / 6 + 1 / 3 = yr + IZR nr /\ h0 / 6 = yg + IZR ng /\ h0 / 6 - 1 / 3 = yb + IZR nb /\ 0 <= yr < 1 /\ 0 <= yg < 1 /\ 0 <= yb < 1 /\
     let ok y w := (y <= 1 / 6 /\ w = 6 * y) \/ (1 / 6 <= y <= 1 / 2 /\ w = 1) \/ (1 / 2 <= y <= 2 / 3 /\ w = (2 / 3 - y) * 6) \/ (2 / 3 <= y /\ w = 0) in
     ok yr (1 - rc) /\ ok yg (1 - gc) /\ ok yb (1 - bc)).
  { unfold h0. assert (BM' : r <> M -> g <> M -> b = M) by (intros X Y; destruct BM as [H|[H|H]]; congruence).
    clear Q Bm BM B1 B2 B3 D N. destruct (Req_EM_T r M) as [Er|Er]; [|destruct (Req_EM_T g M) as [Eg|Eg]].
    - specialize (Zr Er). clear BM' Er Zg Zb. destruct O as [O|[O|O]]; [lra| |].
      + destruct (Req_EM_T bc 1) as [O2|O2].
        * exists (1 / 3), 0, (2 / 3), 0%Z, 0%Z, (-1)%Z. cbv zeta. split_lra.
        * exists (1 / 3 + (bc - gc) / 6), (1 + (bc - gc) / 6), (2 / 3 + (bc - gc) / 6), 0%Z, (-1)%Z, (-1)%Z. cbv zeta. split_lra.
      + exists (1 / 3 + (bc - gc) / 6), ((bc - gc) / 6), (2 / 3 + (bc - gc) / 6), 0%Z, 0%Z, (-1)%Z. cbv zeta. split_lra.
    - specialize (Zg Eg). clear BM' Er Eg Zr Zb. destruct (Rlt_dec (2 + rc - bc) 2) as [Hl|Hl].
      + exists (1 / 3 + (2 + rc - bc) / 6), ((2 + rc - bc) / 6), ((2 + rc - bc) / 6 + 2 / 3), 0%Z, 0%Z, (-1)%Z. cbv zeta.
        destruct O as [O|[O|O]]; split_lra.
      + exists (1 / 3 + (2 + rc - bc) / 6), ((2 + rc - bc) / 6), ((2 + rc - bc) / 6 - 1 / 3), 0%Z, 0%Z, 0%Z. cbv zeta.
        destruct O as [O|[O|O]]; split_lra.
    - assert (Eb : b = M) by (apply BM'; assumption). specialize (Zb Eb). clear BM' Er Eg Eb Zr Zg.
      destruct (Rlt_dec ((4 + gc - rc) / 6 + 1 / 3) 1) as [Hl|Hl].
      + exists (1 / 3 + (4 + gc - rc) / 6), ((4 + gc - rc) / 6), ((4 + gc - rc) / 6 - 1 / 3), 0%Z, 0%Z, 0%Z. cbv zeta.
        destruct O as [O|[O|O]]; split_lra.
      + exists ((4 + gc - rc) / 6 - 2 / 3), ((4 + gc - rc) / 6), ((4 + gc - rc) / 6 - 1 / 3), 1%Z, 0%Z, 0%Z. cbv zeta.
        destruct O as [O|[O|O]]; split_lra. }
  destruct G as (yr & yg & yb & nr & ng & nb & E1 & E2 & E3 & Y1 & Y2 & Y3 & W1 & W2 & W3).
  split; [|split].
  - apply (hue_at m1 m2 _ yr (nr + k)); [rewrite plus_IZR; clear -E1 E2 E3; lra|exact Y1|exact W1].
  - apply (hue_at m1 m2 _ yg (ng + k)); [rewrite plus_IZR; clear -E1 E2 E3; lra|exact Y2|exact W2].
  - apply (hue_at m1 m2 _ yb (nb + k)); [rewrite plus_IZR; clear -E1 E2 E3; lra|exact Y3|exact W3].
Qed.

(** Every part keeps its relative distance from the lightness. *)
Lemma adjusted r g b amount : colour (r, g, b) -> forall l, lightness (r, g, b) l ->
  let L := Rmax 0 (Rmin 1 (amount * l)) in
  exists f, (room l <> 0 -> f = room L / room l) /\ adjust_lightness (r, g, b) amount = (L + f * (r - l), L + f * (g - l), L + f * (b - l)).
Proof.
  intros Hc l0 Hl. set (M := max3 r g b). set (m := min3 r g b).
  assert (B : m <= r <= M /\ m <= g <= M /\ m <= b <= M /\ (m = r \/ m = g \/ m = b) /\ (M = r \/ M = g \/ M = b)).
  { unfold M, m, max3, min3, Rmax, Rmin. repeat destruct Rle_dec; repeat split; try lra; auto. }
  destruct B as (B1 & B2 & B3 & Bm & BM).
  assert (El : l0 = (M + m) / 2).
  { destruct Hl as (a & d & Ia & Id & F & ->). cbn [parts] in *. inversion F as [|? ? F1 F5]; subst. inversion F5 as [|? ? F2 F4]; subst. inversion F4 as [|? ? F3 _]; subst.
    assert (a = m) by (destruct Ia as [<-|[<-|[<-|[]]]]; destruct Bm as [-> | [-> | ->]]; lra).
    assert (d = M) by (destruct Id as [<-|[<-|[<-|[]]]]; destruct BM as [-> | [-> | ->]]; lra). subst. lra. }
  unfold colour, parts in Hc. inversion Hc as [|? ? C1 Hc5]; subst. inversion Hc5 as [|? ? C2 Hc4]; subst. inversion Hc4 as [|? ? C3 _]; subst.
  assert (P : 0 <= m /\ M <= 1) by (split; [destruct Bm as [-> | [-> | ->]]; lra|destruct BM as [-> | [-> | ->]]; lra]).
  set (l := (M + m) / 2). intros L. assert (HL : 0 <= L <= 1) by (unfold L, Rmax, Rmin; repeat destruct Rle_dec; lra).
  unfold adjust_lightness, rgb_to_hls. fold M m l. cbv zeta. destruct (Req_EM_T m M) as [E|E].
  - fold L. unfold hls_to_rgb. destruct (Req_EM_T 0 0); [|lra]. assert (El : l = m) by (unfold l; lra).
    assert (X : r - l = 0 /\ g - l = 0 /\ b - l = 0) by lra. destruct X as (-> & -> & ->). exists (room L / room l). split; [reflexivity|]. rewrite !Rmult_0_r, Rplus_0_r. reflexivity.
  - fold L. set (s := if Rle_dec l (1 / 2) then (M - m) / (M + m) else (M - m) / (2 - M - m)).
    assert (Rm : room l = if Rle_dec l (1 / 2) then l else 1 - l) by (unfold room, Rmin; destruct (Rle_dec l (1 - l)), (Rle_dec l (1 / 2)); lra).
    assert (RL : room L = if Rle_dec L (1 / 2) then L else 1 - L) by (unfold room, Rmin; destruct (Rle_dec L (1 - L)), (Rle_dec L (1 / 2)); lra).
    assert (Rp : 0 < room l) by (rewrite Rm; destruct Rle_dec; unfold l in *; lra).
    assert (Es : s = (M - m) / (2 * room l)).
    { unfold s. rewrite Rm. destruct Rle_dec; f_equal; unfold l; field. }
    assert (Sp : s <> 0) by (rewrite Es; apply Rgt_not_eq, Rdiv_lt_0_compat; lra).
    unfold hls_to_rgb. destruct (Req_EM_T s 0); [contradiction|]. cbv zeta.
    set (m2 := if Rle_dec L (1 / 2) then L * (1 + s) else L + s - L * s).
    assert (E2 : m2 = L + s * room L) by (unfold m2; rewrite RL; clear -s L; clearbody s L; destruct (Rle_dec L (1 / 2)); ring).
    destruct (hue_parts r g b (2 * L - m2) m2) as (H1 & H2 & H3); [exact E|]. fold M m in H1, H2, H3. rewrite H1, H2, H3.
    exists (room L / room l). split; [reflexivity|]. rewrite E2, Es. unfold l. 
    f_equal; [f_equal|]; field; (split; [fold l; lra|lra]).
Qed.
