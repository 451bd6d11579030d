(** Independence of the columns of the supported fundamental matrix. *)
From Coquelicot Require Import Coquelicot.
From Coq Require Import Permutation.
Require Import Verif.Py Verif.MTools Verif.MEigen Verif.MFields Verif.SAdm
  Verif.SBeam Verif.SEig Verif.PBeam Verif.PBeam2.

(** Complex scalars and vectors as pairs (real part, imaginary part). *)
Definition cvec := (vec6 * vec6)%type.
Definition cadd (X Y : cvec) : cvec := (vadd (fst X) (fst Y), vadd (snd X) (snd Y)).
Definition csmul (g : R * R) (X : cvec) : cvec :=
  (vadd (vscale (fst g) (fst X)) (vscale (- snd g) (snd X)),
   vadd (vscale (fst g) (snd X)) (vscale (snd g) (fst X))).
Definition czero : cvec := (vzero, vzero).
Definition cmulR (a b : R * R) : R * R :=
  (fst a * fst b - snd a * snd b, fst a * snd b + snd a * fst b).
Definition csubR (a b : R * R) : R * R := (fst a - fst b, snd a - snd b).
Definition capp (K : mat6) (X : cvec) : cvec := (matvec K (fst X), matvec K (snd X)).

Lemma cvec_eq (X Y : cvec) : fst X = fst Y -> snd X = snd Y -> X = Y.
Proof. destruct X, Y; simpl; intros; subst; reflexivity. Qed.
Ltac cv := apply cvec_eq; apply vec6_eq; simpl; ring.

Lemma csmul_csmul a b X : csmul a (csmul b X) = csmul (cmulR a b) X.
Proof. cv. Qed.
Lemma csmul_zero a : csmul a czero = czero.
Proof. cv. Qed.
Lemma capp_add K X Y : capp K (cadd X Y) = cadd (capp K X) (capp K Y).
Proof. apply cvec_eq; apply matvec_add. Qed.
Lemma capp_smul K g X : capp K (csmul g X) = csmul g (capp K X).
Proof. unfold capp, csmul; simpl. rewrite !matvec_add, !matvec_scale. reflexivity. Qed.
Lemma capp_zero K : capp K czero = czero.
Proof. unfold capp; simpl. rewrite matvec_zero. reflexivity. Qed.
Lemma eig_capp K ew X : true_eigenpair K (ew, X) <-> capp K X = csmul ew X.
Proof.
  destruct ew as [re im], X as [vr vi]. unfold true_eigenpair, capp, csmul; simpl. split.
  - intros [-> ->]. cv.
  - intros E. pose proof (f_equal fst E) as E1. pose proof (f_equal snd E) as E2.
    cbn [fst snd] in E1, E2. rewrite E1, E2. split; apply vec6_eq; simpl; ring.
Qed.

Lemma csmul_inj a X : a <> (0, 0) -> csmul a X = czero -> X = czero.
Proof.
  intros Ha E. destruct a as [x y].
  assert (Hn : x ^ 2 + y ^ 2 <> 0).
  { intros H. apply Ha. assert (x = 0) by nra. assert (y = 0) by nra. congruence. }
  assert (E2 : csmul (x / (x ^ 2 + y ^ 2), - y / (x ^ 2 + y ^ 2)) (csmul (x, y) X) = X).
  { assert (Hm : x * x + y * y <> 0) by (intros H; apply Hn; nra).
    rewrite csmul_csmul. apply cvec_eq; apply vec6_eq; simpl; field; exact Hm. }
  rewrite <- E2, E. apply csmul_zero.
Qed.
Lemma csmul_inj_l a X : X <> czero -> csmul a X = czero -> a = (0, 0).
Proof.
  intros Hx E. destruct (Req_EM_T (fst a) 0) as [E1|E1], (Req_EM_T (snd a) 0) as [E2|E2].
  - destruct a; simpl in *; congruence.
  - exfalso. apply Hx. apply (csmul_inj a); [|exact E]. intros ->. apply E2; reflexivity.
  - exfalso. apply Hx. apply (csmul_inj a); [|exact E]. intros ->. apply E1; reflexivity.
  - exfalso. apply Hx. apply (csmul_inj a); [|exact E]. intros ->. apply E1; reflexivity.
Qed.

Fixpoint ccomb (L : list eigpair) (G : list (R * R)) : cvec :=
  match L, G with
  | e :: L', g :: G' => cadd (csmul g (snd e)) (ccomb L' G')
  | _, _ => czero
  end.

Lemma ccomb_app L1 L2 G1 G2 : List.length G1 = List.length L1 ->
  ccomb (L1 ++ L2) (G1 ++ G2) = cadd (ccomb L1 G1) (ccomb L2 G2).
Proof.
  revert G1. induction L1 as [|e L1 IH]; intros [|g G1] H; try discriminate; simpl.
  - cv.
  - rewrite IH by (simpl in H; lia). cv.
Qed.

(** (K - mu) applied to a combination of eigenvectors. *)
Lemma shift_comb K mu L G : Forall (true_eigenpair K) L ->
  cadd (capp K (ccomb L G)) (csmul (- fst mu, - snd mu) (ccomb L G))
  = ccomb L (map2 (fun e g => cmulR (csubR (fst e) mu) g) L G).
Proof.
  intros HL. revert G. induction HL as [|[ew X] L He HL IH]; intros G.
  - simpl. rewrite capp_zero. cv.
  - destruct G as [|g G]; [simpl; rewrite capp_zero; cv|].
    cbn [ccomb map2]. rewrite <- IH. rewrite capp_add, capp_smul.
    apply eig_capp in He. cbn [snd fst]. rewrite He. cv.
Qed.

Lemma eigenvectors_independent K L : Forall (true_eigenpair K) L -> NoDup (map fst L) ->
  forall G, List.length G = List.length L -> ccomb L G = czero ->
  Forall (fun eg => csmul (snd eg) (snd (fst eg)) = czero) (combine L G).
Proof.
  intros HL. induction HL as [|e L He HL IH]; intros HD G HG E.
  - constructor.
  - destruct G as [|g G]; [discriminate|]. cbn [combine]. simpl in HD.
    inversion HD as [|? ? Hnin HD']; subst.
    assert (E2 : ccomb L (map2 (fun e' g => cmulR (csubR (fst e') (fst e)) g) L G) = czero).
    { pose proof (shift_comb K (fst e) (e :: L) (g :: G) (Forall_cons _ He HL)) as S.
      rewrite E, capp_zero, csmul_zero in S. cbn [ccomb map2] in S.
      assert (Z : csmul (cmulR (csubR (fst e) (fst e)) g) (snd e) = czero).
      { apply cvec_eq; apply vec6_eq; simpl; ring. }
      rewrite Z in S.
      set (w := ccomb L (map2 (fun e' g => cmulR (csubR (fst e') (fst e)) g) L G)) in *.
      replace (cadd czero w) with w in S by (apply cvec_eq; apply vec6_eq; simpl; ring).
      rewrite <- S. cv. }
    assert (F : Forall (fun eg => csmul (snd eg) (snd (fst eg)) = czero) (combine L G)).
    { specialize (IH HD' (map2 (fun e' g => cmulR (csubR (fst e') (fst e)) g) L G)).
      assert (LG : List.length G = List.length L) by (simpl in HG; lia).
      assert (LM : List.length (map2 (fun e' g => cmulR (csubR (fst e') (fst e)) g) L G) = List.length L).
      { clear -LG. revert G LG. induction L as [|a L IHL]; intros [|b G] H; try discriminate; simpl; [reflexivity|].
        rewrite IHL; [reflexivity|]. simpl in H; lia. }
      specialize (IH LM E2). clear -IH Hnin LG.
      revert G IH LG. induction L as [|a L IHL]; intros [|b G] IH LG; try discriminate; [constructor|].
      cbn [combine map2] in *. inversion IH as [|? ? H1 H2]; subst. cbn [fst snd] in H1.
      constructor.
      - cbn [fst snd]. rewrite <- csmul_csmul in H1. apply csmul_inj in H1; [exact H1|].
        intros C. apply Hnin. simpl. left. unfold csubR in C. injection C; intros C2 C1.
        destruct (fst a), (fst e); simpl in *. apply f_equal2; lra.
      - apply IHL; [|exact H2|simpl in LG; lia]. intros C. apply Hnin. right. exact C. }
    constructor; [|exact F]. cbn [fst snd].
    cbn [ccomb] in E.
    assert (Z : ccomb L G = czero).
    { clear -F HG. assert (LG : List.length G = List.length L) by (simpl in HG; lia). clear HG.
      revert G F LG. induction L as [|a L IHL]; intros [|b G] F LG; try discriminate; [reflexivity|].
      cbn [combine] in F. inversion F as [|? ? H1 H2]; subst. cbn [fst snd] in H1. cbn [ccomb].
      rewrite IHL; [|exact H2|simpl in LG; lia].
      transitivity (cadd czero czero); [|apply cvec_eq; apply vec6_eq; cbn; ring]. exact (f_equal (fun w => cadd w czero) H1). }
    rewrite Z in E. transitivity (cadd (csmul g (snd e)) czero); [|exact E].
    apply cvec_eq; apply vec6_eq; cbn; symmetry; apply Rplus_0_r.
Qed.

(** ** The library's columns *)
Lemma lincomb_app c1 c2 C1 C2 : List.length C1 = List.length c1 ->
  lincomb (c1 ++ c2) (C1 ++ C2) = vadd (lincomb c1 C1) (lincomb c2 C2).
Proof.
  revert C1. induction c1 as [|c c1 IH]; intros [|x C1] H; try discriminate; simpl.
  - rewrite vadd_zero_l. reflexivity.
  - rewrite IH by (simpl in H; lia). apply vadd_assoc.
Qed.

Definition conj_pair (e : eigpair) : eigpair :=
  ((fst (fst e), - snd (fst e)), (fst (snd e), vscale (-1) (snd (snd e)))).
Lemma conj_eig K e : true_eigenpair K e -> true_eigenpair K (conj_pair e).
Proof.
  destruct e as [[re im] [vr vi]]. unfold conj_pair, true_eigenpair; simpl. intros [E1 E2].
  rewrite matvec_scale, E1, E2. split; apply vec6_eq; simpl; ring.
Qed.
Definition real_pair (e : R * vec6) : eigpair := ((fst e, 0), (snd e, vzero)).

(** Coefficients of the complex combination. *)
Definition facR (l : R) (e : R * vec6) : R := exp (fst e * (0 + l * shiftR (fst e))).
Definition facC (l : R) (e : eigpair) : R := exp (fst (fst e) * (0 + l * shiftC (fst e))).
Definition gR l (e : R * vec6) (c : R) : R * R := (facR l e * c, 0).
Definition gC l (e : eigpair) (ab : R * R) : R * R := (facC l e * fst ab / 2, - (facC l e * snd ab / 2)).
Definition gCc l (e : eigpair) (ab : R * R) : R * R := (facC l e * fst ab / 2, facC l e * snd ab / 2).

Lemma comb_real l L C : ccomb (map real_pair L) (map2 (gR l) L C) = (lincomb (map (colR 0 l) L) C, vzero).
Proof.
  revert C. induction L as [|[ew ev] L IH]; intros [|c C]; try reflexivity.
  cbn [map map2 ccomb lincomb]. rewrite IH. unfold colR, gR, facR; cbn [fst snd real_pair].
  apply cvec_eq; apply vec6_eq; simpl; ring.
Qed.
Lemma comb_cmplx l L A B : List.length A = List.length L -> List.length B = List.length L ->
  cadd (ccomb L (map2 (gC l) L (combine A B))) (ccomb (map conj_pair L) (map2 (gCc l) L (combine A B)))
  = (vadd (lincomb (map (colC1 0 l) L) A) (lincomb (map (colC2 0 l) L) B), vzero).
Proof.
  revert A B. induction L as [|[[re im] [vr vi]] L IH]; intros [|a A] [|b B] HA HB; try discriminate.
  - apply cvec_eq; apply vec6_eq; simpl; ring.
  - cbn [map map2 ccomb lincomb combine]. simpl in HA, HB.
    specialize (IH A B ltac:(lia) ltac:(lia)).
    set (X := ccomb L (map2 (gC l) L (combine A B))) in *.
    set (Y := ccomb (map conj_pair L) (map2 (gCc l) L (combine A B))) in *.
    set (P := lincomb (map (colC1 0 l) L) A) in *. set (Q := lincomb (map (colC2 0 l) L) B) in *.
    assert (I1 : vadd (fst X) (fst Y) = vadd P Q) by (apply (f_equal fst) in IH; exact IH).
    assert (I2 : vadd (snd X) (snd Y) = vzero) by (apply (f_equal snd) in IH; exact IH).
    unfold colC1, colC2, gC, gCc, facC, conj_pair; cbn [fst snd].
    rewrite Rmult_0_r, cos_0, sin_0.
    set (f := exp (re * (0 + l * shiftC (re, im)))).
    assert (E1 : forall g : vec6 -> R, (forall u v, g (vadd u v) = g u + g v) ->
      g (fst X) + g (fst Y) = g P + g Q) by (intros g Hg; rewrite <- !Hg, I1; reflexivity).
    assert (E2 : forall g : vec6 -> R, (forall u v, g (vadd u v) = g u + g v) -> g vzero = 0 ->
      g (snd X) + g (snd Y) = 0) by (intros g Hg Hg0; rewrite <- !Hg, I2; exact Hg0).
    assert (N : forall x y s t : R, s = t -> x = y -> x + s = y + t) by (intros; lra).
    apply cvec_eq; apply vec6_eq; cbn [fst snd cadd csmul vadd vscale z_u z_du z_w z_dw z_psi z_dpsi vzero].
    + pose proof (E1 z_u ltac:(reflexivity)). lra.
    + pose proof (E1 z_du ltac:(reflexivity)). lra.
    + pose proof (E1 z_w ltac:(reflexivity)). lra.
    + pose proof (E1 z_dw ltac:(reflexivity)). lra.
    + pose proof (E1 z_psi ltac:(reflexivity)). lra.
    + pose proof (E1 z_dpsi ltac:(reflexivity)). lra.
    + pose proof (E2 z_u ltac:(reflexivity) ltac:(reflexivity)). lra.
    + pose proof (E2 z_du ltac:(reflexivity) ltac:(reflexivity)). lra.
    + pose proof (E2 z_w ltac:(reflexivity) ltac:(reflexivity)). lra.
    + pose proof (E2 z_dw ltac:(reflexivity) ltac:(reflexivity)). lra.
    + pose proof (E2 z_psi ltac:(reflexivity) ltac:(reflexivity)). lra.
    + pose proof (E2 z_dpsi ltac:(reflexivity) ltac:(reflexivity)). lra.
Qed.

(** ** From the eigensolver's output to independent columns *)
Lemma NoDup_filter_fst (f : eigpair -> bool) L : NoDup (map fst L) -> NoDup (map fst (filter f L)).
Proof.
  induction L as [|a L IH]; simpl; intros H; [constructor|].
  inversion H as [|? ? Hn Hd]; subst. destruct (f a); [|apply IH; exact Hd].
  simpl. constructor; [|apply IH; exact Hd].
  intros C. apply Hn. apply in_map_iff in C. destruct C as (y & E & Hy).
  apply filter_In in Hy. apply in_map_iff. exists y. tauto.
Qed.
Lemma NoDup_app3 {A} (l1 l2 : list A) : NoDup l1 -> NoDup l2 -> (forall x, In x l1 -> ~ In x l2) -> NoDup (l1 ++ l2).
Proof.
  induction l1 as [|a l1 IH]; intros H1 H2 H; [exact H2|].
  inversion H1 as [|? ? Hn Hd]; subst. simpl. constructor.
  - rewrite in_app_iff. intros [C|C]; [contradiction|]. apply (H a); [left; reflexivity|exact C].
  - apply IH; [exact Hd|exact H2|]. intros x Hx. apply H. right; exact Hx.
Qed.
Lemma map2_length {A B C} (f : A -> B -> C) la lb : List.length lb = List.length la ->
  List.length (map2 f la lb) = List.length la.
Proof.
  revert lb. induction la as [|a la IH]; intros [|b lb] H; try discriminate; simpl; [reflexivity|].
  rewrite IH; [reflexivity|]. simpl in H; lia.
Qed.
Lemma combine_app {A B} (a1 a2 : list A) (b1 b2 : list B) : List.length b1 = List.length a1 ->
  combine (a1 ++ a2) (b1 ++ b2) = combine a1 b1 ++ combine a2 b2.
Proof.
  revert b1. induction a1 as [|x a1 IH]; intros [|y b1] H; try discriminate; simpl; [reflexivity|].
  rewrite IH; [reflexivity|]. simpl in H; lia.
Qed.

Lemma zero_real l (L : list (R * vec6)) C : List.length C = List.length L ->
  Forall (fun e => snd e <> vzero) L ->
  Forall (fun eg => csmul (snd eg) (snd (fst eg)) = czero) (combine (map real_pair L) (map2 (gR l) L C)) ->
  Forall (fun c => c = 0) C.
Proof.
  revert C. induction L as [|[ew ev] L IH]; intros [|c C] HL HV H; try discriminate; [constructor|].
  cbn [map map2 combine] in H. inversion H as [|? ? H1 H2]; subst.
  inversion HV as [|? ? V1 V2]; subst. constructor.
  - cbn [fst snd real_pair] in H1. apply csmul_inj_l in H1.
    + unfold gR in H1. injection H1; intros E.
      assert (0 < facR l (ew, ev)) by apply exp_pos. nra.
    + intros E. apply V1. apply (f_equal fst) in E. exact E.
  - apply IH; [simpl in HL; lia|exact V2|exact H2].
Qed.
Lemma zero_cmplx l (L : list eigpair) A B : List.length A = List.length L -> List.length B = List.length L ->
  Forall (fun e => ~ (fst (snd e) = vzero /\ snd (snd e) = vzero)) L ->
  Forall (fun eg => csmul (snd eg) (snd (fst eg)) = czero) (combine L (map2 (gC l) L (combine A B))) ->
  Forall (fun c => c = 0) A /\ Forall (fun c => c = 0) B.
Proof.
  revert A B. induction L as [|[[re im] [vr vi]] L IH]; intros [|a A] [|b B] HA HB HV H; try discriminate.
  - split; constructor.
  - cbn [map2 combine] in H. inversion H as [|? ? H1 H2]; subst.
    inversion HV as [|? ? V1 V2]; subst. cbn [fst snd] in H1, V1.
    destruct (IH A B ltac:(simpl in HA; lia) ltac:(simpl in HB; lia) V2 H2) as [I1 I2].
    apply csmul_inj_l in H1.
    + unfold gC in H1. cbn [fst snd] in H1. injection H1; intros E2 E1.
      assert (0 < facC l (re, im, (vr, vi))) by apply exp_pos.
      split; constructor; try assumption; nra.
    + intros E. apply V1. split; [apply (f_equal fst) in E|apply (f_equal snd) in E]; exact E.
Qed.

Lemma columns_independent K ews l C :
  Forall (true_eigenpair K) ews -> NoDup (map fst ews) ->
  Forall (fun e => ~ (fst (snd e) = vzero /\ snd (snd e) = vzero) /\
                   (snd (fst e) = 0 -> fst (snd e) <> vzero)) ews ->
  let cols := zh_bedded (calc_eigensystem ews) 0 l in
  List.length C = List.length cols -> lincomb cols C = vzero -> Forall (fun c => c = 0) C.
Proof.
  intros HT HD HV cols HC H.
  set (e := calc_eigensystem ews) in *. set (nr := List.length (eR e)). set (nc := List.length (eC e)).
  assert (LC : List.length C = (nr + (nc + nc))%nat).
  { rewrite HC. unfold cols, zh_bedded. rewrite !app_length, !map_length. reflexivity. }
  set (C1 := firstn nr C). set (A := firstn nc (skipn nr C)). set (B := skipn nc (skipn nr C)).
  assert (EC : C = C1 ++ A ++ B).
  { unfold C1, A, B. rewrite firstn_skipn, firstn_skipn. reflexivity. }
  assert (L1 : List.length C1 = nr) by (unfold C1; rewrite firstn_length; lia).
  assert (LA : List.length A = nc) by (unfold A; rewrite firstn_length, skipn_length; lia).
  assert (LB : List.length B = nc) by (unfold B; rewrite !skipn_length; lia).
  clearbody C1 A B. subst C.
  unfold cols, zh_bedded in H.
  rewrite lincomb_app in H by (rewrite map_length; exact L1).
  rewrite lincomb_app in H by (rewrite map_length; exact LA).
  assert (HR : forall q, In q (eR e) -> exists v, In ((fst q, 0), (snd q, v)) ews).
  { intros q Hq. unfold e, calc_eigensystem in Hq; simpl in Hq. apply in_map_iff in Hq.
    destruct Hq as ([[re im] [vr vi]] & Eq & Hq). apply filter_In in Hq. destruct Hq as [Hin Hr].
    unfold is_real_ew in Hr; simpl in Hr. apply andb_prop in Hr. destruct Hr as [Him _].
    unfold Reqb in Him. destruct (Req_EM_T im 0) as [->|]; [|discriminate].
    subst q. simpl. exists vi. exact Hin. }
  assert (HCx : forall q, In q (eC e) -> In q ews /\ 0 < snd (fst q)).
  { intros q Hq. unfold e, calc_eigensystem in Hq; simpl in Hq. apply filter_In in Hq.
    destruct Hq as [Hin Hq]. split; [exact Hin|]. unfold is_cmplx_ew, Rltb in Hq.
    destruct (Rlt_dec 0 (snd (fst q))); [assumption|discriminate]. }
  set (L := map real_pair (eR e) ++ eC e ++ map conj_pair (eC e)).
  set (G := map2 (gR l) (eR e) C1 ++ map2 (gC l) (eC e) (combine A B) ++ map2 (gCc l) (eC e) (combine A B)).
  assert (LAB : List.length (combine A B) = List.length (eC e)) by (rewrite combine_length, LA, LB; apply Nat.min_id).
  assert (LG1 : List.length (map2 (gR l) (eR e) C1) = List.length (map real_pair (eR e)))
    by (rewrite map2_length, map_length by exact L1; reflexivity).
  assert (LG2 : List.length (map2 (gC l) (eC e) (combine A B)) = List.length (eC e))
    by (apply map2_length; exact LAB).
  assert (LG3 : List.length (map2 (gCc l) (eC e) (combine A B)) = List.length (map conj_pair (eC e)))
    by (rewrite map2_length, map_length by exact LAB; reflexivity).
  assert (HG : ccomb L G = czero).
  { unfold L, G. rewrite ccomb_app by exact LG1. rewrite ccomb_app by exact LG2.
    rewrite comb_cmplx by assumption. rewrite comb_real.
    unfold cadd; cbn [fst snd].
    apply cvec_eq; cbn [fst snd]; [exact H|]. apply vadd_zero_l. }
  assert (HTL : Forall (true_eigenpair K) L).
  { rewrite Forall_forall in HT. unfold L. rewrite !Forall_app. split; [|split].
    - apply Forall_map, Forall_forall. intros q Hq. destruct (HR q Hq) as (v & Hv).
      specialize (HT _ Hv). unfold real_pair, true_eigenpair in *. destruct HT as [E1 _]. rewrite E1.
      rewrite matvec_zero. split; apply vec6_eq; simpl; ring.
    - apply Forall_forall. intros q Hq. apply HT. apply HCx. exact Hq.
    - apply Forall_map, Forall_forall. intros q Hq. apply conj_eig. apply HT. apply HCx. exact Hq. }
  assert (HDL : NoDup (map fst L)).
  { unfold L. rewrite !map_app. apply NoDup_app3; [|apply NoDup_app3|].
    - rewrite map_map. unfold e, calc_eigensystem; simpl. rewrite map_map.
      rewrite (map_ext_in _ fst).
      + apply NoDup_filter_fst. exact HD.
      + intros [[re im] [vr vi]] Hq. apply filter_In in Hq. destruct Hq as [_ Hr].
        unfold is_real_ew in Hr; simpl in Hr. apply andb_prop in Hr. destruct Hr as [Him _].
        unfold Reqb in Him. destruct (Req_EM_T im 0) as [->|]; [|discriminate]. reflexivity.
    - unfold e, calc_eigensystem; simpl. apply NoDup_filter_fst. exact HD.
    - rewrite map_map.
      assert (HN : NoDup (map fst (eC e))) by (unfold e, calc_eigensystem; simpl; apply NoDup_filter_fst; exact HD).
      clear -HN. induction (eC e) as [|a M IH]; simpl in *; [constructor|].
      inversion HN as [|? ? Hn Hd]; subst. constructor; [|apply IH; exact Hd].
      intros C. apply Hn. apply in_map_iff in C. destruct C as (y & E & Hy).
      apply in_map_iff. exists y. split; [|exact Hy]. unfold conj_pair in E; simpl in E.
      injection E; intros E2 E1. destruct (fst y), (fst a); simpl in *. apply f_equal2; lra.
    - intros x Hx Hy. apply in_map_iff in Hx. destruct Hx as (q & <- & Hq).
      apply in_map_iff in Hy. destruct Hy as (q2 & E & Hq2). apply in_map_iff in Hq2.
      destruct Hq2 as (q3 & <- & Hq3). apply HCx in Hq. apply HCx in Hq3.
      apply (f_equal snd) in E. simpl in E. lra.
    - intros x Hx Hy. apply in_map_iff in Hx. destruct Hx as (q & <- & Hq).
      apply in_map_iff in Hq. destruct Hq as (q1 & <- & Hq1).
      apply in_app_iff in Hy. destruct Hy as [Hy|Hy]; apply in_map_iff in Hy; destruct Hy as (q2 & E & Hq2).
      + apply HCx in Hq2. rewrite E in Hq2. simpl in Hq2. lra.
      + apply in_map_iff in Hq2. destruct Hq2 as (q3 & <- & Hq3). apply HCx in Hq3.
        apply (f_equal snd) in E. simpl in E. lra. }
  assert (LGL : List.length G = List.length L).
  { unfold G, L. rewrite !app_length, LG1, LG2, LG3. reflexivity. }
  pose proof (eigenvectors_independent K L HTL HDL G LGL HG) as F.
  unfold L, G in F. rewrite combine_app in F by exact LG1. rewrite combine_app in F by exact LG2.
  rewrite !Forall_app in F. destruct F as (F1 & F2 & _).
  rewrite Forall_forall in HV.
  apply zero_real in F1; [|exact L1|].
  2:{ apply Forall_forall. intros q Hq. destruct (HR q Hq) as (v & Hv).
      apply (proj2 (HV _ Hv)). reflexivity. }
  apply zero_cmplx in F2; [|exact LA|exact LB|].
  2:{ apply Forall_forall. intros q Hq. apply (HV q). apply HCx. exact Hq. }
  rewrite !Forall_app. tauto.
Qed.
