(** Continuous dependence, in terms of tolerances. *)
From Coquelicot Require Import Coquelicot.
Require Import Verif.Py Verif.MTools Verif.MEigen Verif.MFields Verif.SAdm Verif.MRaster Verif.MSolution Verif.SBeam
  Verif.SBvp Verif.SEig Verif.SSplit Verif.PBeam2 Verif.PBvp Verif.PWell Verif.PWell3 Verif.PDepend.
Require Import Coq.Logic.Classical_Prop.
Local Open Scope R_scope.

Section Tol.
Variables (o : obj) (kR phi : R) (ki : list bool) (kd : syskind) (li0 mi0 : list R) (C0 : list (list R)).
Let N := List.length li0.
Hypothesis Hr : ready o.
Hypothesis Hs : stable (o_par o).
Hypothesis Hkd : kind_of (o_system o) = Some kd.
Hypothesis HM : kd = KPst -> o_mode o <> None.
Hypothesis HC : kd = KPst -> o_mode o = Some ModeC -> o_phi o = phi.
Hypothesis HV : kd = KVpst -> o_mode o = None \/ o_mode o = Some ModeA.
Hypothesis HkR : 0 <= kR.
Hypothesis HN : (2 <= N)%nat.
Hypothesis Hk : List.length ki = N.
Hypothesis Hp : proper_segments li0 ki.
Hypothesis H60 : six_each N C0.
Hypothesis B0 : bvp o kR phi li0 mi0 ki C0.

Let T : Type := (list R * list R * list (list R) * R)%type.
Definition neighbour (d : R) (li mi : list R) (Cs : list (list R)) : Prop :=
  List.length li = N /\ six_each N Cs /\ bvp o kR phi li mi ki Cs /\ near N d li li0 /\ near (N - 1) d mi mi0.
Definition around (s0 d : R) (t : T) : Prop :=
  let '(li, mi, Cs, s) := t in neighbour d li mi Cs /\ Rabs (s - s0) < d.
Definition Ft (s0 : R) (P : T -> Prop) : Prop := exists d, 0 < d /\ forall t, around s0 d t -> P t.

Lemma neighbour_le d d' li mi Cs : d <= d' -> neighbour d li mi Cs -> neighbour d' li mi Cs.
Proof.
  intros H (A & B & C & D & E). repeat (split; [assumption|]). split.
  - intros i Hi. specialize (D i Hi). lra.
  - intros i Hi. specialize (E i Hi). lra.
Qed.
Instance Ft_filter s0 : Filter (Ft s0).
Proof.
  constructor.
  - exists 1. split; [lra|auto].
  - intros P Q (d & Hd & HP) (d' & Hd' & HQ). exists (Rmin d d'). split; [apply Rmin_glb_lt; assumption|].
    intros [[[li mi] Cs] s] [A B]. pose proof (Rmin_l d d'). pose proof (Rmin_r d d').
    split; [apply HP|apply HQ]; (split; [apply (neighbour_le (Rmin d d')); assumption|lra]).
  - intros P Q H (d & Hd & HP). exists d. split; [exact Hd|auto].
Qed.

Lemma one_component r i s0 e : (i < N)%nat -> 0 < e ->
  Ft s0 (fun t => let '(li, _, Cs, s) := t in
    Rabs (dot6 r (field o phi (nth i li 0) (nth i ki false) (nth i Cs []) s)
        - dot6 r (field o phi (nth i li0 0) (nth i ki false) (nth i C0 []) s0)) <= e).
Proof.
  intros Hi He.
  assert (Ht : tends (Ft s0) (fun t : T => snd t) s0).
  { apply (tends_spec (Ft s0)). intros eps Hp'. exists eps. split; [exact Hp'|]. intros [[[li mi] Cs] s] [_ B]. simpl. lra. }
  pose proof (field_tends (Ft s0) o kR phi ki kd li0 mi0 C0 (fun t : T => fst (fst (fst t))) (fun t : T => snd (fst (fst t))) (fun t : T => snd (fst t))
    Hr Hs Hkd HM HC HV HkR HN Hk Hp H60 B0) as G.
  assert (Q : tends (Ft s0) (fun t : T => dot6 r (field o phi (nth i (fst (fst (fst t))) 0) (nth i ki false) (nth i (snd (fst t)) []) (snd t)))
    (dot6 r (field o phi (nth i li0 0) (nth i ki false) (nth i C0 []) s0))).
  { apply G; [|..|exact Hi|exact Ht].
    - exists 1. split; [lra|]. intros [[[li mi] Cs] s] [(A & B & C & _) _]. auto.
    - intros j Hj. apply (tends_spec (Ft s0)). intros eps Hp'. exists eps. split; [exact Hp'|]. intros [[[li mi] Cs] s] [(_ & _ & _ & D & _) _].
      simpl. left. apply D. exact Hj.
    - intros j Hj. apply (tends_spec (Ft s0)). intros eps Hp'. exists eps. split; [exact Hp'|]. intros [[[li mi] Cs] s] [(_ & _ & _ & _ & D) _].
      simpl. left. apply D. unfold N in *. lia. }
  pose proof (proj1 (tends_spec (Ft s0) _ _) Q e He) as (d & Hd & H). exists d. split; [exact Hd|].
  intros [[[li mi] Cs] s] A. exact (H _ A).
Qed.

Lemma depend_at i s0 e : (i < N)%nat -> 0 < e -> exists d, 0 < d /\ forall li mi Cs s, neighbour d li mi Cs -> Rabs (s - s0) < d ->
  close6 e (field o phi (nth i li 0) (nth i ki false) (nth i Cs []) s) (field o phi (nth i li0 0) (nth i ki false) (nth i C0 []) s0).
Proof.
  intros Hi He.
  pose proof (one_component (mkV 1 0 0 0 0 0) i s0 e Hi He) as H1. pose proof (one_component (mkV 0 1 0 0 0 0) i s0 e Hi He) as H2.
  pose proof (one_component (mkV 0 0 1 0 0 0) i s0 e Hi He) as H3. pose proof (one_component (mkV 0 0 0 1 0 0) i s0 e Hi He) as H4.
  pose proof (one_component (mkV 0 0 0 0 1 0) i s0 e Hi He) as H5. pose proof (one_component (mkV 0 0 0 0 0 1) i s0 e Hi He) as H6.
  pose proof (filter_and _ _ H1 (filter_and _ _ H2 (filter_and _ _ H3 (filter_and _ _ H4 (filter_and _ _ H5 H6))))) as (d & Hd & H).
  exists d. split; [exact Hd|]. intros li mi Cs s A B. destruct (H (li, mi, Cs, s) (conj A B)) as (G1 & G2 & G3 & G4 & G5 & G6).
  assert (D : forall a b c d' e' f v, dot6 (mkV a b c d' e' f) v = a * z_u v + b * z_du v + c * z_w v + d' * z_dw v + e' * z_psi v + f * z_dpsi v) by (intros; reflexivity).
  rewrite !D in *. unfold close6.
  repeat match goal with |- _ /\ _ => split end;
  [eapply Rle_trans; [|exact G1]|eapply Rle_trans; [|exact G2]|eapply Rle_trans; [|exact G3]|eapply Rle_trans; [|exact G4]|eapply Rle_trans; [|exact G5]|eapply Rle_trans; [|exact G6]];
  right; f_equal; ring.
Qed.

(** One tolerance for a whole segment. *)
Definition good i e s0 d : Prop := 0 < d <= 1 /\ forall li mi Cs s, neighbour d li mi Cs -> Rabs (s - s0) < d ->
  close6 e (field o phi (nth i li 0) (nth i ki false) (nth i Cs []) s) (field o phi (nth i li0 0) (nth i ki false) (nth i C0 []) s0).
Lemma good_some i e s0 : (i < N)%nat -> 0 < e -> exists d, good i e s0 d.
Proof.
  intros Hi He. destruct (depend_at i s0 e Hi He) as (d & Hd & H). exists (Rmin d 1).
  split; [split; [apply Rmin_glb_lt; lra|apply Rmin_r]|]. intros li mi Cs s A B. pose proof (Rmin_l d 1).
  apply (H li mi); [apply (neighbour_le (Rmin d 1)); assumption|lra].
Qed.
Lemma good_bound i e s0 : bound (good i e s0).
Proof. exists 1. intros d [H _]. lra. Qed.
Definition radius i e (Hi : (i < N)%nat) (He : 0 < e) s0 : R := proj1_sig (completeness _ (good_bound i e s0) (good_some i e s0 Hi He)) / 2.
Lemma radius_good i e Hi He s0 : good i e s0 (radius i e Hi He s0).
Proof.
  unfold radius. destruct (completeness _ _ _) as [m [U L]]. simpl. destruct (good_some i e s0 Hi He) as [d0 G0].
  pose proof (U d0 G0) as D0. destruct (proj1 G0) as [P0 _]. assert (m <= 1) by (apply L; intros d [? _]; lra).
  split; [lra|]. intros li mi Cs s A B.
  destruct (classic (exists d, good i e s0 d /\ m / 2 < d)) as [(d & [_ G] & Hd)|NE].
  - apply (G li mi); [apply (neighbour_le (m / 2)); [lra|exact A]|lra].
  - exfalso. assert (m <= m / 2); [|lra]. apply L. intros d G. destruct (Rle_dec d (m / 2)) as [|Q]; [assumption|]. exfalso. apply NE. exists d. split; [exact G|lra].
Qed.

Lemma close6_trans e e' x y z : close6 e x y -> close6 e' y z -> close6 (e + e') x z.
Proof.
  assert (T1 : forall a b c, Rabs (a - b) <= e -> Rabs (b - c) <= e' -> Rabs (a - c) <= e + e').
  { intros a b c A B. replace (a - c) with ((a - b) + (b - c)) by ring. pose proof (Rabs_triang (a - b) (b - c)). lra. }
  intros (A1 & A2 & A3 & A4 & A5 & A6) (D1 & D2 & D3 & D4 & D5 & D6).
  repeat match goal with |- _ /\ _ => split | |- close6 _ _ _ => unfold close6 end; eapply T1; eassumption.
Qed.
Lemma close6_sym e x y : close6 e x y -> close6 e y x.
Proof.
  intros (A1 & A2 & A3 & A4 & A5 & A6). unfold close6. rewrite (Rabs_minus_sym (z_u y)), (Rabs_minus_sym (z_du y)), (Rabs_minus_sym (z_w y)),
    (Rabs_minus_sym (z_dw y)), (Rabs_minus_sym (z_psi y)), (Rabs_minus_sym (z_dpsi y)). tauto.
Qed.

Lemma base_neighbour d : 0 < d -> neighbour d li0 mi0 C0.
Proof.
  intros Hd. split; [reflexivity|]. split; [exact H60|]. split; [exact B0|].
  split; intros i _; rewrite Rminus_diag_eq, Rabs_R0 by reflexivity; exact Hd.
Qed.
Lemma depend_segment i e : (i < N)%nat -> 0 < e -> exists d, 0 < d /\ forall li mi Cs s s0, neighbour d li mi Cs ->
  0 <= s0 <= nth i li0 0 -> Rabs (s - s0) < d ->
  close6 e (field o phi (nth i li 0) (nth i ki false) (nth i Cs []) s) (field o phi (nth i li0 0) (nth i ki false) (nth i C0 []) s0).
Proof.
  intros Hi He. assert (H2 : 0 < e / 2) by lra.
  pose (delta := fun s => mkposreal (radius i (e / 2) Hi H2 s / 2) ltac:(pose proof (proj1 (radius_good i (e / 2) Hi H2 s)); lra)).
  destruct (compactness_value_1d 0 (nth i li0 0) delta) as [d Hd].
  exists d. split; [apply cond_pos|]. intros li mi Cs s s0 A Hs0 Hss.
  apply NNPP. intros NC. apply (Hd s0 Hs0). intros (t & Ht & T1 & T2). apply NC. simpl in T1, T2.
  destruct (radius_good i (e / 2) Hi H2 t) as [P G]. set (r := radius i (e / 2) Hi H2 t) in *. pose proof (cond_pos d).
  replace e with (e / 2 + e / 2) by lra.
  apply (close6_trans _ _ _ (field o phi (nth i li0 0) (nth i ki false) (nth i C0 []) t)).
  - apply (G li mi); [apply (neighbour_le d); [lra|exact A]|].
    replace (s - t) with ((s - s0) + (s0 - t)) by ring. pose proof (Rabs_triang (s - s0) (s0 - t)). lra.
  - apply close6_sym. apply (G li0 mi0); [apply base_neighbour; lra|lra].
Qed.
Lemma depend_all n e : (n <= N)%nat -> 0 < e -> exists d, 0 < d /\ forall li mi Cs i s s0, neighbour d li mi Cs -> (i < n)%nat ->
  0 <= s0 <= nth i li0 0 -> Rabs (s - s0) < d ->
  close6 e (field o phi (nth i li 0) (nth i ki false) (nth i Cs []) s) (field o phi (nth i li0 0) (nth i ki false) (nth i C0 []) s0).
Proof.
  intros Hn He. induction n as [|n IH].
  - exists 1. split; [lra|]. intros; lia.
  - destruct (IH ltac:(lia)) as (d & Hd & H). destruct (depend_segment n e ltac:(lia) He) as (d' & Hd' & H').
    exists (Rmin d d'). split; [apply Rmin_glb_lt; assumption|]. intros li mi Cs i s s0 A Hi Hs0 Hss. pose proof (Rmin_l d d'). pose proof (Rmin_r d d').
    destruct (Nat.eq_dec i n) as [->|].
    + apply (H' li mi); [apply (neighbour_le (Rmin d d')); assumption|exact Hs0|lra].
    + apply (H li mi); [apply (neighbour_le (Rmin d d')); assumption|lia|exact Hs0|lra].
Qed.
End Tol.
