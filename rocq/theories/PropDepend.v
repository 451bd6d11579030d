(** Property theorems C90-C92: cutting segments, continuous dependence, and vanishing cracks. *)
From Coquelicot Require Import Coquelicot.
Require Import Verif.Py Verif.MTools Verif.MEigen Verif.MFields Verif.MRaster Verif.MSolution Verif.MAnalysis
  Verif.SAdm Verif.SBeam Verif.SBvp Verif.SEig Verif.SEnergy Verif.SSplit Verif.PBeam2 Verif.PBvp Verif.PBvp5 Verif.PLinAlg Verif.PWell2
  Verif.PWell3 Verif.PBvp6 Verif.PDepend2 Verif.PSplit Verif.PLimit Verif.PGrowth.

(** The stiffness of the end spring as [assemble_and_solve] uses it: only PSTs in stage C have one. *)
Definition spring (eig : mat6 -> list eigpair) solve (o : obj) (phi kR : R) (kd : syskind) : Prop :=
  (kd = KPst -> o_mode o = Some ModeC -> o_phi o = phi /\
     fst (substitute_stiffness eig solve o (o_a o - o_td o) "rested" "rot") = Ok kR) /\
  (kd = KVpst -> o_mode o = None \/ o_mode o = Some ModeA).
Lemma solved_six eig solve o aslist phi li mi ki Cs : (2 <= List.length li)%nat ->
  assemble_and_solve eig solve o aslist phi li mi ki = Ok Cs -> six_each (List.length li) Cs.
Proof.
  intros HN H. unfold assemble_and_solve, assemble_and_solve_with in H.
  destruct (check_segments o li mi ki) as [[]|]; [|discriminate]. cbn [bind] in H.
  destruct (Nat.eqb_spec (List.length li) 1) as [E|_]; [lia|]. cbn [bind] in H.
  destruct (assemble _ _ _ _ _ _) as [[[zh0 zp0] rhs]|]; [|discriminate]. cbn [bind] in H.
  destruct (solve _ _ _) as [x|]; [|discriminate]. cbn [bind] in H. injection H as <-. apply reshape_six.
Qed.
(** One stiffness for all calls. *)
Lemma spring_value eig solve o phi kR kd : kind_of (o_system o) = Some kd -> spring eig solve o phi kR kd ->
  exists kr, 0 <= kr /\ spring eig solve o phi kr kd.
Proof.
  intros _ [H1 H2]. destruct kd; try (exists 0; split; [lra|split; [discriminate|first [exact H2|discriminate]]]).
  destruct (o_mode o) as [[]|] eqn:E; try (exists 0; split; [lra|split; [intros _ Q; rewrite E in Q; discriminate|discriminate]]).
  destruct (H1 eq_refl eq_refl) as [P Q]. exists kR. split; [exact (substitute_nonneg _ _ _ _ _ _ _ Q)|]. split; [auto|discriminate].
Qed.

(** C90: cutting a segment in two does not change any state of the slab. *)
Theorem C90_split o kR phi l1 l2 m1 m2 k1 k2 a b k C C' :
  ready o -> stable (o_par o) -> 0 <= kR -> 0 <= a -> 0 <= b ->
  List.length m1 = List.length l1 -> List.length k1 = List.length l1 ->
  proper_segments (l1 ++ (a + b) :: l2) (k1 ++ k :: k2) ->
  bvp o kR phi (l1 ++ (a + b) :: l2) (m1 ++ m2) (k1 ++ k :: k2) C ->
  bvp o kR phi (l1 ++ a :: b :: l2) (m1 ++ 0 :: m2) (k1 ++ k :: k :: k2) C' ->
  forall x z, state_at o phi (l1 ++ (a + b) :: l2) (k1 ++ k :: k2) C x z <->
              state_at o phi (l1 ++ a :: b :: l2) (k1 ++ k :: k :: k2) C' x z.
Proof. exact (fun H1 H2 H3 H4 H5 H6 H7 H8 => split_state_at o kR phi l1 l2 m1 m2 k1 k2 a b k H1 H2 H3 H4 H5 H6 H7 H8 C C'). Qed.
Print Assumptions C90_split.
(** ... as solved by the library. *)
Theorem C90_library eig solve o aslist phi l1 l2 m1 m2 k1 k2 a b k C C' kd kR :
  sound_solver solve -> ready o -> stable (o_par o) -> kind_of (o_system o) = Some kd -> spring eig solve o phi kR kd ->
  0 <= a -> 0 <= b -> List.length m1 = List.length l1 -> List.length k1 = List.length l1 -> l1 ++ l2 <> [] ->
  proper_segments (l1 ++ (a + b) :: l2) (k1 ++ k :: k2) ->
  assemble_and_solve eig solve o aslist phi (l1 ++ (a + b) :: l2) (m1 ++ m2) (k1 ++ k :: k2) = Ok C ->
  assemble_and_solve eig solve o aslist phi (l1 ++ a :: b :: l2) (m1 ++ 0 :: m2) (k1 ++ k :: k :: k2) = Ok C' ->
  forall x z, state_at o phi (l1 ++ (a + b) :: l2) (k1 ++ k :: k2) C x z <->
              state_at o phi (l1 ++ a :: b :: l2) (k1 ++ k :: k :: k2) C' x z.
Proof.
  intros Hso Hr Hs Hkd Hsp Ha Hb Lm Lk Hne Hp H H'.
  assert (L2 : (2 <= List.length (l1 ++ (a + b)%R :: l2))%nat) by (rewrite app_length; simpl; destruct l1, l2; simpl in *; try lia; congruence).
  assert (L3 : (2 <= List.length (l1 ++ a :: b :: l2))%nat) by (rewrite app_length; simpl; lia).
  destruct (spring_value _ _ _ _ _ _ Hkd Hsp) as (kr & HkR & [S1 S2]).
  apply (C90_split o kr phi l1 l2 m1 m2); try assumption.
  - exact (solved_bvp eig solve o aslist phi _ _ _ C kd kr Hso Hr L2 Hkd S1 S2 H).
  - exact (solved_bvp eig solve o aslist phi _ _ _ C' kd kr Hso Hr L3 Hkd S1 S2 H').
Qed.
Print Assumptions C90_library.
Lemma ex_skier_valid li mi ki : List.length li = List.length ki -> List.length li = S (List.length mi) ->
  nth 0 ki false = true -> last ki false = true -> ~ invalid_segments "skier" li mi ki.
Proof.
  intros A B K0 K1. unfold invalid_segments. intros [H|[H|[H|[_ [H|H]]]]]; try congruence.
  destruct ki as [|c ki]; [discriminate|]. simpl in K0. subst c. specialize (H true ltac:(left; reflexivity)). discriminate.
Qed.
Lemma ex_solve li mi ki : (2 <= List.length li)%nat -> List.length li = List.length ki -> List.length li = S (List.length mi) ->
  nth 0 ki false = true -> last ki false = true -> proper_segments li ki ->
  exists Cs, assemble_and_solve (fun _ => ex_ews) elim_solve (ex_obj "skier" None 30) true 30 li mi ki = Ok Cs.
Proof.
  intros A B C D E F.
  destruct (well_posed (fun _ => ex_ews) elim_solve (ex_obj "skier" None 30) true 30 li mi ki KSkier 0 elim_sound elim_complete
    (ex_ready _ _ _) ex_stable A (ex_skier_valid _ _ _ B C D E) F eq_refl
    ltac:(discriminate) ltac:(discriminate) ltac:(discriminate)) as (Cs & H & _).
  exists Cs. exact H.
Qed.
Ltac segs := split; [intros [|[|[|[|[|?]]]]] Hi; simpl in *; try lra; lia|exists 0%nat; simpl; split; [lia|split; [reflexivity|lra]]].
(** The right part of a slab with a skier on a crack is cut 1 mm right of the crack. *)
Example C90_example : exists C C',
  spring (fun _ => ex_ews) elim_solve (ex_obj "skier" None 30) 30 0 KSkier /\
  proper_segments ([4; 1; 1] ++ (1 + 3) :: []) ([true; false; false] ++ true :: []) /\
  assemble_and_solve (fun _ => ex_ews) elim_solve (ex_obj "skier" None 30) true 30
    ([4; 1; 1] ++ (1 + 3) :: []) ([0; 80; 0] ++ []) ([true; false; false] ++ true :: []) = Ok C /\
  assemble_and_solve (fun _ => ex_ews) elim_solve (ex_obj "skier" None 30) true 30
    ([4; 1; 1] ++ 1 :: 3 :: []) ([0; 80; 0] ++ 0 :: []) ([true; false; false] ++ true :: true :: []) = Ok C'.
Proof.
  assert (P : proper_segments ([4; 1; 1] ++ (1 + 3) :: []) ([true; false; false] ++ true :: [])) by segs.
  assert (P' : proper_segments ([4; 1; 1] ++ 1 :: 3 :: []) ([true; false; false] ++ true :: true :: [])) by segs.
  destruct (ex_solve ([4; 1; 1] ++ (1 + 3) :: []) ([0; 80; 0] ++ []) ([true; false; false] ++ true :: []) ltac:(simpl; lia) eq_refl eq_refl eq_refl eq_refl P) as [C H].
  destruct (ex_solve ([4; 1; 1] ++ 1 :: 3 :: []) ([0; 80; 0] ++ 0 :: []) ([true; false; false] ++ true :: true :: []) ltac:(simpl; lia) eq_refl eq_refl eq_refl eq_refl P') as [C' H'].
  exists C, C'. split; [split; discriminate|]. auto.
Qed.

(** C91: the fields depend continuously, and uniformly in the coordinate, on segment lengths and skier weights;
    segments of the reference layout may have length zero. *)
Theorem C91_continuous o kR phi ki kd li0 mi0 C0 e :
  let N := List.length li0 in
  ready o -> stable (o_par o) -> kind_of (o_system o) = Some kd -> (kd = KPst -> o_mode o <> None) ->
  (kd = KPst -> o_mode o = Some ModeC -> o_phi o = phi) -> (kd = KVpst -> o_mode o = None \/ o_mode o = Some ModeA) ->
  0 <= kR -> (2 <= N)%nat -> List.length ki = N -> proper_segments li0 ki -> six_each N C0 -> bvp o kR phi li0 mi0 ki C0 -> 0 < e ->
  exists d, 0 < d /\ forall li mi Cs, List.length li = N -> six_each N Cs -> bvp o kR phi li mi ki Cs ->
    near N d li li0 -> near (N - 1) d mi mi0 ->
    forall i s s0, (i < N)%nat -> 0 <= s0 <= nth i li0 0 -> Rabs (s - s0) < d ->
      close6 e (field o phi (nth i li 0) (nth i ki false) (nth i Cs []) s)
               (field o phi (nth i li0 0) (nth i ki false) (nth i C0 []) s0).
Proof.
  intros N Hr Hs Hkd HM HC HV HkR HN Hk Hp H6 HB He.
  destruct (depend_all o kR phi ki kd li0 mi0 C0 Hr Hs Hkd HM HC HV HkR HN Hk Hp H6 HB N e (le_n _) He) as (d & Hd & H).
  exists d. split; [exact Hd|]. intros li mi Cs A1 A2 A3 A4 A5 i s s0 Hi Hs0 Hss. apply (H li mi); try assumption. repeat (split; try assumption).
Qed.
Print Assumptions C91_continuous.
(** ... as solved by the library. *)
Theorem C91_library eig solve o aslist phi ki kd kR li0 mi0 C0 e :
  sound_solver solve -> ready o -> stable (o_par o) -> kind_of (o_system o) = Some kd -> (kd = KPst -> o_mode o <> None) ->
  spring eig solve o phi kR kd -> (2 <= List.length li0)%nat -> proper_segments li0 ki ->
  assemble_and_solve eig solve o aslist phi li0 mi0 ki = Ok C0 -> 0 < e ->
  exists d, 0 < d /\ forall li mi Cs, assemble_and_solve eig solve o aslist phi li mi ki = Ok Cs ->
    near (List.length li0) d li li0 -> near (List.length li0 - 1) d mi mi0 ->
    forall i s s0, (i < List.length li0)%nat -> 0 <= s0 <= nth i li0 0 -> Rabs (s - s0) < d ->
      close6 e (field o phi (nth i li 0) (nth i ki false) (nth i Cs []) s)
               (field o phi (nth i li0 0) (nth i ki false) (nth i C0 []) s0).
Proof.
  intros Hso Hr Hs Hkd HM Hsp HN Hp H0 He. destruct (spring_value _ _ _ _ _ _ Hkd Hsp) as (kr & HkR & [S1 S2]).
  assert (LL : forall li mi Cs, assemble_and_solve eig solve o aslist phi li mi ki = Ok Cs -> List.length ki = List.length li).
  { intros li mi Cs H. unfold assemble_and_solve, assemble_and_solve_with in H.
    destruct (check_segments o li mi ki) as [[]|] eqn:EC; [|discriminate]. exact (proj1 (valid_lengths o li mi ki EC)). }
  destruct (C91_continuous o kr phi ki kd li0 mi0 C0 e Hr Hs Hkd HM (fun A B => proj1 (S1 A B)) S2 HkR HN (LL _ _ _ H0) Hp (solved_six _ _ _ _ _ _ _ _ _ HN H0)
    (solved_bvp eig solve o aslist phi _ _ _ C0 kd kr Hso Hr HN Hkd S1 S2 H0) He) as (d & Hd & H).
  exists d. split; [exact Hd|]. intros li mi Cs HS. assert (EL : List.length li = List.length li0) by (rewrite <- (LL _ _ _ HS), <- (LL _ _ _ H0); reflexivity).
  apply H; [exact EL| |].
  - rewrite <- EL. apply (solved_six eig solve o aslist phi li mi ki); [rewrite EL; exact HN|exact HS].
  - apply (solved_bvp eig solve o aslist phi li mi ki Cs kd kr Hso Hr); try assumption. rewrite EL. exact HN.
Qed.
Print Assumptions C91_library.
(** Opening a closed crack below a skier. *)
Example C91_example : exists C0,
  spring (fun _ => ex_ews) elim_solve (ex_obj "skier" None 30) 30 0 KSkier /\
  proper_segments [4; 0; 0; 4] [true; false; false; true] /\
  assemble_and_solve (fun _ => ex_ews) elim_solve (ex_obj "skier" None 30) true 30 [4; 0; 0; 4] [0; 80; 0] [true; false; false; true] = Ok C0 /\
  forall a, 0 <= a < 8 -> exists Cs,
    assemble_and_solve (fun _ => ex_ews) elim_solve (ex_obj "skier" None 30) true 30 [(8 - a) / 2; a / 2; a / 2; (8 - a) / 2] [0; 80; 0] [true; false; false; true] = Ok Cs.
Proof.
  assert (P : proper_segments [4; 0; 0; 4] [true; false; false; true]) by segs.
  destruct (ex_solve [4; 0; 0; 4] [0; 80; 0] [true; false; false; true] ltac:(simpl; lia) eq_refl eq_refl eq_refl eq_refl P) as [C H].
  exists C. split; [split; discriminate|]. split; [exact P|]. split; [exact H|].
  intros a Ha. apply ex_solve; try reflexivity; [simpl; lia|]. segs.
Qed.

(** C92: when the segments that crack shrink to nothing, the incremental energy release rate tends to the mean of the
    energy release rates GI of the states of the uncracked slab at those places in mode I, and to minus the mean of GII in mode II. *)
Theorem C92_vanishing o kR phi kd li0 mi k0 ki C0 e :
  let N := List.length li0 in
  let tip i := field o phi 0 true (nth i C0 []) 0 in
  ready o -> stable (o_par o) -> kind_of (o_system o) = Some kd -> (kd = KPst -> o_mode o <> None) ->
  (kd = KPst -> o_mode o = Some ModeC -> o_phi o = phi) -> (kd = KVpst -> o_mode o = None \/ o_mode o = Some ModeA) ->
  0 <= kR -> (2 <= N)%nat -> ~ invalid_segments (o_system o) li0 mi ki -> List.length k0 = N ->
  (forall i, (i < N)%nat -> nth i k0 false <> nth i ki false -> nth i k0 false = true /\ nth i li0 0 = 0) ->
  nth 0 k0 false = nth 0 ki false /\ nth (N - 1) k0 false = nth (N - 1) ki false ->
  proper_segments li0 k0 -> six_each N C0 -> bvp o kR phi li0 mi k0 C0 -> 0 < e ->
  exists d, 0 < d /\ forall quad li Ca Cb G G1 G2, List.length li = N -> near N d li li0 ->
    six_each N Ca -> six_each N Cb -> bvp o kR phi li mi k0 Ca -> bvp o kR phi li mi ki Cb ->
    (forall i, (i < N)%nat -> 0 <= nth i li 0) -> (exists i, cracking k0 ki i = true) ->
    let da := crack_sum k0 ki N (fun i => nth i li 0) in
    accurate_quad quad (d * da) ->
    ginc quad (o_par o) (o_eig o) (loads_of o phi) Ca Cb li ki k0 = Ok (Some G, Some G1, Some G2) ->
    Rabs (G1 - crack_sum k0 ki N (fun i => nth i li 0 / da * GI (o_par o) (tip i))) <= e /\
    Rabs (G2 - - crack_sum k0 ki N (fun i => nth i li 0 / da * GII (o_par o) (tip i))) <= e.
Proof.
  intros N tip Hr Hs Hkd HM HC HV HkR HN Hinv Hk0 Hd He0 Hp H6 HB He.
  destruct (ginc_limit o kR phi li0 mi k0 ki kd C0 Hr Hs Hkd HM HC HV HkR HN Hinv Hk0 Hd He0 Hp H6 HB e He) as (d & Hdp & H).
  exists d. split; [exact Hdp|]. intros quad li Ca Cb G G1 G2 A1 A2 A3 A4 A5 A6 A7 A8 da A9 A10.
  assert (Mn : near (N - 1) d mi mi) by (intros i _; rewrite Rminus_diag_eq, Rabs_R0 by reflexivity; exact Hdp).
  apply (H quad li Ca Cb G G1 G2); try assumption; unfold neighbour; fold N; auto.
Qed.
Print Assumptions C92_vanishing.
(** A crack growing into a supported segment from the right: the state is the one at the right end of that segment before growth. *)
Theorem C92_growth_right o kR phi kd l1 l2 m1 m2 k1 k2 x CB e :
  ready o -> stable (o_par o) -> kind_of (o_system o) = Some kd -> (kd = KPst -> o_mode o <> None) ->
  (kd = KPst -> o_mode o = Some ModeC -> o_phi o = phi) -> (kd = KVpst -> o_mode o = None \/ o_mode o = Some ModeA) ->
  0 <= kR -> List.length m1 = List.length l1 -> List.length k1 = List.length l1 -> l2 <> [] -> 0 <= x ->
  ~ invalid_segments (o_system o) (l1 ++ x :: l2) (m1 ++ m2) (k1 ++ true :: k2) ->
  proper_segments (l1 ++ x :: l2) (k1 ++ true :: k2) ->
  bvp o kR phi (l1 ++ x :: l2) (m1 ++ m2) (k1 ++ true :: k2) CB -> 0 < e ->
  let N := S (S (List.length l1 + List.length l2)) in
  let tip := field o phi x true (nth (List.length l1) CB []) x in
  exists d, 0 < d /\ forall quad t Ca Cb G G1 G2, 0 < t < d -> t <= x -> six_each N Ca -> six_each N Cb ->
    bvp o kR phi (l1 ++ (x - t) :: t :: l2) (m1 ++ 0 :: m2) (k1 ++ true :: true :: k2) Ca ->
    bvp o kR phi (l1 ++ (x - t) :: t :: l2) (m1 ++ 0 :: m2) (k1 ++ true :: false :: k2) Cb -> accurate_quad quad (d * t) ->
    ginc quad (o_par o) (o_eig o) (loads_of o phi) Ca Cb (l1 ++ (x - t) :: t :: l2) (k1 ++ true :: false :: k2) (k1 ++ true :: true :: k2)
      = Ok (Some G, Some G1, Some G2) ->
    Rabs (G1 - GI (o_par o) tip) <= e /\ Rabs (G2 - - GII (o_par o) tip) <= e.
Proof.
  intros Hr Hs Hkd HM HC HV HkR Lm Lk Hne Hx Hinv Hp HB He.
  exact (growth_limit o kR phi kd l1 l2 m1 m2 k1 k2 x CB Hr Hs Hkd HM HC HV HkR Lm Lk Hinv Hx Hp HB x 0 true false
    (or_introl (conj eq_refl (conj eq_refl (conj eq_refl (conj eq_refl Hne))))) e He).
Qed.
Print Assumptions C92_growth_right.
(** ... and from the left. *)
Theorem C92_growth_left o kR phi kd l1 l2 m1 m2 k1 k2 x CB e :
  ready o -> stable (o_par o) -> kind_of (o_system o) = Some kd -> (kd = KPst -> o_mode o <> None) ->
  (kd = KPst -> o_mode o = Some ModeC -> o_phi o = phi) -> (kd = KVpst -> o_mode o = None \/ o_mode o = Some ModeA) ->
  0 <= kR -> List.length m1 = List.length l1 -> List.length k1 = List.length l1 -> l1 <> [] -> 0 <= x ->
  ~ invalid_segments (o_system o) (l1 ++ x :: l2) (m1 ++ m2) (k1 ++ true :: k2) ->
  proper_segments (l1 ++ x :: l2) (k1 ++ true :: k2) ->
  bvp o kR phi (l1 ++ x :: l2) (m1 ++ m2) (k1 ++ true :: k2) CB -> 0 < e ->
  let N := S (S (List.length l1 + List.length l2)) in
  let tip := field o phi x true (nth (List.length l1) CB []) 0 in
  exists d, 0 < d /\ forall quad t Ca Cb G G1 G2, 0 < t < d -> t <= x -> six_each N Ca -> six_each N Cb ->
    bvp o kR phi (l1 ++ t :: (x - t) :: l2) (m1 ++ 0 :: m2) (k1 ++ true :: true :: k2) Ca ->
    bvp o kR phi (l1 ++ t :: (x - t) :: l2) (m1 ++ 0 :: m2) (k1 ++ false :: true :: k2) Cb -> accurate_quad quad (d * t) ->
    ginc quad (o_par o) (o_eig o) (loads_of o phi) Ca Cb (l1 ++ t :: (x - t) :: l2) (k1 ++ false :: true :: k2) (k1 ++ true :: true :: k2)
      = Ok (Some G, Some G1, Some G2) ->
    Rabs (G1 - GI (o_par o) tip) <= e /\ Rabs (G2 - - GII (o_par o) tip) <= e.
Proof.
  intros Hr Hs Hkd HM HC HV HkR Lm Lk Hne Hx Hinv Hp HB He.
  exact (growth_limit o kR phi kd l1 l2 m1 m2 k1 k2 x CB Hr Hs Hkd HM HC HV HkR Lm Lk Hinv Hx Hp HB 0 x false true
    (or_intror (conj eq_refl (conj eq_refl (conj eq_refl (conj eq_refl Hne))))) e He).
Qed.
Print Assumptions C92_growth_left.
(** The library's skier system: a crack of length [a] below the skier, as [calc_segments] lays it out. *)
Theorem C92_skier eig solve o aslist phi L m CB e :
  sound_solver solve -> ready o -> stable (o_par o) -> kind_of (o_system o) = Some KSkier -> 0 < L ->
  assemble_and_solve eig solve o aslist phi [L / 2; L / 2] [m] [true; true] = Ok CB -> 0 < e ->
  let left_of := field o phi (L / 2) true (nth 0 CB []) (L / 2) in
  let right_of := field o phi (L / 2) true (nth 1 CB []) 0 in
  exists d, 0 < d /\ forall quad a Ca Cb G G1 G2, 0 < a < d -> a <= L ->
    let li := [(L - a) / 2; a / 2; a / 2; (L - a) / 2] in
    let k0 := [true; true; true; true] in let ki := [true; false; false; true] in
    assemble_and_solve eig solve o aslist phi li [0; m; 0] k0 = Ok Ca ->
    assemble_and_solve eig solve o aslist phi li [0; m; 0] ki = Ok Cb -> accurate_quad quad (d * a) ->
    ginc quad (o_par o) (o_eig o) (loads_of o phi) Ca Cb li ki k0 = Ok (Some G, Some G1, Some G2) ->
    Rabs (G1 - GI (o_par o) left_of) <= e /\ Rabs (G2 - - ((GII (o_par o) left_of + GII (o_par o) right_of) / 2)) <= e.
Proof.
  intros Hso Hr Hs Hkd HL H0 He left_of right_of.
  assert (SB : forall li mi ki Cs, (2 <= List.length li)%nat -> assemble_and_solve eig solve o aslist phi li mi ki = Ok Cs -> bvp o 0 phi li mi ki Cs).
  { intros li mi ki Cs HN H. apply (solved_bvp eig solve o aslist phi li mi ki Cs KSkier 0 Hso Hr HN Hkd); [discriminate|discriminate|exact H]. }
  destruct (nuc_limit o 0 phi L m CB Hr Hs Hkd (Rle_refl 0) HL (SB [L / 2; L / 2] [m] [true; true] CB (le_n 2) H0) e He) as (d & Hd & H).
  exists d. split; [exact Hd|]. intros quad a Ca Cb G G1 G2 Ha HaL li k0 ki HA HB HQ HG.
  apply (H quad a Ca Cb G G1 G2); try assumption.
  - apply (solved_six eig solve o aslist phi li [0; m; 0] k0 Ca); [simpl; lia|exact HA].
  - apply (solved_six eig solve o aslist phi li [0; m; 0] ki Cb); [simpl; lia|exact HB].
  - apply SB; [simpl; lia|exact HA].
  - apply SB; [simpl; lia|exact HB].
Qed.
Print Assumptions C92_skier.
(** Every crack length is solved and gives a rate. *)
Lemma ginc_total quad o phi Ca Cb li k0 ki : ready o -> List.length k0 = List.length ki -> List.length li = List.length ki ->
  six_each (List.length ki) Ca -> six_each (List.length ki) Cb -> 0 < rsum (select (map2 (fun a b => andb a (negb b)) k0 ki) li) ->
  exists G G1 G2, ginc quad (o_par o) (o_eig o) (loads_of o phi) Ca Cb li ki k0 = Ok (Some G, Some G1, Some G2).
Proof.
  intros Hr L0 Ll [LA FA] [LB FB] Hpos. unfold ginc. rewrite L0, LA, LB, Ll, Nat.eqb_refl. cbn [negb andb].
  set (msk := map2 (fun a b => andb a (negb b)) k0 ki) in *.
  assert (S6 : forall (X : list (list R)), Forall (fun C => List.length C = 6%nat) X -> Forall (fun C => List.length C = 6%nat) (select msk X)).
  { clear. intros X. revert X. induction msk as [|b k IH]; intros [|c X] H; simpl; try constructor; inversion H; subst.
    destruct b; [constructor; [assumption|]|]; apply IH; assumption. }
  pose proof (six_zh o (ready_six o Hr)) as Z6.
  assert (TL : forall X Y l, Forall (fun C => List.length C = 6%nat) X -> Forall (fun C => List.length C = 6%nat) Y ->
    exists r, ginc_loop quad (o_par o) (o_eig o) (loads_of o phi) X Y l = Ok r).
  { intros X Y l. revert X Y. induction l as [|y l IH]; intros [|c X] [|c' Y] FX FY; simpl; try (eexists; reflexivity).
    inversion FX; inversion FY; subst. unfold zsol_checked. rewrite !Z6. rewrite H1, H5. cbn [Nat.eqb bind].
    destruct (IH X Y H2 H6) as [r ->]. eexists. reflexivity. }
  destruct (TL (select msk Ca) (select msk Cb) (select msk li) (S6 Ca FA) (S6 Cb FB)) as [r Er]. rewrite Er. cbn [bind].
  destruct (select msk li) as [|y l] eqn:E; [simpl in Hpos; lra|].
  destruct (Rlt_dec 0 (rsum (y :: l))); [|lra]. eexists _, _, _. reflexivity.
Qed.
Example C92_example : exists CB,
  assemble_and_solve (fun _ => ex_ews) elim_solve (ex_obj "skier" None 30) true 30 [8 / 2; 8 / 2] [80] [true; true] = Ok CB /\
  (forall d, accurate_quad (fun f a b => RInt f a b) (Rabs d)) /\
  forall a, 0 < a < 8 -> exists Ca Cb G G1 G2,
    assemble_and_solve (fun _ => ex_ews) elim_solve (ex_obj "skier" None 30) true 30 [(8 - a) / 2; a / 2; a / 2; (8 - a) / 2] [0; 80; 0] [true; true; true; true] = Ok Ca /\
    assemble_and_solve (fun _ => ex_ews) elim_solve (ex_obj "skier" None 30) true 30 [(8 - a) / 2; a / 2; a / 2; (8 - a) / 2] [0; 80; 0] [true; false; false; true] = Ok Cb /\
    ginc (fun f a b => RInt f a b) ex_par (calc_eigensystem ex_ews) (loads_of (ex_obj "skier" None 30) 30) Ca Cb
      [(8 - a) / 2; a / 2; a / 2; (8 - a) / 2] [true; false; false; true] [true; true; true; true] = Ok (Some G, Some G1, Some G2).
Proof.
  destruct (ex_solve [8 / 2; 8 / 2] [80] [true; true] ltac:(simpl; lia) eq_refl eq_refl eq_refl eq_refl) as [CB HB]; [segs|].
  exists CB. split; [exact HB|]. split.
  { intros d f a b _. rewrite Rminus_diag_eq, Rabs_R0 by reflexivity. apply Rabs_pos. }
  intros a Ha. set (li := [(8 - a) / 2; a / 2; a / 2; (8 - a) / 2]).
  destruct (ex_solve li [0; 80; 0] [true; true; true; true] ltac:(simpl; lia) eq_refl eq_refl eq_refl eq_refl) as [Ca HA]; [segs|].
  destruct (ex_solve li [0; 80; 0] [true; false; false; true] ltac:(simpl; lia) eq_refl eq_refl eq_refl eq_refl) as [Cb HC]; [segs|].
  destruct (ginc_total (fun f a b => RInt f a b) (ex_obj "skier" None 30) 30 Ca Cb li [true; true; true; true] [true; false; false; true] (ex_ready _ _ _) eq_refl eq_refl
    (solved_six _ _ _ _ _ li _ _ _ (le_S _ _ (le_S _ _ (le_n 2))) HA) (solved_six _ _ _ _ _ li _ _ _ (le_S _ _ (le_S _ _ (le_n 2))) HC)) as (G & G1 & G2 & HG).
  { simpl. lra. }
  exists Ca, Cb, G, G1, G2. auto.
Qed.
(** A crack of 2 mm grows to the left below a slab with a skier on the crack's left tip. *)
Lemma ex_bvp li mi ki : (2 <= List.length li)%nat -> List.length li = List.length ki -> List.length li = S (List.length mi) ->
  nth 0 ki false = true -> last ki false = true -> proper_segments li ki ->
  exists Cs, six_each (List.length li) Cs /\ bvp (ex_obj "skier" None 30) 0 30 li mi ki Cs.
Proof.
  intros A B C D E F. destruct (ex_solve li mi ki A B C D E F) as [Cs H]. exists Cs. split; [exact (solved_six _ _ _ _ _ _ _ _ _ A H)|].
  apply (solved_bvp (fun _ => ex_ews) elim_solve (ex_obj "skier" None 30) true 30 li mi ki Cs KSkier 0 elim_sound (ex_ready _ _ _) A eq_refl);
    [discriminate|discriminate|exact H].
Qed.
Example C92_growth_example : exists CB,
  ~ invalid_segments "skier" ([] ++ 4 :: [2; 4]) ([] ++ [80; 0]) ([] ++ true :: [false; true]) /\
  proper_segments ([] ++ 4 :: [2; 4]) ([] ++ true :: [false; true]) /\
  bvp (ex_obj "skier" None 30) 0 30 ([] ++ 4 :: [2; 4]) ([] ++ [80; 0]) ([] ++ true :: [false; true]) CB /\
  forall t, 0 < t < 4 -> exists Ca Cb G G1 G2, six_each 4 Ca /\ six_each 4 Cb /\
    bvp (ex_obj "skier" None 30) 0 30 ([] ++ (4 - t) :: t :: [2; 4]) ([] ++ 0 :: [80; 0]) ([] ++ true :: true :: [false; true]) Ca /\
    bvp (ex_obj "skier" None 30) 0 30 ([] ++ (4 - t) :: t :: [2; 4]) ([] ++ 0 :: [80; 0]) ([] ++ true :: false :: [false; true]) Cb /\
    ginc (fun f a b => RInt f a b) ex_par (calc_eigensystem ex_ews) (loads_of (ex_obj "skier" None 30) 30) Ca Cb
      ([] ++ (4 - t) :: t :: [2; 4]) ([] ++ true :: false :: [false; true]) ([] ++ true :: true :: [false; true]) = Ok (Some G, Some G1, Some G2).
Proof.
  assert (P : proper_segments ([] ++ 4 :: [2; 4]) ([] ++ true :: [false; true])) by segs.
  destruct (ex_bvp ([] ++ 4 :: [2; 4]) ([] ++ [80; 0]) ([] ++ true :: [false; true]) ltac:(simpl; lia) eq_refl eq_refl eq_refl eq_refl P) as (CB & _ & HB).
  exists CB. split; [apply ex_skier_valid; reflexivity|]. split; [exact P|]. split; [exact HB|].
  intros t Ht. set (li := [] ++ (4 - t) :: t :: [2; 4]).
  destruct (ex_bvp li ([] ++ 0 :: [80; 0]) ([] ++ true :: true :: [false; true]) ltac:(simpl; lia) eq_refl eq_refl eq_refl eq_refl) as (Ca & SA & HA); [segs|].
  destruct (ex_bvp li ([] ++ 0 :: [80; 0]) ([] ++ true :: false :: [false; true]) ltac:(simpl; lia) eq_refl eq_refl eq_refl eq_refl) as (Cb & SB & HC); [segs|].
  destruct (ginc_total (fun f a b => RInt f a b) (ex_obj "skier" None 30) 30 Ca Cb li ([] ++ true :: true :: [false; true]) ([] ++ true :: false :: [false; true]) (ex_ready _ _ _) eq_refl eq_refl
    SA SB) as (G & G1 & G2 & HG).
  { simpl. lra. }
  exists Ca, Cb, G, G1, G2. auto.
Qed.
