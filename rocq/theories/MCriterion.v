(** Model of the search algorithms of examples/criterion_check.py. *)
Require Import Verif.Py Verif.MTools Verif.MEigen Verif.MFields Verif.MRaster Verif.MSolution
  Verif.MAnalysis Verif.MEnvelope.

(** * Segments *)

(** examples/criterion_check.py:1349-1392 [find_segment_index] for a list of lengths; the pair
    (-1, None) is [None]. *)
Fixpoint find_segment_loop (ls : list R) (index : nat) (cum x : R) : option (nat * R) :=
  match ls with
  | [] => None
  | l :: ls => let cum := cum + l in
               if Rleb x cum then Some (index, x - (cum - l)) else find_segment_loop ls (S index) cum x
  end.
(** examples/criterion_check.py:1349-1392 [find_segment_index]. *)
Definition find_segment_index (ls : list R) (x : R) : option (nat * R) :=
  match ls with
  | [_] => Some (O, x)
  | _ => find_segment_loop ls 0 0 x
  end.

(** examples/criterion_check.py:1538-1597 [split_segments_at_midpoint]; the loop finds the first
    index whose cumulated length reaches the midpoint. An empty list has no last entry (IndexError).
    [segment_support[0]] and [[i]] of a shorter list: IndexError. *)
Fixpoint first_ge (ls : list R) (i : nat) (m : R) : option nat :=
  match ls with
  | [] => None
  | c :: ls => if Rleb m c then Some i else first_ge ls (S i) m
  end.
(** examples/criterion_check.py:1538-1597 [split_segments_at_midpoint]. *)
Definition split_segments_at_midpoint (ls : list R) (ks : list bool) : res (list R * list bool) :=
  let cum := cumsum ls in
  match cum with
  | [] => Err IndexError
  | _ =>
      let mid := last cum 0 / 2 in
      match first_ge cum 0 mid with
      | None => Ok (ls, ks)
      | Some i =>
          match nth_error ks i with
          | None => Err IndexError
          | Some k =>
              match i with
              | O => Ok (mid :: ls, k :: ks)
              | S j => Ok (firstn i ls ++ [mid - nth j cum 0; nth i cum 0 - mid] ++ skipn (S i) ls,
                           firstn i ks ++ [k; k] ++ skipn (S i) ks)
              end
          end
      end
  end.

(** * Skier objects *)

(** Result of [create_skier_object]. *)
(** examples/criterion_check.py:2348-2446: values returned by [create_skier_object]. *)
Record sk : Type := mkSk {
  k_obj : obj; k_C : list (list R); k_li : list R; k_mi : list R; k_ki : list bool;
  k_x : list (option R); k_sig : list (option R); k_tau : list (option R)
}.

(** examples/criterion_check.py:2406-2421: index of the loaded transition; [None]: loop ended
    without break, Python index -1 ([li_x[i + 1]] out of range: IndexError). *)
Fixpoint median_loop (ls : list R) (i : nat) (cum half : R) : res (option nat) :=
  match ls with
  | [] => Ok None
  | l :: ls =>
      let cum := cum + l in
      if Rleb half cum then
        match ls with
        | [] => Err IndexError
        | l1 :: _ => Ok (Some (if Reqb l1 0 then S i else i))
        end
      else median_loop ls (S i) cum half
  end.
(** examples/criterion_check.py:2401-2423: [np.zeros(n)] with the weight at the median index. *)
Definition skier_weights (li : list R) (nk : nat) (w : R) : res (list R) :=
  let n := (nk - 1)%nat in
  if Nat.eqb nk 0 then Err ValueError
  else
    m <- median_loop li 0 0 (rsum li / 2) ;;
    let i := match m with Some i => i | None => (n - 1)%nat end in
    if Nat.ltb i n then Ok (set_nth (repeat 0 n) i w) else Err IndexError.

(** Comparisons with possibly NaN operands (false if NaN). *)
(** Comparisons such as examples/criterion_check.py:220, 354. *)
Definition oltb (a b : option R) : bool :=
  match a, b with Some x, Some y => Rltb x y | _, _ => false end.
(** Comparisons such as examples/criterion_check.py:284. *)
Definition oleb (a b : option R) : bool :=
  match a, b with Some x, Some y => Rleb x y | _, _ => false end.
(** [np.max], [np.min]: ValueError if empty, NaN if some entry is. *)
(** Reductions in examples/criterion_check.py:326-327, 1677-1687. *)
Fixpoint oreduce (f : R -> R -> R) (a : option R) (l : list (option R)) : option R :=
  match l with
  | [] => a
  | b :: l => oreduce f (match a, b with Some x, Some y => Some (f x y) | _, _ => None end) l
  end.
(** Used in examples/criterion_check.py:326, 802, 1677, 1863. *)
Definition np_max (l : list (option R)) : res (option R) :=
  match l with [] => Err ValueError | a :: l => Ok (oreduce Rmax a l) end.
(** Used in examples/criterion_check.py:327, 803, 1464, 1687, 1873. *)
Definition np_min (l : list (option R)) : res (option R) :=
  match l with [] => Err ValueError | a :: l => Ok (oreduce Rmin a l) end.

(** Parameters of a stress envelope. *)
(** examples/criterion_check.py:964-971: arguments of [stress_envelope] besides the stresses. *)
Record envp : Type := mkEnv { e_name : string; e_sf : R; e_om : R; e_rho : R }.
(** Call of [stress_envelope], e.g. examples/criterion_check.py:318-325. *)
Definition envelope_of (e : envp) (k : sk) : res (list (option R)) :=
  stress_envelope (e_name e) (e_sf e) (e_om e) (e_rho e) (k_sig k) (k_tau k).
(** dist_max and dist_min of a skier object, e.g. examples/criterion_check.py:1676-1698. *)
Definition distances (e : envp) (k : sk) : res (option R * option R) :=
  d <- envelope_of e k ;; mx <- np_max d ;; mn <- np_min d ;; Ok (mx, mn).

(** * Minimum force *)

(** Result of [find_minimum_force]. *)
(** examples/criterion_check.py:1600-1783: values returned by [find_minimum_force]. *)
Record mf : Type := mkMf { f_weight : R; f_sk : sk; f_max : option R; f_min : option R }.

Section Force.
(** [create_skier_object] as a function of the weight; distances of an object. *)
Variable create : R -> res sk.
Variable dist : sk -> res (option R * option R).
(** examples/criterion_check.py:1716-1744: object and distances for a weight. *)
Definition measure (w : R) : res mf :=
  k <- create w ;; d <- dist k ;; Ok (mkMf w k (fst d) (snd d)).

(** [np.abs(dist_max - 1) > tol] (false for NaN). *)
(** examples/criterion_check.py:1715, 1901. *)
Definition off (tol : R) (d : option R) : bool :=
  match d with Some x => Rltb tol (Rabs (x - 1)) | None => false end.
(** Value of dist_max where NaN cannot occur (the loop condition is false for NaN). *)
(** Value used in examples/criterion_check.py:1715-1744. *)
Definition oval (d : option R) : R := match d with Some x => x | None => 0 end.

(** The while loops of examples/criterion_check.py:1715-1744 and 1901-1930: [n] iterations are
    left; result: state and iterations left. *)
Fixpoint force_loop (tol : R) (next : R -> R -> R) (n : nat) (s : mf) : res (mf * nat) :=
  if off tol (f_max s) then
    match n with
    | O => Ok (s, O)
    | S n => s' <- measure (next (f_weight s) (oval (f_max s))) ;; force_loop tol next n s'
    end
  else Ok (s, n).

(** examples/criterion_check.py:1786-1972 [find_minimum_force_dampened]; [d] counts the
    recursion 5 - dampening. A zero denominator is not modelled. *)
Fixpoint find_minimum_force_dampened (d : nat) (dampening : R) : res mf :=
  s <- measure 1 ;;
  if oleb (Some 1) (f_min s) then Ok s
  else
    r <- force_loop (1 / 100) (fun w x => (dampening + 1) * w / (dampening + x)) 50 s ;;
    let '(s, rest) := r in
    if Nat.eqb rest 0 then
      match d with
      | S d => find_minimum_force_dampened d (dampening + 1)
      | O => Ok (mkMf 0 (f_sk s) (f_max s) (f_min s))
      end
    else Ok s.
(** examples/criterion_check.py:1600-1783 [find_minimum_force]; dampening runs from 1 to 5. *)
Definition find_minimum_force_with : res mf :=
  s <- measure 1 ;;
  if oleb (Some 1) (f_min s) then Ok s
  else
    r <- force_loop (5 / 1000) (fun w x => w / x) 50 s ;;
    let '(s, rest) := r in
    if Nat.eqb rest 0 then find_minimum_force_dampened 4 1 else Ok s.
End Force.

(** * Coupled criterion *)

(** Result tuple of the coupled criterion; elapsed times are not modelled. *)
(** examples/criterion_check.py:386-407: returned tuple. *)
Record cc : Type := mkCc {
  c_ok : bool; c_len : R; c_weight : R; c_sk : sk; c_iter : nat; c_weights : list R;
  c_lens : list R; c_self : bool; c_pure : bool; c_crit : R; c_g : option R; c_dist : option R;
  c_gs : list (option R); c_dists : list (option R)
}.
(** Loop state. [l_c] is the last cracked object, unbound before the first iteration. *)
(** examples/criterion_check.py:284-402: variables of the loop. *)
Record cstate : Type := mkCs {
  l_err : option R; l_n : nat; l_w : R; l_min : R; l_max : R; l_len : R;
  l_li : list R; l_ki : list bool; l_dmax : option R; l_dmin : option R;
  l_c : option sk; l_g : option R;
  l_ws : list R; l_lens : list R; l_gs : list (option R);
  l_dmaxs : list (option R); l_dmins : list (option R)
}.
(** Comparisons such as examples/criterion_check.py:354. *)
Definition ogt (x : option R) (y : R) : bool := oltb (Some y) x.
(** examples/criterion_check.py:302, 408, 446, 781, 893: builtin [any]. *)
Definition any (ki : list bool) : bool := existsb (fun b => b) ki.

Section Coupled.
(** [create w li ki crack]: [create_skier_object] with the remaining arguments fixed. *)
Variable create : R -> list R -> list bool -> bool -> res sk.
Variable dist : sk -> res (option R * option R).
(** Toughness criterion of [ginc] between an uncracked and a cracked object. *)
Variable energy : sk -> sk -> list bool -> res (option R).
(** [find_new_anticrack_length] as a function of weight, li and ki. *)
Variable newlen : R -> list R -> list bool -> res (R * list R * list bool).
(** [find_minimum_force] as a function of li and ki. *)
Variable minforce : list R -> list bool -> res mf.

(** One uncracked/cracked pair of solutions and its criterion, e.g.
    examples/criterion_check.py:311-347. *)
Definition evaluate (w : R) (li : list R) (ki : list bool) : res (sk * sk * option R) :=
  let k0 := map (fun _ => true) ki in
  s <- create w li k0 false ;;
  c <- create w li ki true ;;
  g <- energy s c k0 ;;
  Ok (s, c, g).

(** Self-collapse, examples/criterion_check.py:220-282 (and 655-717). *)
Definition self_collapse (total : R) (li : list R) (m : mf) : res cc :=
  let ki := true :: map (fun _ => false) li ++ [true] in
  e <- evaluate 0 (50000 :: li ++ [50000]) ki ;;
  let '(_, c, g) := e in
  Ok (mkCc true total 0 c 0 [] [] true false (f_weight m) g (f_min m) [] []).

(** Loop condition, examples/criterion_check.py:302 (781). *)
Definition continue (maxit : nat) (s : cstate) : bool :=
  (ogt (option_map Rabs (l_err s)) (2 / 1000) && Nat.ltb (l_n s) maxit && any (l_ki s))%bool.

(** One iteration of examples/criterion_check.py:303-405: early return (pure stress criterion)
    or next state. [update w new err] is the weight of the next iteration. [early] is the test
    of the pure stress criterion. The distances of the damped variant are appended after the
    evaluation (examples/criterion_check.py:804-805), those of the other before it (307-308);
    flag [damped]. The damped
    variant also passes ki instead of k0 to the uncracked call (789-791), which does not read it. *)
Definition iteration (damped : bool) (early : option R -> option R -> bool)
    (update : R -> R -> option R -> R) (crit : R) (s : cstate) : res (cc + cstate) :=
  let n := S (l_n s) in
  let ws := l_ws s ++ [l_w s] in
  let lens := l_lens s ++ [l_len s] in
  let k0 := map (fun _ => true) (l_ki s) in
  u <- create (l_w s) (l_li s) (if damped then l_ki s else k0) false ;;
  d <- dist u ;;
  let dmaxs := l_dmaxs s ++ [if damped then fst d else l_dmax s] in
  let dmins := l_dmins s ++ [if damped then snd d else l_dmin s] in
  c <- create (l_w s) (l_li s) (l_ki s) true ;;
  g <- energy u c k0 ;;
  let gs := l_gs s ++ [g] in
  let err := option_map (fun g => Rabs (g - 1)) g in
  if (Nat.eqb n 1 && early g err)%bool then
    Ok (inl (mkCc true (l_len s) (l_w s) c n ws lens false true crit g (fst d) gs dmaxs))
  else
    let lo := if oltb g (Some 1) then l_w s else l_min s in
    let hi := if oltb g (Some 1) then l_max s else l_w s in
    let new := (lo + hi) / 2 in
    if ogt (option_map Rabs err) (2 / 1000) then
      let w := update (l_w s) new err in
      r <- newlen w (l_li s) (l_ki s) ;;
      let '(len, li, ki) := r in
      Ok (inr (mkCs err n w lo hi len li ki (fst d) (snd d) (Some c) g ws lens gs dmaxs dmins))
    else
      Ok (inr (mkCs err n (l_w s) lo hi (l_len s) (l_li s) (l_ki s) (fst d) (snd d) (Some c) g
                 ws lens gs dmaxs dmins)).

(** The while loop; [fuel] exceeds the iteration bound, so RuntimeError never comes from here
    (theorem C62_bounded). *)
(** examples/criterion_check.py:302-405 and 781-890. *)
Fixpoint iterate (maxit : nat) (step : cstate -> res (cc + cstate)) (fuel : nat) (s : cstate)
  : res (cc + cstate) :=
  if continue maxit s then
    match fuel with
    | O => Err RuntimeError
    | S fuel =>
        r <- step s ;;
        match r with inl c => Ok (inl c) | inr s => iterate maxit step fuel s end
    end
  else Ok (inr s).

(** Result tuple built from the final state (UnboundLocalError without an iteration). *)
(** examples/criterion_check.py:410-431, 449-470. *)
Definition finish (ok : bool) (crit : R) (s : cstate) (d : option R) (ds : list (option R)) : res cc :=
  match l_c s with
  | None => Err UnboundLocalError
  | Some c => Ok (mkCc ok (l_len s) (l_w s) c (l_n s) (l_ws s) (l_lens s) false false crit
                    (l_g s) d (l_gs s) ds)
  end.

(** Initial state, examples/criterion_check.py:284-300 (721-740). *)
Definition start (total w lo hi : R) (m : mf) : cstate :=
  mkCs (Some 1000) 0 w lo hi 1
    [total / 2 - 1 / 2; 1 / 2; 1 / 2; total / 2 - 1 / 2] [true; false; false; true]
    (f_max m) (f_min m) None None [] [] [] [] [].

(** Search of an upper weight, examples/criterion_check.py:744-779; [None]: not ended after
    [fuel] rounds. *)
Fixpoint raise_weight (fuel : nat) (w : R) (li : list R) (ki : list bool) : res (option R) :=
  match fuel with
  | O => Ok None
  | S fuel =>
      e <- evaluate (w * 2) li ki ;;
      if oltb (snd e) (Some 1) then raise_weight fuel (w * 2) li ki else Ok (Some (w * 2))
  end.

(** Weight of the next iteration in the damped variant, examples/criterion_check.py:862-875. *)
Definition damped_weight (dampening w new : R) (err : option R) : R :=
  (if oltb (option_map Rabs err) (Some (1 / 2))
   then (dampening + 1 + new / w) / (dampening + 1 + 1) else 1) * new.

(** examples/criterion_check.py:511-961
    [check_coupled_criterion_anticrack_nucleation_dampened]; [thick] is the sum of the layer
    thicknesses; [None]: the search of the upper weight has not ended after [fuel] rounds. *)
Definition coupled_dampened (thick dampening : R) (fuel : nat) : res (option cc) :=
  let total := 100 * thick in
  let li := [total / 2; 0; 0; total / 2] in
  m <- minforce li [true; true; true; true] ;;
  if ogt (f_min m) 1 then (c <- self_collapse total li m ;; Ok (Some c))
  else if (oleb (f_min m) (Some 1) && Rleb 1 (f_weight m))%bool then
    let s := start total (f_weight m * (1005 / 1000)) (f_weight m) 0 m in
    hi <- raise_weight fuel (3 * f_weight m) (l_li s) (l_ki s) ;;
    match hi with
    | None => Ok None
    | Some hi =>
        let s := start total (f_weight m * (1005 / 1000)) (f_weight m) hi m in
        r <- iterate 50 (iteration true (fun g _ => ogt g 1) (damped_weight dampening) (f_weight m)) 51 s ;;
        match r with
        | inl c => Ok (Some c)
        | inr s =>
            c <- finish (Nat.ltb (l_n s) 50 && any (l_ki s))%bool (f_weight m) s (l_dmax s) (l_dmaxs s) ;;
            Ok (Some c)
        end
    end
  else Ok (Some (mkCc false 0 (f_weight m) (f_sk m) 0 [] [] false false (f_weight m) (Some 0)
                   (f_max m) [] [])).

(** Outcome of the undamped variant: a result, or one of the two calls of the damped variant
    (examples/criterion_check.py:434-444 and 473-483). *)
Inductive outcome : Type := Done (c : cc) | Fallback1 (w : R) | Fallback2 (w : R).

(** examples/criterion_check.py:69-509 [check_coupled_criterion_anticrack_nucleation]. *)
Definition coupled (thick : R) : res outcome :=
  let total := 1000 * thick in
  let li := [total / 2; 0; 0; total / 2] in
  m <- minforce li [true; true; true; true] ;;
  if ogt (f_min m) 1 then (c <- self_collapse total li m ;; Ok (Done c))
  else if (oleb (f_min m) (Some 1) && Rleb 1 (f_weight m))%bool then
    let w := f_weight m * (1005 / 1000) in
    let s := start total w (f_weight m) (5 * w) m in
    r <- iterate 25 (iteration false (fun g err => ogt g 1 || oltb err (Some (2 / 100)))%bool
                       (fun _ new _ => new) (f_weight m)) 26 s ;;
    match r with
    | inl c => Ok (Done c)
    | inr s =>
        if (Nat.ltb (l_n s) 25 && any (l_ki s))%bool then
          if Rltb 0 (l_len s)
          then (c <- finish true (f_weight m) s (l_dmax s) (l_dmaxs s) ;; Ok (Done c))
          else Ok (Fallback1 (l_w s))
        else if negb (any (l_ki s))
        then (c <- finish true (f_weight m) s (l_dmin s) (l_dmins s) ;; Ok (Done c))
        else Ok (Fallback2 (l_w s))
    end
  else Ok (Done (mkCc false 0 (f_weight m) (f_sk m) 0 [] [] false false (f_weight m) (Some 0)
                   (f_max m) [] [])).
End Coupled.

(** * Anticrack length *)

(** Positions where [np.diff(np.sign(d))] is not zero (NaN is not zero either),
    examples/criterion_check.py:1221. *)
Definition osign (x : option R) : option Z :=
  option_map (fun x => if Rltb 0 x then 1%Z else if Rltb x 0 then (-1)%Z else 0%Z) x.
(** examples/criterion_check.py:1221: [np.where(np.diff(np.sign(d)))[0]]. *)
Fixpoint transitions (d : list (option R)) (i : nat) : list nat :=
  match d with
  | a :: ((b :: _) as d') =>
      (match osign a, osign b with
       | Some x, Some y => if Z.eqb x y then [] else [i]
       | _, _ => [i]
       end) ++ transitions d' (S i)
  | _ => []
  end.

(** Marks of the cracked segments between roots, examples/criterion_check.py:1504-1518. [isr] are
    the flags of boundaries 1, 2, ...; [prev] the flag before them; [cracked] the toggle. *)
Fixpoint mark_segments (prev : bool) (isr : list bool) (cracked : bool) : list bool :=
  match isr with
  | [] => []
  | r :: isr =>
      if (r && prev)%bool then negb cracked :: mark_segments r isr (negb cracked)
      else true :: mark_segments r isr cracked
  end.
(** [list.index]: first position of an equal entry. *)
(** Used in examples/criterion_check.py:1502. *)
Fixpoint index_of (l : list R) (x : R) (i : nat) : nat :=
  match l with [] => i | a :: l => if Reqb a x then i else index_of l x (S i) end.
(** examples/criterion_check.py:1496: [np.diff]. *)
Fixpoint diffs (l : list R) : list R :=
  match l with
  | a :: ((b :: _) as l') => (b - a) :: diffs l'
  | _ => []
  end.
(** examples/criterion_check.py:1493-1518: lengths and supports between 0, the roots and the
    total length. *)
Definition segments_of_roots (total : R) (roots : list R) : list R * list bool :=
  let b := 0 :: roots ++ [total] in
  let isr := fold_left (fun m r => set_nth m (index_of b r 0) true) roots (map (fun _ => false) b) in
  (diffs b, match isr with [] => [] | r :: isr => mark_segments r isr true end).
(** Sum of the unsupported lengths, examples/criterion_check.py:1530-1533. *)
Definition cracked_length (li : list R) (ki : list bool) : R :=
  rsum (map fst (filter (fun lk => negb (snd lk)) (combine li ki))).

Section Concrete.
Variable eig : mat6 -> list eigpair.
Variable solve : nat -> matrix -> vector -> res vector.
Variable brent : R -> R -> list (R * R) -> bstep.
Variable maxeval : nat.
Variable quad : (R -> R) -> R -> R -> R.

(** examples/criterion_check.py:2348-2446 [create_skier_object]; [nu = 0.25], segment defaults
    L=1e4, a=0, m=0, phi=0, cf=0.5, ratio=1000 as in the callee's signature. *)
Definition create_skier_object (profile : layers_arg) (w phi : R) (li : list R) (ki : list bool)
    (crack : bool) (E t : R) : res sk :=
  o <- Layered eig "skiers" profile false ;;
  let o := set_foundation_properties eig o t E (1 / 4) true in
  mi <- skier_weights li (List.length ki) w ;;
  let k0 := map (fun _ => true) ki in
  match calc_segments eig solve brent maxeval li mi ki k0 10000 0 0 0 (1 / 2) 1000 o with
  | (Err e, _) => Err e
  | (Ok s, o) =>
      let ks := if crack then s_ki s else s_k0 s in
      C <- assemble_and_solve eig solve o false phi (s_li s) (s_mi s) ks ;;
      r <- rasterize_solution (o_par o) (o_eig o) (loads_of o phi) C (s_li s) ks 800 ;;
      let '(_, z, xb) := r in
      xt <- get_weaklayer_shearstress o xb z "kPa" false ;;
      xs <- get_weaklayer_normalstress o xb z "kPa" false ;;
      Ok (mkSk o C (s_li s) (s_mi s) ks (fst xs) (snd xs) (snd xt))
  end.

(** [ginc] and the toughness criterion in J/m^2, e.g. examples/criterion_check.py:343-347. *)
Definition incremental (phi : R) (s c : sk) (k0 : list bool) : res (option R) :=
  let o := k_obj c in
  g <- ginc quad (o_par o) (o_eig o) (loads_of o phi) (k_C s) (k_C c) (k_li c) (k_ki c) k0 ;;
  let '(_, g1, g2) := g in
  Ok (match g1, g2 with
      | Some a, Some b => Some (fracture_toughness_criterion (1000 * a) (1000 * b))
      | _, _ => None
      end).

(** examples/criterion_check.py:1307-1345 [calculate_sigma_tau]; a coordinate beyond the model is
    None and fails in [z] (TypeError). The columns of the other segments are computed, too, and
    dropped. *)
Definition calculate_sigma_tau (k : sk) (li : list R) (phi x : R) : res (R * R) :=
  match find_segment_index li x with
  | None => Err TypeError
  | Some (i, xi) =>
      let o := k_obj k in
      match nth_error (k_C k) i with
      | None => Err IndexError
      | Some C =>
          z <- zsol_checked (o_par o) (o_eig o) (loads_of o phi) xi C (nth i li 0) true ;;
          t <- tau_unit (o_par o) "kPa" z ;;
          s <- sig_unit (o_par o) "kPa" z ;;
          Ok (s, - t)
      end
  end.
(** examples/criterion_check.py:1270-1304 [root_function]. *)
Definition root_function (e : envp) (k : sk) (li : list R) (phi x : R) : res R :=
  st <- calculate_sigma_tau k li phi x ;;
  v <- stress_envelope1 (e_name e) (e_sf e) (e_om e) (e_rho e) (fst st) (snd st) ;;
  Ok (v - 1).

(** examples/criterion_check.py:1256-1265: brackets; roots that are found are kept, ValueError and
    missing convergence are skipped. *)
Fixpoint collect_roots (f : R -> res R) (o : obj) (br : list (option R * option R)) : res (list R) :=
  match br with
  | [] => Ok []
  | (Some a, Some b) :: br =>
      match fst (brentq brent maxeval (fun x => fun o => (f x, o)) (10 * a) (10 * b) o) with
      | Ok r => rs <- collect_roots f o br ;; Ok (r :: rs)
      | Err ValueError | Err RuntimeError => collect_roots f o br
      | Err e => Err e
      end
  | _ :: _ => Err TypeError
  end.
(** examples/criterion_check.py:1134-1267 [find_roots_around_x]; the local extrema are never used. *)
Definition find_roots_around_x (e : envp) (k : sk) (li : list R) (phi : R) : res (list R) :=
  d <- envelope_of e k ;;
  let d := map (option_map (fun v => v - 1)) d in
  let br := map (fun i => (nth i (k_x k) None, nth (S i) (k_x k) None)) (transitions d 0) in
  collect_roots (root_function e k li phi) (k_obj k) br.

(** examples/criterion_check.py:1395-1535 [find_new_anticrack_length]; [ki] is not used. *)
Definition find_new_anticrack_length (profile : layers_arg) (phi E t : R) (e : envp)
    (w : R) (li : list R) (ki : list bool) : res (R * list R * list bool) :=
  let total := rsum li in
  let li := [total / 2; total / 2] in
  k <- create_skier_object profile w phi li [true; true] false E t ;;
  d <- distances e k ;;
  roots <- find_roots_around_x e k li phi ;;
  lk <- (match roots with
         | [] => Ok (li, if ogt (snd d) 1 then [false; false] else [true; true])
         | _ => let '(l, ks) := segments_of_roots total roots in split_segments_at_midpoint l ks
         end) ;;
  let '(li, ki) := lk in
  Ok (cracked_length li ki, li, ki).

(** Thickness sum of the profile ([layer[1]] of every row; characters have no index 1: IndexError). *)
(** examples/criterion_check.py:190, 626, 2054. *)
Definition thickness (profile : layers_arg) : res R :=
  match profile with
  | LList l => Ok (rsum (map snd l))
  | LStr EmptyString => Ok 0
  | LStr _ => Err IndexError
  end.

(** examples/criterion_check.py:1600-1783 [find_minimum_force] for a profile. *)
Definition find_minimum_force (profile : layers_arg) (phi E t : R) (e : envp)
    (li : list R) (ki : list bool) : res mf :=
  find_minimum_force_with (fun w => create_skier_object profile w phi li ki false E t) (distances e).

(** Damped and undamped criterion for a profile. The first fallback omits the density (default
    250), the second the weak-layer thickness (default 30),
    examples/criterion_check.py:434-444 and 473-483. *)
Definition criterion_dampened (profile : layers_arg) (phi dampening : R) (e : envp) (E t : R)
    (fuel : nat) : res (option cc) :=
  th <- thickness profile ;;
  coupled_dampened (fun w li ki crack => create_skier_object profile w phi li ki crack E t)
    (distances e) (incremental phi) (find_new_anticrack_length profile phi E t e)
    (find_minimum_force profile phi E t e) th dampening fuel.
(** examples/criterion_check.py:69-508 [check_coupled_criterion_anticrack_nucleation]. *)
Definition criterion (profile : layers_arg) (phi : R) (e : envp) (E t : R) (fuel : nat)
  : res (option cc) :=
  th <- thickness profile ;;
  r <- coupled (fun w li ki crack => create_skier_object profile w phi li ki crack E t)
         (distances e) (incremental phi) (find_new_anticrack_length profile phi E t e)
         (find_minimum_force profile phi E t e) th ;;
  match r with
  | Done c => Ok (Some c)
  | Fallback1 _ => criterion_dampened profile phi 1 (mkEnv (e_name e) (e_sf e) (e_om e) 250) E t fuel
  | Fallback2 _ => criterion_dampened profile phi 1 e E 30 fuel
  end.

(** examples/criterion_check.py:9-66 [check_crack_propagation_criterion]. *)
Definition differential (phi : R) (k : sk) : res R :=
  let o := k_obj k in
  g <- gdif (o_par o) (o_eig o) (loads_of o phi) (k_C k) (k_li k) (k_ki k) "kJ/m^2" ;;
  let '(_, g1, g2) := g in
  Ok (fracture_toughness_criterion (1000 * g1) (1000 * g2)).
(** examples/criterion_check.py:9-66 [check_crack_propagation_criterion]. *)
Definition check_crack_propagation_criterion (profile : layers_arg) (phi : R) (li : list R)
    (ki : list bool) (w E t : R) : res (R * bool) :=
  k <- create_skier_object profile w phi li ki true E t ;;
  g <- differential phi k ;;
  Ok (g, Rleb 1 g).

(** examples/criterion_check.py:2026-2077 [g_delta_diff_objective]. *)
Definition g_delta_diff_objective (a : R) (profile : layers_arg) (phi E t target : R) : res R :=
  th <- thickness profile ;;
  let total := 1000 * th in
  k <- create_skier_object profile 0 phi
         [total / 2 - a / 2; a / 2; a / 2; total / 2 - a / 2] [true; false; false; true] true E t ;;
  g <- differential phi k ;;
  Ok (g - target).
(** examples/criterion_check.py:1975-2023 [find_min_crack_length_self_propagation]; [None]: not
    converged. *)
Definition find_min_crack_length_self_propagation (profile : layers_arg) (phi E t a b : R)
  : res (option R) :=
  match fst (brentq brent maxeval (fun x => fun o => (g_delta_diff_objective x profile phi E t 1, o)) a b
               (init_obj "skiers" false)) with
  | Ok r => Ok (Some r)
  | Err RuntimeError => Ok None
  | Err e => Err e
  end.
End Concrete.
