(** Model of weac/mixins.py: SlabContactMixin (lines 487-813) and
    SolutionMixin (lines 816-1249). *)
Require Import Verif.Py Verif.MTools Verif.MEigen Verif.MFields Verif.MRaster.

(** * Boundary and transmission conditions *)

(** Comparisons with [self.mode], weac/mixins.py:802-807, 852-870. *)
Definition mode_is (o : obj) (m : tmode) : bool :=
  match o_mode o, m with
  | Some ModeA, ModeA | Some ModeB, ModeB | Some ModeC, ModeC => true
  | _, _ => false
  end.

(** weac/mixins.py:824-889 [bc], one column. [kR] is the result of
    [substitute_stiffness(self.a - self.td, "rested", "rot")], evaluated only in
    the stage C branches; a successful call leaves the object unchanged (see
    theorem substitute_stiffness_restores), a raising call propagates. *)
Definition bc (o : obj) (kR : res R) (k : bool) (pos : string) (z : vec6)
  : res (list R) :=
  let p := o_par o in
  if mem_str (o_system o) ["pst-"; "-pst"]%string then
    if negb k then
      if mode_is o ModeA then Ok [f_N p z; f_M p z; f_V p z]
      else if (mode_is o ModeB && mem_str pos ["r"; "right"]%string)%bool
      then Ok [f_N p z; f_M p z; f_w z]
      else if (mode_is o ModeB && mem_str pos ["l"; "left"]%string)%bool
      then Ok [f_N p z; f_M p z; f_w z]
      else if (mode_is o ModeC && mem_str pos ["r"; "right"]%string)%bool
      then r <- kR ;; Ok [f_N p z; f_M p z + r * f_psi z; f_w z]
      else if (mode_is o ModeC && mem_str pos ["l"; "left"]%string)%bool
      then r <- kR ;; Ok [f_N p z; f_M p z - r * f_psi z; f_w z]
      else Err UnboundLocalError
    else Ok [f_N p z; f_M p z; f_V p z]
  else if mem_str (o_system o) ["-vpst"; "vpst-"]%string
  then Ok [f_N p z; f_M p z; f_V p z]
  else if mem_str (o_system o) ["skier"; "skiers"]%string
  then Ok [f_u 0 z; f_w z; f_psi z]
  else if mem_str (o_system o) ["rot"; "trans"]%string
  then Ok [f_N p z; f_M p z; f_V p z]
  else Err ValueError.

(** weac/mixins.py:891-971 [eqs], one column. The three calls of [bc] are
    identical and modelled by one. *)
Definition eqs (o : obj) (kR : res R) (zl zr : vec6) (k : bool) (pos : string)
  : res (list R) :=
  let p := o_par o in
  if mem_str pos ["l"; "left"]%string then
    b <- bc o kR k pos zl ;;
    Ok (b ++ [f_u 0 zr; f_w zr; f_psi zr; f_N p zr; f_M p zr; f_V p zr])
  else if mem_str pos ["m"; "mid"]%string then
    Ok [- f_u 0 zl; - f_w zl; - f_psi zl; - f_N p zl; - f_M p zl; - f_V p zl;
        f_u 0 zr; f_w zr; f_psi zr; f_N p zr; f_M p zr; f_V p zr]
  else if mem_str pos ["r"; "right"]%string then
    b <- bc o kR k pos zr ;;
    Ok ([- f_u 0 zl; - f_w zl; - f_psi zl; - f_N p zl; - f_M p zl; - f_V p zl]
        ++ b)
  else Err ValueError.

(** * Assembly *)

(** Matrices and right-hand sides handed to the linear solver. *)
(** weac/mixins.py:1163. *)
Definition matrix := nat -> nat -> R.
(** weac/mixins.py:1164-1165. *)
Definition vector := nat -> R.

(** [M[r0:r1, c0:c1] = B] with B given by columns; a shape mismatch raises
    ValueError. (Broadcasting of length-one axes cannot occur: blocks have at
    least 9 rows and the column count is 6 in the target.) *)
(** weac/mixins.py:1187. *)
Definition assign_block (M : matrix) (r0 r1 c0 c1 : nat) (B : list (list R))
  : res matrix :=
  if (Nat.eqb (List.length B) (c1 - c0)
      && forallb (fun col => Nat.eqb (List.length col) (r1 - r0)) B)%bool
  then Ok (fun r c =>
    if (Nat.leb r0 r && Nat.ltb r r1 && Nat.leb c0 c && Nat.ltb c c1)%bool
    then nth (r - r0) (nth (c - c0) B []) 0 else M r c)
  else Err ValueError.

(** [v[r0:r0+len] += b]. *)
(** weac/mixins.py:1188. *)
Definition add_slice (v : vector) (r0 : nat) (b : list R) : vector :=
  fun r => if (Nat.leb r0 r && Nat.ltb r (r0 + List.length b))%bool
           then v r + nth (r - r0) b 0 else v r.

(** [v[r0:r0+len] = b]. *)
(** weac/mixins.py:1195. *)
Definition set_slice (v : vector) (r0 : nat) (b : list R) : vector :=
  fun r => if (Nat.leb r0 r && Nat.ltb r (r0 + List.length b))%bool
           then nth (r - r0) b 0 else v r.

(** weac/mixins.py:1159-1160: positions of the segments. *)
Definition pos_of (nS i : nat) : string :=
  if Nat.eqb i (nS - 1) then "r"%string
  else if Nat.eqb i 0 then "l"%string else "m"%string.

(** Body of the assembly loop for segment [i] (weac/mixins.py:1170-1188). *)
Definition assemble_segment (o : obj) (kR : res R) (phi : R) (nS i : nat)
    (l : R) (k : bool) (acc : matrix * vector) : res (matrix * vector) :=
  let p := o_par o in let e := o_eig o in let ld := loads_of o phi in
  let pos := pos_of nS i in
  zhi <- mapM (fun zz => eqs o kR (fst zz) (snd zz) k pos)
              (combine (zh p e 0 l k) (zh p e l l k)) ;;
  zpi <- eqs o kR (zp p ld 0 k) (zp p ld l k) k pos ;;
  let start := if Nat.eqb i 0 then 0%nat else 3%nat in
  let stop := if Nat.eqb i (nS - 1) then 6%nat else 9%nat in
  zh0 <- assign_block (fst acc) (6 * i - start) (6 * i + stop)
           (i * 6) ((i + 1) * 6) zhi ;;
  Ok (zh0, add_slice (snd acc) (6 * i - start) zpi).

(** weac/mixins.py:1170-1188: loop over the segments. *)
Fixpoint assemble_lhs (o : obj) (kR : res R) (phi : R) (nS i : nat)
    (li : list R) (ki : list bool) (acc : matrix * vector)
  : res (matrix * vector) :=
  match li, ki with
  | l :: li', k :: ki' =>
      acc' <- assemble_segment o kR phi nS i l k acc ;;
      assemble_lhs o kR phi nS (S i) li' ki' acc'
  | _, _ => Ok acc
  end.

(** weac/mixins.py:1191-1195: skier loads on the right-hand side. *)
Fixpoint assemble_rhs (o : obj) (phi : R) (i : nat) (mi : list R)
    (rhs : vector) : vector :=
  match mi with
  | [] => rhs
  | m :: mi' =>
      let '(Fn, Ft) := get_skier_load (o_g o) (o_lski o) m phi in
      assemble_rhs o phi (S i) mi'
        (set_slice rhs (6 * i) [Ft; - Ft * hh (o_par o) / 2; Fn])
  end.

(** weac/mixins.py:556-576 [calc_qn], [calc_qt]. *)
Definition calc_qn (o : obj) : R :=
  qn (loads_of o (o_phi o)) + pn (loads_of o (o_phi o)).
(** weac/mixins.py:567-576 [calc_qt]. *)
Definition calc_qt (o : obj) : R :=
  qt (loads_of o (o_phi o)) + pt (loads_of o (o_phi o)).

(** weac/mixins.py:1217-1232: touchdown conditions on the right-hand side. *)
Fixpoint touchdown_rhs (o : obj) (nS i : nat) (ki : list bool) (rhs : vector)
  : vector :=
  match ki with
  | [] => rhs
  | k :: ki' =>
      let rhs :=
        if (negb k && mode_is o ModeB)%bool then
          let r1 := if Nat.eqb i 0 then set_slice rhs 0 [0; 0; o_tc o] else rhs in
          if Nat.eqb i (nS - 1) then set_slice r1 (6 * nS - 3) [0; 0; o_tc o]
          else r1
        else rhs in
      let rhs :=
        if (negb k && mode_is o ModeC)%bool then
          let N := calc_qt o * (o_a o - o_td o) in
          let r1 := if Nat.eqb i 0 then set_slice rhs 0 [- N; 0; o_tc o]
                    else rhs in
          if Nat.eqb i (nS - 1) then set_slice r1 (6 * nS - 3) [N; 0; o_tc o]
          else r1
        else rhs in
      touchdown_rhs o nS (S i) ki' rhs
  end.

(** weac/mixins.py:1190-1242: complete right-hand side. *)
Definition build_rhs (o : obj) (kR : res R) (phi : R) (li mi : list R)
    (ki : list bool) (nS : nat) : res vector :=
  let p := o_par o in let ld := loads_of o phi in
  let rhs0 := assemble_rhs o phi 1 mi (fun _ => 0) in
  rhs1 <- (if negb (mem_str (o_system o) ["pst-"; "-pst"; "rested"]%string)
           then
             b0 <- bc o kR false "mid" (zp p ld 0 (nth 0 ki false)) ;;
             b1 <- bc o kR false "mid"
                     (zp p ld (last li 0) (last ki false)) ;;
             Ok (set_slice (set_slice rhs0 0 b0) (6 * nS - 3) b1)
           else Ok rhs0) ;;
  let rhs2 :=
    if mem_str (o_system o) ["vpst-"; "-vpst"]%string then
      let '(xs, zs, m) := calc_vertical_bc_center_of_gravity (o_slab o) phi in
      let ph := deg2rad phi in
      let N := - o_g o * m * sin ph in
      let M := - o_g o * m * (xs * cos ph + zs * sin ph) in
      let V := o_g o * m * cos ph in
      set_slice (set_slice rhs1 0 [N; M; V]) (6 * nS - 3) [N; M; V]
    else rhs1 in
  let rhs3 := touchdown_rhs o nS 0 ki rhs2 in
  let rhs4 := if mem_str (o_system o) ["rot"]%string
              then set_slice (fun _ => 0) 1 [1] else rhs3 in
  Ok (if mem_str (o_system o) ["trans"]%string
      then set_slice (fun _ => 0) 2 [1] else rhs4).

(** weac/mixins.py:1118-1133: rejected inputs. *)
Definition check_segments (o : obj) (li mi : list R) (ki : list bool)
  : res unit :=
  if negb (existsb (fun b => b) ki) then Err ValueError
  else if negb (Nat.eqb (List.length li) (List.length ki)
                && Nat.eqb (List.length li) (S (List.length mi)))%bool
  then Err ValueError
  else if (negb (mem_str (o_system o)
                  ["pst-"; "-pst"; "vpst-"; "-vpst"; "rot"; "trans"]%string)
           && negb (nth 0 ki false && last ki false))%bool
  then Err ValueError
  else Ok tt.

(** The linear system of [assemble_and_solve]: (matrix, zp0, rhs). *)
(** weac/mixins.py:1163-1241. *)
Definition assemble (o : obj) (kR : res R) (phi : R) (li mi : list R)
    (ki : list bool) : res (matrix * vector * vector) :=
  let nS := List.length li in
  lhs <- assemble_lhs o kR phi nS 0 li ki (fun _ _ => 0, fun _ => 0) ;;
  rhs <- build_rhs o kR phi li mi ki nS ;;
  Ok (fst lhs, snd lhs, rhs).

(** weac/mixins.py:1249: constants per segment. *)
Definition reshape_constants (nS : nat) (x : vector) : list (list R) :=
  map (fun i => map (fun j => x (6 * i + j)%nat) (seq 0 6)) (seq 0 nS).

(** Result of [calc_segments] (weac/mixins.py:1076-1080): li, mi, ki, k0. *)
Record segments : Type := mkSeg {
  s_li : list R; s_mi : list R; s_ki : list bool; s_k0 : list bool
}.

Section Oracle.
(** [np.linalg.eig]; [np.linalg.solve] for an n x n system (LinAlgError on
    singular matrices). *)
Variable eig : mat6 -> list eigpair.
Variable solve : nat -> matrix -> vector -> res vector.

(** weac/mixins.py:1083-1249 [assemble_and_solve]. [aslist] tells whether the
    arguments are Python lists ([append] exists) or ndarrays (AttributeError at
    line 1153). *)
Definition assemble_and_solve_with (kR : res R) (o : obj) (aslist : bool)
    (phi : R) (li mi : list R) (ki : list bool) : res (list (list R)) :=
  _ <- check_segments o li mi ki ;;
  args <- (if Nat.eqb (List.length li) 1
           then (if aslist then Ok (li ++ [0], mi ++ [0], ki ++ [true])
                 else Err AttributeError)
           else Ok (li, mi, ki)) ;;
  let '(li, mi, ki) := args in
  let nS := List.length li in
  sys <- assemble o kR phi li mi ki ;;
  let '(zh0, zp0, rhs) := sys in
  x <- solve (6 * nS) zh0 (fun r => rhs r - zp0 r) ;;
  Ok (reshape_constants nS x).

(** weac/mixins.py:578-635 [substitute_stiffness]: result and final object.
    All segments are supported there, so [bc] never asks for kR; the inner
    argument is irrelevant (see theorem assemble_kR_irrelevant). *)
Definition substitute_stiffness (o : obj) (L : R) (support dof : string)
  : res R * obj :=
  let o1 := if mem_str dof ["rot"]%string then with_system o "rot"
            else if mem_str dof ["trans"]%string then with_system o "trans"
            else o in
  let o2 := if mem_str support ["rested"]%string then
              o_calc_eigensystem eig
                (with_kn_kt o1 (o_ratio o1 * kn (o_par o1))
                               (o_ratio o1 * kt (o_par o1)))
            else o1 in
  match assemble_and_solve_with (Err RuntimeError) o2 false 0 [L; 0] [0]
          [true; true] with
  | Err e => (Err e, o2)
  | Ok C =>
      match rasterize_solution (o_par o2) (o_eig o2) (loads_of o2 0) C [L; 0]
              [true; true] 1 with
      | Err e => (Err e, o2)
      | Ok (_, zq, _) =>
          match zq with
          | [] => (Err IndexError, o2)
          | z0 :: _ =>
              if mem_str dof ["rot"; "trans"]%string then
                let k := if mem_str dof ["rot"]%string
                         then Rabs (1 / f_psi z0) else Rabs (1 / f_w z0) in
                let o3 := with_system o2 (o_system o) in
                let o4 := if mem_str support ["rested"]%string then
                            o_calc_eigensystem eig
                              (with_kn_kt o3 (kn (o_par o)) (kt (o_par o)))
                          else o3 in
                (Ok k, o4)
              else (Err UnboundLocalError, o2)
          end
      end
  end.

(** weac/mixins.py:1083-1249 with the stage C spring of [bc]
    (weac/mixins.py:863, 868). *)
Definition assemble_and_solve (o : obj) (aslist : bool) (phi : R)
    (li mi : list R) (ki : list bool) : res (list (list R)) :=
  assemble_and_solve_with
    (fst (substitute_stiffness o (o_a o - o_td o) "rested" "rot"))
    o aslist phi li mi ki.

(** * Touchdown (state-passing) *)

(** Methods that change [self], weac/mixins.py:578-889: result or exception, and the object afterwards. *)
Definition stM (A : Type) := obj -> res A * obj.
(** Return, e.g. weac/mixins.py:668. *)
Definition sret {A} (a : A) : stM A := fun o => (Ok a, o).
(** Sequence of statements, e.g. weac/mixins.py:637-668. *)
Definition sbind {A B} (m : stM A) (f : A -> stM B) : stM B :=
  fun o => match m o with
           | (Ok a, o') => f a o'
           | (Err e, o') => (Err e, o')
           end.

(** One decision of scipy's [brentq], given the evaluations made so far. *)
(** Called in weac/mixins.py:666, 703, 771. *)
Inductive bstep : Type :=
| BEval (x : R)       (* evaluate the function at x *)
| BRet (r : R)        (* return r *)
| BFail.              (* raise ValueError: no sign change in the bracket *)

(** [brentq]: decision from the bracket and the evaluation history (latest
    first); it may be any strategy. [maxeval] bounds the evaluations (100
    iterations plus two in scipy), RuntimeError after that. *)
Variable brent : R -> R -> list (R * R) -> bstep.
Variable maxeval : nat.

(** Called in weac/mixins.py:666, 703, 771. *)
Fixpoint brentq_run (fuel : nat) (f : R -> stM R) (lo hi : R)
    (hist : list (R * R)) : stM R :=
  fun o =>
    match brent lo hi hist with
    | BRet r => (Ok r, o)
    | BFail => (Err ValueError, o)
    | BEval x =>
        match fuel with
        | O => (Err RuntimeError, o)
        | S fuel' =>
            match f x o with
            | (Ok v, o') => brentq_run fuel' f lo hi ((x, v) :: hist) o'
            | (Err e, o') => (Err e, o')
            end
        end
    end.
(** Called in weac/mixins.py:666, 703, 771. *)
Definition brentq (f : R -> stM R) (lo hi : R) : stM R :=
  brentq_run maxeval f lo hi [].

(** weac/mixins.py:578-635: call of [substitute_stiffness]. *)
Definition sub (L : R) (support dof : string) : stM R :=
  fun o => substitute_stiffness o L support dof.

(** Effective bending stiffness, weac/mixins.py:647, 680, 729. *)
Definition bs_of (p : params) : R := - (B11 p ^ 2 / A11 p - D11 p).

(** weac/mixins.py:659-664: polynomial of [calc_a1]. *)
Definition poly_a1 (bs ss qn tc kRl kNl x : R) : R :=
  let c1 := 1 / (8 * bs) in
  let c2 := 1 / (2 * kRl) in
  let c3 := 1 / (2 * ss) in
  let c4 := 1 / kNl in
  let c5 := - tc / qn in
  c1 * x ^ 4 + c2 * x ^ 3 + c3 * x ^ 2 + c4 * x + c5.

(** weac/mixins.py:637-668 [calc_a1]. *)
Definition calc_a1 : stM R := fun o =>
  match o_L o with
  | None => (Err AttributeError, o)
  | Some L =>
      let bs := bs_of (o_par o) in
      let ss := kA55 (o_par o) in
      let tc := o_tc o in
      let qn := calc_qn o in
      let polynomial x :=
        sbind (sub (L - x) "supported" "rot") (fun kRl =>
        sbind (sub (L - x) "supported" "trans") (fun kNl =>
        sret (poly_a1 bs ss qn tc kRl kNl x))) in
      brentq polynomial (L / 1000) (999 / 1000 * L) o
  end.

(** weac/mixins.py:692-701: polynomial of [calc_a2]. *)
Definition poly_a2 (bs ss qn tc kRl kNl x : R) : R :=
  let c1 := ss ^ 2 * kRl * kNl * qn in
  let c2 := 6 * ss ^ 2 * bs * kNl * qn in
  let c3 := 30 * bs * ss * kRl * kNl * qn in
  let c4 := 24 * bs * qn * (2 * ss ^ 2 * kRl + 3 * bs * ss * kNl) in
  let c5 := 72 * bs * (bs * qn * (ss ^ 2 + kRl * kNl)
                       - ss ^ 2 * kRl * kNl * tc) in
  let c6 := 144 * bs * ss * (bs * kRl * qn - bs * ss * kNl * tc) in
  let c7 := - 144 * bs ^ 2 * ss * kRl * kNl * tc in
  c1 * x ^ 6 + c2 * x ^ 5 + c3 * x ^ 4 + c4 * x ^ 3 + c5 * x ^ 2 + c6 * x + c7.

(** weac/mixins.py:670-705 [calc_a2]. *)
Definition calc_a2 : stM R := fun o =>
  match o_L o with
  | None => (Err AttributeError, o)
  | Some L =>
      let bs := bs_of (o_par o) in
      let ss := kA55 (o_par o) in
      let tc := o_tc o in
      let qn := calc_qn o in
      let polynomial x :=
        sbind (sub (L - x) "supported" "rot") (fun kRl =>
        sbind (sub (L - x) "supported" "trans") (fun kNl =>
        sret (poly_a2 bs ss qn tc kRl kNl x))) in
      brentq polynomial (L / 1000) (999 / 1000 * L) o
  end.

(** weac/mixins.py:743-768: polynomial of [calc_lC]. *)
Definition poly_lC (bs ss qn tc kRl kNl kRr x : R) : R :=
  let c1 := ss ^ 2 * kRl * kNl * qn in
  let c2 := 6 * ss * kNl * qn * (bs * ss + kRl * kRr) in
  let c3 := 30 * bs * ss * kNl * qn * (kRl + kRr) in
  let c4 := 24 * bs * qn
            * (2 * ss ^ 2 * kRl + 3 * bs * ss * kNl + 3 * kRl * kRr * kNl) in
  let c5 := 72 * bs * (bs * qn * (ss ^ 2 + kNl * (kRl + kRr))
                       + ss * kRl * (2 * kRr * qn - ss * kNl * tc)) in
  let c6 := 144 * bs * ss * (bs * qn * (kRl + kRr)
                             - kNl * tc * (bs * ss + kRl * kRr)) in
  let c7 := - 144 * bs ^ 2 * ss * kNl * tc * (kRl + kRr) in
  c1 * x ^ 6 + c2 * x ^ 5 + c3 * x ^ 4 + c4 * x ^ 3 + c5 * x ^ 2 + c6 * x + c7.

(** weac/mixins.py:723-773 [calc_lC]. *)
Definition calc_lC : stM R := fun o =>
  match o_L o with
  | None => (Err AttributeError, o)
  | Some L =>
      let bs := bs_of (o_par o) in
      let ss := kA55 (o_par o) in
      let a := o_a o in
      let tc := o_tc o in
      let qn := calc_qn o in
      let polynomial x :=
        sbind (sub (L - a) "supported" "rot") (fun kRl =>
        sbind (sub (L - a) "supported" "trans") (fun kNl =>
        sbind (sub (a - x) "rested" "rot") (fun kRr =>
        sret (poly_lC bs ss qn tc kRl kNl kRr x)))) in
      brentq polynomial (a / 1000) (999 / 1000 * a) o
  end.

(** weac/mixins.py:497-554: assignments to the contact attributes. *)
Definition with_contact (o : obj) (phi a : R) (L : option R) (tc ratio : R)
    (mode : option tmode) (td : R) : obj :=
  mkObj (o_g o) (o_lski o) (o_tol o) (o_system o) (o_weakE o) (o_weaknu o)
    (o_p o) (o_slab o) (o_k o) phi (o_par o) (o_eig o) (o_touchdown o)
    a L tc ratio mode td.

(** weac/mixins.py:497-554: setters. *)
Definition set_columnlength (L : R) (o : obj) : obj :=
  with_contact o (o_phi o) (o_a o) (Some L) (o_tc o) (o_ratio o) (o_mode o) (o_td o).
(** weac/mixins.py:508-517 [set_cracklength]. *)
Definition set_cracklength (a : R) (o : obj) : obj :=
  with_contact o (o_phi o) a (o_L o) (o_tc o) (o_ratio o) (o_mode o) (o_td o).
(** weac/mixins.py:519-531 [set_tc]. *)
Definition set_tc (cf : R) (o : obj) : obj :=
  with_contact o (o_phi o) (o_a o) (o_L o)
    (cf * wt (o_par o) - calc_qn o / kn (o_par o)) (o_ratio o) (o_mode o) (o_td o).
(** weac/mixins.py:533-542 [set_phi]. *)
Definition set_phi (phi : R) (o : obj) : obj :=
  with_contact o phi (o_a o) (o_L o) (o_tc o) (o_ratio o) (o_mode o) (o_td o).
(** weac/mixins.py:544-554 [set_stiffness_ratio]. *)
Definition set_stiffness_ratio (ratio : R) (o : obj) : obj :=
  with_contact o (o_phi o) (o_a o) (o_L o) (o_tc o) ratio (o_mode o) (o_td o).
(** weac/mixins.py:783-798: assignments to [mode]. *)
Definition set_mode (m : tmode) (o : obj) : obj :=
  with_contact o (o_phi o) (o_a o) (o_L o) (o_tc o) (o_ratio o) (Some m) (o_td o).
(** weac/mixins.py:800-807: assignments to [td]. *)
Definition set_td (td : R) (o : obj) : obj :=
  with_contact o (o_phi o) (o_a o) (o_L o) (o_tc o) (o_ratio o) (o_mode o) td.

(** weac/mixins.py:775-781 [set_touchdown_attributes]; note the order: the
    crack height is computed before the new inclination is stored. *)
Definition set_touchdown_attributes (L a cf phi ratio : R) (o : obj) : obj :=
  set_stiffness_ratio ratio
    (set_phi phi (set_tc cf (set_cracklength a (set_columnlength L o)))).

(** weac/mixins.py:789-795: stage from thresholds (for real numbers the last
    [elif] is always true when reached). *)
Definition stage (a a1 a2 : R) : tmode :=
  if Rle_dec a a1 then ModeA
  else if (Rltb a1 a && Rleb a a2)%bool then ModeB
  else ModeC.

(** weac/mixins.py:783-798 [calc_touchdown_mode]. *)
Definition calc_touchdown_mode : stM unit := fun o =>
  if o_touchdown o then
    sbind calc_a1 (fun a1 => sbind calc_a2 (fun a2 =>
      fun o' => (Ok tt, set_mode (stage (o_a o') a1 a2) o'))) o
  else (Ok tt, set_mode ModeA o).

(** weac/mixins.py:707-721, 800-807 [calc_lA], [calc_lB],
    [calc_touchdown_length]. *)
Definition calc_touchdown_length : stM unit := fun o =>
  match o_mode o with
  | Some ModeA => (Ok tt, set_td (o_a o) o)
  | Some ModeB => (Ok tt, set_td (o_a o) o)
  | Some ModeC => sbind calc_lC (fun l o' => (Ok tt, set_td l o')) o
  | None => (Ok tt, o)
  end.

(** weac/mixins.py:809-813 [calc_touchdown_system]. *)
Definition calc_touchdown_system (L a cf phi ratio : R) : stM unit := fun o =>
  sbind calc_touchdown_mode (fun _ => calc_touchdown_length)
    (set_touchdown_attributes L a cf phi ratio o).

(** weac/mixins.py:1039-1073: segment lists per system type. [li], [mi], [ki],
    [k0] are the user lists of system 'skiers'. *)
Definition segment_lists (o : obj) (li mi : list R) (ki k0 : list bool)
    (L a m : R) : res segments :=
  if String.eqb (o_system o) "skiers" then Ok (mkSeg li mi ki k0)
  else if String.eqb (o_system o) "pst-" then
    Ok (mkSeg [L - o_a o; o_td o] [0] [true; false] [true; true])
  else if String.eqb (o_system o) "-pst" then
    Ok (mkSeg [o_td o; L - o_a o] [0] [false; true] [true; true])
  else if String.eqb (o_system o) "vpst-" then
    Ok (mkSeg [L - a; a] [0] [true; false] [true; true])
  else if String.eqb (o_system o) "-vpst" then
    Ok (mkSeg [a; L - a] [0] [false; true] [true; true])
  else if String.eqb (o_system o) "skier" then
    let lb := (L - o_a o) / 2 in
    let lf := o_a o / 2 in
    Ok (mkSeg [lb; lf; lf; lb] [0; m; 0] [true; false; false; true]
          [true; true; true; true])
  else Err ValueError.

(** weac/mixins.py:973-1081 [calc_segments]. *)
Definition calc_segments (li mi : list R) (ki k0 : list bool)
    (L a m phi cf ratio : R) : stM segments := fun o =>
  sbind (calc_touchdown_system L a cf phi ratio) (fun _ o' =>
    (segment_lists o' li mi ki k0 L a m, o')) o.
End Oracle.
