(** Model of weac/eigensystem.py (class Eigensystem) and of the constructor in
    weac/layered.py. *)
Require Import Verif.Py Verif.MTools.

(** * Vectors and matrices *)

(** Solution vector [u, u', w, w', psi, psi'] (weac/eigensystem.py:311). *)
Record vec6 : Type := mkV {
  z_u : R; z_du : R; z_w : R; z_dw : R; z_psi : R; z_dpsi : R
}.

(** weac/eigensystem.py:480-617: columns of length six, all zero. *)
Definition vzero : vec6 := mkV 0 0 0 0 0 0.
(** weac/eigensystem.py:587-617: sums of columns of length six. *)
Definition vadd (a b : vec6) : vec6 :=
  mkV (z_u a + z_u b) (z_du a + z_du b) (z_w a + z_w b) (z_dw a + z_dw b)
      (z_psi a + z_psi b) (z_dpsi a + z_dpsi b).
(** weac/eigensystem.py:480-585: multiples of columns of length six. *)
Definition vscale (c : R) (a : vec6) : vec6 :=
  mkV (c * z_u a) (c * z_du a) (c * z_w a) (c * z_dw a) (c * z_psi a)
      (c * z_dpsi a).
(** Rows of [np.dot(K, z)], weac/mixins.py:386. *)
Definition dot6 (a b : vec6) : R :=
  z_u a * z_u b + z_du a * z_du b + z_w a * z_w b + z_dw a * z_dw b
  + z_psi a * z_psi b + z_dpsi a * z_dpsi b.

(** 6x6 matrix given by its rows. *)
(** weac/eigensystem.py:341-348. *)
Record mat6 : Type := mkM {
  row0 : vec6; row1 : vec6; row2 : vec6; row3 : vec6; row4 : vec6; row5 : vec6
}.
(** [np.dot(K, z)], weac/mixins.py:386, 409-410. *)
Definition matvec (K : mat6) (z : vec6) : vec6 :=
  mkV (dot6 (row0 K) z) (dot6 (row1 K) z) (dot6 (row2 K) z) (dot6 (row3 K) z)
      (dot6 (row4 K) z) (dot6 (row5 K) z).

(** [np.dot(Z, C)] for a matrix given by its columns and a constant vector. *)
(** weac/eigensystem.py:612, 615. *)
Fixpoint lincomb (cols : list vec6) (C : list R) : vec6 :=
  match cols, C with
  | z :: cols', c :: C' => vadd (vscale c z) (lincomb cols' C')
  | _, _ => vzero
  end.

(** * Elastic parameters and loads read by the solution methods *)

(** Attributes kn, kt, t, h, zs, A11, B11, D11, kA55, K0 of the object
    (weac/eigensystem.py:118-136). *)
Record params : Type := mkPar {
  kn : R; kt : R; wt : R; hh : R; zs : R;
  A11 : R; B11 : R; D11 : R; kA55 : R; K0 : R
}.

(** Weight (qn, qt) and surface (pn, pt) line loads. *)
(** weac/eigensystem.py:404-453: return values of [get_weight_load] and [get_surface_load]. *)
Record loads : Type := mkLd { qn : R; qt : R; pn : R; pt : R }.

(** weac/eigensystem.py:267-281 [get_ply_coordinates]. *)
Definition get_ply_coordinates (slab : list ply) (h : R) : list R :=
  map (fun c => c - h / 2) (cumsum (0 :: map p_h slab)).

(** weac/eigensystem.py:283-305 [calc_laminate_stiffness_matrix]: the loop over
    plies, with [z] the ply coordinates; returns (A11, B11, D11, kA55, K0). *)
Fixpoint laminate_loop (slab : list ply) (z : list R) (k : R)
    (A B D Sk : R) : R * R * R * R :=
  match slab, z with
  | p :: slab', z0 :: ((z1 :: _) as z') =>
      laminate_loop slab' z' k
        (A + p_E p / (1 - p_nu p ^ 2) * (z1 - z0))
        (B + 1 / 2 * p_E p / (1 - p_nu p ^ 2) * (z1 ^ 2 - z0 ^ 2))
        (D + 1 / 3 * p_E p / (1 - p_nu p ^ 2) * (z1 ^ 3 - z0 ^ 3))
        (Sk + k * p_G p * (z1 - z0))
  | _, _ => (A, B, D, Sk)
  end.

(** weac/eigensystem.py:283-305 [calc_laminate_stiffness_matrix]. *)
Definition calc_laminate_stiffness_matrix (slab : list ply) (h k : R)
  : R * R * R * R * R :=
  let '(A, B, D, Sk) :=
    laminate_loop slab (get_ply_coordinates slab h) k 0 0 0 0 in
  (A, B, D, Sk, B ^ 2 - A * D).

(** weac/eigensystem.py:257-265 [calc_foundation_stiffness]; (kn, kt). *)
Definition calc_foundation_stiffness (E nu t : R) : R * R :=
  let G := E / (2 * (1 + nu)) in
  let E' := E / (1 - nu ^ 2) in
  (E' / t, G / t).

(** weac/eigensystem.py:307-348 [calc_system_matrix]. *)
Definition calc_system_matrix (p : params) : mat6 :=
  let K21 := kt p * (- 2 * D11 p + B11 p * (hh p + wt p)) / (2 * K0 p) in
  let K24 := (2 * D11 p * kt p * wt p
              - B11 p * kt p * wt p * (hh p + wt p)
              + 4 * B11 p * kA55 p) / (4 * K0 p) in
  let K25 := (- 2 * D11 p * hh p * kt p
              + B11 p * hh p * kt p * (hh p + wt p)
              + 4 * B11 p * kA55 p) / (4 * K0 p) in
  let K43 := kn p / kA55 p in
  let K61 := kt p * (2 * B11 p - A11 p * (hh p + wt p)) / (2 * K0 p) in
  let K64 := (- 2 * B11 p * kt p * wt p
              + A11 p * kt p * wt p * (hh p + wt p)
              - 4 * A11 p * kA55 p) / (4 * K0 p) in
  let K65 := (2 * B11 p * hh p * kt p
              - A11 p * hh p * kt p * (hh p + wt p)
              - 4 * A11 p * kA55 p) / (4 * K0 p) in
  mkM (mkV 0 1 0 0 0 0)
      (mkV K21 0 0 K24 K25 0)
      (mkV 0 0 0 1 0 0)
      (mkV 0 0 K43 0 0 (-1))
      (mkV 0 0 0 0 0 1)
      (mkV K61 0 0 K64 K65 0).

(** weac/eigensystem.py:404-429 [get_weight_load]; (qn, qt). *)
Definition get_weight_load (g : R) (slab : list ply) (phi : R) : R * R :=
  let phi := deg2rad phi in
  let q := rsum (map (fun p => p_rho p * (1 / 1000000000000) * g * p_h p) slab) in
  (q * cos phi, - q * sin phi).

(** weac/eigensystem.py:431-453 [get_surface_load]; (pn, pt). *)
Definition get_surface_load (p phi : R) : R * R :=
  let phi := deg2rad phi in
  (p * cos phi, - p * sin phi).

(** weac/eigensystem.py:455-478 [get_skier_load]; (Fn, Ft). *)
Definition get_skier_load (g lski m phi : R) : R * R :=
  let phi := deg2rad phi in
  let F := 1 / 1000 * m * g / lski in
  (F * cos phi, - F * sin phi).

(** weac/eigensystem.py:350-379 [get_load_vector]. *)
Definition get_load_vector (p : params) (l : loads) : vec6 :=
  mkV 0
      ((B11 p * (hh p * pt l - 2 * qt l * zs p) + 2 * D11 p * (qt l + pt l))
       / (2 * K0 p))
      0
      (- (qn l + pn l) / kA55 p)
      0
      (- (A11 p * (hh p * pt l - 2 * qt l * zs p) + 2 * B11 p * (qt l + pt l))
       / (2 * K0 p)).

(** * Eigensystem *)

(** One eigenpair returned by [np.linalg.eig]: eigenvalue (re, im) and
    eigenvector (real part, imaginary part). *)
(** weac/eigensystem.py:384. *)
Definition eigpair := ((R * R) * (vec6 * vec6))%type.

(** Attributes ewR, evR, ewC, evC; the shifts sR, sC are functions of the
    eigenvalues (weac/eigensystem.py:395-396). *)
Record eigsys : Type := mkEig {
  eR : list (R * vec6);                     (* (ewR, evR column) *)
  eC : list ((R * R) * (vec6 * vec6))       (* (ewC, evC column) *)
}.

(** weac/eigensystem.py:381-396 [calc_eigensystem]: classification of the
    eigenpairs returned by [np.linalg.eig]. *)
Definition is_real_ew (e : eigpair) : bool :=
  (Reqb (snd (fst e)) 0 && negb (Reqb (fst (fst e)) 0))%bool.
(** weac/eigensystem.py:387. *)
Definition is_cmplx_ew (e : eigpair) : bool := Rltb 0 (snd (fst e)).
(** weac/eigensystem.py:381-396 [calc_eigensystem]. *)
Definition calc_eigensystem (ews : list eigpair) : eigsys :=
  mkEig (map (fun e => (fst (fst e), fst (snd e))) (filter is_real_ew ews))
        (filter is_cmplx_ew ews).

(** weac/eigensystem.py:395-396: sR = -1 where ewR > 0, else 0. *)
Definition shiftR (ew : R) : R := if Rlt_dec 0 ew then -1 else 0.
(** sC = -1 where ewC > 0; numpy orders complex numbers lexicographically. *)
(** weac/eigensystem.py:395-396. *)
Definition shiftC (ew : R * R) : R :=
  if Rlt_dec 0 (fst ew) then -1
  else if Req_EM_T (fst ew) 0 then (if Rlt_dec 0 (snd ew) then -1 else 0)
  else 0.

(** Column of a real eigenpair, weac/eigensystem.py:502. *)
Definition colR (x l : R) (e : R * vec6) : vec6 :=
  vscale (exp (fst e * (x + l * shiftR (fst e)))) (snd e).

(** Columns of a complex eigenpair, weac/eigensystem.py:504-506 and 508-510. *)
Definition colC1 (x l : R) (e : (R * R) * (vec6 * vec6)) : vec6 :=
  let '((re, im), (vr, vi)) := e in
  vscale (exp (re * (x + l * shiftC (re, im))))
    (vadd (vscale (cos (im * x)) vr) (vscale (- sin (im * x)) vi)).
(** weac/eigensystem.py:480-525: sine column of a complex pair. *)
Definition colC2 (x l : R) (e : (R * R) * (vec6 * vec6)) : vec6 :=
  let '((re, im), (vr, vi)) := e in
  vscale (exp (re * (x + l * shiftC (re, im))))
    (vadd (vscale (cos (im * x)) vi) (vscale (sin (im * x)) vr)).

(** weac/eigensystem.py:480-525 [zh]: complementary solution as a list of
    columns. *)
Definition zh_bedded (e : eigsys) (x l : R) : list vec6 :=
  map (colR x l) (eR e) ++ map (colC1 x l) (eC e) ++ map (colC2 x l) (eC e).

(** weac/eigensystem.py:512-523, columns of the free matrix. *)
Definition zh_free (p : params) (x : R) : list vec6 :=
  let H14 := 3 * B11 p / A11 p * x ^ 2 in
  let H24 := 6 * B11 p / A11 p * x in
  let H54 := - 3 * x ^ 2 + 6 * K0 p / (A11 p * kA55 p) in
  [ mkV 0 0 1 0 0 0;
    mkV 0 0 x 1 (-1) 0;
    mkV 0 0 (x ^ 2) (2 * x) (- 2 * x) (-2);
    mkV H14 H24 (x ^ 3) (3 * x ^ 2) H54 (- 6 * x);
    mkV 1 0 0 0 0 0;
    mkV x 1 0 0 0 0 ].

(** weac/eigensystem.py:480-525 [zh]. *)
Definition zh (p : params) (e : eigsys) (x l : R) (bed : bool) : list vec6 :=
  if bed then zh_bedded e x l else zh_free p x.

(** weac/eigensystem.py:527-585 [zp]: particular integral. *)
Definition zp (p : params) (ld : loads) (x : R) (bed : bool) : vec6 :=
  if bed then
    mkV ((qt ld + pt ld) / kt p
         + hh p * qt ld * (hh p + wt p - 2 * zs p) / (4 * kA55 p)
         + hh p * pt ld * (2 * hh p + wt p) / (4 * kA55 p))
        0
        ((qn ld + pn ld) / kn p)
        0
        (- (qt ld * (hh p + wt p - 2 * zs p) + pt ld * (2 * hh p + wt p))
         / (2 * kA55 p))
        0
  else
    mkV ((- 3 * (qt ld + pt ld) / A11 p
          - B11 p * (qn ld + pn ld) * x / K0 p) / 6 * x ^ 2)
        ((- 2 * (qt ld + pt ld) / A11 p
          - B11 p * (qn ld + pn ld) * x / K0 p) / 2 * x)
        (- A11 p * (qn ld + pn ld) * x ^ 4 / (24 * K0 p))
        (- A11 p * (qn ld + pn ld) * x ^ 3 / (6 * K0 p))
        (A11 p * (qn ld + pn ld) * x ^ 3 / (6 * K0 p)
         + ((zs p - B11 p / A11 p) * qt ld - hh p * pt ld / 2
            - (qn ld + pn ld) * x) / kA55 p)
        ((qn ld + pn ld) * (A11 p * x ^ 2 / (2 * K0 p) - 1 / kA55 p)).

(** weac/eigensystem.py:587-617 [z] at one position. A shape mismatch between
    [zh] and [C] raises ValueError in [np.dot]. *)
Definition zsol (p : params) (e : eigsys) (ld : loads) (x : R) (C : list R)
    (l : R) (bed : bool) : vec6 :=
  vadd (lincomb (zh p e x l bed) C) (zp p ld x bed).

(** * The model object *)

(** Touchdown stages (attribute [mode]); Python value False is [None]. *)
(** weac/eigensystem.py:150; weac/mixins.py:783-798. *)
Inductive tmode : Type := ModeA | ModeB | ModeC.

(** Attributes of an instance (weac/eigensystem.py:111-151). Numeric attributes
    that start as [False] behave as 0 in arithmetic and are modelled by 0; [L]
    does not exist until [set_columnlength] and is [None] before. Attributes
    betaU, betaC are never read and are omitted. *)
Record obj : Type := mkObj {
  o_g : R; o_lski : R; o_tol : R;
  o_system : string;
  o_weakE : R; o_weaknu : R;
  o_p : R;
  o_slab : list ply;
  o_k : R;
  o_phi : R;
  o_par : params;
  o_eig : eigsys;
  o_touchdown : bool;
  o_a : R; o_L : option R; o_tc : R; o_ratio : R;
  o_mode : option tmode; o_td : R
}.

(** weac/eigensystem.py:153-188: assignments to [weak] and [t]. *)
Definition with_weak (o : obj) (E nu t : R) : obj :=
  let q := o_par o in
  mkObj (o_g o) (o_lski o) (o_tol o) (o_system o) E nu (o_p o) (o_slab o)
    (o_k o) (o_phi o)
    (mkPar (kn q) (kt q) t (hh q) (zs q) (A11 q) (B11 q) (D11 q) (kA55 q) (K0 q))
    (o_eig o) (o_touchdown o) (o_a o) (o_L o) (o_tc o) (o_ratio o) (o_mode o)
    (o_td o).
(** weac/eigensystem.py:221-234: assignments to [k], [h], [zs] and [slab]. *)
Definition with_slab (o : obj) (k h z : R) (slab : list ply) : obj :=
  let q := o_par o in
  mkObj (o_g o) (o_lski o) (o_tol o) (o_system o) (o_weakE o) (o_weaknu o)
    (o_p o) slab k (o_phi o)
    (mkPar (kn q) (kt q) (wt q) h z (A11 q) (B11 q) (D11 q) (kA55 q) (K0 q))
    (o_eig o) (o_touchdown o) (o_a o) (o_L o) (o_tc o) (o_ratio o) (o_mode o)
    (o_td o).
(** weac/eigensystem.py:283-305: assignments to the stiffnesses. *)
Definition with_par (o : obj) (q : params) : obj :=
  mkObj (o_g o) (o_lski o) (o_tol o) (o_system o) (o_weakE o) (o_weaknu o)
    (o_p o) (o_slab o) (o_k o) (o_phi o) q
    (o_eig o) (o_touchdown o) (o_a o) (o_L o) (o_tc o) (o_ratio o) (o_mode o)
    (o_td o).
(** weac/eigensystem.py:388-396: assignments to the eigensystem. *)
Definition with_eig (o : obj) (e : eigsys) : obj :=
  mkObj (o_g o) (o_lski o) (o_tol o) (o_system o) (o_weakE o) (o_weaknu o)
    (o_p o) (o_slab o) (o_k o) (o_phi o) (o_par o)
    e (o_touchdown o) (o_a o) (o_L o) (o_tc o) (o_ratio o) (o_mode o)
    (o_td o).
(** weac/eigensystem.py:240-255: assignment to [p]. *)
Definition with_p (o : obj) (p : R) : obj :=
  mkObj (o_g o) (o_lski o) (o_tol o) (o_system o) (o_weakE o) (o_weaknu o)
    p (o_slab o) (o_k o) (o_phi o) (o_par o)
    (o_eig o) (o_touchdown o) (o_a o) (o_L o) (o_tc o) (o_ratio o) (o_mode o)
    (o_td o).
(** weac/eigensystem.py:118: assignment to [system]. *)
Definition with_system (o : obj) (s : string) : obj :=
  mkObj (o_g o) (o_lski o) (o_tol o) s (o_weakE o) (o_weaknu o)
    (o_p o) (o_slab o) (o_k o) (o_phi o) (o_par o)
    (o_eig o) (o_touchdown o) (o_a o) (o_L o) (o_tc o) (o_ratio o) (o_mode o)
    (o_td o).
(** weac/eigensystem.py:257-265: assignments to [kn] and [kt]. *)
Definition with_kn_kt (o : obj) (n t : R) : obj :=
  let q := o_par o in
  with_par o (mkPar n t (wt q) (hh q) (zs q) (A11 q) (B11 q) (D11 q) (kA55 q)
                    (K0 q)).

(** Loads of the object at inclination [phi] (weac/eigensystem.py:551-552). *)
Definition loads_of (o : obj) (phi : R) : loads :=
  let '(n, t) := get_weight_load (o_g o) (o_slab o) phi in
  let '(pn, pt) := get_surface_load (o_p o) phi in
  mkLd n t pn pt.

Section Oracle.
(** [np.linalg.eig], a deterministic function of the matrix. *)
Variable eig : mat6 -> list eigpair.

(** weac/eigensystem.py:381-396 at object level. *)
Definition o_calc_eigensystem (o : obj) : obj :=
  with_eig o (calc_eigensystem (eig (calc_system_matrix (o_par o)))).

(** weac/eigensystem.py:398-402 [calc_fundamental_system]. *)
Definition o_calc_foundation_stiffness (o : obj) : obj :=
  let '(n, t) := calc_foundation_stiffness (o_weakE o) (o_weaknu o)
                   (wt (o_par o)) in
  with_kn_kt o n t.
(** weac/eigensystem.py:283-305 on the object. *)
Definition o_calc_laminate (o : obj) : obj :=
  let q := o_par o in
  let '(A, B, D, Sk, K) :=
    calc_laminate_stiffness_matrix (o_slab o) (hh q) (o_k o) in
  with_par o (mkPar (kn q) (kt q) (wt q) (hh q) (zs q) A B D Sk K).
(** weac/eigensystem.py:398-402 [calc_fundamental_system]. *)
Definition o_calc_fundamental_system (o : obj) : obj :=
  o_calc_eigensystem (o_calc_laminate (o_calc_foundation_stiffness o)).

(** weac/eigensystem.py:153-188 [set_foundation_properties]. *)
Definition set_foundation_properties (o : obj) (t E nu : R) (update : bool)
  : obj :=
  let o1 := with_weak o E nu t in
  if update then o_calc_fundamental_system o1 else o1.

(** weac/eigensystem.py:240-255 [set_surface_load]. *)
Definition set_surface_load (o : obj) (p : R) : obj := with_p o p.

(** The [layers] argument: a string or a list of layers. *)
(** weac/eigensystem.py:214-220. *)
Inductive layers_arg : Type :=
| LStr (s : string)
| LList (l : list layer).

(** [s.split()[-1]] (None: no word, IndexError); blanks are ASCII white space. *)
(** Used in weac/eigensystem.py:216. *)
Definition is_blank (c : Ascii.ascii) : bool :=
  let n := Ascii.nat_of_ascii c in
  (Nat.eqb n 32 || (Nat.leb 9 n && Nat.leb n 13))%bool.
(** Used in weac/eigensystem.py:216. *)
Fixpoint last_word_aux (s : string) (cur : list Ascii.ascii)
    (last : option (list Ascii.ascii)) : option (list Ascii.ascii) :=
  match s with
  | EmptyString => match cur with [] => last | _ => Some cur end
  | String c s' =>
      if is_blank c then
        last_word_aux s' [] (match cur with [] => last | _ => Some cur end)
      else last_word_aux s' (cur ++ [c]) last
  end.
(** weac/eigensystem.py:216: [layers.split()[-1]]. *)
Definition last_word (s : string) : option string :=
  option_map string_of_list_ascii (last_word_aux s [] None).

(** Slab matrix from layers and moduli, weac/eigensystem.py:222-234. *)
Definition build_slab (layers : list layer) (E : list R) (nu : R) : list ply :=
  map2 (fun l e => mkPly (fst l) (snd l) e (e / (2 * (1 + nu))) nu) layers E.

(** weac/eigensystem.py:190-238 [set_beam_properties]. An empty list has no
    second axis: IndexError at [layers[:, 0]]. *)
Definition set_beam_properties (o : obj) (la : layers_arg) (C0 C1 nu : R)
    (update : bool) : res obj :=
  lE <- match la with
        | LStr s =>
            match last_word s with
            | None => Err IndexError
            | Some w => load_dummy_profile w
            end
        | LList [] => Err IndexError
        | LList l => Ok (l, map (fun r => bergfeld (fst r) 917 C0 C1) l)
        end ;;
  let '(layers, E) := lE in
  let '(H, z) := calc_center_of_gravity layers in
  let o1 := with_slab o (5 / 6) H z (build_slab layers E nu) in
  Ok (if update then o_calc_fundamental_system o1 else o1).

(** weac/eigensystem.py:93-151 [Eigensystem.__init__]. *)
Definition init_obj (system : string) (touchdown : bool) : obj :=
  mkObj 9810 1000 (1 / 1000) system 0 0 0 [] 0 0
    (mkPar 0 0 0 0 0 0 0 0 0 0) (mkEig [] []) touchdown 0 None 0 0 None 0.

(** weac/layered.py:24-49 [Layered.__init__]; [layers=None] is
    [LList []] here because both select the default profile. *)
Definition Layered (system : string) (la : layers_arg) (touchdown : bool)
  : res obj :=
  let la := match la with
            | LList [] => LList [(240, 200)]
            | LStr EmptyString => LList [(240, 200)]
            | _ => la
            end in
  o <- set_beam_properties (init_obj system touchdown) la (65 / 10) (44 / 10)
         (1 / 4) false ;;
  Ok (o_calc_fundamental_system
        (set_foundation_properties o 30 (1 / 4) (1 / 4) false)).
End Oracle.
