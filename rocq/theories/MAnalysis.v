(** Model of weac/mixins.py: AnalysisMixin (lines 1345-1769) and OutputMixin
    (lines 1772-2085). Arrays of columns are lists of [vec6]; stress fields are
    given per column (one list over the depth mesh). *)
Require Import Verif.Py Verif.MTools Verif.MEigen Verif.MFields Verif.MRaster Verif.MSolution.

(** weac/mixins.py:1399, 1458: total, mode I and mode II values returned by [ginc] and [gdif]. *)
Definition triple := (R * R * R)%type.
(** weac/mixins.py:1396-1397, 1440-1458: sums of such values. *)
Definition tadd (a b : triple) : triple :=
  let '(a1, a2, a3) := a in let '(b1, b2, b3) := b in (a1 + b1, a2 + b2, a3 + b3).
(** weac/mixins.py:1396-1397, 1440-1458: their multiples. *)
Definition tscale (c : R) (a : triple) : triple := let '(a1, a2, a3) := a in (c * a1, c * a2, c * a3).

(** weac/mixins.py:1422-1429: transition indices of crack tips, [ntr] transitions. *)
Definition crack_tips (ki : list bool) (ntr : nat) : list nat :=
  filter (fun j => negb (Bool.eqb (nth j ki false) (nth (S j) ki false))) (seq 0 ntr).

(** weac/mixins.py:1449-1453: which crack tips are halved. *)
Definition avgmask (ki : list bool) (nct : nat) : list bool :=
  if Nat.ltb 1 nct
  then set_nth (set_nth (repeat true nct) 0 (nth 0 ki false)) (nct - 1) (last ki false)
  else repeat false nct.

(** weac/mixins.py:1436-1443: one crack tip; [IndexError] for a missing column. *)
Definition gdif_tip (p : params) (e : eigsys) (ld : loads) (Cs : list (list R))
    (li : list R) (ki : list bool) (unit : string) (idx : nat) : res triple :=
  match nth_error Cs idx with
  | None => Err IndexError
  | Some C =>
      let l := nth idx li 0 in
      z <- zsol_checked p e ld l C l (nth idx ki false) ;;
      g1 <- Gi_unit p unit z ;;
      g2 <- Gii_unit p unit z ;;
      Ok (g1 + g2, g1, g2)
  end.

(** weac/mixins.py:1401-1458 [gdif]; [ki] is an array (line 1454 indexes it with a
    list), shorter than two or
    more entries of [li]: IndexError. The result is (G, GI, GII). *)
Definition gdif (p : params) (e : eigsys) (ld : loads) (Cs : list (list R))
    (li : list R) (ki : list bool) (unit : string) : res triple :=
  if (Nat.ltb (List.length ki) (List.length li) && Nat.ltb 1 (List.length li))%bool then Err IndexError
  else
    let ict := crack_tips ki (List.length li - 1) in
    cols <- mapM (gdif_tip p e ld Cs li ki unit) ict ;;
    let w := map (fun b : bool => if b then 1 / 2 else 1) (avgmask ki (List.length ict)) in
    Ok (fold_right tadd (0, 0, 0) (map2 tscale w cols)).

Section Quad.
(** [scipy.integrate.quad(f, a, b, ...)[0]]. *)
Variable quad : (R -> R) -> R -> R -> R.

(** weac/mixins.py:1383-1397: loop over the segments with crack advance; [z] is
    evaluated by the integrand with the shape check of [np.dot], which fails for
    all x or none. *)
Fixpoint ginc_loop (p : params) (e : eigsys) (ld : loads)
    (C0 C1 : list (list R)) (li : list R) : res (R * R) :=
  match C0, C1, li with
  | c0 :: C0', c1 :: C1', l :: li' =>
      _ <- zsol_checked p e ld 0 c0 l true ;;
      _ <- zsol_checked p e ld 0 c1 l false ;;
      let z0 := fun x => zsol p e ld x c0 l true in
      let z1 := fun x => zsol p e ld x c1 l false in
      r <- ginc_loop p e ld C0' C1' li' ;;
      Ok (quad (fun x => int1 p x z0 z1) 0 l + fst r, quad (fun x => int2 p x z0 z1) 0 l + snd r)
  | _, _, _ => Ok (0, 0)
  end.

(** weac/mixins.py:1345-1399 [ginc]. Mask lengths must match (ValueError from [&],
    IndexError from indexing; broadcasting of length-one lists is not modelled).
    The sum over segments of integral/(2 da) is written as (sum of integrals)/(2 da);
    with non-positive total length [da] is NaN, so are the entries unless no segment
    is left. *)
Definition ginc (p : params) (e : eigsys) (ld : loads) (C0 C1 : list (list R))
    (li : list R) (ki k0 : list bool) : res (option R * option R * option R) :=
  if negb (Nat.eqb (List.length k0) (List.length ki)) then Err ValueError
  else if negb (Nat.eqb (List.length C0) (List.length ki) && Nat.eqb (List.length C1) (List.length ki)
                && Nat.eqb (List.length li) (List.length ki))%bool
  then Err IndexError
  else
    let iscrack := map2 (fun a b => andb a (negb b)) k0 ki in
    let C0 := select iscrack C0 in let C1 := select iscrack C1 in let li := select iscrack li in
    r <- ginc_loop p e ld C0 C1 li ;;
    match li with
    | [] => Ok (Some 0, Some 0, Some 0)
    | _ =>
        let da := rsum li in
        if Rlt_dec 0 da
        then let G1 := fst r / (2 * da) in let G2 := snd r / (2 * da) in
             Ok (Some (G1 + G2), Some G1, Some G2)
        else Ok (None, None, None)
    end.
End Quad.

(** Depth mesh point: (z, E, nu, rho). *)
(** weac/mixins.py:1489-1492: a row of the depth mesh. *)
Record mpoint : Type := mkMp { m_z : R; m_E : R; m_nu : R; m_rho : R }.

(** weac/mixins.py:1460-1492 [get_zmesh]: loop over layers with ply coordinates. *)
Fixpoint zmesh_loop (slab : list ply) (z : list R) (dz : R) : list mpoint :=
  match slab, z with
  | q :: slab', z0 :: ((z1 :: _) as z') =>
      map (fun x => mkMp x (p_E q) (p_nu q) (p_rho q))
        (linspace z0 z1 (ceil_nat ((z1 - z0) / dz) + 1) true)
      ++ zmesh_loop slab' z' dz
  | _, _ => []
  end.
(** weac/mixins.py:1460-1492 [get_zmesh]. *)
Definition get_zmesh (o : obj) (dz : R) : list mpoint :=
  zmesh_loop (o_slab o) (get_ply_coordinates (o_slab o) (hh (o_par o))) dz.

(** Spacing to the next mesh point; the last point repeats the last spacing
    (weac/mixins.py:1534-1537). *)
Fixpoint spacing (zi : list R) : list R :=
  match zi with
  | a :: ((b :: t) as r) => (b - a) :: match t with [] => [b - a] | _ => spacing r end
  | _ => []
  end.

(** Mesh with at least two points, as lines 1537 and 1481 need. *)
Definition mesh_checked (o : obj) (dz : R) : res (list mpoint) :=
  match get_zmesh o dz with
  | [] => Err ValueError
  | [_] => Err IndexError
  | m => Ok m
  end.

(** weac/mixins.py:1494-1540 [Sxx], in MPa and in the given unit. *)
Definition Sxx_MPa (o : obj) (phi : R) (mesh : list mpoint) (z : vec6) : list R :=
  map2 (fun q d => m_E q / (1 - m_nu q ^ 2) * f_du (m_z q) z
                   + - (m_rho q / 10 ^ 12) * o_g o * sin (deg2rad phi) * d)
    mesh (spacing (map m_z mesh)).
(** weac/mixins.py:1494-1540 [Sxx] in the requested unit. *)
Definition Sxx (o : obj) (phi dz : R) (unit : string) (z : vec6) : res (list R) :=
  mesh <- mesh_checked o dz ;;
  c <- conv_stress unit ;;
  Ok (map (Rmult c) (Sxx_MPa o phi mesh z)).

(** [scipy.integrate.cumulative_trapezoid(y, x, initial=0)]. *)
(** Used in weac/mixins.py:1590 and 1646-1647. *)
Fixpoint ctrapz_from (acc : R) (y x : list R) : list R :=
  match y, x with
  | y0 :: ((y1 :: _) as y'), x0 :: ((x1 :: _) as x') =>
      acc :: ctrapz_from (acc + (x1 - x0) * (y0 + y1) / 2) y' x'
  | [_], [_] => [acc]
  | _, _ => []
  end.
(** Used in weac/mixins.py:1590 and 1646-1647. *)
Definition ctrapz (y x : list R) : list R := ctrapz_from 0 y x.

(** weac/mixins.py:1542-1594 [Txz]. *)
Definition Txz_MPa (o : obj) (phi : R) (mesh : list mpoint) (z : vec6) : list R :=
  let ld := loads_of o phi in
  let zi := map m_z mesh in
  let ds := map (fun q => m_E q / (1 - m_nu q ^ 2)
                * (du0_dxdx (o_par o) ld z + m_z q * dpsi_dxdx (o_par o) ld z)) mesh in
  let qt := map (fun q => - (m_rho q / 10 ^ 12) * o_g o * sin (deg2rad phi)) mesh in
  map2 Rplus (ctrapz ds zi) (ctrapz qt zi).
(** weac/mixins.py:1542-1594 [Txz] in the requested unit. *)
Definition Txz (o : obj) (phi dz : R) (unit : string) (z : vec6) : res (list R) :=
  mesh <- mesh_checked o dz ;;
  c <- conv_stress unit ;;
  Ok (map (Rmult c) (Txz_MPa o phi mesh z)).

(** weac/mixins.py:1596-1651 [Szz]. *)
Definition Szz_MPa (o : obj) (phi : R) (mesh : list mpoint) (z : vec6) : list R :=
  let ld := loads_of o phi in
  let zi := map m_z mesh in
  let ds := map (fun q => m_E q / (1 - m_nu q ^ 2)
                * (du0_dxdxdx (o_par o) ld z + m_z q * dpsi_dxdxdx (o_par o) ld z)) mesh in
  let qn := map (fun q => m_rho q / 10 ^ 12 * o_g o * cos (deg2rad phi)) mesh in
  map2 Rplus (ctrapz (ctrapz ds zi) zi) (ctrapz (map Ropp qn) zi).
(** weac/mixins.py:1596-1651 [Szz] in the requested unit. *)
Definition Szz (o : obj) (phi dz : R) (unit : string) (z : vec6) : res (list R) :=
  mesh <- mesh_checked o dz ;;
  c <- conv_stress unit ;;
  Ok (map (Rmult c) (Szz_MPa o phi mesh z)).

(** The multiplier dict of weac/mixins.py:1689 and 1750. *)
Definition val_sign (val : string) : res R :=
  if String.eqb val "max" then Ok 1
  else if String.eqb val "min" then Ok (-1)
  else Err ValueError.

(** weac/mixins.py:1653-1713 [principal_stress_slab]. *)
Definition principal_stress_slab (o : obj) (phi dz : R) (unit val : string)
    (normalize : bool) (z : vec6) : res (list R) :=
  m <- val_sign val ;;
  sx <- Sxx o phi dz unit z ;;
  tx <- Txz o phi dz unit z ;;
  sz <- Szz o phi dz unit z ;;
  let Ps := map3 (fun a t b => (a + b) / 2 + m * sqrt ((a - b) ^ 2 + 4 * t ^ 2) / 2) sx tx sz in
  if (normalize && String.eqb val "min")%bool then Err ValueError
  else if (normalize && String.eqb val "max")%bool then
    st <- mapM (fun q => tensile_strength_slab (m_rho q) unit) (get_zmesh o dz) ;;
    Ok (map2 Rdiv Ps st)
  else Ok Ps.

(** weac/mixins.py:1715-1769 [principal_stress_weaklayer]. *)
Definition principal_stress_weaklayer (o : obj) (sc : R) (unit val : string)
    (normalize : bool) (z : vec6) : res R :=
  m <- val_sign val ;;
  s <- sig_unit (o_par o) unit z ;;
  t <- tau_unit (o_par o) unit z ;;
  let ps := s / 2 + m * sqrt (s ^ 2 + 4 * t ^ 2) / 2 in
  if (normalize && String.eqb val "max")%bool then Err ValueError
  else if (normalize && String.eqb val "min")%bool then Ok (ps / sc)
  else Ok ps.

(** * Outputs *)

(** [np.average]. *)
(** Used in weac/mixins.py:1815, 1824. *)
Definition average (l : list R) : R := rsum l / INR (List.length l).

(** weac/mixins.py:1780-1830 [external_potential] with the default raster of 250
    points; [ub] is unbound for other systems. *)
Definition external_potential (o : obj) (phi L : R) (Cs : list (list R)) (li : list R) (ki : list bool) : res R :=
  r <- rasterize_solution (o_par o) (o_eig o) (loads_of o phi) Cs li ki 250 ;;
  let '(xq, zq, xb) := r in
  let w0 := map f_w zq in
  let us := map (f_u (zs (o_par o))) zq in
  match li with
  | l0 :: l1 :: _ =>
      let P1 := - calc_qn o * (l0 + l1) * average w0 - calc_qn o * (L - (l0 + l1)) * o_tc o in
      ub <- (if mem_str (o_system o) ["pst-"]%string then Ok (last us 0)
             else if mem_str (o_system o) ["-pst"]%string then Ok (hd 0 us)
             else Err UnboundLocalError) ;;
      Ok (P1 + (- calc_qt o * (l0 + l1) * average us - calc_qt o * (L - (l0 + l1)) * ub))
  | _ => Err IndexError
  end.

(** Foundation points of a raster. *)
(** weac/mixins.py:1832-1892: points kept by [~np.isnan]. *)
Definition present {A} (x : list (option R)) (y : list A) : list A :=
  select (map (fun a => match a with Some _ => true | None => false end) x) y.

(** weac/mixins.py:1832-1892 [internal_potential]; without foundation points the
    division by [nweak] fails. *)
Definition internal_potential (o : obj) (phi L : R) (Cs : list (list R)) (li : list R) (ki : list bool) : res R :=
  r <- rasterize_solution (o_par o) (o_eig o) (loads_of o phi) Cs li ki 250 ;;
  let '(xq, zq, xb) := r in
  let p := o_par o in
  let Ns := map (f_N p) zq in let Ms := map (f_M p) zq in let Vs := map (f_V p) zq in
  let zweak := present xb zq in
  let n := INR (List.length xq) in
  let nweak := INR (List.length zweak) in
  let sq := fun l => rsum (map (fun a => a ^ 2) l) in
  let P := L / 2 / n / A11 p * sq Ns
         + L / 2 / n / (D11 p - B11 p ^ 2 / A11 p) * sq Ms
         + L / 2 / n / kA55 p * sq Vs
         + L * kn p / 2 / nweak * sq (map f_w zweak)
         + L * kt p / 2 / nweak * sq (map (f_u (hh p / 2)) zweak) in
  if Nat.eqb (List.length zweak) 0 then Err ZeroDivisionError
  else
  Ok (if mem_str (o_system o) ["pst-"]%string
      then P + 1 / 2 * last Ms 0 * last (map f_psi zq) 0 ^ 2
      else if mem_str (o_system o) ["-pst"]%string
      then P + 1 / 2 * hd 0 Ms * hd 0 (map f_psi zq) ^ 2
      else P).

(** weac/mixins.py:1894-1920 [total_potential]. *)
Definition total_potential (o : obj) (phi L : R) (Cs : list (list R)) (li : list R) (ki : list bool) : res R :=
  a <- internal_potential o phi L Cs li ki ;;
  b <- external_potential o phi L Cs li ki ;;
  Ok (a + b).

(** Coordinates from mm to cm, NaN stays NaN (weac/mixins.py:1945, 1982). *)
Definition to_cm (x : list (option R)) : list (option R) := map (option_map (fun a => a / 10)) x.

(** A quantity of all columns; the unit is looked up even if there are no columns. *)
(** Vectorised evaluation in weac/mixins.py:1922-2085. *)
Definition columns (f : vec6 -> res R) (z : list vec6) : res (list R) :=
  _ <- f (mkV 0 0 0 0 0 0) ;; mapM f z.

(** weac/mixins.py:1922-1957 [get_weaklayer_shearstress] and 1959-1994
    [get_weaklayer_normalstress]; [f] is the stress of a column in the unit. The
    boolean mask must match the array (IndexError). *)
Definition weaklayer_stress (f : vec6 -> res R) (x : list (option R)) (z : list vec6) (removeNaNs : bool)
  : res (list (option R) * list (option R)) :=
  s <- columns f z ;;
  if negb (Nat.eqb (List.length x) (List.length z)) then Err IndexError
  else
    let x := to_cm x in
    if removeNaNs
    then Ok (present x x, map Some (present x s))
    else Ok (x, map2 (fun a b => match a with Some _ => Some b | None => None end) x s).
(** weac/mixins.py:1922-1957 [get_weaklayer_shearstress]. *)
Definition get_weaklayer_shearstress (o : obj) (x : list (option R)) (z : list vec6) (unit : string) (removeNaNs : bool) :=
  weaklayer_stress (tau_unit (o_par o) unit) x z removeNaNs.
(** weac/mixins.py:1959-1994 [get_weaklayer_normalstress]. *)
Definition get_weaklayer_normalstress (o : obj) (x : list (option R)) (z : list vec6) (unit : string) (removeNaNs : bool) :=
  weaklayer_stress (sig_unit (o_par o) unit) x z removeNaNs.

(** weac/mixins.py:1996-2027 [get_slab_displacement]; an unknown location is a
    KeyError. *)
Definition slab_loc (o : obj) (loc : string) : res R :=
  if String.eqb loc "top" then Ok (- hh (o_par o) / 2)
  else if String.eqb loc "mid" then Ok 0
  else if String.eqb loc "bot" then Ok (hh (o_par o) / 2)
  else Err KeyError.
(** weac/mixins.py:1996-2027 [get_slab_displacement]. *)
Definition get_slab_displacement (o : obj) (x : list (option R)) (z : list vec6) (loc unit : string)
  : res (list (option R) * list R) :=
  z0 <- slab_loc o loc ;;
  u <- columns (u_unit z0 unit) z ;;
  Ok (to_cm x, u).
(** weac/mixins.py:2029-2056 [get_slab_deflection]. *)
Definition get_slab_deflection (x : list (option R)) (z : list vec6) (unit : string)
  : res (list (option R) * list R) :=
  w <- columns (w_unit unit) z ;; Ok (to_cm x, w).
(** weac/mixins.py:2058-2085 [get_slab_rotation]. *)
Definition get_slab_rotation (x : list (option R)) (z : list vec6) (unit : string)
  : res (list (option R) * list R) :=
  a <- columns (psi_unit unit) z ;; Ok (to_cm x, a).
