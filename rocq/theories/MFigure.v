(** Model of the figures of weac/plot.py: the data handed to matplotlib. Fonts, colours of curves,
    files and the drawing itself are left out. *)
From Coq Require Import ZArith.
Require Import Verif.Py Verif.MTools Verif.MEigen Verif.MFields Verif.MRaster Verif.MAnalysis Verif.MEnvelope Verif.MPlot.

(** * Slab profile *)

(** weac/plot.py:160-169 [slab_profile]: the loop over the layers from the bottom; [height] is
    [total_heigth]. Corners (density, height above the weak layer) of the filled area. *)
Fixpoint profile_loop (rows : list ply) (height : R) : list (R * R) :=
  match rows with
  | [] => []
  | q :: rows => (p_rho q, height) :: (p_rho q, height + p_h q) :: profile_loop rows (height + p_h q)
  end.
(** weac/plot.py:147-186 [slab_profile]. *)
Definition slab_profile (o : obj) : list (R * R) := profile_loop (rev (o_slab o)) 0.
(** weac/plot.py:175: limits of the density axis. *)
Definition profile_limits : R * R := (500, 0).

(** * Deformed slab *)

(** Builtin [max]: the first entry, replaced by each later entry that is larger; comparisons with
    NaN are false. An empty sequence raises ValueError. *)
(** Used in weac/plot.py:263-264. *)
Definition larger (m x : option R) : option R :=
  match m, x with Some a, Some b => if Rltb a b then Some b else Some a | _, _ => m end.
(** Used in weac/plot.py:263-264. *)
Definition py_max (l : list (option R)) : res (option R) :=
  match l with [] => Err ValueError | x :: l => Ok (fold_left larger l x) end.
(** weac/plot.py:262-265: origin in the middle for skier systems. *)
Definition centred (system : string) (x : list (option R)) : res (list (option R)) :=
  if mem_str system ["skier"; "skiers"]%string then
    m <- py_max x ;;
    Ok (map (fun a => match a, m with Some a, Some m => Some (a - m / 2) | _, _ => None end) x)
  else Ok x.
(** [np.argmax] of a row: index of the first largest entry. *)
(** Used in weac/plot.py:270. *)
Fixpoint argmax_from (i best : nat) (top : R) (l : list R) : nat :=
  match l with
  | [] => best
  | x :: l => if Rltb top x then argmax_from (S i) i x l else argmax_from (S i) best top l
  end.
(** Used in weac/plot.py:270. *)
Definition argmax (l : list R) : nat :=
  match l with [] => 0%nat | x :: l => argmax_from 1 0 x l end.
(** Largest and smallest entry of an array without NaN. *)
(** Used in weac/plot.py:270-275. *)
Definition top_of (l : list R) : R := match l with [] => 0 | x :: l => fold_left Rmax l x end.
(** Used in weac/plot.py:271-276. *)
Definition bottom_of (l : list R) : R := match l with [] => 0 | x :: l => fold_left Rmin l x end.

(** What [deformed] hands to matplotlib. Grids are lists of rows from top to bottom (cm). *)
(** weac/plot.py:338-380. *)
Record figure := mkFigure {
  g_x : list (list R);           (* Xsl + scale*Usl *)
  g_z : list (list R);           (* Zsl + scale*Wsl *)
  g_x0 : list R;                 (* a row of Xsl *)
  g_z0 : list R;                 (* a column of Zsl *)
  g_weak_x : list (list (option R));    (* Xwl + scale*Uwl *)
  g_weak_z : list (list R);      (* Zwl + scale*Wwl *)
  g_xlim : R * R;                (* xmin, xmax *)
  g_zlim : R * R;                (* zmin, zmax *)
  g_base : R;                    (* baseline, plot.py:346 *)
  g_slab : list (list R);        (* field on the slab, by columns *)
  g_weak : list (option R);      (* field on the weak layer *)
  g_levels : list R              (* contour levels *)
}.

(** weac/plot.py:286-326: field on the slab (one list per column) and on the weak layer. [xw] are the
    weak-layer coordinates; the default strength of [principal_stress_weaklayer] is 2.6. *)
Definition figure_field (o : obj) (phi dz : R) (field : string) (normalize : bool)
    (xw : list (option R)) (z : list vec6) (U W : list (list R)) : res (list (list R) * list (option R)) :=
  let zi := map m_z (get_zmesh o dz) in
  if String.eqb field "u" then
    Ok (map (map (Rmult 10000)) U, map Some (map (Rmult 10000) (last U [])))
  else if String.eqb field "w" then
    Ok (map (map (Rmult 10000)) W, map Some (map (Rmult 10000) (last W [])))
  else if String.eqb field "Sxx" then
    s <- mapM (Sxx o phi dz "kPa") z ;; Ok (s, map (fun _ => Some 0) xw)
  else if String.eqb field "Txz" then
    s <- mapM (Txz o phi dz "kPa") z ;;
    w <- get_weaklayer_shearstress o xw z "kPa" false ;; Ok (s, snd w)
  else if String.eqb field "Szz" then
    s <- mapM (Szz o phi dz "kPa") z ;;
    w <- get_weaklayer_normalstress o xw z "kPa" false ;; Ok (s, snd w)
  else if String.eqb field "principal" then
    s <- mapM (principal_stress_slab o phi dz "kPa" "max" normalize) z ;;
    w <- mapM (principal_stress_weaklayer o (26 / 10) "kPa" "min" normalize) z ;; Ok (s, map Some w)
  else Err ValueError.

(** weac/plot.py:191-342 and 346-378 [deformed]: coordinates, field and limits of the plot. [window =
    None] is the default [np.inf]; [levels] counts intervals. Slab coordinates have no NaN. An empty
    mesh or solution, and coordinates that do not match the solution, raise ValueError. The outlines
    drawn are [outline g_x], [outline g_z] (plot.py:349-352, C65). For the displacement fields the
    slab values are listed by rows, which does not matter for the colours. *)
Definition deformed (o : obj) (xsl : list R) (xwl : list (option R)) (z : list vec6) (phi dz scale : R)
    (window : option R) (pad : R) (levels : nat) (field : string) (normalize : bool) : res figure :=
  let zi := map m_z (get_zmesh o dz) in
  let h := hh (o_par o) in
  if (match zi, z with [], _ => true | _, [] => true | _, _ => false end
      || negb (Nat.eqb (List.length xsl) (List.length z)) || negb (Nat.eqb (List.length xwl) (List.length z)))%bool
  then Err ValueError else
  U <- mapM (fun z0 => mapM (u_unit z0 "cm") z) zi ;;
  W <- mapM (fun _ => mapM (w_unit "cm") z) zi ;;
  xs <- centred (o_system o) (map Some xsl) ;;
  xw <- centred (o_system o) xwl ;;
  let X := map (fun a => match a with Some a => 1 / 10 * a | None => 0 end) xs in
  let Z := map (fun z0 => 1 / 10 * (z0 + h / 2)) zi in
  let DX := map (map2 (fun x u => x + scale * u) X) U in
  let DZ := map2 (fun d row => map (fun w => d + scale * w) row) Z W in
  let focus := nth (argmax (hd [] W)) X 0 in
  let hi := top_of (X ++ List.concat DX) + pad in
  let lo := bottom_of (X ++ List.concat DX) - pad in
  let xmax := match window with Some v => Rmin hi (focus + v / 2) | None => hi end in
  let xmin := match window with Some v => Rmax lo (focus - v / 2) | None => lo end in
  let zmax := top_of (List.concat DZ) + pad in
  let zmin := bottom_of Z - pad in
  let XW := map (option_map (Rmult (1 / 10))) xw in
  let shift := fun row => map2 (fun x u => option_map (fun x => x + scale * u) x) XW row in
  let WX := [shift (last U []); shift (map (fun _ => 0) XW)] in
  let WZ := [map (fun w => 1 / 10 * (last zi 0 + h / 2) + scale * w) (last W []); map (fun _ => zmax + scale * 0) XW] in
  fl <- figure_field o phi dz field normalize xw z U W ;;
  let (slab, weak) := fl in
  clim <- colour_limit (map Some (List.concat slab)) (weak ++ weak) ;;
  Ok (mkFigure DX DZ X Z WX WZ (xmin, xmax) (zmin, zmax) zmax slab weak (linspace (- clim) clim (S levels) true)).

(** * Line plots *)

(** Indexing of a sequence: negative indices count from the end. *)
(** E.g. weac/plot.py:462-463. *)
Definition py_nth {A} (l : list A) (i : Z) : res A :=
  let n := Z.of_nat (List.length l) in
  let j := if (i <? 0)%Z then (n + i)%Z else i in
  if (j <? 0)%Z then Err IndexError
  else match nth_error l (Z.to_nat j) with Some a => Ok a | None => Err IndexError end.
(** [s in text]. *)
(** Used in weac/plot.py:456. *)
Definition contains (s text : string) : bool :=
  match String.index 0 s text with Some _ => true | None => false end.

(** A curve: coordinates (cm, NaN is None), values, label. *)
(** weac/plot.py:454: entries of [ax1data]. *)
Record curve := mkCurve { k_x : list (option R); k_y : list R; k_label : string }.
(** What matplotlib is told to draw: shaded strips, vertical lines, labels, and the curves (weac/plot.py:458-459, 468-469). *)
Record annotations := mkNotes { n_shade : list (R * R); n_lines : list R; n_labels : list (R * R * string); n_curves : list curve }.

(** [l[:i]] of an argument whose default is [False]. *)
(** Used in weac/plot.py:438-443. *)
Definition head_sum (li : option (list R)) (i : nat) : res R :=
  match li with Some li => Ok (rsum (firstn i li)) | None => Err TypeError end.
(** weac/plot.py:437-440: shaded strips of the unsupported segments. *)
Fixpoint shades (i : nat) (ki : list bool) (li : option (list R)) : res (list (R * R)) :=
  match ki with
  | [] => Ok []
  | f :: ki =>
      s <- (if f then Ok [] else a <- head_sum li i ;; b <- head_sum li (S i) ;; Ok [(a / 10, b / 10)]) ;;
      r <- shades (S i) ki li ;; Ok (s ++ r)
  end.
(** weac/plot.py:441-443: lines at the skiers. *)
Fixpoint skier_lines (i : nat) (mi : list R) (li : option (list R)) : res (list R) :=
  match mi with
  | [] => Ok []
  | m :: mi =>
      s <- (if Rltb 0 m then a <- head_sum li i ;; Ok [a / 10] else Ok []) ;;
      r <- skier_lines (S i) mi li ;; Ok (s ++ r)
  end.
(** Iterating over [False] raises TypeError. *)
(** Used in weac/plot.py:436, 441. *)
Definition iterable {A} (l : option (list A)) : res (list A) :=
  match l with Some l => Ok l | None => Err TypeError end.

(** Midpoint of the points [i - 1] and [i] of a curve (weac/plot.py:462-463, 473-474, 491-492). *)
Definition label_at (x y : list R) (i : Z) : res (R * R) :=
  a <- py_nth x (i - 1) ;; b <- py_nth x i ;;
  c <- py_nth y (i - 1) ;; d <- py_nth y i ;; Ok ((a + b) / 2, (c + d) / 2).
(** Points of a curve that are not NaN. *)
(** weac/plot.py:461. *)
Definition finite (x : list (option R)) : list R :=
  flat_map (fun a => match a with Some a => [a] | None => [] end) x.
(** weac/plot.py:453-476: labels on the left axis; [i] counts the curves from one. Values must match
    the coordinates (ValueError of [plot]). *)
Fixpoint left_labels (i : Z) (labelpos : Z) (data : list curve) : res (list (R * R * string)) :=
  match data with
  | [] => Ok []
  | c :: data =>
      if negb (Nat.eqb (List.length (k_x c)) (List.length (k_y c))) then Err ValueError else
      let x := finite (k_x c) in
      let y := present (k_x c) (k_y c) in
      s <- (if (String.eqb (k_label c) "" || contains "FEA" (k_label c))%bool
            then p <- label_at x y (-2) ;; Ok [(p, k_label c)]
            else match x with
                 | [] => Ok []
                 | _ => p <- label_at x y (labelpos - 10 * i) ;; Ok [(p, k_label c)]
                 end) ;;
      r <- left_labels (i + 1) labelpos data ;; Ok (s ++ r)
  end.
(** weac/plot.py:405-503 [plot_data]. [li], [mi], [ki] are [None] for the default [False]; a [labelpos]
    of None or 0 is computed. The right axis ([ax2data]), which no function of the package uses, is
    left out. *)
Definition plot_data (data : list curve) (labelpos : option Z) (vlines : bool)
    (li mi : option (list R)) (ki : option (list bool)) : res annotations :=
  sh <- (if vlines then ki <- iterable ki ;; shades 0 ki li else Ok []) ;;
  ln <- (if vlines then mi <- iterable mi ;; r <- skier_lines 1 mi li ;; Ok (0 :: r) else Ok []) ;;
  pos <- (match labelpos with
          | Some (Zpos _ as p) | Some (Zneg _ as p) => Ok p
          | _ => match data with
                 | [] => Err IndexError
                 | c :: _ => Ok (95 * Z.of_nat (List.length (finite (k_x c))) / 100)%Z
                 end
          end) ;;
  lb <- left_labels 1 pos data ;;
  Ok (mkNotes sh ln lb data).

(** Coordinates in cm. *)
(** E.g. weac/plot.py:512-514. *)
Definition cm (x : list (option R)) : list (option R) := map (option_map (fun a => a / 10)) x.
(** weac/plot.py:509-517 [displacements]. *)
Definition plot_displacements (x : list (option R)) (z : list vec6) (li mi : option (list R)) (ki : option (list bool)) : res annotations :=
  u <- mapM (u_unit 0 "mm") z ;; w <- mapM (w_unit "mm") z ;; psi <- mapM (psi_unit "degrees") z ;;
  plot_data [mkCurve (cm x) u "$u_0\ (\mathrm{mm})$"; mkCurve (cm x) (map Ropp w) "$-w\ (\mathrm{mm})$";
             mkCurve (cm x) psi "$\psi\ (^\circ)$ "] None true li mi ki.
(** weac/plot.py:520-528 [section_forces]. *)
Definition plot_section_forces (o : obj) (x : list (option R)) (z : list vec6) (li mi : option (list R)) (ki : option (list bool)) : res annotations :=
  plot_data [mkCurve (cm x) (map (f_N (o_par o)) z) "$N$"; mkCurve (cm x) (map (f_M (o_par o)) z) "$M$";
             mkCurve (cm x) (map (f_V (o_par o)) z) "$V$"] None true li mi ki.
(** weac/plot.py:531-538 [stresses]. *)
Definition plot_stresses (o : obj) (x : list (option R)) (z : list vec6) (li mi : option (list R)) (ki : option (list bool)) : res annotations :=
  t <- mapM (tau_unit (o_par o) "kPa") z ;; s <- mapM (sig_unit (o_par o) "kPa") z ;;
  plot_data [mkCurve (cm x) t "$\tau$"; mkCurve (cm x) s "$\sigma$"] None true li mi ki.
(** weac/plot.py:541-547 [stress_criteria]. *)
Definition plot_stress_criteria (x : list (option R)) (stress : list R) (li mi : option (list R)) (ki : option (list bool)) : res annotations :=
  plot_data [mkCurve (cm x) stress "$\sigma/\sigma_\mathrm{c}$"] None true li mi ki.
(** Row of a matrix given by rows. *)
(** Used in weac/plot.py:553-554, 566-568. *)
Definition row (G : list (list R)) (i : nat) : res (list R) :=
  match nth_error G i with Some r => Ok r | None => Err IndexError end.
(** weac/plot.py:550-559 [err_comp]; [mode] is not negative. *)
Definition plot_err_comp (da : list R) (Gdif Ginc : list (list R)) (mode : nat) : res annotations :=
  d <- row Gdif mode ;; n <- row Ginc mode ;;
  let x := cm (map Some da) in
  plot_data [mkCurve x (map (Rmult 1000) d) "$\mathcal{G}$"; mkCurve x (map (Rmult 1000) n) "$\bar{\mathcal{G}}$"]
    None false None None None.
(** weac/plot.py:562-573 [err_modes]. *)
Definition plot_err_modes (da : list R) (G : list (list R)) (kind : string) : res annotations :=
  let label := (if String.eqb kind "inc" then "$\bar{\mathcal{G}}$" else "$\mathcal{G}$")%string in
  g2 <- row G 2 ;; g1 <- row G 1 ;; g0 <- row G 0 ;;
  let x := cm (map Some da) in
  plot_data [mkCurve x (map (Rmult 1000) g2) (label ++ "$_\mathrm{I\!I}$"); mkCurve x (map (Rmult 1000) g1) (label ++ "$_\mathrm{I}$");
             mkCurve x (map (Rmult 1000) g0) (label ++ "$_\mathrm{I+I\!I}$")] None false None None None.
(** Column of an array given by rows; a short row is an IndexError. *)
(** Used in weac/plot.py:579-585, 597-598. *)
Definition column (a : list (list R)) (j : nat) : res (list R) := 
  mapM (fun r => match nth_error r j with Some v => Ok v | None => Err IndexError end) a.
(** weac/plot.py:576-591 [fea_disp]; [fea] is given by rows, [rad2deg(psi)] as in [psi_unit]. *)
Definition plot_fea_disp (x : list (option R)) (z : list vec6) (fea : list (list R)) : res annotations :=
  c0 <- column fea 0 ;; c1 <- column fea 1 ;; c2 <- column fea 2 ;; c5 <- column fea 5 ;;
  let xf := cm (map Some c0) in
  plot_data [mkCurve xf (map Ropp (rev c1)) "FEA $u_0$"; mkCurve xf (rev c2) "FEA $w_0$";
             mkCurve xf (rev (map (fun a => a * (180 / PI)) c5)) "FEA $\psi$";
             mkCurve (cm x) (map (f_u 0) z) "$u_0$"; mkCurve (cm x) (map (fun q => - f_w q) z) "$-w$";
             mkCurve (cm x) (map (fun q => f_psi q * (180 / PI)) z) "$\psi$"] (Some (-50)%Z) true None None None.
(** weac/plot.py:594-604 [fea_stress]. *)
Definition plot_fea_stress (o : obj) (xb : list (option R)) (zb : list vec6) (fea : list (list R)) : res annotations :=
  c0 <- column fea 0 ;; c2 <- column fea 2 ;; c3 <- column fea 3 ;;
  t <- mapM (tau_unit (o_par o) "kPa") zb ;; s <- mapM (sig_unit (o_par o) "kPa") zb ;;
  let xf := cm (map Some c0) in
  plot_data [mkCurve xf (map (Rmult 1000) (rev c2)) "FEA $\sigma_2$"; mkCurve xf (map (Rmult 1000) (rev c3)) "FEA $\tau_{12}$";
             mkCurve (cm xb) t "$\tau$"; mkCurve (cm xb) s "$\sigma$"] (Some (-50)%Z) true None None None.
