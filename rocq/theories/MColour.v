(** Model of weac/plot.py:121-142 [adjust_lightness] with the two functions of Python's [colorsys] it calls (CPython 3,
    Lib/colorsys.py). A colour is its red, green and blue part; names, hex strings and the alpha value are resolved and dropped
    by matplotlib ([mc.cnames], [mc.to_rgb]) and not modelled. *)
Require Import Verif.Py.

(** [x % 1.0]. *)
(** Used by colorsys, called in weac/plot.py:141-142. *)
Definition mod1 (x : R) : R := x - IZR (Int_part x).
(** Used by colorsys, called in weac/plot.py:141-142. *)
Definition max3 (a b c : R) : R := Rmax (Rmax a b) c.
(** Used by colorsys, called in weac/plot.py:141-142. *)
Definition min3 (a b c : R) : R := Rmin (Rmin a b) c.
(** Lib/colorsys.py [rgb_to_hls]; for parts between 0 and 1 no division is by zero. *)
Definition rgb_to_hls (c : R * R * R) : R * R * R :=
  let '(r, g, b) := c in
  let maxc := max3 r g b in let minc := min3 r g b in
  let l := (maxc + minc) / 2 in
  if Req_EM_T minc maxc then (0, l, 0) else
  let s := if Rle_dec l (1 / 2) then (maxc - minc) / (maxc + minc) else (maxc - minc) / (2 - maxc - minc) in
  let rc := (maxc - r) / (maxc - minc) in let gc := (maxc - g) / (maxc - minc) in let bc := (maxc - b) / (maxc - minc) in
  let h := if Req_EM_T r maxc then bc - gc else if Req_EM_T g maxc then 2 + rc - bc else 4 + gc - rc in
  (mod1 (h / 6), l, s).
(** Lib/colorsys.py [_v]. *)
Definition hue_part (m1 m2 hue : R) : R :=
  let hue := mod1 hue in
  if Rlt_dec hue (1 / 6) then m1 + (m2 - m1) * hue * 6
  else if Rlt_dec hue (1 / 2) then m2
  else if Rlt_dec hue (2 / 3) then m1 + (m2 - m1) * (2 / 3 - hue) * 6
  else m1.
(** Lib/colorsys.py [hls_to_rgb]. *)
Definition hls_to_rgb (h l s : R) : R * R * R :=
  if Req_EM_T s 0 then (l, l, l) else
  let m2 := if Rle_dec l (1 / 2) then l * (1 + s) else l + s - l * s in
  let m1 := 2 * l - m2 in
  (hue_part m1 m2 (h + 1 / 3), hue_part m1 m2 h, hue_part m1 m2 (h - 1 / 3)).
(** weac/plot.py:121-142 [adjust_lightness]. *)
Definition adjust_lightness (c : R * R * R) (amount : R) : R * R * R :=
  let '(h, l, s) := rgb_to_hls c in
  hls_to_rgb h (Rmax 0 (Rmin 1 (amount * l))) s.
