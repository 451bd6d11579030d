(** Model of weac/mixins.py, class FieldQuantitiesMixin (lines 17-484).

    The code evaluates these quantities for all columns of a 6xN array at once;
    the model evaluates one column, arrays are handled with [map]. *)
Require Import Verif.Py Verif.MTools Verif.MEigen.

(** Unit tables. weac/mixins.py:41-46 and 123-128 (lengths). *)
Definition conv_len (unit : string) : res R :=
  if String.eqb unit "m" then Ok (1 / 1000)
  else if String.eqb unit "cm" then Ok (1 / 10)
  else if String.eqb unit "mm" then Ok 1
  else if String.eqb unit "um" then Ok 1000
  else Err KeyError.
(** weac/mixins.py:214, 233 (stresses). *)
Definition conv_stress (unit : string) : res R :=
  if String.eqb unit "kPa" then Ok 1000
  else if String.eqb unit "MPa" then Ok 1
  else Err KeyError.
(** weac/mixins.py:290-294, 315-319 (energy release rates). *)
Definition conv_err (unit : string) : res R :=
  if String.eqb unit "J/m^2" then Ok 1000
  else if String.eqb unit "kJ/m^2" then Ok 1
  else if String.eqb unit "N/mm" then Ok 1
  else Err KeyError.

(** weac/mixins.py:25-47 [w]. [f_w] is the default unit mm. *)
Definition w_unit (unit : string) (z : vec6) : res R :=
  c <- conv_len unit ;; Ok (c * z_w z).
(** weac/mixins.py:25-47 [w] in the default unit. *)
Definition f_w (z : vec6) : R := 1 * z_w z.
(** weac/mixins.py:49-63 [dw_dx]. *)
Definition f_dw (z : vec6) : R := z_dw z.
(** weac/mixins.py:65-85 [psi]; any other unit leaves the local variable
    unbound. [f_psi] is the default unit rad. *)
Definition psi_unit (unit : string) (z : vec6) : res R :=
  if mem_str unit ["deg"; "degree"; "degrees"]%string
  then Ok (z_psi z * (180 / PI))
  else if mem_str unit ["rad"; "radian"; "radians"]%string then Ok (z_psi z)
  else Err UnboundLocalError.
(** weac/mixins.py:65-85 [psi] in the default unit. *)
Definition f_psi (z : vec6) : R := z_psi z.
(** weac/mixins.py:87-102 [dpsi_dx]. *)
Definition f_dpsi (z : vec6) : R := z_dpsi z.
(** weac/mixins.py:105-129 [u]. [f_u] is the default unit mm. *)
Definition u_unit (z0 : R) (unit : string) (z : vec6) : res R :=
  c <- conv_len unit ;; Ok (c * (z_u z + z0 * f_psi z)).
(** weac/mixins.py:105-129 [u] in the default unit. *)
Definition f_u (z0 : R) (z : vec6) : R := 1 * (z_u z + z0 * f_psi z).
(** weac/mixins.py:131-148 [du_dx]. *)
Definition f_du (z0 : R) (z : vec6) : R := z_du z + z0 * f_dpsi z.
(** weac/mixins.py:150-164 [N]. *)
Definition f_N (p : params) (z : vec6) : R := A11 p * z_du z + B11 p * z_dpsi z.
(** weac/mixins.py:166-180 [M]. *)
Definition f_M (p : params) (z : vec6) : R := B11 p * z_du z + D11 p * z_dpsi z.
(** weac/mixins.py:182-196 [V]. *)
Definition f_V (p : params) (z : vec6) : R := kA55 p * (z_dw z + z_psi z).
(** weac/mixins.py:198-215 [sig]. [f_sig] is the default unit MPa. *)
Definition sig_unit (p : params) (unit : string) (z : vec6) : res R :=
  c <- conv_stress unit ;; Ok (- c * kn p * f_w z).
(** weac/mixins.py:198-215 [sig] in the default unit. *)
Definition f_sig (p : params) (z : vec6) : R := - 1 * kn p * f_w z.
(** weac/mixins.py:217-238 [tau]. [f_tau] is the default unit MPa. *)
Definition tau_unit (p : params) (unit : string) (z : vec6) : res R :=
  c <- conv_stress unit ;;
  Ok (- c * kt p * (f_dw z * wt p / 2 - f_u (hh p / 2) z)).
(** weac/mixins.py:217-238 [tau] in the default unit. *)
Definition f_tau (p : params) (z : vec6) : R :=
  - 1 * kt p * (f_dw z * wt p / 2 - f_u (hh p / 2) z).
(** weac/mixins.py:240-254 [eps]. *)
Definition f_eps (p : params) (z : vec6) : R := - f_w z / wt p.
(** weac/mixins.py:256-270 [gamma]. *)
Definition f_gamma (p : params) (z : vec6) : R :=
  f_dw z / 2 - f_u (hh p / 2) z / wt p.
(** weac/mixins.py:272-295 [Gi]. *)
Definition Gi_unit (p : params) (unit : string) (z : vec6) : res R :=
  c <- conv_err unit ;; Ok (c * f_sig p z ^ 2 / (2 * kn p)).
(** weac/mixins.py:297-320 [Gii]. *)
Definition Gii_unit (p : params) (unit : string) (z : vec6) : res R :=
  c <- conv_err unit ;; Ok (c * f_tau p z ^ 2 / (2 * kt p)).
(** weac/mixins.py:322-342 [int1] and 344-364 [int2]. *)
Definition int1 (p : params) (x : R) (z0 z1 : R -> vec6) : R :=
  f_sig p (z0 x) * f_eps p (z1 x) * wt p.
(** weac/mixins.py:344-364 [int2]. *)
Definition int2 (p : params) (x : R) (z0 z1 : R -> vec6) : R :=
  f_tau p (z0 x) * f_gamma p (z1 x) * wt p.
(** weac/mixins.py:366-386 [dz_dx] and 388-410 [dz_dxdx]. *)
Definition dz_dx (p : params) (l : loads) (z : vec6) : vec6 :=
  vadd (matvec (calc_system_matrix p) z) (get_load_vector p l).
(** weac/mixins.py:388-410 [dz_dxdx]. *)
Definition dz_dxdx (p : params) (l : loads) (z : vec6) : vec6 :=
  matvec (calc_system_matrix p) (dz_dx p l z).
(** weac/mixins.py:412-484: u0'', psi'', u0''', psi'''. *)
Definition du0_dxdx (p : params) (l : loads) (z : vec6) : R := z_du (dz_dx p l z).
(** weac/mixins.py:431-447 [dpsi_dxdx]. *)
Definition dpsi_dxdx (p : params) (l : loads) (z : vec6) : R :=
  z_dpsi (dz_dx p l z).
(** weac/mixins.py:449-466 [du0_dxdxdx]. *)
Definition du0_dxdxdx (p : params) (l : loads) (z : vec6) : R :=
  z_du (dz_dxdx p l z).
(** weac/mixins.py:468-484 [dpsi_dxdxdx]. *)
Definition dpsi_dxdxdx (p : params) (l : loads) (z : vec6) : R :=
  z_dpsi (dz_dxdx p l z).
