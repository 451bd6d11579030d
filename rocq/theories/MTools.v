(** Model of weac/tools.py. *)
Require Import Verif.Py.

(** A user layer: (density kg/m^3, thickness mm). *)
(** weac/eigensystem.py:107-110: rows of the [layers] argument. *)
Definition layer := (R * R)%type.

(** weac/tools.py:82-110 [calc_center_of_gravity]. Arrays are flipped so that
    they run bottom to top, as in the code. *)
Definition calc_center_of_gravity (layers : list layer) : R * R :=
  let n := List.length layers in
  let rho := map (fun l => (1 / 1000000000000) * fst l) (rev layers) in
  let h := map snd (rev layers) in
  let H := rsum h in
  let zi := map (fun j => H / 2 - rsum (firstn j h) - nth j h 0 / 2) (seq 0 n) in
  let zs := rsum (map3 (fun z hj r => z * hj * r) zi h rho)
            / rsum (map2 Rmult h rho) in
  (H, zs).

(** One row of the slab matrix (weac/eigensystem.py:230-234):
    density, thickness, Young's modulus, shear modulus, Poisson ratio. *)
Record ply : Type := mkPly {
  p_rho : R; p_h : R; p_E : R; p_G : R; p_nu : R
}.

(** weac/tools.py:113-166 [calc_vertical_bc_center_of_gravity]; returns
    (xs, zs, w). *)
Definition calc_vertical_bc_center_of_gravity (slab : list ply) (phi0 : R)
  : R * R * R :=
  let phi := deg2rad phi0 in
  if Req_EM_T phi 0 then (0, 0, 0)
  else
    let n := List.length slab in
    let rho := map (fun p => (1 / 1000000000000) * p_rho p) slab in
    let hi := map p_h slab in
    let H := rsum hi in
    let z := map (fun j => - H / 2 + rsum (firstn j hi)) (seq 0 (n + 1)) in
    let zi := firstn n z in
    let zii := skipn 1 z in
    let zsi := map3 (fun zi hi zii =>
                 zi + hi / 3 * (3 / 2 * H - zi - 2 * zii) / (H - zi - zii))
                 zi hi zii in
    let Ai := map3 (fun hi zi zii => hi / 2 * (H - zi - zii) * tan phi)
                 hi zi zii in
    let zs := rsum (map3 (fun zsi rho Ai => zsi * rho * Ai) zsi rho Ai)
              / rsum (map2 Rmult rho Ai) in
    let xs := (H / 2 - zs) * tan (phi / 2) in
    let w := rsum (map2 Rmult Ai rho) in
    (xs, zs, w).

(** weac/tools.py:169-186 [scapozza]. [**] with a real exponent on a positive
    base is [Rpower]. *)
Definition scapozza (rho : R) : R :=
  let rho := rho * (1 / 1000000000000) in
  let rho0 := 917 / 1000000000000 in
  5070 * Rpower (rho / rho0) (513 / 100).

(** weac/tools.py:189-209 [gerling] (defaults C0=6.0, C1=4.6). *)
Definition gerling (rho C0 C1 : R) : R :=
  C0 * (1 / 10000000000) * Rpower rho C1.

(** weac/tools.py:212-234 [bergfeld] (defaults rho0=917, C0=6.5, C1=4.4). *)
Definition bergfeld (rho rho0 C0 C1 : R) : R :=
  C0 * 1000 * Rpower (rho / rho0) C1.

(** weac/tools.py:237-258 [tensile_strength_slab]; an unknown unit is a
    KeyError of the conversion dict. *)
Definition tensile_strength_slab (rho : R) (unit : string) : res R :=
  if String.eqb unit "kPa" then Ok (1 * 240 * Rpower (rho / 917) (244 / 100))
  else if String.eqb unit "MPa" then
    Ok (1 / 1000 * 240 * Rpower (rho / 917) (244 / 100))
  else Err KeyError.

(** [str.lower] on ASCII (profile identifiers are ASCII). *)
(** Used in weac/tools.py:39-79. *)
Definition lower_ascii (c : Ascii.ascii) : Ascii.ascii :=
  let n := Ascii.nat_of_ascii c in
  if (Nat.leb 65 n && Nat.leb n 90)%bool then Ascii.ascii_of_nat (n + 32) else c.
(** Used in weac/tools.py:39-79. *)
Fixpoint lower (s : string) : string :=
  match s with
  | EmptyString => EmptyString
  | String c s' => String (lower_ascii c) (lower s')
  end.

(** weac/tools.py:39-79 [load_dummy_profile]; rows are
    (density, thickness, Young's modulus). *)
Definition soft : R * R * R := (180, 120, 5).
(** weac/tools.py:39-79: medium layer. *)
Definition medium : R * R * R := (270, 120, 30).
(** weac/tools.py:39-79: hard layer. *)
Definition hard : R * R * R := (350, 120, 938 / 10).
(** weac/tools.py:39-79: profiles. *)
Definition database : list (string * list (R * R * R)) :=
  [ ("a"%string, [hard; medium; soft]);
    ("b"%string, [soft; medium; hard]);
    ("c"%string, [hard; soft; hard]);
    ("d"%string, [soft; hard; soft]);
    ("e"%string, [hard; soft; soft]);
    ("f"%string, [soft; soft; hard]);
    ("h"%string, [medium; medium; medium]);
    ("soft"%string, [soft; soft; soft]);
    ("medium"%string, [medium; medium; medium]);
    ("hard"%string, [hard; hard; hard]);
    ("comp"%string, [(240, 200, 523 / 100)]) ].

(** weac/tools.py:39-79 [load_dummy_profile]. *)
Definition load_dummy_profile (profile_id : string)
  : res (list layer * list R) :=
  match find (fun kv => String.eqb (fst kv) (lower profile_id)) database with
  | Some kv => Ok (map fst (snd kv), map snd (snd kv))
  | None => Err ValueError
  end.
