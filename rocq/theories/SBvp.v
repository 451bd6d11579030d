(** Specification: the boundary value problem behind a segment list.

    Segment i has length l_i, support k_i and constants C_i; its field is the
    library's segment solution [zsol] as a function of the local coordinate.
    Section forces and tractions are those of [SBeam]. *)
Require Import Verif.Py Verif.MTools Verif.MEigen Verif.SBeam.

(** Sum of f 0 .. f (n-1). *)
Fixpoint sumn (n : nat) (f : nat -> R) : R :=
  match n with O => 0 | S m => sumn m f + f m end.

(** A x = b for an n x n system. *)
Definition lin_solves (n : nat) (A : nat -> nat -> R) (x b : nat -> R) : Prop :=
  forall r, (r < n)%nat -> sumn n (fun c => A r c * x c) = b r.

(** Kinds of systems the library knows. *)
Inductive syskind : Type := KPst | KVpst | KSkier | KRot | KTrans.
Definition kind_of (s : string) : option syskind :=
  if (String.eqb s "pst-" || String.eqb s "-pst")%bool then Some KPst
  else if (String.eqb s "vpst-" || String.eqb s "-vpst")%bool then Some KVpst
  else if (String.eqb s "skier" || String.eqb s "skiers")%bool then Some KSkier
  else if String.eqb s "rot" then Some KRot
  else if String.eqb s "trans" then Some KTrans
  else None.

(** Prescribed section forces at an end. *)
Definition forces (p : params) (z : vec6) (N M V : R) : Prop :=
  sN p z = N /\ sM p z = M /\ sV p z = V.

(** Field of a segment. *)
Definition field (o : obj) (phi l : R) (k : bool) (C : list R) : R -> vec6 :=
  fun s => zsol (o_par o) (o_eig o) (loads_of o phi) s C l k.

(** End condition of a PST: supported or hanging ends are stress free; a tip in
    contact sits at the crack height, in stage C with a rotational spring [kR]
    and the friction-free load of the part at rest. [sgn] = 1 right, -1 left. *)
Definition pst_end (o : obj) (kR phi sgn : R) (k : bool) (z : vec6) : Prop :=
  let p := o_par o in
  let qt := qt (loads_of o phi) + pt (loads_of o phi) in
  if k then forces p z 0 0 0
  else match o_mode o with
  | Some ModeA => forces p z 0 0 0
  | Some ModeB => sN p z = 0 /\ sM p z = 0 /\ z_w z = o_tc o
  | Some ModeC => sN p z = sgn * qt * (o_a o - o_td o) /\
                  sM p z + sgn * kR * z_psi z = 0 /\ z_w z = o_tc o
  | None => False
  end.

(** Section forces of the wedge of mass m and centroid (xs, zs) at a vertical
    face. *)
Definition face_end (o : obj) (phi : R) (z : vec6) : Prop :=
  let '(xs, zs, m) := calc_vertical_bc_center_of_gravity (o_slab o) phi in
  let a := phi * PI / 180 in
  forces (o_par o) z (- (o_g o * m * sin a))
    (- (o_g o * m * (xs * cos a + zs * sin a))) (o_g o * m * cos a).

(** Infinite extension: far-field displacements of the supported slab. *)
Definition far_field (o : obj) (phi : R) (z : vec6) : Prop :=
  let zf := zp (o_par o) (loads_of o phi) 0 true in
  z_u z = z_u zf /\ z_w z = z_w zf /\ z_psi z = z_psi zf.

Definition left_end (o : obj) (kR phi : R) (k : bool) (z : vec6) : Prop :=
  match kind_of (o_system o) with
  | Some KPst => pst_end o kR phi (-1) k z
  | Some KVpst => face_end o phi z
  | Some KSkier => far_field o phi z
  | Some KRot => forces (o_par o) z 0 1 0
  | Some KTrans => forces (o_par o) z 0 0 1
  | None => False
  end.
Definition right_end (o : obj) (kR phi : R) (k : bool) (z : vec6) : Prop :=
  match kind_of (o_system o) with
  | Some KPst => pst_end o kR phi 1 k z
  | Some KVpst => face_end o phi z
  | Some KSkier => far_field o phi z
  | Some KRot => forces (o_par o) z 0 0 0
  | Some KTrans => forces (o_par o) z 0 0 0
  | None => False
  end.

(** Transition with a point load (Ft, Fn) applied at the slab surface, i.e. at
    depth -h/2 (none in the unit-load systems). *)
Definition transition (o : obj) (phi m : R) (zl zr : vec6) : Prop :=
  let p := o_par o in
  let unit_load := match kind_of (o_system o) with
                   | Some KRot | Some KTrans => true | _ => false end in
  let F := if unit_load then 0 else m * o_g o / 1000 / o_lski o in
  let a := phi * PI / 180 in
  let Fn := F * cos a in
  let Ft := - (F * sin a) in
  z_u zl = z_u zr /\ z_w zl = z_w zr /\ z_psi zl = z_psi zr /\
  sN p zl - sN p zr = Ft /\ sM p zl - sM p zr = - (hh p / 2 * Ft) /\
  sV p zl - sV p zr = Fn.

(** The boundary value problem of N segments. *)
Definition bvp (o : obj) (kR phi : R) (li mi : list R) (ki : list bool)
    (Cs : list (list R)) : Prop :=
  let N := List.length li in
  let z i := field o phi (nth i li 0) (nth i ki false) (nth i Cs []) in
  left_end o kR phi (nth 0 ki false) (z 0%nat 0) /\
  right_end o kR phi (nth (N - 1) ki false) (z (N - 1)%nat (nth (N - 1) li 0)) /\
  forall i, (S i < N)%nat ->
    transition o phi (nth i mi 0) (z i (nth i li 0)) (z (S i) 0).

(** Segment lists the solver must reject: no supported segment, inconsistent
    lengths, or an unsupported end in a system with infinite ends. *)
Definition finite_ends (s : string) : Prop :=
  s = "pst-"%string \/ s = "-pst"%string \/ s = "vpst-"%string \/
  s = "-vpst"%string \/ s = "rot"%string \/ s = "trans"%string.
Definition invalid_segments (s : string) (li mi : list R) (ki : list bool) : Prop :=
  (forall k, In k ki -> k = false) \/
  List.length li <> List.length ki \/ List.length li <> S (List.length mi) \/
  (~ finite_ends s /\ (nth 0 ki false = false \/ last ki false = false)).

(** A linear solver that only returns solutions. *)
Definition sound_solver (solve : nat -> (nat -> nat -> R) -> (nat -> R) -> res (nat -> R)) : Prop :=
  forall n A b x, solve n A b = Ok x -> lin_solves n A x b.

(** Point loads of the solved problem (none in the unit-load systems). *)
Definition point_Fn (o : obj) (phi m : R) : R :=
  match kind_of (o_system o) with
  | Some KRot | Some KTrans => 0
  | _ => m * o_g o / 1000 / o_lski o * cos (phi * PI / 180)
  end.
Definition point_Ft (o : obj) (phi m : R) : R :=
  match kind_of (o_system o) with
  | Some KRot | Some KTrans => 0
  | _ => - (m * o_g o / 1000 / o_lski o * sin (phi * PI / 180))
  end.
