(** Specification for C126: saw tests with cuts of different lengths. *)
Require Import Verif.Py Verif.MTools Verif.MEigen Verif.MFields Verif.SBeam Verif.SBvp Verif.SMirror.
Open Scope R_scope.

(** Value at [a] of the parabola through (a0, y0), (a1, y1), (a2, y2). *)
Definition parabola (a0 a1 a2 y0 y1 y2 a : R) : R :=
  y0 * ((a - a1) * (a - a2) / ((a0 - a1) * (a0 - a2))) + y1 * ((a - a0) * (a - a2) / ((a1 - a0) * (a1 - a2)))
  + y2 * ((a - a0) * (a - a1) / ((a2 - a0) * (a2 - a1))).
(** The six components of a state follow the parabolas through those of three others. *)
Definition parabolic (a0 a1 a2 : R) (z0 z1 z2 : vec6) (a : R) (z : vec6) : Prop :=
  forall f, In f [z_u; z_du; z_w; z_dw; z_psi; z_dpsi] -> f z = parabola a0 a1 a2 (f z0) (f z1) (f z2) a.
(** Saw tests whose free part hangs: no contact; ends cut normal to the slope or vertically. *)
Definition hanging (o : obj) : Prop :=
  kind_of (o_system o) = Some KPst /\ o_mode o = Some ModeA \/ kind_of (o_system o) = Some KVpst /\ (o_mode o = None \/ o_mode o = Some ModeA).
(** Polynomials of degree at most four. *)
Definition quartic (f : R -> R) : Prop :=
  exists c0 c1 c2 c3 c4, forall a, f a = c0 + c1 * a + c2 * a ^ 2 + c3 * a ^ 3 + c4 * a ^ 4.
