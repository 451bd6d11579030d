(** Specification: outlines of grids and axis helpers. *)
From Coq Require Import ZArith.
Require Import Verif.Py.

(** Entry of a grid given by rows, at (row, column). *)
Definition cell {A} (g : list (list A)) (p : nat * nat) : option A :=
  match nth_error g (fst p) with Some r => nth_error r (snd p) | None => None end.
Definition rectangular {A} (m n : nat) (g : list (list A)) : Prop :=
  List.length g = m /\ forall r, In r g -> List.length r = n.
Definition on_boundary (m n : nat) (p : nat * nat) : Prop :=
  (fst p < m)%nat /\ (snd p < n)%nat /\ (fst p = 0%nat \/ S (fst p) = m \/ snd p = 0%nat \/ S (snd p) = n).
Definition neighbours (p q : nat * nat) : Prop :=
  fst p = fst q /\ (snd p = S (snd q) \/ snd q = S (snd p)) \/
  snd p = snd q /\ (fst p = S (fst q) \/ fst q = S (fst p)).
(** Twice the signed area enclosed by a path of positions; with rows counted downwards it is
    positive for clockwise paths. *)
Fixpoint area2 (l : list (nat * nat)) : Z :=
  match l with
  | p :: ((q :: _) as l') =>
      (Z.of_nat (snd p) * Z.of_nat (fst q) - Z.of_nat (snd q) * Z.of_nat (fst p) + area2 l')%Z
  | _ => 0%Z
  end.
(** A closed clockwise tour of the boundary. *)
Record perimeter (m n : nat) (l : list (nat * nat)) : Prop := mkPerimeter {
  pe_first : nth_error l 0 = Some (0%nat, 0%nat);
  pe_last : last l (0%nat, 1%nat) = (0%nat, 0%nat);
  pe_steps : forall k p q, nth_error l k = Some p -> nth_error l (S k) = Some q -> neighbours p q;
  pe_cells : forall p, In p l <-> on_boundary m n p;
  pe_once : (2 <= m)%nat -> (2 <= n)%nat -> NoDup (tl l);
  pe_clockwise : area2 l = (2 * (Z.of_nat m - 1) * (Z.of_nat n - 1))%Z
}.

(** Colour of a value: 1/2 at the midpoint, linear with the same scale on both sides and as wide
    as the colour range 0..1 allows. *)
Definition diverging_colour (vmin vmax mid : R) (c : R -> R) : Prop :=
  exists scale, 0 < scale /\
    (forall v, vmin <= v <= vmax -> c v = 1 / 2 + scale * (v - mid)) /\
    (forall v, v < vmin -> c v = c vmin) /\ (forall v, vmax < v -> c v = c vmax) /\
    (forall v, 0 <= c v <= 1) /\ (c vmin = 0 \/ c vmax = 1).

(** Values tightly spaced around zero: increasing from -limit to limit, symmetric, containing zero,
    and with spacing that does not shrink away from zero. *)
Record central_levels (limit : R) (l : list R) : Prop := mkCentral {
  ce_first : hd 0 l = - limit;
  ce_last : last l 0 = limit;
  ce_increasing : forall k a b, nth_error l k = Some a -> nth_error l (S k) = Some b -> a < b;
  ce_symmetric : rev l = map Ropp l;
  ce_zero : In 0 l;
  ce_tight : forall k a b c, nth_error l k = Some a -> nth_error l (S k) = Some b -> nth_error l (S (S k)) = Some c ->
    0 <= b -> b <= 0 \/ b - a <= c - b
}.

(** Equality of texts up to the case of the letters A..Z. *)
Definition same_letter (c d : Ascii.ascii) : Prop :=
  c = d \/
  (65 <= Ascii.nat_of_ascii c <= 90 /\ Ascii.nat_of_ascii d = Ascii.nat_of_ascii c + 32)%nat \/
  (65 <= Ascii.nat_of_ascii d <= 90 /\ Ascii.nat_of_ascii c = Ascii.nat_of_ascii d + 32)%nat.
Inductive same_text : string -> string -> Prop :=
| st_nil : same_text "" ""
| st_cons c d s t : same_letter c d -> same_text s t -> same_text (String c s) (String d t).
(** Identifiers of the documented profiles, weac/tools.py:49-69. *)
Definition profile_names : list string :=
  ["a"; "b"; "c"; "d"; "e"; "f"; "h"; "soft"; "medium"; "hard"; "comp"]%string.
(** White space separating words. *)
Definition blank (c : Ascii.ascii) : Prop :=
  In (Ascii.nat_of_ascii c) [9; 10; 11; 12; 13; 32]%nat.
(** [w] is the last word of [s]. *)
Definition is_last_word (s w : string) : Prop :=
  exists before after : list Ascii.ascii,
    list_ascii_of_string s = before ++ list_ascii_of_string w ++ after /\
    w <> ""%string /\ Forall (fun c => ~ blank c) (list_ascii_of_string w) /\ Forall blank after /\
    (before = [] \/ exists b c, before = b ++ [c] /\ blank c).
