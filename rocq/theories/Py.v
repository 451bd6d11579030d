(** Python / numpy vocabulary shared by all model files.

    Floating point numbers are idealised as exact reals [R].  Exceptions are
    values of type [res]; NaN is [None] of type [option R]. *)
Require Export Reals Lra Psatz List String ZArith Lia Bool Arith.
Export ListNotations.
Open Scope R_scope.

(** Exceptions that the modelled code paths can raise. *)
(** E.g. the [raise] statements of weac/mixins.py:1118-1133 and weac/tools.py:39-79. *)
Inductive exn : Type :=
| ValueError | KeyError | ZeroDivisionError | IndexError | TypeError | AttributeError
| UnboundLocalError | LinAlgError | RuntimeError.

(** Result of a Python call: normal return or raised exception. *)
(** Used for every call that may raise, e.g. weac/mixins.py:1083-1249. *)
Inductive res (A : Type) : Type :=
| Ok (a : A)
| Err (e : exn).
Arguments Ok {A} a.
Arguments Err {A} e.

(** Sequence of statements of which the first may raise, e.g. weac/mixins.py:1170-1188. *)
Definition bind {A B} (x : res A) (f : A -> res B) : res B :=
  match x with Ok a => f a | Err e => Err e end.
Notation "x <- e1 ;; e2" := (bind e1 (fun x => e2))
  (at level 61, e1 at next level, right associativity).

(** List comprehension whose body may raise (first exception wins). *)
(** E.g. the column-wise evaluation of weac/mixins.py:1174-1176. *)
Fixpoint mapM {A B} (f : A -> res B) (l : list A) : res (list B) :=
  match l with
  | [] => Ok []
  | a :: l' => b <- f a ;; bs <- mapM f l' ;; Ok (b :: bs)
  end.

(** Boolean comparisons on reals (Python [<], [<=], [==]). *)
(** E.g. weac/eigensystem.py:396. *)
Definition Rltb (x y : R) : bool := if Rlt_dec x y then true else false.
(** E.g. weac/mixins.py:790-794. *)
Definition Rleb (x y : R) : bool := if Rle_dec x y then true else false.
(** E.g. weac/eigensystem.py:386. *)
Definition Reqb (x y : R) : bool := if Req_EM_T x y then true else false.

(** [s in [..]] for strings. *)
(** E.g. weac/mixins.py:850. *)
Definition mem_str (s : string) (l : list string) : bool :=
  existsb (String.eqb s) l.

(** Builtin [sum] and [ndarray.sum] (order is irrelevant in exact arithmetic). *)
(** E.g. weac/mixins.py:1381. *)
Definition rsum (l : list R) : R := fold_right Rplus 0 l.

(** [np.cumsum], with a running accumulator. *)
(** weac/mixins.py:1310, weac/eigensystem.py:267-281. *)
Fixpoint cumsum_from (acc : R) (l : list R) : list R :=
  match l with
  | [] => []
  | x :: l' => (acc + x) :: cumsum_from (acc + x) l'
  end.
(** weac/mixins.py:1310, weac/eigensystem.py:267-281. *)
Definition cumsum (l : list R) : list R := cumsum_from 0 l.

(** [np.cumsum] of counts, weac/mixins.py:1311. *)
Fixpoint ncumsum_from (acc : nat) (l : list nat) : list nat :=
  match l with
  | [] => []
  | x :: l' => (acc + x)%nat :: ncumsum_from (acc + x)%nat l'
  end.

(** [nq.sum()], weac/mixins.py:1314-1316. *)
Definition nsum (l : list nat) : nat := fold_right Nat.add 0%nat l.

(** Element-wise product style operations on equally long arrays. *)
(** E.g. weac/tools.py:82-110. *)
Fixpoint map2 {A B C} (f : A -> B -> C) (la : list A) (lb : list B) : list C :=
  match la, lb with
  | a :: la', b :: lb' => f a b :: map2 f la' lb'
  | _, _ => []
  end.

(** E.g. weac/tools.py:82-110. *)
Fixpoint map3 {A B C D} (f : A -> B -> C -> D) (la : list A) (lb : list B)
    (lc : list C) : list D :=
  match la, lb, lc with
  | a :: la', b :: lb', c :: lc' => f a b c :: map3 f la' lb' lc'
  | _, _, _ => []
  end.

(** [np.linspace(a, b, num=n, endpoint=ep)] for n >= 0; numpy computes
    [a + i*step] with [step = (b-a)/div], [div = n-1] or [n]. *)
(** E.g. weac/mixins.py:1321. *)
Definition linspace (a b : R) (n : nat) (ep : bool) : list R :=
  let div := if ep then (n - 1)%nat else n in
  map (fun i => a + INR i * ((b - a) / INR div)) (seq 0 n).

(** [np.ceil(x)] as an integer. *)
(** weac/mixins.py:1306, 1481. *)
Definition ceilZ (x : R) : Z := (- Int_part (- x))%Z.

(** [np.ceil(x).astype(int)] used as a count; counts are non-negative here
    because the modelled arguments are. *)
(** weac/mixins.py:1306, 1481. *)
Definition ceil_nat (x : R) : nat := Z.to_nat (ceilZ x).

(** [arr[mask]] for a boolean mask. *)
(** E.g. weac/mixins.py:1433. *)
Fixpoint select {A} (mask : list bool) (l : list A) : list A :=
  match mask, l with
  | b :: m', a :: l' => if b then a :: select m' l' else select m' l'
  | _, _ => []
  end.

(** [np.deg2rad]. *)
(** E.g. weac/eigensystem.py:404-478. *)
Definition deg2rad (phi : R) : R := phi * (PI / 180).
