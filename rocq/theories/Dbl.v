(** Objective function values: C++ [double] as far as the code compares,
    negates and adds them.  [Fin z] stands for z * 2^-1074; every finite double
    is such a multiple, so comparisons, minimum, maximum and negation are exact.
    Sums and halves are computed without rounding and without overflow to
    infinity (simplification; they are used only for medians, ranges and
    tie-breaking sums). *)
From Coq Require Import ZArith Bool List.
Open Scope Z_scope.

Inductive dbl := NaN | NegInf | Fin (z : Z) | PosInf.

(** operator< , <=, ==, > on double: false as soon as an operand is NaN. *)
Definition dlt (a b : dbl) : bool :=
  match a, b with
  | NaN, _ | _, NaN => false
  | NegInf, NegInf => false
  | NegInf, _ => true
  | Fin x, Fin y => x <? y
  | Fin _, PosInf => true
  | Fin _, NegInf => false
  | PosInf, _ => false
  end.
Definition deq (a b : dbl) : bool :=
  match a, b with
  | NegInf, NegInf => true
  | PosInf, PosInf => true
  | Fin x, Fin y => x =? y
  | _, _ => false
  end.
Definition dle (a b : dbl) : bool := dlt a b || deq a b.
Definition is_nan (a : dbl) : bool := match a with NaN => true | _ => false end.

(** -1.0 * a *)
Definition dneg (a : dbl) : dbl :=
  match a with NaN => NaN | NegInf => PosInf | PosInf => NegInf | Fin z => Fin (- z) end.
Definition dadd (a b : dbl) : dbl :=
  match a, b with
  | NaN, _ | _, NaN => NaN
  | Fin x, Fin y => Fin (x + y)
  | PosInf, NegInf | NegInf, PosInf => NaN
  | PosInf, _ | _, PosInf => PosInf
  | NegInf, _ | _, NegInf => NegInf
  end.
Definition dsub (a b : dbl) : dbl := dadd a (dneg b).
Definition dhalf (a : dbl) : dbl := match a with Fin x => Fin (x / 2) | o => o end.
Definition dabs (a : dbl) : dbl :=
  match a with NaN => NaN | NegInf => PosInf | PosInf => PosInf | Fin z => Fin (Z.abs z) end.
(** std::min(a,b) and std::max(a,b): the first argument unless the second is
    strictly better. *)
Definition dmin (a b : dbl) : dbl := if dlt b a then b else a.
Definition dmax (a b : dbl) : dbl := if dlt a b then b else a.

(** std::numeric_limits<double>::max(). *)
Definition dbl_max : dbl := Fin ((2 ^ 53 - 1) * 2 ^ 2045).
(** The double nearest to 1e-12: 4951760157141521 * 2^-92. *)
Definition dbl_1em12 : dbl := Fin (4951760157141521 * 2 ^ 982).
