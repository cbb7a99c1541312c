(** Specification vocabulary for the ranking SVM. *)
From Coq Require Import QArith Reals.
From Verif Require Import Base Dbl Rsvm Vec.
Local Open Scope Z_scope.

(** Doubles as rational numbers. *)
Definition dval (z : Z) : Q := z # (2 ^ 1074).
Definition d_one : dbl := Fin (2 ^ 1074).
(** The doubles nearest to 0.95 and 0.05. *)
Definition d_95 : dbl := Fin (8556839292003942 * 2 ^ 1021).
Definition d_05 : dbl := Fin (7205759403792794 * 2 ^ 1017).
(** Floating-point arithmetic: comparisons are exact, NaN is contagious, and
    sums and products of finite numbers are rounded by some monotone rounding
    that leaves rounded numbers, 0, 1, 0.95 and 0.05 as they are.  Nothing is
    said about division. *)
Definition rounding (rnd : Q -> dbl) : Prop :=
  (forall q r, (q <= r)%Q -> dle (rnd q) (rnd r) = true) /\
  (forall q z, rnd q = Fin z -> rnd (dval z) = Fin z) /\
  rnd 0%Q = Fin 0 /\ rnd 1%Q = d_one /\
  rnd (dval (8556839292003942 * 2 ^ 1021)) = d_95 /\ rnd (dval (7205759403792794 * 2 ^ 1017)) = d_05.
Definition floating (ar : arith dbl) : Prop :=
  (forall a b, a_lt ar a b = dlt a b) /\ a_0 ar = Fin 0 /\ a_95 ar = d_95 /\ a_05 ar = d_05 /\
  (forall a, a_add ar NaN a = NaN /\ a_sub ar NaN a = NaN /\ a_mul ar NaN a = NaN /\ a_mul ar a NaN = NaN) /\
  (exists rnd, rounding rnd /\ (forall x y, a_add ar (Fin x) (Fin y) = rnd (dval x + dval y)%Q) /\
    (forall x y, a_mul ar (Fin x) (Fin y) = rnd (dval x * dval y)%Q)).
(** The uniform distribution on [0,1). *)
Definition unit_draws (draw : nat -> dbl) : Prop := forall i, exists z, draw i = Fin z /\ 0 <= z <= 2 ^ 1074.
Definition within (lo hi a : dbl) : Prop := dle lo a = true /\ dle a hi = true.

(** The bounds C_i = C i^2 of the multipliers do not overflow for a training set of [n] points. *)
Definition no_overflow (ar : arith dbl) (c : dbl) (n : nat) : Prop :=
  forall i, (i <= n)%nat -> exists p, a_sq ar i = Fin p /\ 0 <= p /\ a_mul ar c (Fin p) <> PosInf.

(** Exact arithmetic. *)
Local Open Scope R_scope.
Definition Rltb (a b : R) : bool := if Rlt_dec a b then true else false.
Definition exact : arith R :=
  mkArith R Rplus Rminus Rmult Rdiv Rltb 0 (1 / 2) (95 / 100) (5 / 100) (fun n => INR n * INR n).
(** Dual objective of the ranking problem, where [d i j] is the scalar product of
    the differences i and j of consecutive training points. *)
Definition dual (eps : R) (d : nat -> nat -> R) (alpha : list R) : R :=
  let n := length alpha in let a i := nth i alpha 0 in
  eps * rsum n a - 1 / 2 * rsum n (fun i => rsum n (fun j => a i * a j * d i j)).
Definition differences {X} (kernel : X -> X -> R) (x0 : X) (x : list X) (i j : nat) : R :=
  let p k := nth k x x0 in
  kernel (p i) (p j) - kernel (p i) (p (S j)) - kernel (p (S i)) (p j) + kernel (p (S i)) (p (S j)).
