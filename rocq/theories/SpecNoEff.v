(** Steps too small to matter, in terms of the real values of doubles. *)
From Coq Require Import Reals List ZArith.
From Flocq Require Import Core BinarySingleNaN.
From Verif Require Import Base Pwq64.
Open Scope R_scope.

(** The value of a double, when it is finite. *)
Definition is_value (f : b64) (v : R) : Prop := is_finite f = true /\ B2R f = v.
(** Zero, or of a size that neither overflows nor underflows in products of a
    few of them. *)
Definition ordinary (v : R) : Prop := v = 0 \/ bpow radix2 (-300) <= Rabs v <= bpow radix2 300.
(** 2^-52 and a quarter of 2^-53. *)
Definition epsilon : R := / 4503599627370496.
Definition negligible : R := / 36028797018963968.
(** Mean [m], step size [sigma] and variances [v] of an optimiser of [n] parameters. *)
Definition values (n : nat) (l : list b64) (v : nat -> R) : Prop :=
  length l = n /\ forall i f, nth_error l i = Some f -> is_value f (v i).
Definition matrix (n : nat) (rows : list (list b64)) (b : nat -> nat -> R) : Prop :=
  length rows = n /\ forall i row, nth_error rows i = Some row -> values n row (b i).
(** The step size of a run, and means that are not near the largest double. *)
Definition ordinary_step (s : R) : Prop := bpow radix2 (-300) <= s <= bpow radix2 300.
Definition ordinary_mean (m : R) : Prop := Rabs m <= bpow radix2 1000.
Definition ordinary_variance (v : R) : Prop := 0 <= v /\ ordinary v.
(** The standard deviation that VD-CMA samples coordinate [i] with, for scale [d]
    and principal component [v]: the covariance is D (I + v v^T) D. *)
Definition vd_deviation (d v : R) : R := d * sqrt (1 + v * v).
