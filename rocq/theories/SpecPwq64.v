(** Specification vocabulary for bounds on doubles. *)
From Coq Require Import Reals List.
From Flocq Require Import Core BinarySingleNaN.
From Verif Require Import Base Pwq64.
Local Open Scope R_scope.

(** The real number a finite double stands for. *)
Definition value (f : b64) : R := B2R f.
Definition finite (f : b64) : Prop := is_finite f = true.
Definition number (f : b64) : Prop := is_nan f = false.

(** [y] is a point of the box [lb,ub]: same dimension, every coordinate is a
    finite double inside. *)
Definition inside64 (lb ub y : list b64) : Prop :=
  length y = length lb /\ length y = length ub /\
  forall i l u v, nth_error lb i = Some l -> nth_error ub i = Some u -> nth_error y i = Some v ->
    finite v /\ value l <= value v <= value u.

(** Bounds up to 2^500 (about 3e150) in magnitude, whose distance is at least
    2^-400 (about 4e-121) and at least 2^-40 (about 1e-12) of their magnitude. *)
Definition usual_bounds (l u : b64) : Prop :=
  finite l /\ finite u /\ value l < value u /\
  Rabs (value l) <= bpow radix2 500 /\ Rabs (value u) <= bpow radix2 500 /\
  bpow radix2 (-400) <= value u - value l /\
  Rabs (value l) <= bpow radix2 40 * (value u - value l) /\ Rabs (value u) <= bpow radix2 40 * (value u - value l).

(** Every coordinate of [x] is a finite double within [k] widths of its interval. *)
Definition within_widths64 (k : R) (lb ub x : list b64) : Prop :=
  forall i l u v, nth_error lb i = Some l -> nth_error ub i = Some u -> nth_error x i = Some v ->
    finite v /\ value l - k * (value u - value l) <= value v <= value u + k * (value u - value l).

(** Inside the box up to 2^-48 of the magnitude of the bounds. *)
Definition nearly_inside64 (lb ub y : list b64) : Prop :=
  length y = length lb /\ length y = length ub /\
  forall i l u v, nth_error lb i = Some l -> nth_error ub i = Some u -> nth_error y i = Some v ->
    finite v /\ let e := bpow radix2 (-48) * (value u - value l + Rabs (value u)) in value l - e <= value v <= value u + e.
