(** Specification vocabulary for the transforms, independent of the model. *)
From Coq Require Import Reals List.
Import ListNotations.
Open Scope R_scope.

(** [lb < ub] in every coordinate (and same dimension). *)
Definition ordered (lb ub : list R) : Prop := Forall2 Rlt lb ub.

(** [y] is a point of the box [lb,ub]: same dimension, every coordinate inside. *)
Definition inside (lb ub y : list R) : Prop :=
  length y = length lb /\ length y = length ub /\
  forall i l u v, nth_error lb i = Some l -> nth_error ub i = Some u ->
                  nth_error y i = Some v -> l <= v <= u.

(** Every coordinate of [x] is within [k] widths of its interval. *)
Definition within_widths (k : R) (lb ub x : list R) : Prop :=
  forall i l u v, nth_error lb i = Some l -> nth_error ub i = Some u ->
                  nth_error x i = Some v -> l - k * (u - l) <= v <= u + k * (u - l).

(** Coordinate-wise relation between two vectors of the same dimension. *)
Definition pointwise (P : nat -> R -> R -> Prop) (x y : list R) : Prop :=
  length x = length y /\
  forall i a b, nth_error x i = Some a -> nth_error y i = Some b -> P i a b.

(** Width of the quadratic strip near a bound [b] of the interval [l,u]. *)
Definition strip (l u b : R) : R := Rmin ((u - l) / 2) ((1 + Rabs b) / 20).

(** Period of the transform in one coordinate. *)
Definition period (l u : R) : R := 2 * ((u - l) + strip l u l + strip l u u).

(** The vector [x] without the coordinates whose index is in [ks]. *)
Definition without {A} (ks : list nat) (x : list A) : list A :=
  map snd (filter (fun p => negb (existsb (Nat.eqb (fst p)) ks)) (combine (seq 0 (length x)) x)).

(** A list of indices from high to low, without repetition, all below [n]. *)
Definition high_to_low (n : nat) (ks : list nat) : Prop :=
  (forall i k k', nth_error ks i = Some k -> nth_error ks (S i) = Some k' -> (k' < k)%nat) /\
  (forall k, In k ks -> (k < n)%nat).
