(** Specification of the reported standard deviations. *)
From Coq Require Import Reals List.
From Verif Require Import Base Vec GenoPheno Params Search Update Corr SpecBounds SpecUpdate.
Import ListNotations.
Open Scope R_scope.

(** The reported covariance C has variances: no negative diagonal entry (and
    the two diagonal variants are not both switched on). *)
Definition has_variances (p : npar) (s : st R num) : Prop :=
  k_sep (p_k p) && k_vd (p_k p) = false /\
  forall i, (i < k_dim (p_k p))%nat -> 0 <= full_cov p (s_num (t_sol s)) i i.
(** [a] is the standard deviation of coordinate [i] under C, step size left out. *)
Definition is_std (p : npar) (s : st R num) (i : nat) (a : R) : Prop :=
  0 <= a /\ a * a = full_cov p (s_num (t_sol s)) i i.
(** [a] is the standard deviation of coordinate [i] of the points sampled, N(m, sigma^2 C). *)
Definition is_sampling_std (p : npar) (s : st R num) (i : nat) (a : R) : Prop :=
  0 <= a /\ a * a = sigma_of s * sigma_of s * full_cov p (s_num (t_sol s)) i i.
(** [v] has [n] coordinates, and coordinate [i] satisfies [P i]. *)
Definition coords (n : nat) (P : nat -> R -> Prop) (v : list R) : Prop :=
  length v = n /\ forall i a, nth_error v i = Some a -> P i a.
(** Where the transform of the interval [l,u] is the identity. *)
Definition in_core (l u v : R) : Prop := l + strip l u l <= v <= u - strip l u u.
(** [f] brings no two points further apart, in any coordinate. *)
Definition contracts (n : nat) (f : list R -> res (list R)) : Prop :=
  forall x x' y y', length x = n -> length x' = n -> f x = Ok y -> f x' = Ok y' ->
    length y = n /\ length y' = n /\
    forall i a a' b b', nth_error x i = Some a -> nth_error x' i = Some a' ->
      nth_error y i = Some b -> nth_error y' i = Some b' -> Rabs (b - b') <= Rabs (a - a').
