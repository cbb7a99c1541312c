(** What the point injected along the gradient is documented to be. *)
From Coq Require Import Reals List.
From Verif Require Import Base Vec.
Open Scope R_scope.

(** [u] is within the Mahalanobis distance sqrt [r] of the origin for the
    covariance [c]: u^T c^-1 u = z^T c z <= r, where u = c z. *)
Definition reaches (n : nat) (c : mat) (u : vec) (z : vec) : Prop := forall i, (i < n)%nat -> u i = mv n c z i.
Definition ellipsoid (n : nat) (c : mat) (r : R) (u : vec) : Prop := exists z, reaches n c u z /\ quad n c z <= r.
(** Of the points at the typical distance sqrt n of a sample of N (m, sigma^2 c)
    from the mean, [x] is the one where the linear model with slope [gr] is least. *)
Definition steepest_point (n : nat) (c : mat) (sigma : R) (m gr x : vec) : Prop :=
  let u := fun i => x i - m i in
  (exists z, reaches n c u z /\ quad n c z = sigma * sigma * INR n) /\
  dot n gr u < 0 /\
  forall w, ellipsoid n c (sigma * sigma * INR n) w -> dot n gr u <= dot n gr w.
