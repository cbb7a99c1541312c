(** Specification of two-point adaptation. *)
From Coq Require Import Reals List ZArith.
From Verif Require Import Base Dbl Vec Params Config Search SpecSearch Update SpecUpdate Corr SpecSample.
Import ListNotations.
Open Scope R_scope.

(** z^T c^{-1} z = q. *)
Definition mahalanobis2 (n : nat) (c : mat) (z : vec) (q : R) : Prop :=
  exists u, (forall i, (i < n)%nat -> mv n c u i = z i) /\ dot n z u = q.
(** The points of the pair are the first two, or follow the gradient point. *)
Definition pair_first {T} (g : cfg T) : nat := if g_gradient g then 1 else 0.
(** [prev]: state before the last iteration; [s]: when ask is called.  The pair is
    m + t (m - m'), m - t (m - m') for the last two means m' and m, at the
    distance of [r] in the metric of the distribution. *)
Definition mirrored_pair (p : npar) (g : cfg R) (prev s : st R num) (pop : list (list R)) (r : vec) : Prop :=
  let shift i := mean_of s i - mean_of prev i in
  exists a b t, nth_error pop (pair_first g) = Some a /\ nth_error pop (S (pair_first g)) = Some b /\ 0 <= t /\
    (forall i, (i < k_dim (p_k p))%nat -> ~ is_fixed g i ->
       nth_error a i = Some (mean_of s i + t * shift i) /\ nth_error b i = Some (mean_of s i - t * shift i)) /\
    mahalanobis2 (k_dim (p_k p)) (full_cov p (s_num (t_sol s))) (fun i => t * shift i)
      (sigma_of s * sigma_of s * dot (k_dim (p_k p)) r r).
(** [r]: rank, from 0 for the best, of point number [i] of the evaluated [cols]. *)
Definition ranked_at (s : st R num) (cols : list (list R)) (i r : nat) : Prop :=
  exists c, nth_error (s_cands (t_sol s)) r = Some c /\ c_id c = Z.of_nat i /\ nth_error cols i = Some (c_x c).
