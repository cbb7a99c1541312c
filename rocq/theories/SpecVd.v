(** VD-CMA (Y. Akimoto, A. Auger, N. Hansen, GECCO 2014): the covariance is
    D (1 + v v^T) D and a generation moves D and v along the natural gradient of
    the log-likelihood of the selected steps. *)
From Coq Require Import Reals List ZArith.
From Verif Require Import Base Vec Params Search Update SpecAlgo.
Import ListNotations.
Open Scope R_scope.

Definition delta (i j : nat) : R := if Nat.eqb i j then 1 else 0.
(** D (1 + v v^T) D and its derivatives by the coordinates of v and of D. *)
Definition vd_matrix (d v : vec) : mat := fun i j => d i * (delta i j + v i * v j) * d j.
Definition wrt_v (d v : vec) (l : nat) : mat := fun i j => d i * (delta i l * v j + v i * delta j l) * d j.
Definition wrt_d (d v : vec) (l : nat) : mat := fun i j =>
  delta i l * (delta i j + v i * v j) * d j + d i * (delta i j + v i * v j) * delta j l.
(** [u] with [t] added to coordinate [l]. *)
Definition bump (u : vec) (l : nat) (t : R) : vec := fun i => u i + t * delta i l.
(** [k] is the inverse of [c]. *)
Definition inverse (n : nat) (k c : mat) : Prop := forall i j, (i < n)%nat -> (j < n)%nat -> mm n k c i j = delta i j.
Definition trace (n : nat) (a : mat) : R := rsum n (fun i => a i i).
(** Logarithm of the density of N(0, D (1 + v v^T) D) at [z], up to a constant:
    the determinant is (prod D)^2 (1 + |v|^2). *)
Definition log_density (n : nat) (d v z : vec) : R :=
  let y := fun i => z i / d i in
  - rsum n (fun i => ln (d i)) - 1 / 2 * ln (1 + dot n v v) - 1 / 2 * (dot n y y - dot n v y * dot n v y / (1 + dot n v v)).
(** For a Gaussian with covariance of inverse [k]: derivative of the log-density
    at [z], and Fisher information, for derivatives [a] and [b] of the covariance. *)
Definition score (n : nat) (k : mat) (z : vec) (a : mat) : R := 1 / 2 * (quad n (mm n (mm n k a) k) z - trace n (mm n k a)).
Definition fisher (n : nat) (k a b : mat) : R := 1 / 2 * trace n (mm n (mm n k a) (mm n k b)).
(** The Fisher information of (v, D), its mixed part multiplied by [al], applied to
    the step ([sv], [sd]). *)
Definition fisher_v (n : nat) (k : mat) (d v : vec) (al : R) (sv sd : vec) (l : nat) : R :=
  rsum n (fun m => fisher n k (wrt_v d v l) (wrt_v d v m) * sv m) + al * rsum n (fun m => fisher n k (wrt_v d v l) (wrt_d d v m) * sd m).
Definition fisher_d (n : nat) (k : mat) (d v : vec) (al : R) (sv sd : vec) (l : nat) : R :=
  al * rsum n (fun m => fisher n k (wrt_d d v l) (wrt_v d v m) * sv m) + rsum n (fun m => fisher n k (wrt_d d v l) (wrt_d d v m) * sd m).
(** The step solves the system whose right-hand side is the gradient. *)
Definition natural_step (n : nat) (k : mat) (d v : vec) (al : R) (gv gd sv sd : vec) : Prop :=
  forall l, (l < n)%nat -> fisher_v n k d v al sv sd l = gv l /\ fisher_d n k d v al sv sd l = gd l.
(** Weight of the mixed part, equation (7) of the paper: 1 unless v is long or lies
    along few axes. *)
Definition alpha_vd (n : nat) (v : vec) : R :=
  let q := dot n v v in let g := 1 + q in
  Rmin 1 (sqrt (q * q + (2 - 1 / sqrt g) * g * q / vmax n (fun i => v i * v i)) / (2 + q)).

(** The gradient of the weighted log-likelihood of the mu best steps and of the
    evolution path. *)
Section Gradient.
Variables (k : cpar) (gen : Z) (xs : list (list R)) (a a' : dist) (ki : mat).
Let n := k_dim k.
Definition weighted_score (c : mat) : R :=
  k_cmu k * rsum (k_mu k) (fun l => nth l (k_w k) 0 * score n ki (y_point xs a l) c) + h_sigma k gen a' * (k_c1 k * score n ki (d_pc a') c).
End Gradient.
(** v and D of a state. *)
Definition v_of (s : st R num) : vec := x_v (s_num (t_sol s)).
Definition D_of (s : st R num) : vec := x_sep (s_num (t_sol s)).
(** Rate of the generation from [s] to [s']. *)
Definition vd_rate (p : npar) (s s' : st R num) : R :=
  k_cmu (p_k p) + k_c1 (p_k p) * h_sigma (p_k p) (s_niter (t_sol s)) (dist_of p s').
