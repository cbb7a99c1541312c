(** Documented conditions of the numeric stopping criteria. *)
From Coq Require Import Reals List.
From Verif Require Import Base Dbl Vec Params Config Search Update SpecUpdate.
Import ListNotations.
Open Scope R_scope.

(** The condition number of [a] exceeds [c]: two directions whose variances
    differ by more than the factor [c]. *)
Definition cond_above (n : nat) (a : mat) (c : R) : Prop :=
  exists u w, dot n u u = 1 /\ dot n w w = 1 /\ c * quad n a w < quad n a u.
(** Standard deviation of coordinate [i] before multiplication by the step size. *)
Definition spread_of (p : npar) (s : st R num) (i : nat) : R :=
  sqrt (if k_sep (p_k p) || k_vd (p_k p) then variances_of s i else cov_of s i i).
Definition evo_path (s : st R num) : vec := x_pc (s_num (t_sol s)).
Definition sigma_init (p : npar) : R := if Rlt_dec 0 (p_sigma0 p) then p_sigma0 p else 1 / INR (k_dim (p_k p)).
(** Step size times standard deviation, and times evolution path, below [tol] in
    units of the initial step size, in every coordinate. *)
Definition spreads_below (p : npar) (s : st R num) (tol : R) : Prop :=
  forall i, (i < k_dim (p_k p))%nat ->
    sigma_of s / sigma_init p * spread_of p s i < tol /\ sigma_of s / sigma_init p * Rabs (evo_path s i) < tol.
(** Among the last [h] iterations, the number of those whose best and k-th best
    values are equal. *)
Definition equal_iters {T} (h : nat) (best kth : list (cand T)) : nat :=
  length (filter (fun q => deq (c_f (fst q)) (c_f (snd q))) (combine (skipn (length best - h) best) (skipn (length kth - h) kth))).
