(** Property C49 for VD-CMA: the condition number. *)
From Coq Require Import Reals List ZArith.
From Verif Require Import Base Dbl Vec Params Config Search SpecSearch Update SpecUpdate DemoNum NumThms SpecCrit SpecRate SpecVd VdCritThms.
Import ListNotations.
Open Scope R_scope.

(** CONDITIONCOV compares the scales D, which are standard deviations, and not
    the variances of the covariance D (1 + v v^T) D. *)
Theorem C49_condition_vd_partial : forall p e g s cols phen s', (1 <= k_dim (p_k p))%nat -> k_vd (p_k p) = true ->
  run_ops (cma_num p) e g [OGen cols phen] s = Ok s' ->
  (forall i, (i < k_dim (p_k p))%nat -> 0 <= variances_of s' i) ->
  (criterion (cma_num p) g (-15) (t_sol s') = Ok true <->
   exists i j, (i < k_dim (p_k p))%nat /\ (j < k_dim (p_k p))%nat /\ 10 ^ 14 * variances_of s' j < variances_of s' i).
Proof. exact condition_vd_gen. Qed.
Print Assumptions C49_condition_vd_partial.
(** A run whose covariance has a condition number above 10^14 is not stopped. *)
Theorem C49_condition_vd_refuted : exists p e g x0 s0 s cols,
  constructed_any (p_k p) /\ p_upd p = Vd /\ k_vd (p_k p) = true /\ k_dim (p_k p) = 2%nat /\ st_new (cma_num p) g x0 num0 = Ok s0 /\
  run_ops (cma_num p) e g [OAsk; OGen cols []] s0 = Ok s /\
  (forall i, (i < 2)%nat -> 0 < variances_of s i) /\
  cond_above 2 (vd_matrix (variances_of s) (x_v (s_num (t_sol s)))) (10 ^ 14) /\ criterion (cma_num p) g (-15) (t_sol s) = Ok false.
Proof. exact condition_vd_missed. Qed.
Print Assumptions C49_condition_vd_refuted.
