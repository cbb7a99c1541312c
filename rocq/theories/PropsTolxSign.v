(** Property C49: TOLX and the sign of the evolution path. *)
From Coq Require Import Reals List ZArith.
From Verif Require Import Base Dbl Vec Params Config Search SpecSearch Update SpecUpdate DemoNum NumThms SpecCrit CritProofs TolxSignThms.
Import ListNotations.
Open Scope R_scope.

(** TOLX compares the evolution path, not its magnitude, with the tolerance.  A
    generation and its mirror image leave the same step size, the same variances
    and opposite paths, and TOLX stops one of the two runs only. *)
Theorem C49_tolx_sign_refuted : exists p e g s0 s1 s2 cols,
  constructed (p_k p) /\ p_upd p = Full /\ k_dim (p_k p) = 2%nat /\ same_problem p g /\ / 1000000000000 <= p_xtol p /\
  st_new (cma_num p) g [0; 0] num0 = Ok s0 /\
  run_ops (cma_num p) e g [OAsk; OGen cols []] s0 = Ok s1 /\
  run_ops (cma_num p) e g [OAsk; OGen (map (map Ropp) cols) []] s0 = Ok s2 /\
  sigma_of s1 = sigma_of s2 /\ (forall i, (i < 2)%nat -> variances_of s1 i = variances_of s2 i) /\
  (forall i, (i < 2)%nat -> evo_path s1 i = - evo_path s2 i) /\
  criterion (cma_num p) g 2 (t_sol s1) = Ok false /\ criterion (cma_num p) g 2 (t_sol s2) = Ok true.
Proof. exact tolx_sign. Qed.
Print Assumptions C49_tolx_sign_refuted.
(** What TOLX tests exactly: both runs above are instances, one on each side. *)
Theorem C49_tolx_exact_partial : forall p g s, criterion (cma_num p) g 2 (t_sol s) = Ok true <->
  forall i, (i < k_dim (p_k p))%nat ->
    evo_path s i < Rmax (p_xtol p) (/ 1000000000000) * (sigma_of s / sigma_init p) /\
    spread_of p s i < Rmax (p_xtol p) (/ 1000000000000) * (sigma_of s / sigma_init p).
Proof. exact tolx_iff. Qed.
Print Assumptions C49_tolx_exact_partial.
