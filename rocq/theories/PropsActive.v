(** Property C24: the covariance of active CMA-ES. *)
From Coq Require Import Reals List Lra.
From Verif Require Import Base Vec Params Config Search SpecSearch Update SpecUpdate DemoNum LargeLambda NumThms ActiveProofs ActiveThms.
Import ListNotations.
Open Scope R_scope.

Theorem C24_positive_definite_partial : forall p e g h s0 s,
  constructed (p_k p) -> p_upd p = Active -> k_sep (p_k p) = false -> k_vd (p_k p) = false -> p_lazy p = false ->
  eigensolver_ok p -> k_c1 (p_k p) + 0.66 * k_cmu (p_k p) < 0.66 ->
  started p e g s0 -> asked false h -> run_ops (cma_num p) e g h s0 = Ok s ->
  symmetric (k_dim (p_k p)) (cov_of s) /\ pos_def (k_dim (p_k p)) (cov_of s).
Proof. exact active_pd_thm. Qed.
Print Assumptions C24_positive_definite_partial.
Theorem C24_sep_partial : forall p e g h x0 n0 s0 s,
  constructed (p_k p) -> p_upd p = Active -> k_sep (p_k p) = true ->
  k_c1 (p_k p) + 0.66 * k_cmu (p_k p) < 0.66 ->
  st_new (cma_num p) g x0 n0 = Ok s0 -> run_ops (cma_num p) e g h s0 = Ok s ->
  forall j, (j < k_dim (p_k p))%nat -> 0 < variances_of s j.
Proof. exact active_sep_thm. Qed.
Print Assumptions C24_sep_partial.
(** With 1022 points in dimension 1 the learning rates add up to one, and one
    iteration makes the variance negative. *)
Theorem C24_refuted : exists p e g x0 n s0 s h,
  p_upd p = Active /\ constructed (p_k p) /\ k_sep (p_k p) = false /\ k_vd (p_k p) = false /\ p_lazy p = false /\
  eigensolver_ok p /\ same_problem p g /\ st_new (cma_num p) g x0 n = Ok s0 /\ asked false h /\ Forall (whole_gen g) h /\
  run_ops (cma_num p) e g h s0 = Ok s /\ k_dim (p_k p) = 1%nat /\ cov_of s 0%nat 0%nat < 0.
Proof. exact active_negative. Qed.
Print Assumptions C24_refuted.
Example C24_example : let p := npar_eig k24 Active eig2 in
  constructed (p_k p) /\ p_lazy p = false /\ eigensolver_ok p /\ k_c1 (p_k p) + 0.66 * k_cmu (p_k p) < 0.66 /\ asked false h24 /\
  exists s0 s, started p (call_env zig) (cfg_of k24) s0 /\ run_ops (cma_num p) (call_env zig) (cfg_of k24) h24 s0 = Ok s.
Proof.
  cbv zeta. split; [apply k24_constructed|]. split; [reflexivity|]. split; [apply eig2_ok; reflexivity|]. split; [apply k24_active_rates|].
  split; [cbn; auto|]. destruct (run24_eig k24 Active eig2 eq_refl eq_refl) as (s0 & s & E0 & E). exists s0, s. split; [econstructor; eauto|exact E].
Qed.
Example C24_sep_example : let p := npar_of (set_sep k24) Active in
  constructed (p_k p) /\ k_sep (p_k p) = true /\ k_c1 (p_k p) + 0.66 * k_cmu (p_k p) < 0.66 /\
  exists s0 s, st_new (cma_num p) (cfg_of (set_sep k24)) [1; 2] num0 = Ok s0 /\ run_ops (cma_num p) (call_env zig) (cfg_of (set_sep k24)) h24 s0 = Ok s.
Proof.
  cbv zeta. split; [apply k24_sep_constructed|]. split; [reflexivity|]. split; [apply k24_sep_active_rates|]. apply run24; reflexivity.
Qed.
