(** Property C91: the point proposed along the gradient. *)
From Coq Require Import Reals List Lia Lra ZArith.
From Verif Require Import Base Dbl Vec Params Config Search SpecSearch Update SpecUpdate SpecRate DemoNum NumThms ActiveThms SpecVd SpecEdm SpecGradPt GradPtProofs GradPtThms.
Import ListNotations.
Open Scope R_scope.

(** Full covariance: the first proposed point is the least of the linear model
    at the typical distance from the mean. *)
Theorem C91_full : forall p e g, g_dim g = k_dim (p_k p) -> same_transform p e -> forall s pop s' gr,
  k_sep (p_k p) = false -> k_vd (p_k p) = false -> p_lazy p = false -> eigensolver_ok p -> g_gradient g = true -> g_fixed g = [] ->
  symmetric (k_dim (p_k p)) (cov_of s) -> pos_def (k_dim (p_k p)) (cov_of s) -> 0 < sigma_of s ->
  slope_at_mean p e s gr -> (exists i, (i < k_dim (p_k p))%nat /\ gr i <> 0) -> ask (cma_num p) e g s = Ok (pop, s') ->
  exists x, nth_error pop 0 = Some x /\ length x = k_dim (p_k p) /\ steepest_point (k_dim (p_k p)) (cov_of s) (sigma_of s) (mean_of s) gr (at0 x).
Proof. exact steepest_full. Qed.
Print Assumptions C91_full.
Theorem C91_sep : forall p e g, g_dim g = k_dim (p_k p) -> same_transform p e -> forall s pop s' gr,
  k_sep (p_k p) = true -> g_gradient g = true -> g_fixed g = [] ->
  (forall i, (i < k_dim (p_k p))%nat -> 0 < variances_of s i) -> 0 < sigma_of s ->
  slope_at_mean p e s gr -> (exists i, (i < k_dim (p_k p))%nat /\ gr i <> 0) -> ask (cma_num p) e g s = Ok (pop, s') ->
  exists x, nth_error pop 0 = Some x /\ length x = k_dim (p_k p) /\ steepest_point (k_dim (p_k p)) (diag (variances_of s)) (sigma_of s) (mean_of s) gr (at0 x).
Proof. exact steepest_sep. Qed.
Print Assumptions C91_sep.
(** The other points are those proposed without gradient, and so are all when
    the gradient is zero. *)
Theorem C91_others : forall p e g, g_dim g = k_dim (p_k p) -> same_transform p e -> forall s pop s' gr,
  g_gradient g = true -> g_fixed g = [] -> g_tpa g <> 2%Z -> slope_at_mean p e s gr -> ask (cma_num p) e g s = Ok (pop, s') ->
  exists pop0 s0, ask (cma_num p) e (set_g_gradient false g) s = Ok (pop0, s0) /\ length pop = length pop0 /\
    (forall i, (1 <= i)%nat -> nth_error pop i = nth_error pop0 i) /\ ((forall i, (i < k_dim (p_k p))%nat -> gr i = 0) -> pop = pop0).
Proof. exact gradient_others. Qed.
Print Assumptions C91_others.
(** VD-CMA: the point is not that of its covariance, already at the start. *)
Theorem C91_vd_refuted : exists p e g x0 s pop s' gr x,
  constructed_any (p_k p) /\ p_upd p = Vd /\ k_vd (p_k p) = true /\ g_gradient g = true /\ g_fixed g = [] /\ same_transform p e /\ k_dim (p_k p) = 2%nat /\
  st_new (cma_num p) g x0 num0 = Ok s /\ 0 < sigma_of s /\ slope_at_mean p e s gr /\ ask (cma_num p) e g s = Ok (pop, s') /\ nth_error pop 0 = Some x /\
  ~ steepest_point 2 (vd_matrix (variances_of s) (x_v (s_num (t_sol s)))) (sigma_of s) (mean_of s) gr (at0 x).
Proof.
  destruct vd_wrong as (s & pop & s' & x & H1 & H2 & H3 & H4 & H5 & H6 & H7).
  exists (npar_of kvd2 Vd), user_env, (grad_cfg kvd2), [1; 0], s, pop, s', (at0 [1; 0]), x.
  split; [exact H1|]. repeat (split; [reflexivity|]). split; [intros y; reflexivity|]. split; [reflexivity|]. repeat (split; [assumption|]). assumption.
Qed.
Print Assumptions C91_vd_refuted.
Example C91_example : let p := npar_eig k24 Full eig2 in let g := grad_cfg k24 in
  g_dim g = k_dim (p_k p) /\ same_transform p user_env /\ eigensolver_ok p /\ g_gradient g = true /\ g_fixed g = [] /\ g_tpa g <> 2%Z /\
  exists s pop s', st_new (cma_num p) g [1; 0] num0 = Ok s /\ symmetric 2 (cov_of s) /\ pos_def 2 (cov_of s) /\ 0 < sigma_of s /\
  slope_at_mean p user_env s (mean_of s) /\ mean_of s 0%nat <> 0 /\ ask (cma_num p) user_env g s = Ok (pop, s').
Proof.
  cbv zeta. split; [reflexivity|]. split; [intros x; reflexivity|]. split; [apply eig2_ok; reflexivity|]. split; [reflexivity|]. split; [reflexivity|]. split; [cbn; lia|]. exact full_example.
Qed.
