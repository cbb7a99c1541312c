(** Property C90: the expected distance to the minimum. *)
From Coq Require Import Reals List Lia Lra ZArith.
From Verif Require Import Base Dbl Vec Params Config Search SpecSearch Update SpecUpdate DemoNum NumThms SpecEdm EdmProofs EdmThms.
Import ListNotations.
Open Scope R_scope.

(** The separable variant reports the documented value. *)
Theorem C90_sep : forall p e g, g_dim g = k_dim (p_k p) -> same_transform p e -> forall s s' gr,
  k_sep (p_k p) = true -> (forall i, (i < k_dim (p_k p))%nat -> 0 <= variances_of s i) -> slope_at_mean p e s gr ->
  edm (cma_num p) e g s = Ok s' -> edm_of s' = expected_distance p (sigma_of s) (diag (variances_of s)) gr.
Proof. exact edm_sep. Qed.
Print Assumptions C90_sep.
(** With a full covariance the eigenvalues of the covariance the last points were
    drawn from weigh the coordinates, in the order the solver returns them. *)
Theorem C90_full_partial : forall p e g, g_dim g = k_dim (p_k p) -> same_transform p e ->
  k_sep (p_k p) = false -> k_vd (p_k p) = false -> p_lazy p = false -> forall s cols phen s1 s2 gr,
  eigensolver_ok p -> symmetric (k_dim (p_k p)) (cov_of s) -> psd (k_dim (p_k p)) (cov_of s) ->
  run_ops (cma_num p) e g [OAsk; OGen cols phen] s = Ok s1 -> slope_at_mean p e s1 gr -> edm (cma_num p) e g s1 = Ok s2 ->
  let dec := p_eig p (mtab (k_dim (p_k p)) (cov_of s)) in
  diagonalises (k_dim (p_k p)) (cov_of s) dec /\ (forall i, (i < k_dim (p_k p))%nat -> 0 <= fst dec i) /\
  edm_of s2 = edm_factor (p_k p) * (sigma_of s1 * sqrt (rsum (k_dim (p_k p)) (fun i => fst dec i * (gr i * gr i)))).
Proof. exact edm_full. Qed.
Print Assumptions C90_full_partial.
(** So it is off by no more than the square root of the condition number, and is
    the documented value when the covariance is a multiple of the identity. *)
Theorem C90_bounds_partial : forall p e g, g_dim g = k_dim (p_k p) -> same_transform p e ->
  k_sep (p_k p) = false -> k_vd (p_k p) = false -> p_lazy p = false -> forall s cols phen s1 s2 gr lo hi,
  eigensolver_ok p -> symmetric (k_dim (p_k p)) (cov_of s) -> psd (k_dim (p_k p)) (cov_of s) ->
  run_ops (cma_num p) e g [OAsk; OGen cols phen] s = Ok s1 -> slope_at_mean p e s1 gr -> edm (cma_num p) e g s1 = Ok s2 ->
  0 <= edm_factor (p_k p) -> 0 <= sigma_of s1 -> 0 <= lo ->
  (forall u, lo * dot (k_dim (p_k p)) u u <= quad (k_dim (p_k p)) (cov_of s) u <= hi * dot (k_dim (p_k p)) u u) ->
  edm_factor (p_k p) * (sigma_of s1 * sqrt (lo * dot (k_dim (p_k p)) gr gr)) <= edm_of s2 <=
  edm_factor (p_k p) * (sigma_of s1 * sqrt (hi * dot (k_dim (p_k p)) gr gr)).
Proof. exact edm_bounds. Qed.
Print Assumptions C90_bounds_partial.
(** The objective x_0 - 1 after two generations: the reported value is too small. *)
Theorem C90_refuted : exists s0 s1 s2 s3,
  (constructed (p_k edm_par) /\ eigensolver_ok edm_par /\ same_transform edm_par lin_env /\
   forall j x, exists r, value_is (e_f lin_env j x) r /\ r <= at0 x 0%nat - 1 < r + / 2 ^ 1074) /\
  st_new (cma_num edm_par) (cfg_of k24) [0; 0] num0 = Ok s0 /\
  run_ops (cma_num edm_par) lin_env (cfg_of k24) [OAsk; OGen at_one []] s0 = Ok s1 /\
  run_ops (cma_num edm_par) lin_env (cfg_of k24) [OAsk; OGen at_one []] s1 = Ok s2 /\
  symmetric 2 (cov_of s1) /\ pos_def 2 (cov_of s1) /\ slope_at_mean edm_par lin_env s2 (at0 [1; 0]) /\
  edm (cma_num edm_par) lin_env (cfg_of k24) s2 = Ok s3 /\
  edm_of s3 < expected_distance edm_par (sigma_of s2) (cov_of s1) (at0 [1; 0]).
Proof.
  destruct edm_wrong as (s0 & s1 & s2 & s3 & H). exists s0, s1, s2, s3. split; [|exact H].
  split; [apply k24_constructed|]. split; [exact edm_par_solver|]. split; [intros x; reflexivity|]. intros j x. apply lin_value.
Qed.
Print Assumptions C90_refuted.
(** The factor is a positive number from three points per generation on; with
    two, which the constructor accepts, its divisor is zero. *)
Theorem C90_factor_partial : forall k, (1 <= k_dim k)%nat -> (3 <= k_lambda k)%nat -> 0 < edm_factor k.
Proof. exact factor_pos. Qed.
Print Assumptions C90_factor_partial.
Theorem C90_factor_refuted : exists k, constructed k /\ k_lambda k = 2%nat /\ edm_scale k = 0.
Proof.
  exists (cma_params 2 2). split; [exists 2%nat, 2%nat, []; repeat split; auto|]. split; [reflexivity|]. apply scale_two. reflexivity.
Qed.
Print Assumptions C90_factor_refuted.
(** It changes nothing but the count of calls: dimension plus one of them for a
    numerical gradient, none with the gradient of the user. *)
Theorem C90_reports : forall p e g s s', edm (cma_num p) e g s = Ok s' ->
  mean_of s' = mean_of s /\ sigma_of s' = sigma_of s /\ cov_of s' = cov_of s /\ variances_of s' = variances_of s /\
  s_best (t_sol s') = s_best (t_sol s) /\ s_cands (t_sol s') = s_cands (t_sol s) /\ s_hist (t_sol s') = s_hist (t_sol s) /\ s_status (t_sol s') = s_status (t_sol s) /\
  t_gens s' = t_gens s /\ s_niter (t_sol s') = s_niter (t_sol s) /\
  exists l, t_log s' = t_log s ++ l /\ length l = (if e_gfunc e then 0 else S (g_dim g))%nat /\ s_nevals (t_sol s') = (s_nevals (t_sol s) + Z.of_nat (length l))%Z.
Proof. exact edm_reports. Qed.
Print Assumptions C90_reports.
(** When asked for, it is the last thing optimize() does. *)
Theorem C90_optimize : forall T N (no : numops T N) e g rf fuel, g_edm g = true -> forall body s r s',
  optimize no e g body rf fuel s = Ok (r, s') -> exists s2, edm no e g s2 = Ok s'.
Proof. exact @optimize_edm. Qed.
Print Assumptions C90_optimize.
(** A fresh separable optimiser at (1, 2), gradient of the sphere. *)
Example C90_sep_example : let p := npar_eig (set_sep k24) Full (fun _ => (fun _ => 1, ident)) in
  let e := mkEnv (fun _ _ => Fin 0) true (fun x => Ok x) (fun _ => 0%Z) (e_sort flat_env) in
  exists s s' gr, st_new (cma_num p) (cfg_of (set_sep k24)) [1; 2] num0 = Ok s /\ same_transform p e /\
  (forall i, (i < 2)%nat -> variances_of s i = 1) /\ slope_at_mean p e s gr /\ edm (cma_num p) e (cfg_of (set_sep k24)) s = Ok s'.
Proof.
  cbv zeta. eexists. eexists. eexists. split; [reflexivity|]. split; [intros x; reflexivity|]. split; [reflexivity|].
  split; [|reflexivity]. eexists. split; [intros i _; reflexivity|]. intros i _. reflexivity.
Qed.
