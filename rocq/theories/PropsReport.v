(** C84: the reported standard deviations; C03: the transform does not stretch. *)
From Coq Require Import Reals Lra List.
From Verif Require Import Base Dbl Vec EoMatrix Pwq Scaling GenoPheno SpecBounds Params SpecParams Config Search SpecSearch Update Corr SpecUpdate
  DemoNum NumThms ActiveThms ActiveProofs Report SpecReport ReportProofs ReportThms.
Import ListNotations.
Open Scope R_scope.

Theorem C03_no_stretch : forall lb ub gp, ordered lb ub -> gp_bounds None lb ub = Ok gp -> contracts (length lb) (pheno gp).
Proof. exact pheno_contracts. Qed.
Print Assumptions C03_no_stretch.
Example C03_no_stretch_example : ordered [0] [1] /\ gp_bounds None [0] [1] = Ok gp01 /\ pheno gp01 [0.6] = Ok [0.6] /\ pheno gp01 [1.6] = Ok [0.6].
Proof.
  split; [repeat constructor; lra|]. split; [exact gp01_is|]. destruct q01_same as [H1 H2]. exact (conj (gp01_pheno _ _ H1) (gp01_pheno _ _ H2)).
Qed.

(** The states in which the covariance has variances. *)
Theorem C84_variances : forall p e g h s0 s,
  constructed (p_k p) -> p_upd p = Full -> started p e g s0 -> run_ops (cma_num p) e g h s0 = Ok s -> has_variances p s.
Proof. exact variances_full. Qed.
Print Assumptions C84_variances.
Theorem C84_variances_active_partial : forall p e g h s0 s,
  constructed (p_k p) -> p_upd p = Active -> k_sep (p_k p) = false -> p_lazy p = false ->
  eigensolver_ok p -> k_c1 (p_k p) + 0.66 * k_cmu (p_k p) < 0.66 -> started p e g s0 -> asked false h ->
  run_ops (cma_num p) e g h s0 = Ok s -> has_variances p s.
Proof. exact variances_active. Qed.
Print Assumptions C84_variances_active_partial.
Theorem C84_variances_active_sep_partial : forall p e g h x0 n0 s0 s,
  constructed (p_k p) -> p_upd p = Active -> k_sep (p_k p) = true -> k_c1 (p_k p) + 0.66 * k_cmu (p_k p) < 0.66 ->
  st_new (cma_num p) g x0 n0 = Ok s0 -> run_ops (cma_num p) e g h s0 = Ok s -> has_variances p s.
Proof. exact variances_active_sep. Qed.
Print Assumptions C84_variances_active_sep_partial.
Theorem C84_variances_vd : forall p (s : st R num), k_vd (p_k p) = true -> k_sep (p_k p) = false -> has_variances p s.
Proof. exact variances_vd. Qed.
Print Assumptions C84_variances_vd.

(** Without bounds: the square roots of the variances. *)
Theorem C84_plain : forall p s, has_variances p s ->
  exists v, stds p gp_default_nb (s_num (t_sol s)) = Ok v /\ coords (k_dim (p_k p)) (is_std p s) v.
Proof. exact stds_plain. Qed.
Print Assumptions C84_plain.
(** With the user's linear scaling x = c y + h: divided by |c|. *)
Theorem C84_scaled : forall p sc sh gp s,
  has_variances p s -> gp_scaling_nb sc sh = Ok gp -> length sc = k_dim (p_k p) -> (forall c, In c sc -> c <> 0) ->
  exists v, stds p gp (s_num (t_sol s)) = Ok v /\
    coords (k_dim (p_k p)) (fun i a => forall c, nth_error sc i = Some c -> is_std p s i (Rabs c * a)) v.
Proof. exact stds_user_scaling. Qed.
Print Assumptions C84_scaled.
Theorem C84_scaled_by_bounds : forall p lb ub gp s,
  has_variances p s -> ordered lb ub -> gp_nb_lin None lb ub = Ok gp -> length lb = k_dim (p_k p) ->
  exists v, stds p gp (s_num (t_sol s)) = Ok v /\
    coords (k_dim (p_k p)) (fun i a => forall l u, nth_error lb i = Some l -> nth_error ub i = Some u -> is_std p s i (10 / (u - l) * a)) v.
Proof. exact stds_lin_bounds. Qed.
Print Assumptions C84_scaled_by_bounds.
(** With bounds: never more than without, never more than the interval, and
    the same when the mean and one deviation above it are in the core. *)
Theorem C84_bounded_partial : forall p lb ub gp s v,
  has_variances p s -> ordered lb ub -> gp_bounds None lb ub = Ok gp -> length lb = k_dim (p_k p) ->
  stds p gp (s_num (t_sol s)) = Ok v ->
  coords (k_dim (p_k p)) (fun i a => forall l u sd, nth_error lb i = Some l -> nth_error ub i = Some u -> is_std p s i sd ->
    0 <= a <= sd /\ a <= u - l /\
    ((k_vd (p_k p) = true -> 0 <= variances_of s i) -> in_core l u (mean_of s i) -> in_core l u (mean_of s i + sd) -> a = sd)) v.
Proof. exact stds_bounds. Qed.
Print Assumptions C84_bounded_partial.
Theorem C84_bounded_total : forall p lb ub gp s,
  ordered lb ub -> gp_bounds None lb ub = Ok gp -> length lb = k_dim (p_k p) ->
  (exists v, stds p gp (s_num (t_sol s)) = Ok v) \/ stds p gp (s_num (t_sol (s : st R num))) = Fault IntCast.
Proof. exact stds_bounds_total. Qed.
Print Assumptions C84_bounded_total.
Theorem C84_bounded_scaled_partial : forall p lb ub gp s v,
  has_variances p s -> ordered lb ub -> gp_bounds_lin None lb ub = Ok gp -> length lb = k_dim (p_k p) ->
  stds p gp (s_num (t_sol s)) = Ok v ->
  coords (k_dim (p_k p)) (fun i a => forall l u sd, nth_error lb i = Some l -> nth_error ub i = Some u -> is_std p s i sd ->
    0 <= a <= sd * ((u - l) / 10) /\ a <= u - l) v.
Proof. exact stds_bounds_lin. Qed.
Print Assumptions C84_bounded_scaled_partial.
(** One parameter in [0,1] started at 0.6, with variance 1: the reported
    deviation is 0, one deviation above the mean being reflected onto it. *)
Theorem C84_bounded_zero_refuted : exists p g x0 n s gp,
  constructed (p_k p) /\ p_upd p = Full /\ st_new (cma_num p) g x0 n = Ok s /\
  gp_bounds None [0] [1] = Ok gp /\ pheno gp x0 = Ok x0 /\ stds p gp (s_num (t_sol s)) = Ok [0] /\ is_std p s 0 1.
Proof.
  destruct stds_zero as (s & H1 & H2 & H3). exists (npar_of k1 Full), (cfg_of k1), [0.6], num0, s, gp01.
  exact (conj k1_constructed (conj eq_refl (conj H1 (conj gp01_is (conj (gp01_pheno _ _ (proj1 q01_same)) (conj H2 H3)))))).
Qed.
Print Assumptions C84_bounded_zero_refuted.

(** errors() is the standard deviation of the sampling distribution exactly
    when sigma = 1 (or the variance is zero); otherwise it is off by sqrt(sigma). *)
Theorem C84_errors_partial : forall p e g h s0 s,
  has_variances p s -> configured (p_k p) -> started p e g s0 -> run_ops (cma_num p) e g h s0 = Ok s ->
  exists v, errors p gp_default_nb (s_num (t_sol s)) = Ok v /\
  coords (k_dim (p_k p)) (fun i a =>
    (is_sampling_std p s i a <-> (sigma_of s = 1 \/ full_cov p (s_num (t_sol s)) i i = 0)) /\
    forall sd, is_sampling_std p s i sd -> sd = sqrt (sigma_of s) * a) v.
Proof. exact errors_thm. Qed.
Print Assumptions C84_errors_partial.
(** With an initial step size of 4, errors() is 2 before the first iteration. *)
Theorem C84_errors_refuted : exists p g x0 n s,
  constructed (p_k p) /\ p_upd p = Full /\ st_new (cma_num p) g x0 n = Ok s /\
  errors p gp_default_nb (s_num (t_sol s)) = Ok [2] /\ is_sampling_std p s 0 4.
Proof.
  destruct errors_half as (s & H1 & H2 & H3). exists npar4, (cfg_of k1), [0], num0, s.
  exact (conj k1_constructed (conj eq_refl (conj H1 (conj H2 H3)))).
Qed.
Print Assumptions C84_errors_refuted.

Example C84_example : exists s0 s, started (npar_of k24 Full) (call_env zig) (cfg_of k24) s0 /\
  run_ops (cma_num (npar_of k24 Full)) (call_env zig) (cfg_of k24) h24 s0 = Ok s /\ has_variances (npar_of k24 Full) s /\
  configured k24 /\ (exists gp, gp_scaling_nb [2; -3] [0; 1] = Ok gp) /\ (exists gp, gp_bounds_lin None [0; -1] [1; 4] = Ok gp).
Proof.
  destruct (run24 k24 Full eq_refl eq_refl) as (s0 & s & E0 & E). exists s0, s.
  assert (W : started (npar_of k24 Full) (call_env zig) (cfg_of k24) s0) by (econstructor; eauto).
  split; [exact W|]. split; [exact E|]. split; [exact (variances_full (npar_of k24 Full) _ _ _ _ _ k24_constructed eq_refl W E)|].
  split; [exists 2%nat, 4%nat, (@nil setting); split; [repeat constructor|reflexivity]|]. split; [eexists; reflexivity|].
  apply ScalingProofs.gp_bounds_lin_total. repeat constructor; lra.
Qed.
