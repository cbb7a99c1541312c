(** C78: where a search starts.  Exact real arithmetic.  [starts_between g dim lo
    hi fx u]: with the draws [u] the constructor puts the mean where the
    objective's parameters are between [lo] and [hi], with the fixed values. *)
From Coq Require Import Reals List ZArith Lia Lra.
From Verif Require Import Base Dbl Params SpecParams Config Scaling GenoPheno SpecBounds Search SpecSearch Demo DemoNum DemoNumProofs NumThms Update SpecUpdate Start SpecStart StartThms StartDemo.
Import ListNotations.
Open Scope R_scope.

(** Without bounds. *)
Theorem C78_plain : forall dim lo hi fx u, box dim lo hi -> draws dim u -> fixed_in dim fx -> starts_between gp_default_nb dim lo hi fx u.
Proof. exact start_default. Qed.
Print Assumptions C78_plain.
Theorem C78_scaled_interval : forall lb ub g lo hi fx u, ordered lb ub -> gp_nb_lin None lb ub = Ok g ->
  box (length lb) lo hi -> draws (length lb) u -> fixed_in (length lb) fx -> starts_between g (length lb) lo hi fx u.
Proof. exact start_nb_lin. Qed.
Print Assumptions C78_scaled_interval.
Theorem C78_scaled_factors : forall sc sh g lo hi fx u, (forall i s, nth_error sc i = Some s -> s <> 0) -> gp_scaling_nb sc sh = Ok g ->
  box (length sc) lo hi -> draws (length sc) u -> fixed_in (length sc) fx -> starts_between g (length sc) lo hi fx u.
Proof. exact start_scaling. Qed.
Print Assumptions C78_scaled_factors.
(** No initial point given. *)
Theorem C78_no_point : forall dim u, draws dim u ->
  exists m y, initial_mean gp_default_nb dim (set_x0_value dim (- dbl_max_R)) [] u = Ok m /\
    pheno gp_default_nb m = Ok y /\ length y = dim /\ Forall (fun v => -4 <= v <= 4) y.
Proof. exact start_auto. Qed.
Print Assumptions C78_no_point.

(** With bounds: when the points the start may be are off the strips along the
    bounds, and for a given point exactly then. *)
Theorem C78_bounds_partial : forall lb ub g lo hi fx u, ordered lb ub -> gp_bounds None lb ub = Ok g ->
  box (length lb) lo hi -> draws (length lb) u -> fixed_in (length lb) fx ->
  (forall y, start_point lo hi fx y -> off_strips lb ub y) -> starts_between g (length lb) lo hi fx u.
Proof. exact start_pwq. Qed.
Print Assumptions C78_bounds_partial.
Theorem C78_bounds_exact : forall lb ub g x0 u, ordered lb ub -> gp_bounds None lb ub = Ok g -> inside lb ub x0 ->
  box (length lb) x0 x0 -> draws (length lb) u -> (starts_at g (length lb) x0 u <-> off_strips lb ub x0).
Proof. exact at_pwq. Qed.
Print Assumptions C78_bounds_exact.
Theorem C78_bounds_scaled_partial : forall lb ub g lo hi fx u, ordered lb ub -> gp_bounds_lin None lb ub = Ok g ->
  box (length lb) lo hi -> draws (length lb) u -> fixed_in (length lb) fx ->
  (forall y, start_point lo hi fx y -> off_scaled_strips lb ub y) -> starts_between g (length lb) lo hi fx u.
Proof. exact start_lin. Qed.
Print Assumptions C78_bounds_scaled_partial.
Theorem C78_bounds_scaled_exact : forall lb ub g x0 u, ordered lb ub -> gp_bounds_lin None lb ub = Ok g -> inside lb ub x0 ->
  box (length lb) x0 x0 -> draws (length lb) u -> (starts_at g (length lb) x0 u <-> off_scaled_strips lb ub x0).
Proof. exact at_lin. Qed.
Print Assumptions C78_bounds_scaled_exact.
Theorem C78_bounds_factors_partial : forall sc sh lb ub g lo hi fx u, (forall i s, nth_error sc i = Some s -> 0 < s) -> ordered lb ub ->
  gp_scaling_pwq sc sh (Some (lb, ub)) = Ok g ->
  box (length sc) lo hi -> draws (length sc) u -> fixed_in (length sc) fx ->
  (forall y, start_point lo hi fx y -> off_user_strips sc sh lb ub y) -> starts_between g (length sc) lo hi fx u.
Proof. exact start_user. Qed.
Print Assumptions C78_bounds_factors_partial.
(** Feasible points from which the search does not start. *)
Theorem C78_bounds_refuted : exists lb ub g x0 u, ordered lb ub /\ gp_bounds None lb ub = Ok g /\ inside lb ub x0 /\
  box (length lb) x0 x0 /\ draws (length lb) u /\ ~ starts_at g (length lb) x0 u.
Proof. exact not_at_bound. Qed.
Print Assumptions C78_bounds_refuted.
Theorem C78_bounds_scaled_refuted : exists lb ub g x0 u, ordered lb ub /\ gp_bounds_lin None lb ub = Ok g /\ inside lb ub x0 /\
  box (length lb) x0 x0 /\ draws (length lb) u /\ lb = [0] /\ ub = [100] /\ x0 = [95] /\ ~ starts_at g (length lb) x0 u.
Proof. exact not_at_scaled. Qed.
Print Assumptions C78_bounds_scaled_refuted.
(** The user's transform is applied to the point: the search starts at its image. *)
Theorem C78_transform_image : forall ge ph dim lo hi fx u, box dim lo hi -> draws dim u -> fixed_in dim fx ->
  exists m y, initial_mean (mkGP NoBound (Some (ge, ph)) NoScaling) dim (set_x0_box lo hi) fx u = Ok m /\
    pheno (mkGP NoBound (Some (ge, ph)) NoScaling) m = Ok (ph y) /\ start_point lo hi fx y.
Proof. exact start_custom. Qed.
Print Assumptions C78_transform_image.
Theorem C78_transform_refuted : exists ge ph x0 u, (forall x, ph (ge x) = x) /\ box 1 x0 x0 /\ draws 1 u /\
  ~ starts_at (mkGP NoBound (Some (ge, ph)) NoScaling) 1 x0 u.
Proof. exact not_at_custom. Qed.
Print Assumptions C78_transform_refuted.

(** The first evaluated point, when the initial point is to be evaluated. *)
Theorem C78_first_call : forall p e g gp dim lo hi u x0 n s0 rf fuel r s, same_problem p g -> dim = g_dim g ->
  box dim lo hi -> draws dim u -> initial_point dim (set_x0_box lo hi) u = Ok x0 -> starts_between gp dim lo hi (g_fixed g) u ->
  (forall x z, scale_i_step (gp_scale gp) x = Ok z -> p_scale p x = z) -> (forall x, e_pheno e x = pheno gp x) ->
  g_init_fvalue g = true -> st_new (cma_num p) g x0 n = Ok s0 -> optimize (cma_num p) e g (round (cma_num p) e g) rf fuel s0 = Ok (r, s) ->
  exists y v l, t_log s = (y, v) :: l /\ start_point lo hi (g_fixed g) y.
Proof. exact first_call. Qed.
Print Assumptions C78_first_call.

Example C78_example : box 2 [0; 1] [2; 1] /\ draws 2 [-1; 1 / 2] /\ fixed_in 2 [(1%Z, 3)] /\ ordered [-5; -5] [5; 5] /\
  (exists g, gp_bounds None [-5; -5] [5; 5] = Ok g) /\ (exists g, gp_bounds_lin None [-5; -5] [5; 5] = Ok g) /\
  (exists g, gp_nb_lin None [-5; -5] [5; 5] = Ok g) /\ (exists g, gp_scaling_nb [2; 1] [0; 1] = Ok g) /\
  (exists g, gp_scaling_pwq [2; 1] [0; 1] (Some ([-5; -5], [5; 5])) = Ok g) /\
  (forall y, start_point [0; 1] [2; 1] [(1%Z, 3)] y ->
     off_strips [-5; -5] [5; 5] y /\ off_scaled_strips [-5; -5] [5; 5] y /\ off_user_strips [2; 1] [0; 1] [-5; -5] [5; 5] y) /\
  same_problem (npar_of k24 Full) gstart /\ g_dim gstart = 2%nat /\ g_init_fvalue gstart = true /\ starts_between gp_default_nb 2 [0; 1] [2; 1] (g_fixed gstart) [-1; 1 / 2] /\
  exists x0 s0 r s, initial_point 2 (set_x0_box [0; 1] [2; 1]) [-1; 1 / 2] = Ok x0 /\
    st_new (cma_num (npar_of k24 Full)) gstart x0 num0 = Ok s0 /\
    optimize (cma_num (npar_of k24 Full)) flat_env gstart (round (cma_num (npar_of k24 Full)) flat_env gstart) 1 20 s0 = Ok (r, s).
Proof.
  split; [exact d_box|]. split; [exact d_draws|]. split; [exact d_fixed|]. split; [exact d_ordered|].
  split; [exact (GenoPhenoProofs.gp_bounds_total None _ _ d_ordered)|]. split; [exact (ScalingProofs.gp_bounds_lin_total None _ _ d_ordered)|].
  split; [destruct (ScalingProofs.lin_make_ok _ _ d_ordered) as [l Hl]; exists (mkGP NoBound None (LinScaling l)); unfold gp_nb_lin; fold dlb dub; rewrite Hl; reflexivity|].
  split; [eexists; reflexivity|]. split; [eexists; reflexivity|].
  split; [intros y P; split; [exact (d_off y P)|]; split; [exact (d_off_scaled y P)|exact (d_off_user y P)]|].
  split; [repeat split|]. split; [reflexivity|]. split; [reflexivity|].
  split; [apply C78_plain; [exact d_box|exact d_draws|split; constructor]|]. exact d_run.
Qed.
