(** C86: a search with a step size for each parameter.  Exact real arithmetic.
    [vector_sigma cl x0 sigma bounds] are the transform and the scalar step size
    of the parameters object built from the vector [sigma]; [normal_points p gp s
    pop x0 dev]: in the user's parameters the points [pop] are normal around [x0]
    with standard deviations [dev]. *)
From Coq Require Import Reals List Lra.
From Verif Require Import Base Dbl Vec GenoPheno SpecBounds Params Config Search SpecSearch Update SpecUpdate Start SpecStart SpecSample VecSigma SpecVecSigma
  DemoNum NumThms ReportThms VecSigmaProofs.
Import ListNotations.
Open Scope R_scope.

Theorem C86_constructed : forall x0 sigma b, step_sizes (length x0) sigma -> x0 <> [] ->
  exists gp m, vector_sigma NbLin x0 sigma b = Ok (gp, m) /\ least sigma m.
Proof. exact total_nb. Qed.
Print Assumptions C86_constructed.
Theorem C86_start : forall x0 sigma b gp m u, step_sizes (length x0) sigma -> vector_sigma NbLin x0 sigma b = Ok (gp, m) ->
  box (length x0) x0 x0 -> draws (length x0) u -> starts_at gp (length x0) x0 u.
Proof. exact nb_start. Qed.
Print Assumptions C86_start.
(** The first points have standard deviations proportional to the step sizes
    given, the factor being the least of them; they are the step sizes given
    when the least is 1. *)
Theorem C86_sampling_partial : forall p e g x0 sigma b gp m n s pop s',
  constructed (p_k p) -> p_upd p = Full -> p_lazy p = false -> eigensolver_ok p -> same_problem p g -> g_fixed g = [] -> g_gradient g = false ->
  length x0 = k_dim (p_k p) -> step_sizes (length x0) sigma -> vector_sigma NbLin x0 sigma b = Ok (gp, m) -> made_with p gp m ->
  st_new (cma_num p) g x0 n = Ok s -> ask (cma_num p) e g s = Ok (pop, s') ->
  normal_points p gp s pop x0 (fun i => nth i sigma 0 * m).
Proof. exact sampling. Qed.
Print Assumptions C86_sampling_partial.
(** One parameter, step size 2: the standard deviation of the first points is 4. *)
Theorem C86_sampling_refuted : exists p e g x0 gp m n s pop s',
  constructed (p_k p) /\ p_upd p = Full /\ p_lazy p = false /\ eigensolver_ok p /\ same_problem p g /\ g_fixed g = [] /\ g_gradient g = false /\
  length x0 = k_dim (p_k p) /\ vector_sigma NbLin x0 [2] None = Ok (gp, m) /\ made_with p gp m /\
  st_new (cma_num p) g x0 n = Ok s /\ ask (cma_num p) e g s = Ok (pop, s') /\
  normal_points p gp s pop x0 (fun _ => 4) /\ ~ normal_points p gp s pop x0 (fun i => nth i [2] 0).
Proof.
  destruct sampled4 as (s & pop & s' & H). exists npar2, (call_env zig), (cfg_of k1), [0], gp_half, 2, num0, s, pop, s'.
  split; [exact k1_constructed|]. split; [reflexivity|]. split; [reflexivity|]. split; [exact eig_npar2|]. split; [repeat split|]. split; [reflexivity|]. split; [reflexivity|].
  split; [reflexivity|]. split; [exact (proj1 made2)|]. split; [exact (proj2 made2)|exact H].
Qed.
Print Assumptions C86_sampling_refuted.
(** Without the linear scaling in the type of the transform only the least of
    the step sizes counts. *)
Theorem C86_plain_refuted : exists x0 sigma sigma' gp m, step_sizes (length x0) sigma /\ step_sizes (length x0) sigma' /\ sigma <> sigma' /\
  vector_sigma NbPlain x0 sigma None = Ok (gp, m) /\ vector_sigma NbPlain x0 sigma' None = Ok (gp, m).
Proof.
  exists [0; 0], [1; 5], [1; 9], gp_default_nb, 1.
  split; [split; [reflexivity|repeat constructor; lra]|]. split; [split; [reflexivity|repeat constructor; lra]|]. split; [intros E; injection E; lra|].
  unfold vector_sigma, vs_gp, vs_sigma. cbn [bind fold_left]. destruct (Rlt_dec 5 1); [lra|]. destruct (Rlt_dec 9 1); [lra|]. auto.
Qed.
Print Assumptions C86_plain_refuted.
(** With bounds: the points are feasible. *)
Theorem C86_bounds : forall x0 sigma lb ub gp m x, step_sizes (length x0) sigma -> ordered lb ub -> length lb = length x0 ->
  vector_sigma PwqLin x0 sigma (Some (lb, ub)) = Ok (gp, m) -> length x = length x0 ->
  (exists y, pheno gp x = Ok y /\ inside lb ub y) \/ pheno gp x = Fault IntCast.
Proof. exact pwq_feasible. Qed.
Print Assumptions C86_bounds.
(** The bound transform without bounds: no point can be evaluated. *)
Theorem C86_no_bounds_refuted : forall x0 sigma gp m v x, step_sizes (length x0) sigma -> vector_sigma PwqLin x0 sigma None = Ok (gp, m) ->
  pheno gp (v :: x) = Fault SizeMismatch.
Proof. exact pwq_no_bounds. Qed.
Print Assumptions C86_no_bounds_refuted.
(** A zero among the step sizes is not replaced by an automatic value. *)
Theorem C86_zero_refuted : forall x0 sigma b, length sigma = length x0 -> In 0 sigma -> vector_sigma NbLin x0 sigma b = Fault DivByZero.
Proof. exact zero_faults. Qed.
Print Assumptions C86_zero_refuted.

Example C86_example : step_sizes 2 [2; 1 / 2] /\ (exists gp m, vector_sigma NbLin [3; 4] [2; 1 / 2] None = Ok (gp, m)) /\
  ordered [0; 0] [9; 9] /\ (exists gp m, vector_sigma PwqLin [3; 4] [2; 1 / 2] (Some ([0; 0], [9; 9])) = Ok (gp, m)) /\
  (exists gp m, vector_sigma PwqLin [3; 4] [2; 1 / 2] None = Ok (gp, m)).
Proof.
  assert (A : step_sizes (length [3; 4]) [2; 1 / 2]) by (split; [reflexivity|repeat constructor; lra]). split; [exact A|].
  split; [destruct (C86_constructed [3; 4] [2; 1 / 2] None A) as (gp & m & H & _); [discriminate|eauto]|]. split; [repeat constructor; lra|].
  unfold vector_sigma, vs_gp. rewrite (vs_scaling_ok _ _ A). cbn [bind]. split; eexists _, _; reflexivity.
Qed.
