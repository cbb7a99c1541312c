(** C85: the plot file. *)
From Coq Require Import Reals List Lra.
From Verif Require Import Base Dbl Vec EoMatrix GenoPheno Params Config Search SpecSearch SpecSafe SpecGeno Update SpecUpdate Report Plot SpecPlot
  Demo DemoNum NumThms ReportThms ActiveThms DemoProofs PlotProofs PlotThms.
Import ListNotations.
Local Open Scope Z_scope.

(** Writing the file does not change the search: with a plot function that
    always returns, the search gives the same result, faults included. *)
Theorem C85_same_search : forall T N L (no : numops T N) (e : env T N) (g : cfg T) (w : sol T N -> res (list L)) body rf fuel s,
  (forall so, exists ls, w so = Ok ls) ->
  optimize no e g body rf fuel s = match optimize_p no e g w body rf fuel s with Ok r => Ok (fst r) | Fault f => Fault f end.
Proof. intros T N L no e g w body rf fuel s H. exact (optimize_total no e g w H rf body fuel s). Qed.
Print Assumptions C85_same_search.
Theorem C85_same_result : forall T N L (no : numops T N) (e : env T N) (g : cfg T) (w : sol T N -> res (list L)) body rf fuel s c s' ls,
  optimize_p no e g w body rf fuel s = Ok (c, s', ls) -> optimize no e g body rf fuel s = Ok (c, s').
Proof. intros T N L no e g w body rf fuel s c s' ls. exact (optimize_erase no e g w rf body fuel s c s' ls). Qed.
Print Assumptions C85_same_result.

(** The file is the concatenation of the lines of the solutions seen. *)
Theorem C85_file : forall T N L (no : numops T N) (e : env T N) (g : cfg T) (w : sol T N -> res (list L)) body rf fuel s c s' ls,
  optimize_p no e g w body rf fuel s = Ok (c, s', ls) ->
  exists sols, optimize_p no e g seen_by_plot body rf fuel s = Ok (c, s', sols) /\ written w sols ls.
Proof. intros T N L no e g w body rf fuel s c s' ls. exact (optimize_written no e g w rf body fuel s c s' ls). Qed.
Print Assumptions C85_file.

(** One line for each iteration, in order and without gap, each solution one
    generation after the previous; the last line is the final solution, unless
    the user's progress function ended the search. *)
Theorem C85_rows_partial : forall T N (no : numops T N) (e : env T N) (g : cfg T) rf fuel s c s' sols,
  samples_ok no -> 0 <= s_status (t_sol s) -> e_restart (g_elit g) = false -> g_edm g = false ->
  optimize_p no e g seen_by_plot (round no e g) rf fuel s = Ok (c, s', sols) ->
  chained no e g sols /\ consecutive (s_niter (t_sol s)) sols /\ ends_at e s s' sols.
Proof. intros T N no e g rf fuel s c s' sols H. exact (optimize_rows no e g H rf fuel s c s' sols). Qed.
Print Assumptions C85_rows_partial.
(** With elitist restarts: one such block for each run, every block after the
    first from iteration 0. *)
Theorem C85_blocks : forall T N (no : numops T N) (e : env T N) (g : cfg T) rf fuel s c s' sols,
  samples_ok no -> 0 <= s_status (t_sol s) ->
  optimize_p no e g seen_by_plot (round no e g) rf fuel s = Ok (c, s', sols) ->
  exists b0 bs, sols = b0 ++ concat bs /\ consecutive (s_niter (t_sol s)) b0 /\ Forall (consecutive 0) bs /\ Forall (chained no e g) (b0 :: bs).
Proof. intros T N no e g rf fuel s c s' sols H. exact (optimize_blocks no e g H fuel rf s c s' sols). Qed.
Print Assumptions C85_blocks.
(** Ended by the progress function at iteration 2: the file stops at iteration 1. *)
Theorem C85_last_row_refuted : exists (no : numops Z nat) (e : env Z nat) (g : cfg Z) s0 c s' sols,
  samples_ok no /\ st_new no g [4; 4] 0%nat = Ok s0 /\ optimize_p no e g seen_by_plot (round no e g) 0 10 s0 = Ok (c, s', sols) /\
  s_niter (t_sol s') = 2 /\ map s_niter sols = [0; 1].
Proof.
  exists demo_no, until2, demo_g. eexists. eexists. eexists. eexists. split; [exact (proj1 demo_dims)|].
  split; [vm_compute; reflexivity|]. split; [vm_compute; reflexivity|]. split; reflexivity.
Qed.
Print Assumptions C85_last_row_refuted.

(** Column of evaluations. *)
Theorem C85_evaluations : forall T N (no : numops T N) (e : env T N) (g : cfg T) so so',
  samples_ok no -> step no e g so so' ->
  s_nevals so + Z.of_nat (g_lambda g) <= s_nevals so' <= s_nevals so + generation_calls e g /\
  (g_uh g = false -> g_gradient g = false -> s_nevals so' = s_nevals so + Z.of_nat (g_lambda g)).
Proof. intros T N no e g so so' H. exact (step_evals_exact no e g H so so'). Qed.
Print Assumptions C85_evaluations.

(** The default function writes one line of 5 + 3 dim cells: |f|, evaluations,
    step size, axis ratio, eigenvalues, standard deviations, mean in the user's
    coordinates, time. *)
Theorem C85_line : forall no p gp so ls, built (k_dim (p_k p)) gp -> plot_row no p gp so = Ok ls ->
  let d := k_dim (p_k p) in
  exists r sd m, ls = [r] /\ length r = (5 + 3 * d)%nat /\
    stds p gp (s_num so) = Ok sd /\ pheno gp (tab d (x_mean (s_num so))) = Ok m /\ length sd = d /\ length m = d /\
    nth_error r 0 = Some (CF (dabs (c_f (best_candidate no so)))) /\ nth_error r 1 = Some (CI (s_nevals so)) /\
    nth_error r 2 = Some (CR (x_sigma (s_num so))) /\ nth_error r 3 = Some (CR (axis_ratio (s_num so))) /\
    columns r 4 d (x_leig (s_num so)) /\ columns r (4 + d) d (at0 sd) /\ columns r (4 + 2 * d) d (at0 m).
Proof. exact plot_row_cells. Qed.
Print Assumptions C85_line.
(** The full function: a header before iteration 0 and lines of 10 + 4 dim cells. *)
Theorem C85_full_line : forall no p gp seed so ls, built (k_dim (p_k p)) gp -> full_row no p gp seed so = Ok ls ->
  (c_x (s_best so) = [] \/ length (c_x (s_best so)) = k_dim (p_k p)) ->
  let d := k_dim (p_k p) in
  exists r h med sd m, ls = h ++ [r] /\ length r = (10 + 4 * d)%nat /\
    h = (if s_niter so =? 0 then [[CI (Z.of_nat d); CI seed; CTime]] else []) /\
    nth_error (s_cands so) (length (s_cands so) / 2) = Some med /\
    stds p gp (s_num so) = Ok sd /\ pheno gp (tab d (x_mean (s_num so))) = Ok m /\
    firstn 4 r = row_head no so /\
    nth_error r 4 = Some (CF (c_f (s_best so))) /\ nth_error r 5 = Some (CF (c_f med)) /\ nth_error r 6 = Some (CF (c_f (s_worst so))) /\
    nth_error r 7 = Some (CR (x_minev (s_num so))) /\ nth_error r 8 = Some (CR (x_maxev (s_num so))) /\
    columns r 9 d (at0 (c_x (s_best so))) /\ columns r (9 + d) d (x_leig (s_num so)) /\
    columns r (9 + 2 * d) d (at0 sd) /\ columns r (9 + 3 * d) d (at0 m).
Proof. exact full_row_cells. Qed.
Print Assumptions C85_full_line.

(** Eigenvalue columns with a full matrix: eigenvalues of the covariance of the
    previous line's solution, the one this generation was sampled from (C21:
    symmetric). *)
Theorem C85_eigenvalues_partial : forall p e g gp so so' ls,
  eigensolver_ok p -> k_sep (p_k p) = false -> k_vd (p_k p) = false -> p_lazy p = false ->
  built (k_dim (p_k p)) gp -> symmetric (k_dim (p_k p)) (x_cov (s_num so)) ->
  step (cma_num p) e g so so' -> plot_row (cma_num p) p gp so' = Ok ls ->
  exists r v q, ls = [r] /\ columns r 4 (k_dim (p_k p)) v /\ diagonalises (k_dim (p_k p)) (x_cov (s_num so)) (v, q).
Proof. exact row_eigen_full. Qed.
Print Assumptions C85_eigenvalues_partial.
(** With a diagonal variant: the current scaling vector. *)
Theorem C85_eigenvalues_diagonal : forall p e g gp so so' ls,
  k_sep (p_k p) || k_vd (p_k p) = true -> built (k_dim (p_k p)) gp ->
  step (cma_num p) e g so so' -> plot_row (cma_num p) p gp so' = Ok ls ->
  exists r, ls = [r] /\ columns r 4 (k_dim (p_k p)) (x_sep (s_num so')).
Proof. exact row_eigen_diag. Qed.
Print Assumptions C85_eigenvalues_diagonal.
(** The first line shows the eigenvalue 0 for a covariance of 1. *)
Theorem C85_eigenvalues_refuted : exists p g x0 n s0 r,
  constructed (p_k p) /\ st_new (cma_num p) g x0 n = Ok s0 /\ cov_of s0 0%nat 0%nat = 1%R /\
  plot_row (cma_num p) p gp_default_nb (t_sol s0) = Ok [r] /\ nth_error r 4 = Some (CR 0) /\ nth_error r 5 = Some (CR 1).
Proof.
  destruct first_line as (s0 & r & H). exists (npar_of k1 Full), init_cfg, [1%R], num0, s0, r. split; [exact k1_constructed|exact H].
Qed.
Print Assumptions C85_eigenvalues_refuted.
(** Axis ratio: the square root of the quotient of the largest and the least
    eigenvalue of the same line. *)
Theorem C85_axis_ratio : forall p e g gp so so' ls, built (k_dim (p_k p)) gp -> (1 <= k_dim (p_k p))%nat ->
  step (cma_num p) e g so so' -> plot_row (cma_num p) p gp so' = Ok ls ->
  exists r v a, ls = [r] /\ columns r 4 (k_dim (p_k p)) v /\ nth_error r 3 = Some (CR a) /\
    forall mx mn, is_max (k_dim (p_k p)) v mx -> is_min (k_dim (p_k p)) v mn ->
      ((0 < mn)%R -> (1 <= a)%R /\ (a * a = mx / mn)%R) /\ (mn = 0%R -> a = 1%R).
Proof. exact row_ratio. Qed.
Print Assumptions C85_axis_ratio.
(** The sign of the objective value is lost: best values 1 and -1, the same line. *)
Theorem C85_sign_refuted : exists p g e1 e2 x0 n s0 s1 s2 r,
  constructed (p_k p) /\ st_new (cma_num p) g x0 n = Ok s0 /\
  eval_initial (cma_num p) e1 g s0 = Ok s1 /\ eval_initial (cma_num p) e2 g s0 = Ok s2 /\
  c_f (best_candidate (cma_num p) (t_sol s1)) = Fin 1 /\ c_f (best_candidate (cma_num p) (t_sol s2)) = Fin (-1) /\
  plot_row (cma_num p) p gp_default_nb (t_sol s1) = Ok [r] /\ plot_row (cma_num p) p gp_default_nb (t_sol s2) = Ok [r].
Proof.
  destruct same_line as (s0 & s1 & s2 & H1 & H2 & H3 & H4 & H5 & r & H6). exists (npar_of k1 Full), init_cfg, (const_env 1 (fun x => Ok x)), (const_env (-1) (fun x => Ok x)), [1%R], num0, s0, s1, s2, r.
  exact (conj k1_constructed (conj H1 (conj H2 (conj H3 (conj H4 (conj H5 H6)))))).
Qed.
Print Assumptions C85_sign_refuted.
(** In the full line the best point is in the internal coordinates, the mean in
    the user's: with x = 2 y the objective was called at 1/2 only, and the best
    point is shown as 1. *)
Theorem C85_best_point_refuted : exists p g e gp x0 n s0 s1 h r,
  constructed (p_k p) /\ gp_scaling_nb [2%R] [0%R] = Ok gp /\ e_pheno e = pheno gp /\ st_new (cma_num p) g x0 n = Ok s0 /\
  eval_initial (cma_num p) e g s0 = Ok s1 /\ t_log s1 = [([(1 / 2)%R], Fin 7)] /\
  full_row (cma_num p) p gp 0 (t_sol s1) = Ok [h; r] /\ nth_error r 4 = Some (CF (Fin 7)) /\
  nth_error r 9 = Some (CR 1) /\ nth_error r 12 = Some (CR (1 / 2)).
Proof.
  destruct best_point_line as (s0 & s1 & h & r & H). exists (npar_of k1 Full), init_cfg, (const_env 7 (pheno gp2)), gp2, [1%R], num0, s0, s1, h, r.
  exact (conj k1_constructed (conj gp2_is (conj eq_refl H))).
Qed.
Print Assumptions C85_best_point_refuted.

Example C85_rows_example : exists s0 c s' sols, st_new demo_no demo_g [4; 4] 0%nat = Ok s0 /\
  optimize_p demo_no demo_e demo_g seen_by_plot (round demo_no demo_e demo_g) 0 10 s0 = Ok (c, s', sols) /\
  map s_niter sols = [0; 1; 2; 3] /\ map s_nevals sols = [0; 4; 8; 12] /\ s_niter (t_sol s') = 3 /\
  samples_ok demo_no /\ 0 <= s_status (t_sol s0) /\ e_restart (g_elit demo_g) = false /\ g_edm demo_g = false.
Proof.
  eexists. eexists. eexists. eexists. split; [vm_compute; reflexivity|]. split; [vm_compute; reflexivity|]. do 3 (split; [reflexivity|]).
  split; [exact (proj1 demo_dims)|]. split; [discriminate|]. split; reflexivity.
Qed.
Example C85_line_example : let p := npar_eig k24 Full eig2 in eigensolver_ok p /\ built (k_dim (p_k p)) gp_default_nb /\
  exists s0 s1 ls, st_new (cma_num p) (cfg_of k24) [1%R; 2%R] num0 = Ok s0 /\
  step (cma_num p) (call_env zig) (cfg_of k24) (t_sol s0) (t_sol s1) /\ symmetric 2 (x_cov (s_num (t_sol s0))) /\
  plot_row (cma_num p) p gp_default_nb (t_sol s1) = Ok ls.
Proof. split; [apply eig2_ok; reflexivity|]. split; [constructor|exact step_example]. Qed.
