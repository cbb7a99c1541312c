(** Properties C29 and C30: translation and scale. *)
From Coq Require Import Reals List Lia Lra.
From Verif Require Import Base Dbl Vec Params SpecParams Config Search SpecSearch SpecInvar SpecMorph SpecSafe SpecUh Update SpecUpdate ParamSound DemoNum DemoNumProofs NumThms SpecAffine AffineThms.
Import ListNotations.
Open Scope R_scope.

(** Both searches go wrong at the same point or reach states that correspond:
    points, means and objective calls moved by [a]; values, counters, status,
    step size and covariance equal.  [hs] is any sequence of ask, of evaluation
    and update with a population, of stop and of optimize. *)
Theorem C29_translation_partial : forall p e g pr a x0 n n' hs,
  good_weights (p_k p) -> same_problem p g -> plain_space p e g -> std_sort_ok e ->
  (forall so so', moved_sol (aff 1 a) (moved_num (k_dim (p_k p)) 1 a) so so' -> pr so' = e_progress e so) ->
  length x0 = k_dim (p_k p) -> same_stream 1 a n n' -> Forall (point_op g) hs -> initial_known g hs ->
  moved_result (aff 1 a) (moved_num (k_dim (p_k p)) 1 a)
    (do s <- st_new (cma_num p) g x0 n; run_ops (cma_num p) e g hs s)
    (do s <- st_new (cma_num (moved_par 1 a p)) (moved_cfg 1 a g) (aff 1 a x0) n';
     run_ops (cma_num (moved_par 1 a p)) (moved_env 1 a pr e) (moved_cfg 1 a g) (map (move_op (aff 1 a)) hs) s).
Proof. exact translation. Qed.
Print Assumptions C29_translation_partial.
(** The same for m iterations of the user's own ask, evaluate and tell loop. *)
Theorem C29_iterations_partial : forall p e g pr a x0 n n' m,
  good_weights (p_k p) -> same_problem p g -> plain_space p e g -> std_sort_ok e ->
  (forall so so', moved_sol (aff 1 a) (moved_num (k_dim (p_k p)) 1 a) so so' -> pr so' = e_progress e so) ->
  length x0 = k_dim (p_k p) -> same_stream 1 a n n' -> needs_initial g = false ->
  moved_result (aff 1 a) (moved_num (k_dim (p_k p)) 1 a)
    (do s <- st_new (cma_num p) g x0 n; rounds (cma_num p) g e m s)
    (do s <- st_new (cma_num (moved_par 1 a p)) (moved_cfg 1 a g) (aff 1 a x0) n';
     rounds (cma_num (moved_par 1 a p)) (moved_cfg 1 a g) (moved_env 1 a pr e) m s).
Proof. exact translation_rounds. Qed.
Print Assumptions C29_iterations_partial.
(** With numerical gradients the step depends on the magnitude of the
    coordinates, and the calls do not move along. *)
Theorem C29_gradient_refuted : exists p e g a x0 n n' s0 s0' pop s pop' s',
  constructed (p_k p) /\ same_problem p g /\ (forall x, e_pheno e x = Ok x) /\ (forall x, p_scale p x = x) /\ e_gfunc e = false /\
  g_gradient g = true /\ p_ub p = (fun _ => None) /\ same_stream 1 a n n' /\
  st_new (cma_num p) g x0 n = Ok s0 /\ ask (cma_num p) e g s0 = Ok (pop, s) /\
  st_new (cma_num (moved_par 1 a p)) (moved_cfg 1 a g) (aff 1 a x0) n' = Ok s0' /\
  ask (cma_num (moved_par 1 a p)) (moved_env 1 a (e_progress e) e) (moved_cfg 1 a g) s0' = Ok (pop', s') /\
  map fst (t_log s') <> map (fun q => aff 1 a (fst q)) (t_log s).
Proof. exact gradient_calls. Qed.
Print Assumptions C29_gradient_refuted.
Example C29_example : let p := npar_of k24 Full in let g := cfg_of k24 in let a := fun i => INR (i + 5) in
  good_weights (p_k p) /\ same_problem p g /\ plain_space p point_env g /\ std_sort_ok point_env /\ (forall so so', e_progress point_env so' = e_progress point_env so) /\ same_stream 1 a num0 (num_at a) /\
  Forall (point_op g) h24 /\ initial_known g h24 /\ needs_initial g = false /\ aff 1 a [1; 2] = [1 * 1 + INR 5; 1 * 2 + INR 6] /\
  exists s0 s, st_new (cma_num p) g [1; 2] num0 = Ok s0 /\ run_ops (cma_num p) point_env g h24 s0 = Ok s.
Proof.
  cbv zeta. split; [apply k24_good|]. split; [repeat split|]. split; [repeat split|]. split; [apply point_env_sort|]. split; [reflexivity|]. split; [apply num_at_stream|].
  split; [repeat constructor|]. split; [discriminate|]. split; [reflexivity|]. split; [reflexivity|]. apply run_point; [cbn; lia|reflexivity|reflexivity|]. repeat constructor.
Qed.
(** Elitism that inserts the initial point: optimize comes first. *)
Example C29_elitist_example : let p := npar_of k24 Full in let g := elit_cfg k24 in
  plain_space p ending_env g /\ needs_initial g = true /\ initial_known g [OOptimize 0 1; OAsk; OGen [[1; 2]; [3; 1]; [0; 2]; [1; 5]] []] /\
  exists s0 s, st_new (cma_num p) g [1; 2] num0 = Ok s0 /\ run_ops (cma_num p) ending_env g [OOptimize 0 1] s0 = Ok s.
Proof.
  cbv zeta. split; [repeat split|]. split; [reflexivity|]. split; [|apply (run_elit (npar_of k24 Full)); cbn; lia].
  intros _ [|o [|o' h1]] h2 cols phen Q; injection Q; try discriminate; intros; subst; exists 0%nat, 1%nat; now left.
Qed.
Theorem C30_scale_partial : forall p e g pr c x0 n n' hs, 0 < c -> 0 < p_sigma0 p ->
  good_weights (p_k p) -> same_problem p g -> plain_space p e g -> std_sort_ok e ->
  (forall so so', moved_sol (aff c (fun _ => 0)) (moved_num (k_dim (p_k p)) c (fun _ => 0)) so so' -> pr so' = e_progress e so) ->
  length x0 = k_dim (p_k p) -> same_stream c (fun _ => 0) n n' -> Forall (point_op g) hs -> initial_known g hs ->
  moved_result (aff c (fun _ => 0)) (moved_num (k_dim (p_k p)) c (fun _ => 0))
    (do s <- st_new (cma_num p) g x0 n; run_ops (cma_num p) e g hs s)
    (do s <- st_new (cma_num (moved_par c (fun _ => 0) p)) (moved_cfg c (fun _ => 0) g) (aff c (fun _ => 0) x0) n';
     run_ops (cma_num (moved_par c (fun _ => 0) p)) (moved_env c (fun _ => 0) pr e) (moved_cfg c (fun _ => 0) g) (map (move_op (aff c (fun _ => 0))) hs) s).
Proof. exact scaling. Qed.
Print Assumptions C30_scale_partial.
Theorem C30_iterations_partial : forall p e g pr c x0 n n' m, 0 < c -> 0 < p_sigma0 p ->
  good_weights (p_k p) -> same_problem p g -> plain_space p e g -> std_sort_ok e ->
  (forall so so', moved_sol (aff c (fun _ => 0)) (moved_num (k_dim (p_k p)) c (fun _ => 0)) so so' -> pr so' = e_progress e so) ->
  length x0 = k_dim (p_k p) -> same_stream c (fun _ => 0) n n' -> needs_initial g = false ->
  moved_result (aff c (fun _ => 0)) (moved_num (k_dim (p_k p)) c (fun _ => 0))
    (do s <- st_new (cma_num p) g x0 n; rounds (cma_num p) g e m s)
    (do s <- st_new (cma_num (moved_par c (fun _ => 0) p)) (moved_cfg c (fun _ => 0) g) (aff c (fun _ => 0) x0) n';
     rounds (cma_num (moved_par c (fun _ => 0) p)) (moved_cfg c (fun _ => 0) g) (moved_env c (fun _ => 0) pr e) m s).
Proof. exact scaling_rounds. Qed.
Print Assumptions C30_iterations_partial.
(** With numerical gradients the step is not proportional to [c]. *)
Theorem C30_gradient_refuted : exists p e g c x0 n n' s0 s0' pop s pop' s',
  0 < c /\ constructed (p_k p) /\ same_problem p g /\ (forall x, e_pheno e x = Ok x) /\ (forall x, p_scale p x = x) /\ e_gfunc e = false /\
  g_gradient g = true /\ p_ub p = (fun _ => None) /\ same_stream c (fun _ => 0) n n' /\
  st_new (cma_num p) g x0 n = Ok s0 /\ ask (cma_num p) e g s0 = Ok (pop, s) /\
  st_new (cma_num (moved_par c (fun _ => 0) p)) (moved_cfg c (fun _ => 0) g) (aff c (fun _ => 0) x0) n' = Ok s0' /\
  ask (cma_num (moved_par c (fun _ => 0) p)) (moved_env c (fun _ => 0) (e_progress e) e) (moved_cfg c (fun _ => 0) g) s0' = Ok (pop', s') /\
  map fst (t_log s') <> map (fun q => aff c (fun _ => 0) (fst q)) (t_log s).
Proof. exact gradient_scale. Qed.
Print Assumptions C30_gradient_refuted.
Example C30_example : let p := npar_of (set_sep k24) Full in let g := cfg_of (set_sep k24) in
  0 < p_sigma0 p /\ good_weights (p_k p) /\ same_problem p g /\ plain_space p point_env g /\ std_sort_ok point_env /\ (forall so so', e_progress point_env so' = e_progress point_env so) /\
  same_stream 3 (fun _ => 0) num0 (num_at (fun _ => 0)) /\
  Forall (point_op g) h24 /\ initial_known g h24 /\ needs_initial g = false /\ aff 3 (fun _ => 0) [1; 2] = [3 * 1 + 0; 3 * 2 + 0] /\
  exists s0 s, st_new (cma_num p) g [1; 2] num0 = Ok s0 /\ run_ops (cma_num p) point_env g h24 s0 = Ok s.
Proof.
  cbv zeta. split; [cbn; lra|]. split; [apply k24_sep_good|]. split; [repeat split|]. split; [repeat split|]. split; [apply point_env_sort|]. split; [reflexivity|].
  split; [apply num_at_stream|]. split; [repeat constructor|]. split; [discriminate|]. split; [reflexivity|]. split; [reflexivity|].
  apply run_point; [cbn; lia|reflexivity|reflexivity|]. repeat constructor.
Qed.
