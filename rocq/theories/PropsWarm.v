(** Property C76: a search started from the solution of an earlier one. *)
From Coq Require Import Reals List Lia Lra.
From Verif Require Import Base Dbl Vec Params SpecParams Config Search SpecSearch SpecInvar SpecMorph SpecSafe SpecUh Demo DemoProofs Update SpecUpdate ParamSound DemoNum DemoNumProofs NumThms SpecAffine AffineThms SpecWarm WarmProofs WarmThms WarmThms2.
Import ListNotations.
Open Scope R_scope.

(** Let [so] be any solution object left by runs of the same dimension,
    population size and history setting.  A search started from it does, for
    every objective, what a new search does whose starting point gives the mean
    of [so] and whose initial step size is that of [so], when both draw the same
    random numbers: both stop at the same fault, or have after k + 1 iterations
    the same evaluations, counters, status, histories and distribution.  The
    best and worst candidates seen are not compared: [so] brings its own. *)
Theorem C76_iterations_partial : forall p e g so x0 n k,
  plain_run p e g -> same_problem p g -> good_weights (p_k p) -> pheno_keeps e g -> std_sort_ok e ->
  left_by_run (g_dim g) (g_lambda g) (g_max_hist g) so -> x_csz (s_num so) = g_dim g ->
  (1 <= g_lambda g)%nat -> 0 < x_sigma (s_num so) ->
  (forall i, (i < g_dim g)%nat -> init_mean p x0 i = x_mean (s_num so) i) ->
  x_pos n = x_pos (s_num so) /\ x_upos n = x_upos (s_num so) ->
  let p0 := with_sigma0 (x_sigma (s_num so)) p in
  same_result (g_dim g) (do s <- st_new (cma_num p0) g x0 n; rounds (cma_num p0) g e (S k) s)
                        (rounds (cma_num p) g e (S k) (st_from_solution (cma_num p) so)).
Proof. intros p e g so x0 n k A B C D E F _ L S X Q. cbv zeta. apply warm_rounds; auto. Qed.
Print Assumptions C76_iterations_partial.
(** The same for a call of optimize, its return code included, when the
    parameters of the second search carry the step size of [so] as well (the
    stop criteria use it). *)
Theorem C76_optimize_partial : forall p e g so x0 n rf fuel,
  plain_run p e g -> same_problem p g -> good_weights (p_k p) -> pheno_keeps e g -> std_sort_ok e ->
  left_by_run (g_dim g) (g_lambda g) (g_max_hist g) so -> x_csz (s_num so) = g_dim g ->
  (1 <= g_lambda g)%nat -> 0 < p_sigma0 p -> x_sigma (s_num so) = p_sigma0 p ->
  (forall i, (i < g_dim g)%nat -> init_mean p x0 i = x_mean (s_num so) i) ->
  x_pos n = x_pos (s_num so) /\ x_upos n = x_upos (s_num so) ->
  same_outcome (g_dim g) (do s <- st_new (cma_num p) g x0 n; optimize (cma_num p) e g (round (cma_num p) e g) rf fuel s)
                         (optimize (cma_num p) e g (round (cma_num p) e g) rf fuel (st_from_solution (cma_num p) so)).
Proof. exact warm_optimize_same. Qed.
Print Assumptions C76_optimize_partial.
(** The best candidate seen: the earlier one or one of the new search, and none
    of either is better. *)
Theorem C76_best_seen_partial : forall T N (no : numops T N) (e : env T N) (g : cfg T),
  samples_ok no -> no_nan e -> g_uh g = false -> no_elitism g -> g_init_fvalue g = false -> forall so h s,
  length (s_cands so) = g_lambda g -> c_x (s_best so) <> [] -> c_f (s_best so) <> NaN -> Forall (whole_gen g) h ->
  run_ops no e g h (st_from_solution no so) = Ok s ->
  dle (c_f (s_best (t_sol s))) (c_f (s_best so)) = true /\
  (forall gen c, In gen (t_gens s) -> In c gen -> dle (c_f (s_best (t_sol s))) (c_f c) = true) /\
  (s_best (t_sol s) = s_best so \/ exists gen, In gen (t_gens s) /\ In (s_best (t_sol s)) gen).
Proof. exact warm_best. Qed.
Print Assumptions C76_best_seen_partial.
(** With another objective the best candidate seen is one that objective never
    gave. *)
Theorem C76_best_seen_refuted : exists (no : numops Z nat) (e e' : env Z nat) (g : cfg Z) x0 pop s s',
  real_values e /\ real_values e' /\ run no e g x0 [OGen pop []] = Ok s /\
  run_ops no e' g [OGen pop []] (st_from_solution no (t_sol s)) = Ok s' /\ t_gens s' <> [] /\
  forall y v, In (y, v) (t_log s') -> dlt (c_f (s_best (t_sol s'))) v = true.
Proof.
  exists demo_no, demo_e, (mk_env (fun k x => (1000 + sphere k x)%Z)), demo_g, [4; 4]%Z, [[3; 1]; [2; 5]; [0; 1]; [2; 5]]%Z. eexists. eexists.
  split; [apply mk_env_real|]. split; [apply mk_env_real|]. split; [vm_compute; reflexivity|]. split; [vm_compute; reflexivity|]. split; [discriminate|].
  intros y v H. cbn [t_log t_sol s_best c_f] in *. repeat (destruct H as [H|H]; [injection H as _ <-; vm_compute; reflexivity|]). destruct H.
Qed.
Print Assumptions C76_best_seen_refuted.
(** Reset creates covariance and evolution paths of the dimension of the
    problem after at least one iteration of a full-covariance run. *)
Theorem C76_sizes_partial : forall p e g h x0 n s0 s,
  k_sep (p_k p) = false -> k_vd (p_k p) = false -> p_upd p <> Vd -> p_lazy p = false -> st_new (cma_num p) g x0 n = Ok s0 ->
  Forall (whole_gen g) h -> run_ops (cma_num p) e g h s0 = Ok s -> (0 < s_niter (t_sol s))%Z ->
  x_psz (s_num (t_sol (st_from_solution (cma_num p) (t_sol s)))) = k_dim (p_k p).
Proof. exact warm_size. Qed.
Print Assumptions C76_sizes_partial.
(** After any run of a separable or VD algorithm, and before the first
    iteration of any, they have no elements. *)
Theorem C76_sep_refuted : forall p e g h x0 n s0 s, k_sep (p_k p) = true \/ p_upd p = Vd -> st_new (cma_num p) g x0 n = Ok s0 ->
  run_ops (cma_num p) e g h s0 = Ok s -> x_psz (s_num (t_sol (st_from_solution (cma_num p) (t_sol s)))) = 0%nat.
Proof. exact warm_no_size. Qed.
Print Assumptions C76_sep_refuted.
Theorem C76_before_refuted : forall p g x0 n s, st_new (cma_num p) g x0 n = Ok s ->
  x_psz (s_num (t_sol (st_from_solution (cma_num p) (t_sol s)))) = 0%nat.
Proof. exact warm_untold. Qed.
Print Assumptions C76_before_refuted.
Example C76_example : let p := npar_of k24 Full in let g := cfg_of k24 in
  plain_run p point_env g /\ same_problem p g /\ good_weights (p_k p) /\ pheno_keeps point_env g /\ std_sort_ok point_env /\
  exists s0 s, st_new (cma_num p) g [1; 2] num0 = Ok s0 /\ run_ops (cma_num p) point_env g h24 s0 = Ok s /\
  let so := t_sol s in let x0 := tab 2 (x_mean (s_num so)) in
  left_by_run (g_dim g) (g_lambda g) (g_max_hist g) so /\ x_csz (s_num so) = g_dim g /\ 0 < x_sigma (s_num so) /\
  (forall i, (i < g_dim g)%nat -> init_mean p x0 i = x_mean (s_num so) i) /\
  exists s1, rounds (cma_num p) g point_env 2 (st_from_solution (cma_num p) so) = Ok s1.
Proof. exact warm_instance. Qed.
