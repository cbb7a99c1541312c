(** Property theorems: the IPOP and BIPOP restart strategies. *)
From Coq Require Import Reals Lra.
From Verif Require Import Base Dbl Config Search SpecSearch SpecStop SpecSafe Restart SpecRestart RestartProofs BipopProofs RestartThms Demo DemoProofs RestartDemo.
Local Open Scope Z_scope.

(** C50: number of runs and population sizes.  Stopping before the requested
    number of runs happens only when the evaluation budget is reached. *)
Theorem C50_runs : forall T N (ops : nat -> R -> numops T N) e g p s0 nr rf fuel rc best runs s,
  ipop ops e g nr rf fuel p s0 = Ok (rc, best, runs, s) ->
  (length runs <= Z.to_nat nr)%nat /\
  (forall k u, nth_error runs k = Some u -> u_par u = mkRpar (q_lambda p * 2 ^ k) (q_sigma p) (q_maxf p)) /\
  ((length runs < Z.to_nat nr)%nat -> 0 < q_maxf p <= t_nevals s) /\
  (forall k u, nth_error runs (S k) = Some u -> 0 < q_maxf p -> t_nevals (u_before u) < q_maxf p) /\
  (runs <> [] -> Z.of_nat (q_lambda p) * 2 ^ Z.of_nat (length runs) <= int_max).
Proof. exact @ipop_runs. Qed.
Print Assumptions C50_runs.
(** Every run is the run of a new optimiser with these parameters, on the
    objective as it continues. *)
Theorem C50_fresh_runs : forall T N (ops : nat -> R -> numops T N) e g p x0 n s0 nr rf fuel rc best runs s,
  e_restart (g_elit g) = false -> restart_new ops g p x0 n = Ok s0 -> ipop ops e g nr rf fuel p s0 = Ok (rc, best, runs, s) ->
  Forall (fun u => fresh_run ops e g u /\ t_x0 (u_before u) = x0) runs /\ consecutive 0 runs.
Proof. exact @ipop_fresh_runs. Qed.
Print Assumptions C50_fresh_runs.
(** The generations of the k-th run have lambda0 * 2^k points. *)
Theorem C50_generation_sizes : forall T N (ops : nat -> R -> numops T N) e g p x0 n s0 nr rf fuel rc best runs s,
  (forall l x, samples_ok (ops l x)) -> e_restart (g_elit g) = false -> restart_new ops g p x0 n = Ok s0 ->
  ipop ops e g nr rf fuel p s0 = Ok (rc, best, runs, s) ->
  forall k u, nth_error runs k = Some u ->
  exists gens, t_gens (u_after u) = t_gens (u_before u) ++ gens /\ Forall (fun gen => length gen = (q_lambda p * 2 ^ k)%nat) gens.
Proof. exact @ipop_generations. Qed.
Print Assumptions C50_generation_sizes.
(** With an evaluation budget IPOP returns, unless lambda overflows. *)
Theorem C50_returns : forall T N (ops : nat -> R -> numops T N) e g,
  real_values e -> (forall l x, dims_ok (ops l x) g) -> pheno_total e g -> fixed_in_range g -> (g_gradient g = true -> g_tpa g <> 2) ->
  elitism_le1 g -> g_uh g = false -> pheno_returns e -> flags_wf g -> active g 8 -> (forall so, e_progress e so = 0) ->
  forall rf nr p x0 n s, (2 <= q_lambda p)%nat -> q_maxf p <> -1 -> restart_new ops g p x0 n = Ok s -> Z.of_nat (q_lambda p) * 2 ^ Z.max nr 0 <= int_max ->
  exists k rc best runs s', forall k', (k <= k')%nat -> ipop ops e g nr rf k' p s = Ok (rc, best, runs, s').
Proof. exact @ipop_returns. Qed.
Print Assumptions C50_returns.
Example C50_example : exists s0 rc best runs s, restart_new demo_ops ipop_g ipop_p [4; 4] 0%nat = Ok s0 /\
  ipop demo_ops demo_e ipop_g 5 0 20 ipop_p s0 = Ok (rc, best, runs, s) /\ map (fun u => q_lambda (u_par u)) runs = [4; 8]%nat /\
  map (fun u => length (t_log (u_before u))) runs = [0; 8]%nat /\ t_nevals s = 24 /\ e_restart (g_elit ipop_g) = false.
Proof. eexists _, _, _, _, _. split; [reflexivity|]. split; [vm_compute; reflexivity|]. repeat split; vm_compute; reflexivity. Qed.

(** C51: the returned value is at most the final value of every run when these
    are numbers. *)
Theorem C51_ipop_best_partial : forall T N (ops : nat -> R -> numops T N) e g p x0 n s0 nr rf fuel rc best runs s,
  e_restart (g_elit g) = false -> restart_new ops g p x0 n = Ok s0 ->
  ipop ops e g nr rf fuel p s0 = Ok (rc, best, runs, s) -> 1 <= nr -> (forall u, In u runs -> final_value ops u <> NaN) ->
  exists b, best = Some b /\ (exists u, In u runs /\ b = t_sol (u_after u)) /\
    forall u, In u runs -> dle (c_f (best_candidate (ops_at ops p) b)) (final_value ops u) = true.
Proof. exact @ipop_best. Qed.
Print Assumptions C51_ipop_best_partial.
Theorem C51_bipop_best_partial : forall T N (ops : nat -> R -> numops T N) e g ldef sigma m draw rf fuel nr p x0 n s rc b,
  e_restart (g_elit g) = false -> (2 <= ldef)%nat -> (forall i, (0 <= draw i < 1)%R) -> q_lambda p = ldef -> q_sigma p = sigma -> restart_new ops g p x0 n = Ok s ->
  bipop ops e g ldef (Some sigma) (Some m) draw nr rf fuel p s = Ok (rc, b) -> 1 <= nr -> (forall u, In u (b_runs b) -> final_value ops u <> NaN) ->
  exists so, b_best b = Some so /\ (exists u, In u (b_runs b) /\ so = t_sol (u_after u)) /\
    forall u, In u (b_runs b) -> dle (c_f (best_candidate (ops_at ops p) so)) (final_value ops u) = true.
Proof. exact @bipop_best. Qed.
Print Assumptions C51_bipop_best_partial.
(** They are numbers, the least value of the last generation of the run, when
    the objective returns numbers. *)
Theorem C51_final_values : forall T N (ops : nat -> R -> numops T N) e g u,
  samples_ok (ops_at ops (u_par u)) -> no_nan e -> g_uh g = false -> no_elitism g -> (forall so, e_progress e so = 0) ->
  fresh_run ops e g u -> exists before gen, t_gens (u_after u) = before ++ [gen] /\ (exists c, first_min gen = Some c /\ final_value ops u = c_f c) /\ final_value ops u <> NaN.
Proof. exact @final_number. Qed.
Print Assumptions C51_final_values.
(** A first run that only sees NaN is kept whatever later runs find. *)
Theorem C51_nan_refuted : exists (ops : nat -> R -> numops Z nat) e g p x0 s0 rc b runs s,
  restart_new ops g p x0 0%nat = Ok s0 /\ ipop ops e g 2 0 20 p s0 = Ok (rc, Some b, runs, s) /\ rc = 0 /\ g_elit g = mkElit false false false /\
  map (final_value ops) runs = [NaN; dint 5] /\ c_f (best_candidate (ops_at ops p) b) = NaN.
Proof. exists demo_ops, nan_e, ipop_g, (with_q_maxf (-1) ipop_p), [4; 4]. eexists _, _, _, _, _. split; [reflexivity|]. split; [vm_compute; reflexivity|]. repeat split; vm_compute; reflexivity. Qed.
Print Assumptions C51_nan_refuted.
(** With zero restarts an empty solution is returned with the success code. *)
Theorem C51_no_run_refuted : forall T N (ops : nat -> R -> numops T N) e g p s rf fuel, ipop ops e g 0 rf fuel p s = Ok (0, None, [], s).
Proof. reflexivity. Qed.
Print Assumptions C51_no_run_refuted.
Example C51_example : exists s0 rc b runs s, restart_new demo_ops ipop_g ipop_p [4; 4] 0%nat = Ok s0 /\
  ipop demo_ops demo_e ipop_g 5 0 20 ipop_p s0 = Ok (rc, Some b, runs, s) /\ map (final_value demo_ops) runs = [dint 4; dint 1] /\
  c_f (best_candidate (ops_at demo_ops ipop_p) b) = dint 1.
Proof. eexists _, _, _, _, _. split; [reflexivity|]. split; [vm_compute; reflexivity|]. split; vm_compute; reflexivity. Qed.

(** C52: calls of IPOP with an evaluation budget.  The budget holds for each run,
    and a run may start as long as it is not used up. *)
Theorem C52_ipop_calls_partial : forall T N (ops : nat -> R -> numops T N) e g p x0 n s0 nr rf fuel rc best runs s u m,
  (forall l x, samples_ok (ops l x)) -> flags_wf g -> active g 8 -> q_maxf p = m -> 1 <= m -> e_restart (g_elit g) = false ->
  restart_new ops g p x0 n = Ok s0 -> ipop ops e g nr rf fuel p s0 = Ok (rc, best, runs, s) -> nth_error runs (length runs - 1) = Some u ->
  Z.of_nat (length (t_log s)) < 2 * m + generation_calls e (cfg_at g (u_par u)) + initial_calls g + final_calls e g.
Proof. exact @ipop_calls. Qed.
Print Assumptions C52_ipop_calls_partial.
Theorem C52_ipop_refuted : exists (ops : nat -> R -> numops Z nat) e g p x0 s0 rc best runs s u,
  real_values e /\ active g 8 /\ q_maxf p = 10 /\ restart_new ops g p x0 0%nat = Ok s0 /\ ipop ops e g 5 0 20 p s0 = Ok (rc, best, runs, s) /\
  nth_error runs (length runs - 1) = Some u /\ initial_calls g = 0 /\ final_calls e g = 0 /\
  10 + generation_calls e (cfg_at g (u_par u)) < Z.of_nat (length (t_log s)).
Proof.
  exists demo_ops, demo_e, ipop_g, ipop_p, [4; 4]. eexists _, _, _, _, _, _. split; [apply mk_env_real|]. split; [cbn; tauto|]. split; [reflexivity|]. split; [reflexivity|].
  split; [vm_compute; reflexivity|]. split; [vm_compute; reflexivity|]. repeat split; vm_compute; reflexivity.
Qed.
Print Assumptions C52_ipop_refuted.
(** BIPOP: each run respects its own budget. *)
Theorem C52_bipop_run_calls_partial : forall T N (ops : nat -> R -> numops T N) e g ldef sigma m draw rf fuel nr p x0 n s rc b,
  (forall l x, samples_ok (ops l x)) -> flags_wf g -> active g 8 ->
  e_restart (g_elit g) = false -> (2 <= ldef)%nat -> (forall i, (0 <= draw i < 1)%R) -> q_lambda p = ldef -> restart_new ops g p x0 n = Ok s ->
  bipop ops e g ldef (Some sigma) (Some m) draw nr rf fuel p s = Ok (rc, b) -> forall u, In u (b_runs b) -> 1 <= q_maxf (u_par u) ->
  run_calls u < q_maxf (u_par u) + generation_calls e (cfg_at g (u_par u)) + initial_calls g + final_calls e g.
Proof. exact @bipop_run_calls. Qed.
Print Assumptions C52_bipop_run_calls_partial.
(** In total BIPOP makes at least lambda0 * (2^nrestarts - 1) calls whatever the
    budget. *)
Theorem C52_bipop_total_refuted : forall T N (ops : nat -> R -> numops T N) e g,
  (forall l x, samples_ok (ops l x)) -> e_restart (g_elit g) = false -> (forall so, e_progress e so = 0) ->
  forall ldef sigma m draw, (2 <= ldef)%nat -> (forall i, (0 <= draw i < 1)%R) ->
  forall rf fuel nr p x0 n s rc b, q_lambda p = ldef -> q_sigma p = sigma -> restart_new ops g p x0 n = Ok s ->
  bipop ops e g ldef (Some sigma) (Some m) draw nr rf fuel p s = Ok (rc, b) -> 1 <= nr ->
  Z.of_nat ldef * (2 ^ nr - 1) <= Z.of_nat (length (t_log (b_st b))).
Proof. exact @bipop_calls_ge. Qed.
Print Assumptions C52_bipop_total_refuted.
Theorem C52_bipop_refuted : exists (ops : nat -> R -> numops Z nat) e g p x0 s k rc b,
  real_values e /\ active g 8 /\ q_maxf p = 4 /\ restart_new ops g p x0 0%nat = Ok s /\
  (forall k', (k <= k')%nat -> bipop ops e g 4 (Some 1%R) (Some 4) (fun _ => 0%R) 3 0 k' p s = Ok (rc, b)) /\
  forall u, In u (b_runs b) -> 4 + generation_calls e (cfg_at g (u_par u)) < Z.of_nat (length (t_log (b_st b))).
Proof.
  exists demo_ops, demo_e, bi_g, bi_p, [4; 4]. destruct bipop_over as (s & k & rc & b & H). exists s, k, rc, b. split; [apply mk_env_real|]. split; [cbn; tauto|]. split; [reflexivity|exact H].
Qed.
Print Assumptions C52_bipop_refuted.
Example C52_example : exists s0 rc best runs s u, restart_new demo_ops ipop_g ipop_p [4; 4] 0%nat = Ok s0 /\
  ipop demo_ops demo_e ipop_g 5 0 20 ipop_p s0 = Ok (rc, best, runs, s) /\ nth_error runs (length runs - 1) = Some u /\
  (forall l x, samples_ok (demo_ops l x)) /\ flags_wf ipop_g /\ active ipop_g 8 /\ length (t_log s) = 24%nat /\ generation_calls demo_e (cfg_at ipop_g (u_par u)) = 8.
Proof.
  eexists _, _, _, _, _, _. split; [reflexivity|]. split; [vm_compute; reflexivity|]. split; [vm_compute; reflexivity|]. split; [intros; apply toy_samples|].
  split; [reflexivity|]. split; [cbn; tauto|]. split; vm_compute; reflexivity.
Qed.

(** C53: the schedule of BIPOP.  A small run starts only while the small runs
    have cost less than the large ones, a large run only when they have not;
    large runs double the population, small runs take half the budget of the
    large ones. *)
Theorem C53_schedule : forall T N (ops : nat -> R -> numops T N) e g ldef sigma m draw rf fuel nr p s rc b,
  q_lambda p = ldef -> q_sigma p = sigma -> bipop ops e g ldef (Some sigma) (Some m) draw nr rf fuel p s = Ok (rc, b) ->
  length (filter (fun u => negb (u_small u)) (b_runs b)) = Z.to_nat nr /\
  forall k u, nth_error (b_runs b) k = Some u -> let before := firstn k (b_runs b) in let larges := filter (fun u => negb (u_small u)) before in
    if u_small u then
      spent true before < spent false before /\ q_maxf (u_par u) = spent false before / 2 /\
      (exists i, q_lambda (u_par u) = r2_lambda ldef (ldef * 2 ^ (length larges - 1)) (draw i) /\ q_sigma (u_par u) = r2_sigma (draw (S i))) /\ larges <> []
    else spent false before <= spent true before /\ u_par u = mkRpar (ldef * 2 ^ length larges) sigma m.
Proof. exact @bipop_schedule. Qed.
Print Assumptions C53_schedule.
Theorem C53_population : forall T N (ops : nat -> R -> numops T N) e g ldef sigma m draw rf fuel nr p s rc b,
  (2 <= ldef)%nat -> (forall i, (0 <= draw i < 1)%R) -> q_lambda p = ldef -> q_sigma p = sigma ->
  bipop ops e g ldef (Some sigma) (Some m) draw nr rf fuel p s = Ok (rc, b) -> forall u, In u (b_runs b) -> (2 <= q_lambda (u_par u))%nat.
Proof. exact @bipop_lambda. Qed.
Print Assumptions C53_population.
Theorem C53_fresh_runs : forall T N (ops : nat -> R -> numops T N) e g ldef sigma m draw rf fuel nr p x0 n s rc b,
  e_restart (g_elit g) = false -> (2 <= ldef)%nat -> (forall i, (0 <= draw i < 1)%R) -> q_lambda p = ldef -> restart_new ops g p x0 n = Ok s ->
  bipop ops e g ldef (Some sigma) (Some m) draw nr rf fuel p s = Ok (rc, b) ->
  Forall (fun u => fresh_run ops e g u /\ t_x0 (u_before u) = x0) (b_runs b) /\ consecutive 0 (b_runs b).
Proof. exact @bipop_fresh_runs. Qed.
Print Assumptions C53_fresh_runs.
(** It returns when every run is bounded by the user's evaluation budget and no
    progress function interrupts. *)
Theorem C53_returns_partial : forall T N (ops : nat -> R -> numops T N) e g,
  real_values e -> (forall l x, dims_ok (ops l x) g) -> pheno_total e g -> fixed_in_range g -> (g_gradient g = true -> g_tpa g <> 2) ->
  elitism_le1 g -> g_uh g = false -> pheno_returns e -> flags_wf g -> active g 8 -> (forall so, e_progress e so = 0) ->
  forall ldef sigma m draw, (2 <= ldef)%nat -> (forall i, (0 <= draw i < 1)%R) -> m <> -1 ->
  forall rf nr p x0 n s, q_lambda p = ldef -> restart_new ops g p x0 n = Ok s -> Z.of_nat ldef * 2 ^ (Z.max nr 0 - 1) <= int_max ->
  exists k rc b, forall k', (k <= k')%nat -> bipop ops e g ldef (Some sigma) (Some m) draw nr rf k' p s = Ok (rc, b).
Proof. exact @bipop_returns. Qed.
Print Assumptions C53_returns_partial.
(** A progress function that asks to stop makes it loop for ever. *)
Theorem C53_progress_refuted : exists (ops : nat -> R -> numops Z nat) e g p x0 s,
  real_values e /\ active g 8 /\ q_maxf p = 100 /\ restart_new ops g p x0 0%nat = Ok s /\
  forall rf fuel, bipop ops e g 2 (Some 1%R) (Some 100) (fun _ => 0%R) 2 rf fuel p s = Fault Diverges.
Proof.
  exists once_ops, once, once_g, once_p, [0]. destruct never_returns_bipop as (s & H). exists s. split; [intros k x; apply dint_finite|]. split; [cbn; tauto|]. split; [reflexivity|exact H].
Qed.
Print Assumptions C53_progress_refuted.
(** Constructed from an existing solution it reads an uninitialised budget. *)
Theorem C53_from_solution_refuted : forall T N (ops : nat -> R -> numops T N) e g ldef draw nr rf fuel p s, 1 <= nr ->
  bipop ops e g ldef None None draw nr rf (S fuel) p s = Fault Uninit.
Proof. intros. unfold bipop. destruct (Z.to_nat nr) eqn:E; [lia|]. reflexivity. Qed.
Print Assumptions C53_from_solution_refuted.
Example C53_example : exists s k rc b, restart_new demo_ops bi_g bi_p [4; 4] 0%nat = Ok s /\ q_lambda bi_p = 4%nat /\ q_sigma bi_p = 1%R /\ (0 <= 0 < 1)%R /\
  (forall k', (k <= k')%nat -> bipop demo_ops demo_e bi_g 4 (Some 1%R) (Some 4) (fun _ => 0%R) 3 0 k' bi_p s = Ok (rc, b)) /\ 28 <= Z.of_nat (length (t_log (b_st b))).
Proof.
  destruct bipop_over as (s & k & rc & b & H1 & H2 & _). exists s, k, rc, b. split; [exact H1|]. split; [reflexivity|]. split; [reflexivity|]. split; [lra|]. split; [exact H2|].
  change 28 with (Z.of_nat 4 * (2 ^ 3 - 1)).
  eapply (bipop_calls_ge demo_ops demo_e bi_g) with (draw := fun _ => 0%R); [intros; apply toy_samples|reflexivity|reflexivity| | | | |exact H1|apply (H2 k), Nat.le_refl|]; try reflexivity; try lia. intros; lra.
Qed.
