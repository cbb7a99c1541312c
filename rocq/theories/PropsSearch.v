(** Properties of the search loop (C28, C31-C48, C63).  The theorems hold for
    every numeric part [no : numops T N], i.e. whatever the sampler and the
    updates of mean, covariance and step size do; every user environment [e]
    (objective, transform, progress function) and every configuration [g]
    subject to the stated hypotheses.  Examples and counterexamples use the
    instances of Demo.v. *)
From Coq Require Import Permutation.
From Verif Require Import Base Dbl Config Search SpecSearch SpecStop SpecSafe SpecInvar Par EvalPar.
From Verif Require Import CounterProofs SortProofs StopProofs SafeProofs RunProofs ElitProofs RankProofs EvalParProofs ReachProofs LogProofs SearchThms SearchThms2 Demo DemoProofs.
Local Open Scope Z_scope.

(** C28 *)
Theorem C28_iterations : forall T N (no : numops T N) (e : env T N) (g : cfg T) phi,
  order_preserving phi -> g_uh g = false -> g_gradient g = false ->
  forall x0 n k s, st_new no g x0 n = Ok s ->
  same_result phi (rounds no g e k s) (rounds no g (compose phi e) k s).
Proof. exact @rank_rounds. Qed.
Print Assumptions C28_iterations.
Theorem C28_histories : forall T N (no : numops T N) (e : env T N) (g : cfg T) phi,
  order_preserving phi -> g_uh g = false -> g_gradient g = false ->
  forall x0 n h s, st_new no g x0 n = Ok s -> Forall blind_op h ->
  same_result phi (run_ops no e g h s) (run_ops no (compose phi e) g h s).
Proof. exact @rank_history. Qed.
Print Assumptions C28_histories.
Theorem C28_optimize : forall T N (no : numops T N) (e : env T N) (g : cfg T) phi,
  order_preserving phi -> g_uh g = false -> g_gradient g = false ->
  forall x0 n rf fuel s, g_edm g = false -> ordinal_flags g -> blind_progress e -> st_new no g x0 n = Ok s ->
  same_result phi (rmap snd (optimize no e g (round no e g) rf fuel s))
                  (rmap snd (optimize no (compose phi e) g (round no (compose phi e) g) rf fuel s)) /\
  rmap fst (optimize no e g (round no e g) rf fuel s) =
  rmap fst (optimize no (compose phi e) g (round no (compose phi e) g) rf fuel s).
Proof. exact @rank_optimize. Qed.
Print Assumptions C28_optimize.
(** Doubling, plus one unit in the last place of the model: order preserving. *)
Definition stretch (v : dbl) : dbl := match v with Fin z => Fin (2 * z + 1) | o => o end.
Example C28_example : order_preserving stretch /\ stretch (dint 3) <> dint 3 /\
  exists s s', (do s0 <- st_new demo_no demo_g [4; 4] 0%nat; rounds demo_no demo_g demo_e 3 s0) = Ok s /\
    (do s0 <- st_new demo_no demo_g [4; 4] 0%nat; rounds demo_no demo_g (compose stretch demo_e) 3 s0) = Ok s' /\
    map c_x (s_cands (t_sol s)) = [[1; 1]; [2; -1]; [3; 2]; [4; 0]] /\ map c_x (s_cands (t_sol s')) = map c_x (s_cands (t_sol s)).
Proof.
  split; [|split].
  - split; [reflexivity|]. intros [| |a|] [| |b|]; try reflexivity. cbn [stretch dlt]. destruct (Z.ltb_spec (2 * a + 1) (2 * b + 1)), (Z.ltb_spec a b); try reflexivity; lia.
  - vm_compute. discriminate.
  - eexists. eexists. split; [vm_compute; reflexivity|]. split; [vm_compute; reflexivity|]. split; vm_compute; reflexivity.
Qed.

(** C31 *)
Theorem C31_maximum_partial : forall T N (no : numops T N) (e : env T N) (g : cfg T) (f : nat -> list T -> dbl) h x0 n s0 s,
  let em := with_objective (ctor_func true f) e in
  populations_only em g -> samples_ok no -> no_nan em ->
  st_new no g x0 n = Ok s0 -> Forall (whole_gen g) h -> run_ops no em g h s0 = Ok s ->
  (exists y v, In (y, v) (t_log s)) ->
  exists k y, nth_error (t_log s) k = Some (y, dneg (f k y)) /\ c_f (s_best (t_sol s)) = dneg (f k y) /\
    forall k' y' v', nth_error (t_log s) k' = Some (y', v') -> v' = dneg (f k' y') /\ dle (f k' y') (f k y) = true.
Proof. exact @maximum_seen. Qed.
Print Assumptions C31_maximum_partial.
(** The constructor from a solution does not negate: the run returns the
    smallest value met, not the largest. *)
Theorem C31_from_solution_refuted : exists (no : numops Z nat) (e : env Z nat) (g : cfg Z) (f : nat -> list Z -> dbl) (so : sol Z nat) cols s s',
  run_ops no (with_objective (ctor_func_from_solution true f) e) g [OGen cols []] (st_from_solution no so) = Ok s /\
  run_ops no (with_objective (fun k x => dneg (f k x)) e) g [OGen cols []] (st_from_solution no so) = Ok s' /\
  c_x (best_candidate no (t_sol s)) = [2] /\ c_x (best_candidate no (t_sol s')) = [7].
Proof.
  exists line_no, demo_e, (mk_cfg 1 4), (fun _ x => dint (hd 0 x)).
  exists (match st_new line_no (mk_cfg 1 4) [3] 0%nat with Ok s => t_sol s | Fault _ => mkSol [] [] [] [] [] cand0 None cand0 cand0 0 0 0 0 0 [] 0 0 0 0 0%nat end).
  exists [[5]; [2]; [7]; [6]].
  eexists. eexists. split; [vm_compute; reflexivity|]. split; [vm_compute; reflexivity|]. split; vm_compute; reflexivity.
Qed.
Print Assumptions C31_from_solution_refuted.
Example C31_example : let f := fun (_ : nat) (x : list Z) => dint (hd 0 x) in let em := with_objective (ctor_func true f) demo_e in
  populations_only em (mk_cfg 1 4) /\ samples_ok line_no /\ no_nan em /\
  exists s, (do s0 <- st_new line_no (mk_cfg 1 4) [3] 0%nat; run_ops line_no em (mk_cfg 1 4) [OGen [[5]; [2]; [7]; [6]] []] s0) = Ok s /\
    c_x (s_best (t_sol s)) = [7].
Proof.
  split; [split; [reflexivity|split; [reflexivity|split; [reflexivity|right; split; reflexivity]]]|].
  split; [apply toy_samples|]. split; [intros k x; discriminate|]. eexists. split; [vm_compute; reflexivity|vm_compute; reflexivity].
Qed.

(** C32 *)
Theorem C32_counter : forall T N (no : numops T N) (e : env T N) (g : cfg T) h x0 n s0 s,
  st_new no g x0 n = Ok s0 -> run_ops no e g h s0 = Ok s ->
  t_nevals s = Z.of_nat (length (t_log s)) /\ s_nevals (t_sol s) = Z.of_nat (length (t_log s)).
Proof. exact @fevals_exact. Qed.
Print Assumptions C32_counter.
Theorem C32_counter_from_solution : forall T N (no : numops T N) (e : env T N) (g : cfg T) h so s,
  run_ops no e g h (st_from_solution no so) = Ok s ->
  t_nevals s = Z.of_nat (length (t_log s)) /\ s_nevals (t_sol s) = Z.of_nat (length (t_log s)).
Proof. exact @fevals_exact_from. Qed.
Print Assumptions C32_counter_from_solution.
(** The log used above consists of the objective's own answers. *)
Theorem C32_log : forall T N (no : numops T N) (e : env T N) (g : cfg T) h x0 n s0 s,
  st_new no g x0 n = Ok s0 -> run_ops no e g h s0 = Ok s ->
  forall k y v, nth_error (t_log s) k = Some (y, v) -> v = e_f e k y.
Proof. exact @call_log_run. Qed.
Print Assumptions C32_log.
Example C32_example : exists s, run demo_no demo_e (set_g_init_fvalue true (set_g_gradient true demo_g)) [4; 4] demo_h = Ok s /\ t_nevals s = 22.
Proof. eexists. split; vm_compute; reflexivity. Qed.

(** C33 *)
Theorem C33_schedule_independent : forall T N (no : numops T N) (e : env T N) (g : cfg T) (f : list T -> dbl),
  (forall k x, e_f e k x = f x) -> forall cols phen s s', g_uh g = false ->
  (length cols <= length (s_cands (t_sol s)))%nat -> phen = [] \/ (length cols <= length phen)%nat ->
  eval_par no e g f cols phen s s' -> exists s1, eval no e g cols phen s = Ok s1 /\ same_but_order s1 s'.
Proof. exact @eval_par_seq. Qed.
Print Assumptions C33_schedule_independent.
Theorem C33_schedule_exists : forall T N (no : numops T N) (e : env T N) (g : cfg T) (f : list T -> dbl),
  (forall k x, e_f e k x = f x) -> forall cols phen s s1, g_uh g = false ->
  (length cols <= length (s_cands (t_sol s)))%nat -> phen = [] \/ (length cols <= length phen)%nat ->
  eval no e g cols phen s = Ok s1 -> exists s', eval_par no e g f cols phen s s'.
Proof. exact @eval_par_ex. Qed.
Print Assumptions C33_schedule_exists.
(** Four workers, one action each in turn. *)
Example C33_example : (forall k x, e_f demo_e k x = dint (sphere 0 x)) /\
  exists s s', st_new demo_no demo_g [4; 4] 0%nat = Ok s /\ (4 <= length (s_cands (t_sol s)))%nat /\
    eval_par demo_no demo_e demo_g (fun x => dint (sphere 0 x)) [[3; 1]; [2; 5]; [0; 1]; [2; 5]] [] s s'.
Proof.
  split; [reflexivity|]. eexists. eexists. split; [vm_compute; reflexivity|]. split; [cbn; lia|].
  exists (concat (repeat [2%nat; 0%nat; 3%nat; 1%nat] 4)). eexists. split; [vm_compute; reflexivity|]. split; [|vm_compute; reflexivity].
  intros [|[|[|[|t]]]] l acts H; cbn in H; try (injection H as _ <-; reflexivity). destruct t; discriminate.
Qed.

(** C34 *)
Theorem C34_stable_ranking : forall T N (no : numops T N) (e : env T N) (g : cfg T) s s',
  g_uh g = false -> (forall c, In c (s_cands (t_sol s)) -> c_f c <> NaN) -> tell no e g s = Ok s' ->
  Permutation (s_cands (t_sol s')) (s_cands (t_sol s)) /\ ascending (s_cands (t_sol s')) /\
  stable (s_cands (t_sol s)) (s_cands (t_sol s')).
Proof. exact @tell_ranks. Qed.
Print Assumptions C34_stable_ranking.
Example C34_example : exists s, run demo_no demo_e demo_g [4; 4] [OGen [[3; 1]; [5; 2]; [0; 1]; [2; 5]] []] = Ok s /\
  map c_x (s_cands (t_sol s)) = [[0; 1]; [3; 1]; [5; 2]; [2; 5]].
Proof. eexists. split; vm_compute; reflexivity. Qed.

(** C35, C36: [t_gens] is the list of generations evaluated so far, as the
    objective valued them. *)
Theorem C35_best_seen_partial : forall T N (no : numops T N) (e : env T N) (g : cfg T),
  samples_ok no -> no_nan e -> g_uh g = false -> no_elitism g -> forall h x0 n s0 s,
  st_new no g x0 n = Ok s0 -> Forall (whole_gen g) h -> single_start g h -> run_ops no e g h s0 = Ok s ->
  t_gens s <> [] ->
  (forall gen c, In gen (t_gens s) -> In c gen -> dle (c_f (s_best (t_sol s))) (c_f c) = true) /\
  ((exists gen, In gen (t_gens s) /\ In (s_best (t_sol s)) gen) \/ s_best (t_sol s) = s_init (t_sol s)) /\
  (forall gen c, In gen (t_gens s) -> In c gen -> exists y, In (y, c_f c) (t_log s)).
Proof. exact @best_seen_min. Qed.
Print Assumptions C35_best_seen_partial.
Theorem C36_worst_seen_partial : forall T N (no : numops T N) (e : env T N) (g : cfg T),
  samples_ok no -> no_nan e -> g_uh g = false -> no_elitism g -> forall h x0 n s0 s,
  st_new no g x0 n = Ok s0 -> Forall (whole_gen g) h -> single_start g h -> run_ops no e g h s0 = Ok s ->
  t_gens s <> [] ->
  (forall gen c, In gen (t_gens s) -> In c gen -> dle (c_f c) (c_f (s_worst (t_sol s))) = true) /\
  (exists gen, In gen (t_gens s) /\ In (s_worst (t_sol s)) gen).
Proof. exact @worst_seen_max. Qed.
Print Assumptions C36_worst_seen_partial.
(** Over all calls of the objective, when only populations are evaluated. *)
Theorem C35_over_all_calls_partial : forall T N (no : numops T N) (e : env T N) (g : cfg T),
  populations_only e g -> forall h x0 n s0 s, samples_ok no -> no_nan e ->
  st_new no g x0 n = Ok s0 -> Forall (whole_gen g) h -> run_ops no e g h s0 = Ok s ->
  (exists y v, In (y, v) (t_log s)) ->
  (exists y, In (y, c_f (s_best (t_sol s))) (t_log s)) /\ (exists y, In (y, c_f (s_worst (t_sol s))) (t_log s)) /\
  (forall y v, In (y, v) (t_log s) -> dle (c_f (s_best (t_sol s))) v = true /\ dle v (c_f (s_worst (t_sol s))) = true).
Proof. exact @best_over_calls. Qed.
Print Assumptions C35_over_all_calls_partial.
(** Elitism overwrites an evaluated candidate before it is looked at. *)
Theorem C35_elitism_refuted : exists (no : numops Z nat) (e : env Z nat) (g : cfg Z) x0 r s,
  real_values e /\ dims_ok no g /\ g_elit g = mkElit true false false /\ opt no e g x0 0 3 = Ok (r, s) /\
  exists gen c, In gen (t_gens s) /\ In c gen /\ dlt (c_f c) (c_f (s_best (t_sol s))) = true.
Proof.
  exists line_no, (table [10; 20; 21; 22; 23; 30; 5; 31; 32]), (set_g_elit (mkElit true false false) (set_g_max_iter 2 (mk_cfg 1 4))), [0].
  eexists. eexists. split; [apply mk_env_real|]. split; [apply line_dims; reflexivity|]. split; [reflexivity|]. split; [vm_compute; reflexivity|].
  eexists. eexists. split; [right; left; reflexivity|]. split; [right; left; reflexivity|]. vm_compute. reflexivity.
Qed.
Print Assumptions C35_elitism_refuted.
Theorem C36_elitism_refuted : exists (no : numops Z nat) (e : env Z nat) (g : cfg Z) x0 r s,
  real_values e /\ dims_ok no g /\ g_elit g = mkElit true false false /\ opt no e g x0 0 3 = Ok (r, s) /\
  exists gen c, In gen (t_gens s) /\ In c gen /\ dlt (c_f (s_worst (t_sol s))) (c_f c) = true.
Proof.
  exists line_no, (table [10; 20; 21; 22; 23; 30; 99; 31; 32]), (set_g_elit (mkElit true false false) (set_g_max_iter 2 (mk_cfg 1 4))), [0].
  eexists. eexists. split; [apply mk_env_real|]. split; [apply line_dims; reflexivity|]. split; [reflexivity|]. split; [vm_compute; reflexivity|].
  eexists. eexists. split; [right; left; reflexivity|]. split; [right; left; reflexivity|]. vm_compute. reflexivity.
Qed.
Print Assumptions C36_elitism_refuted.
(** With uncertainty handling the first candidate is the best ranked, not the
    one of least value. *)
Theorem C35_uncertainty_refuted : exists (no : numops Z nat) (e : env Z nat) (g : cfg Z) x0 r s,
  real_values e /\ dims_ok no g /\ no_elitism g /\ g_uh g = true /\ opt no e g x0 0 3 = Ok (r, s) /\
  exists gen c, In gen (t_gens s) /\ In c gen /\ dlt (c_f c) (c_f (s_best (t_sol s))) = true.
Proof.
  exists line_no, (table [0; 10; 20; 25; 5]), (set_g_uh true (set_g_max_iter 1 (mk_cfg 1 3))), [0].
  eexists. eexists. split; [apply mk_env_real|]. split; [apply line_dims; reflexivity|]. split; [reflexivity|]. split; [reflexivity|]. split; [vm_compute; reflexivity|].
  eexists. eexists. split; [left; reflexivity|]. split; [left; reflexivity|]. vm_compute. reflexivity.
Qed.
Print Assumptions C35_uncertainty_refuted.
Example C35_example : samples_ok demo_no /\ no_nan demo_e /\ g_uh demo_g = false /\ no_elitism demo_g /\
  Forall (whole_gen demo_g) demo_h /\ single_start demo_g demo_h /\ populations_only demo_e demo_g /\
  exists s, run demo_no demo_e demo_g [4; 4] demo_h = Ok s /\ length (t_gens s) = 3%nat /\
    s_best (t_sol s) = mkCand (dint 1) [0; 1] 2 (-1) /\ s_worst (t_sol s) = mkCand (dint 40) [6; 2] 3 (-1).
Proof.
  split; [apply toy_samples|]. split; [apply mk_env_nonan|]. split; [reflexivity|]. split; [reflexivity|].
  split; [repeat constructor|]. split; [left; reflexivity|]. split; [split; [reflexivity|split; [reflexivity|split; [reflexivity|right; split; reflexivity]]]|].
  eexists. split; [vm_compute; reflexivity|]. split; [reflexivity|]. split; vm_compute; reflexivity.
Qed.

(** C37 *)
Theorem C37_last_generation_partial : forall T N (no : numops T N) (e : env T N) (g : cfg T),
  samples_ok no -> no_nan e -> g_uh g = false -> no_elitism g -> forall h x0 n s0 s,
  st_new no g x0 n = Ok s0 -> Forall (whole_gen g) h -> single_start g h -> run_ops no e g h s0 = Ok s ->
  forall gen before, t_gens s = before ++ [gen] -> Some (best_candidate no (t_sol s)) = first_min gen.
Proof. exact @best_is_last. Qed.
Print Assumptions C37_last_generation_partial.
Theorem C37_before_partial : forall T N (no : numops T N) (e : env T N) (g : cfg T),
  samples_ok no -> no_nan e -> g_uh g = false -> no_elitism g -> forall h x0 n s0 s,
  st_new no g x0 n = Ok s0 -> Forall (whole_gen g) h -> single_start g h -> run_ops no e g h s0 = Ok s ->
  t_gens s = [] -> best_candidate no (t_sol s) =
    match c_x (s_init (t_sol s)) with [] => cand_of NaN (n_xmean no (s_num (t_sol s))) | _ => s_init (t_sol s) end.
Proof. exact @best_before. Qed.
Print Assumptions C37_before_partial.
(** Whatever the elitism: the first of the least candidates told. *)
Theorem C37_told_partial : forall T N (no : numops T N) (e : env T N) (g : cfg T) s s',
  g_uh g = false -> (forall c, In c (s_cands (t_sol s)) -> c_f c <> NaN) -> 1 <= s_maxhist (t_sol s) -> (0 < length (s_cands (t_sol s)))%nat ->
  tell no e g s = Ok s' -> Some (best_candidate no (t_sol s')) = first_min (s_cands (t_sol s)).
Proof. exact @tell_best. Qed.
Print Assumptions C37_told_partial.
Example C37_example : exists s, run demo_no demo_e demo_g [4; 4] demo_h = Ok s /\
  best_candidate demo_no (t_sol s) = mkCand (dint 2) [1; 1] 2 (-1) /\ length (t_gens s) = 3%nat.
Proof. eexists. split; [vm_compute; reflexivity|]. split; vm_compute; reflexivity. Qed.

(** C38 *)
Theorem C38_least_and_median : forall T N (no : numops T N) (e : env T N) (g : cfg T),
  samples_ok no -> no_nan e -> g_uh g = false -> no_elitism g -> forall h x0 n s0 s,
  st_new no g x0 n = Ok s0 -> Forall (whole_gen g) h -> single_start g h -> run_ops no e g h s0 = Ok s ->
  let limit := Z.to_nat (if 0 <? g_max_hist g then g_max_hist g else 10 + 30 * Z.of_nat (g_dim g) / Z.of_nat (g_lambda g)) in
  let k := Z.to_nat (Z.min (Z.of_nat (g_lambda g) - 1) (1 + cdiv (2 + 5 * Z.of_nat (g_lambda g)) 20)) in
  exists bests kths meds older,
    map Some bests = map first_min (t_gens s) /\ s_hist (t_sol s) = lastn limit bests /\
    length kths = length (t_gens s) /\
    (forall i gen c, nth_error (t_gens s) i = Some gen -> nth_error kths i = Some c ->
       In c gen /\ order_stat k (map c_f gen) (c_f c)) /\
    s_khist (t_sol s) = lastn limit kths /\
    s_bf (t_sol s) = lastn 20 (map c_f bests) /\
    length meds = length (t_gens s) /\
    (forall i gen m, nth_error (t_gens s) i = Some gen -> nth_error meds i = Some m -> is_median (map c_f gen) m) /\
    meds = older ++ s_med (t_sol s).
Proof. exact @windows. Qed.
Print Assumptions C38_least_and_median.
Example C38_example : exists s, run demo_no demo_e (set_g_max_hist 2 demo_g) [4; 4] demo_h = Ok s /\
  map c_x (s_hist (t_sol s)) = [[2; 0]; [1; 1]] /\ length (t_gens s) = 3%nat.
Proof. eexists. split; [vm_compute; reflexivity|]. split; vm_compute; reflexivity. Qed.

(** C39 *)
Theorem C39_best_kept_partial : forall T N (no : numops T N) (e : env T N) (g : cfg T),
  real_values e -> dims_ok no g -> pheno_total e g -> fixed_in_range g -> room g -> elitism_le1 g -> g_uh g = false ->
  e_best (g_elit g) = true -> forall h x0 n s0 s cols phen s1,
  st_new no g x0 n = Ok s0 -> Forall (proper_op g) h -> run_ops no e g h s0 = Ok s -> 0 < t_niter s ->
  length cols = g_lambda g -> eval no e g cols phen s = Ok s1 ->
  (exists c, In c (s_cands (t_sol s1)) /\ dle (c_f c) (c_f (s_best (t_sol s))) = true) /\
  (forall s2, tell no e g s1 = Ok s2 -> dle (c_f (best_candidate no (t_sol s2))) (c_f (s_best (t_sol s))) = true).
Proof. exact @elitism_keeps_best. Qed.
Print Assumptions C39_best_kept_partial.
(** Scheme 2 (initial elitism) brings back the initial point, not the best. *)
Theorem C39_initial_scheme_refuted : exists (no : numops Z nat) (e : env Z nat) (g : cfg Z) x0 r s,
  real_values e /\ dims_ok no g /\ g_elit g = mkElit false true false /\ opt no e g x0 0 3 = Ok (r, s) /\
  0 < t_niter s /\ forall c, In c (s_cands (t_sol s)) -> dlt (c_f (s_best (t_sol s))) (c_f c) = true.
Proof.
  exists line_no, (table [10; 5; 20; 21; 22; 30; 31; 32; 33]), (set_g_elit (mkElit false true false) (set_g_max_iter 2 (mk_cfg 1 4))), [0].
  eexists. eexists. split; [apply mk_env_real|]. split; [apply line_dims; reflexivity|]. split; [reflexivity|]. split; [vm_compute; reflexivity|].
  split; [reflexivity|]. intros c Hc. vm_compute in Hc. decompose [or] Hc; subst; try reflexivity; contradiction.
Qed.
Print Assumptions C39_initial_scheme_refuted.
Example C39_example : let g := set_g_elit (mkElit true false false) (set_g_max_iter 2 (mk_cfg 1 4)) in
  real_values (table [10]) /\ dims_ok line_no g /\ room g /\ elitism_le1 g /\
  exists r s, opt line_no (table [10; 20; 21; 22; 23; 30; 5; 31; 32]) g [0] 0 3 = Ok (r, s) /\ In (cand_of (dint 10) [0]) (s_cands (t_sol s)).
Proof.
  split; [apply mk_env_real|]. split; [apply line_dims; reflexivity|]. split; [split; [cbn; lia|discriminate]|]. split; [split; reflexivity|].
  eexists. eexists. split; [vm_compute; reflexivity|]. vm_compute. auto.
Qed.

(** C40 *)
Theorem C40_counters : forall T N (no : numops T N) (e : env T N) (g : cfg T) h x0 n s0 s,
  st_new no g x0 n = Ok s0 ->
  Forall (fun o => match o with OEval _ _ | OTell | OInc => False | _ => True end) h ->
  run_ops no e g h s0 = Ok s ->
  t_niter s = s_niter (t_sol s) /\ (e_restart (g_elit g) = false -> t_niter s = Z.of_nat (length (t_gens s))).
Proof. exact @iterations_agree. Qed.
Print Assumptions C40_counters.
Example C40_example : Forall (fun o : op Z => match o with OEval _ _ | OTell | OInc => False | _ => True end) demo_h /\
  exists s, run demo_no demo_e demo_g [4; 4] demo_h = Ok s /\ t_niter s = 3.
Proof. split; [repeat constructor|]. eexists. split; vm_compute; reflexivity. Qed.

(** C41 *)
Theorem C41_stop_decision : forall T N (no : numops T N) (e : env T N) (g : cfg T),
  real_values e -> dims_ok no g -> pheno_total e g -> fixed_in_range g -> room g -> elitism_le1 g -> g_uh g = false ->
  forall h x0 n s0 s b s', flags_wf g -> st_new no g x0 n = Ok s0 -> Forall (proper_op g) h -> run_ops no e g h s0 = Ok s ->
  stop no e g s = Ok (b, s') -> 0 <= s_status (t_sol s) -> e_progress e (t_sol s) = 0 -> t_niter s <> 0 ->
  if b then
    In (s_status (t_sol s')) criteria_codes /\ active g (s_status (t_sol s')) /\
    condition no g (s_status (t_sol s')) (t_sol s) /\
    (forall c, active g c -> c < s_status (t_sol s') -> ~ condition no g c (t_sol s))
  else s_status (t_sol s') = 0 /\ (forall c, active g c -> ~ condition no g c (t_sol s)).
Proof. exact @stop_decision. Qed.
Print Assumptions C41_stop_decision.
Theorem C41_run_status : forall T N (no : numops T N) (e : env T N) (g : cfg T),
  real_values e -> dims_ok no g -> pheno_total e g -> fixed_in_range g -> room g -> elitism_le1 g -> g_uh g = false ->
  forall x0 n s0 rf fuel r s, flags_wf g -> g_edm g = false -> st_new no g x0 n = Ok s0 ->
  optimize no e g (round no e g) rf fuel s0 = Ok (r, s) ->
  (s_status (t_sol s) = 0 /\ e_progress e (t_sol s) <> 0) \/
  (In (s_status (t_sol s)) criteria_codes /\ active g (s_status (t_sol s)) /\ condition no g (s_status (t_sol s)) (t_sol s) /\
   forall c, active g c -> c < s_status (t_sol s) -> ~ condition no g c (t_sol s)).
Proof. exact @run_status. Qed.
Print Assumptions C41_run_status.
(** The flags of an optimiser built from parameters are well formed, whatever
    settings the user made. *)
Theorem C41_flags : forall settings, map fst (flags_of_ctor settings) = criteria_codes.
Proof. exact flags_ctor_keys. Qed.
Print Assumptions C41_flags.
Example C41_example : real_values demo_e /\ dims_ok demo_no demo_g /\ pheno_total demo_e demo_g /\ fixed_in_range demo_g /\ room demo_g /\
  elitism_le1 demo_g /\ g_uh demo_g = false /\ flags_wf demo_g /\ Forall (proper_op demo_g) demo_h /\
  exists s, run demo_no demo_e demo_g [4; 4] demo_h = Ok s /\ s_status (t_sol s) = 9.
Proof.
  split; [apply mk_env_real|]. split; [exact demo_dims|]. split; [apply mk_env_pheno|]. split; [exact demo_fixed|]. split; [exact demo_room|].
  split; [exact demo_le1|]. split; [reflexivity|]. split; [reflexivity|]. split; [repeat constructor|]. eexists. split; vm_compute; reflexivity.
Qed.

(** C42 *)
Theorem C42_deactivated : forall T N (no : numops T N) (e : env T N) (g : cfg T) h x0 n s0 s,
  st_new no g x0 n = Ok s0 -> run_ops no e g h s0 = Ok s ->
  s_status (t_sol s) = 0 \/ active g (s_status (t_sol s)).
Proof. exact @status_active. Qed.
Print Assumptions C42_deactivated.
Example C42_example : let g := set_g_flags (flags_of_ctor [(9, false)]) demo_g in ~ active g 9 /\
  exists s, run demo_no demo_e (set_g_max_fevals 12 g) [4; 4] demo_h = Ok s /\ s_status (t_sol s) = 8 /\ t_niter s = 3.
Proof.
  split; [cbn; intros H; decompose [or] H; try contradiction; congruence|]. eexists. split; [vm_compute; reflexivity|]. split; vm_compute; reflexivity.
Qed.

(** C43 *)
Theorem C43_max_iter : forall T N (no : numops T N) (e : env T N) (g : cfg T) m x0 n s0 rf fuel r s,
  samples_ok no -> flags_wf g -> active g 9 -> g_max_iter g = m -> m <> -1 -> e_restart (g_elit g) = false ->
  st_new no g x0 n = Ok s0 -> optimize no e g (round no e g) rf fuel s0 = Ok (r, s) ->
  t_niter s = Z.of_nat (length (t_gens s)) /\ s_niter (t_sol s) = t_niter s /\ t_niter s <= Z.max 1 m /\
  ((forall so, e_progress e so = 0) -> 1 <= t_niter s).
Proof. exact @max_iter_respected. Qed.
Print Assumptions C43_max_iter.
Example C43_example : samples_ok demo_no /\ flags_wf demo_g /\ active demo_g 9 /\ g_max_iter demo_g = 3 /\
  (exists r s, opt demo_no demo_e demo_g [4; 4] 0 10 = Ok (r, s) /\ t_niter s = 3) /\
  (exists r s, opt demo_no demo_e (set_g_max_iter 0 demo_g) [4; 4] 0 10 = Ok (r, s) /\ t_niter s = 1).
Proof.
  split; [apply toy_samples|]. split; [reflexivity|]. split; [cbn; tauto|]. split; [reflexivity|].
  split; eexists; eexists; split; vm_compute; reflexivity.
Qed.

(** C44 *)
Theorem C44_max_fevals : forall T N (no : numops T N) (e : env T N) (g : cfg T) m x0 n s0 rf fuel r s,
  samples_ok no -> flags_wf g -> active g 8 -> g_max_fevals g = m -> 1 <= m -> e_restart (g_elit g) = false ->
  st_new no g x0 n = Ok s0 -> optimize no e g (round no e g) rf fuel s0 = Ok (r, s) ->
  Z.of_nat (length (t_log s)) < m + generation_calls e g + initial_calls g + final_calls e g.
Proof. exact @max_fevals_respected. Qed.
Print Assumptions C44_max_fevals.
Example C44_example : let g := set_g_init_fvalue true (set_g_max_fevals 10 (mk_cfg 2 4)) in
  samples_ok demo_no /\ flags_wf g /\ active g 8 /\ generation_calls demo_e g = 4 /\ initial_calls g = 1 /\
  exists r s, opt demo_no demo_e g [4; 4] 0 20 = Ok (r, s) /\ length (t_log s) = 13%nat /\ s_status (t_sol s) = 8.
Proof.
  split; [apply toy_samples|]. split; [reflexivity|]. split; [cbn; tauto|]. split; [reflexivity|]. split; [reflexivity|].
  eexists. eexists. split; [vm_compute; reflexivity|]. split; vm_compute; reflexivity.
Qed.

(** C45: fuel bounds the number of tests of the loop, rf the number of nested
    restarts; the conclusion holds for all sufficiently large values. *)
Theorem C45_evaluation_budget : forall T N (no : numops T N) (e : env T N) (g : cfg T),
  real_values e -> dims_ok no g -> pheno_total e g -> fixed_in_range g -> room g -> elitism_le1 g -> g_uh g = false -> pheno_returns e ->
  forall m x0 n s0 fuel rf, flags_wf g -> active g 8 -> g_max_fevals g = m -> m <> -1 -> st_new no g x0 n = Ok s0 ->
  2 + Z.max 0 m <= Z.of_nat fuel -> exists r s, optimize no e g (round no e g) rf fuel s0 = Ok (r, s).
Proof. exact @returns_evals. Qed.
Print Assumptions C45_evaluation_budget.
Theorem C45_iteration_budget_partial : forall T N (no : numops T N) (e : env T N) (g : cfg T),
  real_values e -> dims_ok no g -> pheno_total e g -> fixed_in_range g -> room g -> elitism_le1 g -> g_uh g = false -> pheno_returns e ->
  forall m x0 n s0 fuel rf, flags_wf g -> active g 9 -> g_max_iter g = m -> m <> -1 -> st_new no g x0 n = Ok s0 ->
  1 + Z.max 1 m <= Z.of_nat fuel -> exists r s, optimize no e g (round no e g) rf fuel s0 = Ok (r, s).
Proof. exact @returns_iter. Qed.
Print Assumptions C45_iteration_budget_partial.
(** With any elitism, also with uncertainty handling: an evaluation budget
    excludes divergence (the run returns or fails). *)
Theorem C45_evaluation_budget_any : forall T N (no : numops T N) (e : env T N) (g : cfg T) m x0 n s0 rf fuel,
  samples_ok no -> pheno_returns e -> flags_wf g -> active g 8 -> g_max_fevals g = m -> m <> -1 ->
  st_new no g x0 n = Ok s0 -> 2 + Z.max 0 m <= Z.of_nat fuel -> Z.max 0 m < Z.of_nat rf ->
  optimize no e g (round no e g) rf fuel s0 <> Fault Diverges.
Proof. exact @no_divergence_evals. Qed.
Print Assumptions C45_evaluation_budget_any.
(** With scheme 3 and an iteration budget only, restarts may follow for ever. *)
Theorem C45_restart_refuted : exists (no : numops Z nat) (e : env Z nat) (g : cfg Z) x0 s,
  real_values e /\ active g 9 /\ g_max_iter g = 5 /\ g_elit g = mkElit false false true /\ st_new no g x0 0%nat = Ok s /\
  forall rf fuel, optimize no e g (round no e g) rf fuel s = Fault Diverges.
Proof.
  exists loop_no, loop_e, loop_g, [9]. destruct never_returns as (s & H). exists s.
  split; [apply mk_env_real|]. split; [cbn; tauto|]. split; [reflexivity|]. split; [reflexivity|exact H].
Qed.
Print Assumptions C45_restart_refuted.
Example C45_example : pheno_returns demo_e /\ pheno_total demo_e demo_g /\ active demo_g 8 /\ g_max_fevals demo_g = 50 /\
  exists r s, opt demo_no demo_e (set_g_max_iter (-1) demo_g) [4; 4] 0 60 = Ok (r, s) /\ t_nevals s = 52.
Proof.
  split; [apply mk_env_pheno_returns|]. split; [apply mk_env_pheno|]. split; [cbn; tauto|]. split; [reflexivity|].
  eexists. eexists. split; vm_compute; reflexivity.
Qed.

(** C46 *)
Theorem C46_target_stops_partial : forall T N (no : numops T N) (e : env T N) (g : cfg T),
  real_values e -> dims_ok no g -> pheno_total e g -> fixed_in_range g -> room g -> elitism_le1 g -> g_uh g = false ->
  forall h x0 n s0 s, flags_wf g -> active g 10 -> st_new no g x0 n = Ok s0 -> Forall (proper_op g) h -> run_ops no e g h s0 = Ok s ->
  t_niter s <> 0 -> target_reached no g (t_sol s) -> exists s', stop no e g s = Ok (true, s').
Proof. exact @target_stops. Qed.
Print Assumptions C46_target_stops_partial.
Theorem C46_target_reported : forall T N (no : numops T N) (e : env T N) (g : cfg T),
  real_values e -> dims_ok no g -> pheno_total e g -> fixed_in_range g -> room g -> elitism_le1 g -> g_uh g = false ->
  forall h x0 n s0 s b s', flags_wf g -> st_new no g x0 n = Ok s0 -> Forall (proper_op g) h -> run_ops no e g h s0 = Ok s ->
  stop no e g s = Ok (b, s') -> s_status (t_sol s) <> 10 -> s_status (t_sol s') = 10 -> active g 10 /\ target_reached no g (t_sol s).
Proof. exact @target_reported. Qed.
Print Assumptions C46_target_reported.
(** Before the first iteration the criteria are not consulted: the initial
    point reaches the target and a population is drawn all the same. *)
Theorem C46_initial_point_refuted : exists (no : numops Z nat) (e : env Z nat) (g : cfg Z) x0 r s y v,
  real_values e /\ dims_ok no g /\ active g 10 /\ opt no e g x0 0 10 = Ok (r, s) /\
  nth_error (t_log s) 0 = Some (y, v) /\ dle v (g_ftarget g) = true /\ length (t_log s) = 5%nat.
Proof.
  exists line_no, (table [1]), (set_g_ftarget (dint 60) (set_g_init_fvalue true (mk_cfg 1 4))), [0]. do 4 eexists.
  split; [apply mk_env_real|]. split; [apply line_dims; reflexivity|]. split; [cbn; tauto|]. split; [vm_compute; reflexivity|]. split; [reflexivity|]. split; vm_compute; reflexivity.
Qed.
Print Assumptions C46_initial_point_refuted.
Example C46_example : let g := set_g_ftarget (dint 3) demo_g in flags_wf g /\ active g 10 /\
  exists s, run demo_no demo_e g [4; 4] demo_h = Ok s /\ s_status (t_sol s) = 10 /\ t_niter s = 1.
Proof. split; [reflexivity|]. split; [cbn; tauto|]. eexists. split; [vm_compute; reflexivity|]. split; vm_compute; reflexivity. Qed.

(** C47 *)
Theorem C47_return_code : forall T N (no : numops T N) (e : env T N) (g : cfg T) body rf fuel s r s',
  optimize no e g body rf fuel s = Ok (r, s') -> (r = 0 \/ r = -1) /\ (r = 0 <-> 0 <= s_status (t_sol s')).
Proof. exact @return_code. Qed.
Print Assumptions C47_return_code.
(** A criterion with a negative code. *)
Example C47_example : exists s, opt (mkNum (n_xmean demo_no) (n_new demo_no) (n_reset demo_no) (n_eigen demo_no) (n_sample demo_no) (n_gradpt demo_no)
    (n_gradcol demo_no) (n_tpa_points demo_no) (n_coin demo_no) (n_mutate demo_no) (n_tpa demo_no) (n_update demo_no) (n_uh_scale demo_no) (n_edm demo_no)
    (fun c n => (c =? -13) && (2 <=? n)%nat)) demo_e demo_g [4; 4] 0 10 = Ok (-1, s) /\ s_status (t_sol s) = -13.
Proof. eexists. split; vm_compute; reflexivity. Qed.

(** C48 *)
Theorem C48_progress : forall T N (no : numops T N) (e : env T N) (g : cfg T) body fuel s,
  0 <= s_status (t_sol s) -> e_progress e (t_sol s) <> 0 ->
  stop no e g s = Ok (true, s) /\ loop no e g body (S fuel) s = Ok s.
Proof. exact @progress_stops. Qed.
Print Assumptions C48_progress.
Example C48_example : let e := mkEnv (e_f demo_e) false (e_pheno demo_e) (fun so => if 2 <=? s_niter so then 1 else 0) (e_sort demo_e) in
  exists r s, opt demo_no e demo_g [4; 4] 0 10 = Ok (r, s) /\ t_niter s = 2 /\ s_status (t_sol s) = 0 /\ e_progress e (t_sol s) <> 0.
Proof. eexists. eexists. split; [vm_compute; reflexivity|]. split; [reflexivity|]. split; [reflexivity|discriminate]. Qed.

(** C63 *)
Theorem C63_no_fault_partial : forall T N (no : numops T N) (e : env T N) (g : cfg T),
  real_values e -> dims_ok no g -> pheno_total e g -> fixed_in_range g -> room g -> elitism_le1 g -> g_uh g = false ->
  forall h x0 n s0, st_new no g x0 n = Ok s0 -> Forall (proper_op g) h ->
  (exists s, run_ops no e g h s0 = Ok s) \/ run_ops no e g h s0 = Fault Diverges.
Proof. exact @no_fault. Qed.
Print Assumptions C63_no_fault_partial.
(** lambda = 2 with the gradient point and two-point adaptation. *)
Theorem C63_gradient_tpa_refuted : exists (no : numops Z nat) (e : env Z nat) (g : cfg Z) x0,
  real_values e /\ dims_ok no g /\ g_lambda g = 2%nat /\ opt no e g x0 0 10 = Fault OutOfRange.
Proof.
  exists line_no, demo_e, (set_g_gradient true (set_g_tpa 2 (mk_cfg 1 2))), [0].
  split; [apply mk_env_real|]. split; [apply line_dims; reflexivity|]. split; [reflexivity|vm_compute; reflexivity].
Qed.
Print Assumptions C63_gradient_tpa_refuted.
(** Initial elitism in a loop written by the user: the initial point was never
    evaluated, an empty candidate of value NaN is injected and the sort is
    undefined. *)
Theorem C63_user_loop_refuted : exists (no : numops Z nat) (e : env Z nat) (g : cfg Z) x0 pop,
  real_values e /\ dims_ok no g /\ g_elit g = mkElit false true false /\ length pop = g_lambda g /\
  run no e g x0 [OGen pop []; OGen pop []] = Fault BadCompare.
Proof.
  exists line_no, demo_e, (set_g_elit (mkElit false true false) (mk_cfg 1 4)), [0], [[1]; [2]; [3]; [4]].
  split; [apply mk_env_real|]. split; [apply line_dims; reflexivity|]. split; [reflexivity|]. split; [reflexivity|vm_compute; reflexivity].
Qed.
Print Assumptions C63_user_loop_refuted.
(** A solution of another population size given to the constructor. *)
Theorem C63_from_solution_refuted : exists (no : numops Z nat) (e : env Z nat) (g g' : cfg Z) x0 s pop,
  real_values e /\ st_new no g x0 0%nat = Ok s /\ length pop = g_lambda g' /\
  run_ops no e g' [OGen pop []] (st_from_solution no (t_sol s)) = Fault OutOfRange.
Proof.
  exists line_no, demo_e, (mk_cfg 1 2), (mk_cfg 1 4), [0]. eexists. exists [[1]; [2]; [3]; [4]].
  split; [apply mk_env_real|]. split; [vm_compute; reflexivity|]. split; [reflexivity|vm_compute; reflexivity].
Qed.
Print Assumptions C63_from_solution_refuted.
Example C63_example : real_values demo_e /\ dims_ok demo_no demo_g /\ pheno_total demo_e demo_g /\ fixed_in_range demo_g /\ room demo_g /\
  elitism_le1 demo_g /\ Forall (proper_op demo_g) demo_h /\ exists s, run demo_no demo_e demo_g [4; 4] demo_h = Ok s.
Proof.
  split; [apply mk_env_real|]. split; [exact demo_dims|]. split; [apply mk_env_pheno|]. split; [exact demo_fixed|]. split; [exact demo_room|].
  split; [exact demo_le1|]. split; [repeat constructor|]. eexists. vm_compute; reflexivity.
Qed.
