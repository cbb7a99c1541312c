(** Histories, best candidate, ranking and absence of faults under every
    setting: elitism, uncertainty handling, restarts of optimize() (C37, C38,
    C59, C63). *)
From Coq Require Import Permutation.
From Verif Require Import Base Dbl Config Search SpecSearch SpecStop SpecSafe SpecUh SpecWindow WindowProofs SafeAllProofs Demo DemoProofs.
Local Open Scope Z_scope.

(** C38.  [since] are the generations told since the solution object was
    created (the last elitist restart), [ranks] their rankings. *)
Theorem C38_windows : forall T N (no : numops T N) (e : env T N) (g : cfg T),
  samples_ok no -> (forall n, length (n_xmean no n) = g_dim g) -> std_sort_ok e -> forall h x0 n s0 s,
  st_new no g x0 n = Ok s0 -> Forall (whole_gen g) h -> run_ops no e g h s0 = Ok s ->
  exists before since ranks bests kths meds,
    t_gens s = before ++ since /\ s_niter (t_sol s) = Z.of_nat (length since) /\
    Forall2 (ranking_of g) since ranks /\
    Forall2 (at_rank 0) ranks bests /\ Forall2 (at_rank (kept_rank g)) ranks kths /\ Forall2 middle_value ranks meds /\
    s_hist (t_sol s) = lastn (history_limit g) bests /\ s_khist (t_sol s) = lastn (history_limit g) kths /\
    s_bf (t_sol s) = lastn 20 (map c_f bests) /\
    s_med (t_sol s) = lastn (medians_limit g (length since - 1)) meds.
Proof. exact @windows_all. Qed.
Print Assumptions C38_windows.
Theorem C38_lengths : forall T N (no : numops T N) (e : env T N) (g : cfg T),
  samples_ok no -> (forall n, length (n_xmean no n) = g_dim g) -> std_sort_ok e -> forall h x0 n s0 s,
  st_new no g x0 n = Ok s0 -> Forall (whole_gen g) h -> run_ops no e g h s0 = Ok s ->
  length (s_hist (t_sol s)) = Nat.min (history_limit g) (Z.to_nat (s_niter (t_sol s))) /\
  length (s_khist (t_sol s)) = Nat.min (history_limit g) (Z.to_nat (s_niter (t_sol s))) /\
  length (s_bf (t_sol s)) = Nat.min 20 (Z.to_nat (s_niter (t_sol s))) /\
  length (s_med (t_sol s)) = Nat.min (medians_limit g (Z.to_nat (s_niter (t_sol s)) - 1)) (Z.to_nat (s_niter (t_sol s))).
Proof. exact @windows_bounded. Qed.
Print Assumptions C38_lengths.
(** Uncertainty handling and elitism together, histories of two entries. *)
Definition all_g : cfg Z := set_g_uh true (set_g_elit (mkElit true false false) (set_g_max_hist 2 (set_g_max_iter 4 (mk_cfg 1 5)))).
Example C38_example_every_mode : samples_ok line_no /\ (forall n, length (n_xmean line_no n) = g_dim all_g) /\ std_sort_ok demo_e /\
  Forall (whole_gen all_g) [OOptimize 0 10] /\ history_limit all_g = 2%nat /\
  match run line_no demo_e all_g [0] [OOptimize 0 10] with
  | Ok s => length (t_gens s) = 4%nat /\ map c_x (s_hist (t_sol s)) = [[22]; [32]] /\ length (s_med (t_sol s)) = 4%nat
  | Fault _ => False end.
Proof.
  split; [apply toy_samples|]. split; [reflexivity|]. split; [apply mk_env_sort|]. split; [repeat constructor|].
  split; [reflexivity|]. vm_compute. auto.
Qed.

(** C37 under every setting: the first of the last ranking. *)
Theorem C37_ranked_partial : forall T N (no : numops T N) (e : env T N) (g : cfg T),
  samples_ok no -> (forall n, length (n_xmean no n) = g_dim g) -> std_sort_ok e -> forall h x0 n s0 s,
  st_new no g x0 n = Ok s0 -> Forall (whole_gen g) h -> run_ops no e g h s0 = Ok s -> 0 < s_niter (t_sol s) ->
  exists before gen r, t_gens s = before ++ [gen] /\ ranking_of g gen r /\ at_rank 0 r (best_candidate no (t_sol s)).
Proof. exact @best_ranked. Qed.
Print Assumptions C37_ranked_partial.
(** With uncertainty handling it is not the least of the generation, nor is it
    less than the others after re-evaluation. *)
Theorem C37_uncertainty_refuted : exists (no : numops Z nat) (e : env Z nat) (g : cfg Z) x0 pop,
  real_values e /\ dims_ok no g /\ std_sort_ok e /\ g_uh g = true /\ no_elitism g /\ length pop = g_lambda g /\
  exists s c, run no e g x0 [OGen pop []] = Ok s /\ In c (s_cands (t_sol s)) /\ dlt (c_f c) (c_f (best_candidate no (t_sol s))) = true.
Proof.
  exists line_no, (table [0; 10; 20; 25; 5]), (set_g_uh true (mk_cfg 1 3)), [0], [[1]; [2]; [3]].
  split; [apply mk_env_real|]. split; [apply line_dims; reflexivity|]. split; [apply mk_env_sort|]. repeat (split; [reflexivity|]).
  eexists. eexists. split; [vm_compute; reflexivity|]. split; [cbn; right; right; left; reflexivity|vm_compute; reflexivity].
Qed.
Print Assumptions C37_uncertainty_refuted.
(** With initial elitism the second candidate of a generation is overwritten
    even when it is the least of them. *)
Theorem C37_elitism_refuted : exists (no : numops Z nat) (e : env Z nat) (g : cfg Z) x0,
  real_values e /\ dims_ok no g /\ g_elit g = mkElit false true false /\ g_uh g = false /\
  exists s before gen c, run no e g x0 [OOptimize 0 5] = Ok s /\
    t_gens s = before ++ [gen] /\ In c gen /\ dlt (c_f c) (c_f (best_candidate no (t_sol s))) = true.
Proof.
  exists line_no, (table [10; 20; 21; 22; 23; 30; 3; 32; 33]), (set_g_elit (mkElit false true false) (set_g_max_iter 2 (mk_cfg 1 4))), [0].
  split; [apply mk_env_real|]. split; [apply line_dims; reflexivity|]. split; [reflexivity|]. split; [reflexivity|].
  eexists. eexists [_]. eexists. eexists. split; [vm_compute; reflexivity|]. split; [cbn; reflexivity|].
  split; [right; left; reflexivity|vm_compute; reflexivity].
Qed.
Print Assumptions C37_elitism_refuted.

(** C59 with elitism: the ranks are those of the candidates before the
    replacement of the second one. *)
Theorem C59_elitism_refuted : exists (no : numops Z nat) (e : env Z nat) (g : cfg Z) x0,
  real_values e /\ dims_ok no g /\ std_sort_ok e /\ g_uh g = true /\ g_elit g = mkElit true false false /\
  exists s i a c, run no e g x0 [OOptimize 0 5] = Ok s /\
    nth_error (s_cuh (t_sol s)) i = Some a /\ nth_error (s_cands (t_sol s)) i = Some c /\ r_f a <> c_f c.
Proof.
  exists line_no, demo_e, (set_g_uh true (set_g_elit (mkElit true false false) (set_g_max_iter 2 (mk_cfg 1 5)))), [0].
  split; [apply mk_env_real|]. split; [apply line_dims; reflexivity|]. split; [apply mk_env_sort|]. split; [reflexivity|]. split; [reflexivity|].
  eexists. exists 3%nat. eexists. eexists. split; [vm_compute; reflexivity|]. split; [cbn; reflexivity|]. split; [cbn; reflexivity|discriminate].
Qed.
Print Assumptions C59_elitism_refuted.

(** C63 with uncertainty handling and initial elitism: the only failure left is
    the sort of the former (C60). *)
Theorem C63_every_mode_partial : forall T N (no : numops T N) (e : env T N) (g : cfg T),
  real_values e -> dims_ok no g -> pheno_total e g -> fixed_in_range g -> room g -> e_restart (g_elit g) = false ->
  (g_uh g = true -> reevaluation_ok no g /\ std_sort_ok e) -> forall h x0 n s0, st_new no g x0 n = Ok s0 -> Forall (proper_op g) h ->
  (e_init (g_elit g) = true -> exists rf fuel h', h = OOptimize rf fuel :: h') ->
  (exists s, run_ops no e g h s0 = Ok s) \/ run_ops no e g h s0 = Fault Diverges \/
  (g_uh g = true /\ run_ops no e g h s0 = Fault BadCompare).
Proof. exact @no_fault_all. Qed.
Print Assumptions C63_every_mode_partial.
Definition all_init_g : cfg Z := set_g_elit (mkElit false true false) all_g.
Example C63_example_every_mode : real_values demo_e /\ dims_ok line_no all_init_g /\ pheno_total demo_e all_init_g /\ fixed_in_range all_init_g /\
  room all_init_g /\ reevaluation_ok line_no all_init_g /\ std_sort_ok demo_e /\ Forall (proper_op all_init_g) [OOptimize 0 10; OGen [[1]; [2]; [3]; [4]; [5]] []] /\
  match run line_no demo_e all_init_g [0] [OOptimize 0 10; OGen [[1]; [2]; [3]; [4]; [5]] []] with
  | Ok s => length (t_gens s) = 5%nat | Fault _ => False end.
Proof.
  split; [apply mk_env_real|]. split; [apply line_dims; reflexivity|]. split; [apply mk_env_pheno|]. split; [intros i v []|].
  split; [split; [cbn; lia|discriminate]|]. split; [split; [cbn; lia|intros cols n; apply map_length]|]. split; [apply mk_env_sort|].
  split; [repeat constructor|]. vm_compute. reflexivity.
Qed.
(** Elitist restart with the evaluation of the initial point switched on: when
    no generation improves on the initial point, the restart test reads an
    iteration number that was never set. *)
Theorem C63_elitist_restart_refuted : exists (no : numops Z nat) (e : env Z nat) (g : cfg Z) x0,
  real_values e /\ dims_ok no g /\ room g /\ g_uh g = false /\ g_elit g = mkElit false false true /\ opt no e g x0 3 10 = Fault Uninit.
Proof.
  exists line_no, (table [1; 5; 6; 7]), (set_g_init_fvalue true (set_g_elit (mkElit false false true) (set_g_max_iter 4 (mk_cfg 1 3)))), [0].
  split; [apply mk_env_real|]. split; [apply line_dims; reflexivity|]. split; [split; [cbn; lia|discriminate]|].
  split; [reflexivity|]. split; [reflexivity|]. vm_compute; reflexivity.
Qed.
Print Assumptions C63_elitist_restart_refuted.
