(** Properties of the surrogate strategies (C65, C66, C71-C73, and C67 for the
    errors they report).  The theorems hold for every surrogate model
    [so : surrops T N M], i.e. whatever train and predict compute and whatever
    the selection draws, for both strategies [k], and for every numeric part
    [no], environment [e] and configuration [g] subject to the stated
    hypotheses.  Histories [h] mix all calls of SpecSurr.v. *)
From Coq Require Import Permutation QArith.
From Verif Require Import Base Dbl Config Search SpecSearch SpecUh Surr SpecSurr SurrInv SurrProofs SurrThms SurrThms2 SurrThms3 SurrThms4 Demo SurrDemo SurrDemoProofs.
Local Open Scope Z_scope.

(** C65 *)
Theorem C65_window_partial : forall T N M (so : surrops T N M) (no : numops T N) (e : env T N) (g : cfg T) (k : kind),
  no_elitism g -> g_uh g = false -> samples_ok no -> cand_sort_ok so ->
  forall l m x0 n h u0 u, Forall (sized g) h -> Forall keeps_l h ->
  k_new no g k l m x0 n = Ok u0 -> run_sops so no e g k h u0 = Ok u ->
  u_tset u = lastn (Z.to_nat l) (since_reset u) /\ (length (u_tset u) <= Z.to_nat l)%nat /\
  Forall (evaluated e u) (u_tset u) /\ (k = Simple -> since_reset u = concat (t_gens (u_st u))).
Proof. exact @window_thm. Qed.
Print Assumptions C65_window_partial.
Theorem C65_most_recent_calls_partial : forall T N M (so : surrops T N M) (no : numops T N) (e : env T N) (g : cfg T) (k : kind),
  no_elitism g -> g_uh g = false -> samples_ok no -> cand_sort_ok so ->
  g_gradient g = false -> g_init_fvalue g = false -> g_edm g = false ->
  forall l m x0 n h u0 u, Forall (sized g) h -> Forall keeps_l h ->
  k_new no g k l m x0 n = Ok u0 -> run_sops so no e g k h u0 = Ok u ->
  as_calls e (u_tset u) = Ok (lastn (length (u_tset u)) (t_log (u_st u))) /\
  (k = Simple -> length (u_tset u) = Nat.min (Z.to_nat l) (length (t_log (u_st u)))).
Proof. exact @recent_thm. Qed.
Print Assumptions C65_most_recent_calls_partial.
(** Whatever the user does with the length, the set is the end of the sequence
    of evaluated candidates. *)
Theorem C65_end_of_sequence : forall T N M (so : surrops T N M) (no : numops T N) (e : env T N) (g : cfg T) (k : kind),
  no_elitism g -> g_uh g = false -> samples_ok no -> cand_sort_ok so ->
  forall l m x0 n h u0 u, Forall (sized g) h ->
  k_new no g k l m x0 n = Ok u0 -> run_sops so no e g k h u0 = Ok u ->
  exists older, since_reset u = older ++ u_tset u.
Proof. exact @suffix_thm. Qed.
Print Assumptions C65_end_of_sequence.
Example C65_example : no_elitism acm_g /\ g_uh acm_g = false /\ samples_ok demo_no /\ cand_sort_ok good_so /\
  Forall (sized acm_g) acm_h /\ Forall keeps_l acm_h /\
  exists u, srun good_so demo_no demo_e acm_g acm_k 12 [4; 4] acm_h = Ok u /\
    length (u_tset u) = 12%nat /\ length (t_log (u_st u)) = 20%nat /\ map (@length _) (t_gens (u_st u)) = [6; 6; 2; 2; 2; 2]%nat /\
    map c_x (firstn 2 (u_tset u)) = [[4; 1]; [6; 2]].
Proof.
  split; [reflexivity|]. split; [reflexivity|]. split; [apply toy_samples|]. split; [apply mk_so_sort|]. split; [repeat constructor|]. split; [repeat constructor|].
  eexists. split; [vm_compute; reflexivity|]. repeat split; vm_compute; reflexivity.
Qed.
(** A length lowered during the run is exceeded for ever after: every added
    candidate removes only one. *)
Theorem C65_lowered_length_refuted : exists h u, srun good_so demo_no demo_e acm_g Simple 12 [4; 4] h = Ok u /\
  u_l u = 3 /\ length (u_tset u) = 12%nat /\ length (filter (fun o => match o with SRound => true | _ => false end) h) = 4%nat.
Proof. exists [SRound; SRound; SSetL 3; SRound; SRound]. eexists. split; [vm_compute; reflexivity|]. repeat split; vm_compute; reflexivity. Qed.
Print Assumptions C65_lowered_length_refuted.
(** With elitism the set contains the re-injected best candidate in place of
    one that was evaluated later. *)
Theorem C65_elitism_refuted : exists h u, srun low_so demo_no demo_e (set_g_elit (mkElit true false false) acm_g) Simple 14 [4; 4] h = Ok u /\
  (length (u_tset u) <= length (t_log (u_st u)))%nat /\
  as_calls demo_e (u_tset u) <> Ok (lastn (length (u_tset u)) (t_log (u_st u))).
Proof.
  exists [SRound; SRound; SRound]. eexists. split; [vm_compute; reflexivity|]. split; [vm_compute; lia|].
  intros Q. assert (E : match as_calls demo_e (u_tset _) with Ok l => map fst l | Fault _ => [] end = map fst (lastn _ _)) by (rewrite Q; reflexivity).
  vm_compute in E. discriminate.
Qed.
Print Assumptions C65_elitism_refuted.

(** C66 *)
Theorem C66_true_values_partial : forall T N M (so : surrops T N M) (no : numops T N) (e : env T N) (g : cfg T) (k : kind),
  no_elitism g -> g_uh g = false -> samples_ok no -> cand_sort_ok so ->
  forall l m x0 n h u0 u, below_max e \/ k = Simple -> Forall (sized g) h -> (k = Simple -> Forall keeps_nsteps h) ->
  k_new no g k l m x0 n = Ok u0 -> run_sops so no e g k h u0 = Ok u ->
  (forall c, In c (s_hist (t_sol (u_st u))) -> evaluated e u c) /\
  (s_hist (t_sol (u_st u)) <> [] -> evaluated e u (best_candidate no (t_sol (u_st u)))) /\
  (s_best (t_sol (u_st u)) <> cand0 -> evaluated e u (s_best (t_sol (u_st u)))).
Proof. exact @truth_thm. Qed.
Print Assumptions C66_true_values_partial.
(** Criteria other than STAGNATION and, for the simple strategy, AUTOMAXITER
    and FTARGET, are as the user configured them: any configuration, any history. *)
Theorem C66_criteria_kept_partial : forall T N M (so : surrops T N M) (no : numops T N) (e : env T N) (g : cfg T) (k : kind),
  forall l m x0 n h u0 u, k_new no g k l m x0 n = Ok u0 -> run_sops so no e g k h u0 = Ok u ->
  forall c v, (c <> 6 /\ (k = Simple -> c <> 7 /\ c <> 10)) -> In (c, v) (u_flags u) <-> In (c, v) (g_flags g).
Proof. exact @flags_thm. Qed.
Print Assumptions C66_criteria_kept_partial.
Example C66_example : below_max demo_e /\ exists u, srun good_so demo_no demo_e acm_g acm_k 12 [4; 4] acm_h = Ok u /\
  c_x (best_candidate demo_no (t_sol (u_st u))) = [0; 0] /\ s_best (t_sol (u_st u)) <> cand0 /\ t_niter (u_st u) = 6.
Proof.
  split; [apply mk_env_below|]. eexists. split; [vm_compute; reflexivity|]. split; [vm_compute; reflexivity|]. split; [vm_compute; discriminate|vm_compute; reflexivity].
Qed.
(** The simple strategy reports a prediction as the best candidate. *)
Theorem C66_prediction_reported_refuted : exists h u, srun low_so demo_no demo_e acm_g Simple 6 [4; 4] h = Ok u /\
  c_f (best_candidate demo_no (t_sol (u_st u))) = dint (-96) /\ c_f (s_best (t_sol (u_st u))) = dint (-96) /\
  forall k x, 0 <= sphere k x.
Proof.
  exists [SSetNsteps 2; SRound; SRound]. eexists. split; [vm_compute; reflexivity|]. split; [vm_compute; reflexivity|]. split; [vm_compute; reflexivity|].
  intros k x. unfold sphere. induction x as [|v x IH]; cbn [map fold_right]; [lia|nia].
Qed.
Print Assumptions C66_prediction_reported_refuted.
(** An objective that overflows: the value reported is the largest double, which
    it never returned. *)
Theorem C66_overflow_refuted : exists h u, srun good_so demo_no inf_e acm_g acm_k 12 [4; 4] h = Ok u /\
  c_f (best_candidate demo_no (t_sol (u_st u))) = dbl_max /\ forall k x, e_f inf_e k x = PosInf.
Proof. exists [SSetPrelambda 12; SRound; SRound; SRound]. eexists. split; [vm_compute; reflexivity|]. split; [vm_compute; reflexivity|]. reflexivity. Qed.
Print Assumptions C66_overflow_refuted.
(** FTARGET, which the user turned off, is on after the first generation, and
    STAGNATION, which they asked for, is off. *)
Theorem C66_criteria_refuted : exists u, srun good_so demo_no demo_e (set_g_flags (flags_of_ctor [(10, false); (6, true)]) acm_g) Simple 12 [4; 4] [SRound] = Ok u /\
  In (10, false) (flags_of_ctor [(10, false); (6, true)]) /\ In (10, true) (u_flags u) /\
  In (6, true) (flags_of_ctor [(10, false); (6, true)]) /\ In (6, false) (u_flags u).
Proof. eexists. split; [vm_compute; reflexivity|]. vm_compute. intuition. Qed.
Print Assumptions C66_criteria_refuted.

(** C67, errors reported by the strategies *)
Theorem C67_errors_partial : forall T N M (so : surrops T N M) (no : numops T N) (e : env T N) (g : cfg T) (k : kind),
  no_elitism g -> g_uh g = false -> samples_ok no -> cand_sort_ok so ->
  forall l m x0 n h u0 u, (match k with Simple => 2 | ACM _ => 6 end <= g_lambda g)%nat -> 2 <= l -> Forall (sized g) h -> Forall (error_op k) h ->
  k_new no g k l m x0 n = Ok u0 -> run_sops so no e g k h u0 = Ok u ->
  unit_error (u_train_err u) /\ unit_error (u_test_err u) /\ unit_error (u_smooth u).
Proof. exact @errors_thm. Qed.
Print Assumptions C67_errors_partial.
Example C67_errors_example : exists u, srun (mk_so (fun x => 2 - sphere 0 x) 20 6) demo_no demo_e acm_g acm_k 12 [4; 4] acm_h = Ok u /\
  Forall (error_op acm_k) acm_h /\ (exists q, u_test_err u = Some q /\ (q == 1)%Q) /\ exists q, u_train_err u = Some q /\ (q == 65 # 66)%Q.
Proof.
  eexists. split; [vm_compute; reflexivity|]. split; [repeat constructor|]. split; (eexists; split; [vm_compute; reflexivity|]); vm_compute; reflexivity.
Qed.
(** In one dimension the default population has four candidates, of which one
    is evaluated: the test error is 0/0. *)
Theorem C67_small_population_refuted : exists u,
  srun (mk_so (fun x => sphere 0 x) 8 4) (toy [4] (fun n i => [Z.of_nat i - 2])) demo_e (mk_cfg 1 4) acm_k 8 [4] [SSetPrelambda 8; SRound; SRound; SRound] = Ok u /\
  u_lambdap u = 1 /\ u_test_err u = None /\ u_smooth u = None.
Proof. eexists. split; [vm_compute; reflexivity|]. repeat split; vm_compute; reflexivity. Qed.
Print Assumptions C67_small_population_refuted.

(** C71 *)
Theorem C71_counter : forall T N M (so : surrops T N M) (no : numops T N) (e : env T N) (g : cfg T) (k : kind) h l m x0 n u0 u,
  k_new no g k l m x0 n = Ok u0 -> run_sops so no e g k h u0 = Ok u ->
  (t_nevals (u_st u) = Z.of_nat (length (t_log (u_st u))) /\ s_nevals (t_sol (u_st u)) = Z.of_nat (length (t_log (u_st u)))) /\
  forall i y v, nth_error (t_log (u_st u)) i = Some (y, v) -> v = e_f e i y.
Proof. exact @logged_ops. Qed.
Print Assumptions C71_counter.
Example C71_example : exists u, srun good_so demo_no demo_e acm_g acm_k 12 [4; 4] acm_h = Ok u /\ t_nevals (u_st u) = 20.
Proof. eexists. split; [vm_compute; reflexivity|vm_compute; reflexivity]. Qed.

(** C72 *)
Theorem C72_preselection_ends_partial : forall T N M (so : surrops T N M) (no : numops T N) (e : env T N) (g : cfg T) cols ph (u : surr T N M),
  cand_sort_ok so -> (forall x, e_pheno e x <> Fault Diverges) -> u_exploit u && full u = true ->
  (g_lambda g <= length cols)%nat -> u_lambdap u <= Z.of_nat (Nat.max 1 (g_lambda g)) ->
  fair (length cols) (p_draw0 so) -> fair (Nat.max 1 (g_lambda g)) (p_draw1 so) ->
  exists d r, r <> Fault Diverges /\ forall d', (d <= d')%nat -> acm_eval so no e g d' cols ph u = r.
Proof. exact @acm_ends. Qed.
Print Assumptions C72_preselection_ends_partial.
(** Both conditions on the sizes are needed, whatever is drawn. *)
Theorem C72_sizes_needed : forall T N M (so : surrops T N M) (no : numops T N) (e : env T N) (g : cfg T) d cols ph (u u' : surr T N M),
  cand_sort_ok so -> u_exploit u && full u = true -> acm_eval so no e g d cols ph u = Ok u' ->
  (g_lambda g <= length cols)%nat /\ u_lambdap u <= Z.of_nat (Nat.max 1 (g_lambda g)).
Proof. exact @acm_sizes. Qed.
Print Assumptions C72_sizes_needed.
Example C72_example : cand_sort_ok good_so /\ fair 12 (p_draw0 good_so) /\ fair 6 (p_draw1 good_so) /\
  exists u pop u', srun good_so demo_no demo_e acm_g acm_k 12 [4; 4] [SSetPrelambda 12; SRound; SRound] = Ok u /\
    acm_ask demo_no demo_e acm_g u = Ok (pop, u') /\ length pop = 12%nat /\ u_exploit u' && full u' = true /\ u_lambdap u' = 2.
Proof.
  split; [apply mk_so_sort|]. split; [apply fair_mod; lia|]. split; [apply fair_mod; lia|].
  eexists. eexists. eexists. split; [vm_compute; reflexivity|]. split; [vm_compute; reflexivity|]. repeat split; vm_compute; reflexivity.
Qed.
(** set_prelambda below lambda: the third generation never ends. *)
Theorem C72_small_prelambda_refuted : exists u, srun good_so demo_no demo_e acm_g acm_k 12 [4; 4] few_h = Ok u /\
  forall d, k_round good_so demo_no demo_e acm_g (ACM d) u = Fault Diverges.
Proof.
  eexists. split; [vm_compute; reflexivity|]. unfold k_round. eapply few_round; [vm_compute; reflexivity|vm_compute; reflexivity|vm_compute; reflexivity|vm_compute; reflexivity|vm_compute; lia].
Qed.
Print Assumptions C72_small_prelambda_refuted.
(** set_lambdaprime above lambda *)
Theorem C72_large_lambdaprime_refuted : exists u, srun good_so demo_no demo_e acm_g acm_k 12 [4; 4] many_h = Ok u /\
  forall d u', k_round good_so demo_no demo_e acm_g (ACM d) u <> Ok u'.
Proof. exact many_refuted. Qed.
Print Assumptions C72_large_lambdaprime_refuted.
(** set_nsteps(0) is accepted; the next generation divides by zero. *)
Theorem C72_zero_lifelength_refuted : exists u, srun good_so demo_no demo_e acm_g Simple 12 [4; 4] [SRound; SSetNsteps 0] = Ok u /\
  k_round good_so demo_no demo_e acm_g Simple u = Fault DivByZero.
Proof. eexists. split; [vm_compute; reflexivity|vm_compute; reflexivity]. Qed.
Print Assumptions C72_zero_lifelength_refuted.

(** C73 *)
Theorem C73_best_of_generation_partial : forall T N M (so : surrops T N M) (no : numops T N) (e : env T N) (g : cfg T),
  no_elitism g -> g_uh g = false -> cand_sort_ok so ->
  forall d cols ph (u u1 u2 : surr T N M), (1 <= g_lambda g)%nat -> length (s_cands (t_sol (u_st u))) = g_lambda g ->
  (length cols = g_lambda g \/ u_exploit u && full u = true) ->
  mapM (e_pheno e) cols = Ok ph -> 1 <= s_maxhist (t_sol (u_st u)) ->
  acm_eval so no e g d cols ph u = Ok u1 -> acm_tell so no u1 = Ok u2 ->
  (u_exploit u = false \/ full u = true \/ full u1 = false) ->
  exists test, t_gens (u_st u2) = t_gens (u_st u) ++ [test] /\ test <> [] /\
    forall b, In b test -> dlt (c_f b) (c_f (best_candidate no (t_sol (u_st u2)))) = false.
Proof. exact @gen_best. Qed.
Print Assumptions C73_best_of_generation_partial.
Example C73_example : exists u pop u' u1 u2, srun good_so demo_no demo_e acm_g acm_k 12 [4; 4] [SSetPrelambda 12; SRound; SRound] = Ok u /\
  acm_ask demo_no demo_e acm_g u = Ok (pop, u') /\ acm_eval good_so demo_no demo_e acm_g 100 pop pop u' = Ok u1 /\ acm_tell good_so demo_no u1 = Ok u2 /\
  full u' = true /\ length (s_cands (t_sol (u_st u'))) = 6%nat /\ 1 <= s_maxhist (t_sol (u_st u')) /\ mapM (e_pheno demo_e) pop = Ok pop /\
  c_f (best_candidate demo_no (t_sol (u_st u2))) = dint 2.
Proof.
  do 5 eexists. do 4 (split; [vm_compute; reflexivity|]). split; [vm_compute; reflexivity|]. split; [vm_compute; reflexivity|]. split; [vm_compute; discriminate|]. split; vm_compute; reflexivity.
Qed.
(** In the generation that fills the training set the candidates are not sorted:
    the one reported as best has value 26, another one value 4, and the mean is
    moved with the weights in the order of sampling. *)
Theorem C73_unsorted_generation_refuted : exists u test, srun good_so demo_no demo_e acm_g acm_k 12 [4; 4] [SRound; SRound] = Ok u /\
  last (t_gens (u_st u)) [] = test /\ c_f (best_candidate demo_no (t_sol (u_st u))) = dint 26 /\
  (exists b, In b test /\ c_f b = dint 4) /\ c_f (s_best (t_sol (u_st u))) = dint 10 /\ s_cands (t_sol (u_st u)) = test.
Proof.
  eexists. eexists. split; [vm_compute; reflexivity|]. split; [vm_compute; reflexivity|]. split; [vm_compute; reflexivity|].
  split; [eexists; split; [right; left; reflexivity|vm_compute; reflexivity]|]. split; vm_compute; reflexivity.
Qed.
Print Assumptions C73_unsorted_generation_refuted.
