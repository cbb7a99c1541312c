{
 "claims": [
  {
   "property": "C01",
   "status": "proved",
   "theorems": [
    "C01_feasible",
    "C01_feasible_within_range"
   ],
   "note": "For every genotype: feasible result, or the int conversion of the period count is out of range (undefined); never the latter within 2^32 widths of the bounds. Exact arithmetic."
  },
  {
   "property": "C02",
   "status": "proved",
   "theorems": [
    "C02_round_trip"
   ],
   "note": "Exact arithmetic."
  },
  {
   "property": "C03",
   "status": "proved",
   "theorems": [
    "C03_core_identity",
    "C03_monotone",
    "C03_periodic",
    "C03_reached_from_far",
    "C03_no_stretch"
   ],
   "note": "Identity in the core, monotone on the extended interval, periodic, feasible points reached from far out."
  },
  {
   "property": "C04",
   "status": "proved",
   "theorems": [
    "C04_endpoints",
    "C04_increasing",
    "C04_inverse",
    "C04_user_inverse"
   ],
   "note": ""
  },
  {
   "property": "C05",
   "status": "proved",
   "theorems": [
    "C05_feasible",
    "C05_round_trip",
    "C05_reported_bounds"
   ],
   "note": ""
  },
  {
   "property": "C06",
   "status": "partial",
   "theorems": [
    "C06_feasible_positive_partial",
    "C06_reported_bounds_refuted",
    "C06_feasible_refuted",
    "C06_no_bounds_refuted"
   ],
   "note": "Full statement is false of the code: reported bounds are the scaled ones, a negative factor leaves the bounds, no bounds given makes pheno read outside its vectors. Proved: feasibility for positive factors."
  },
  {
   "property": "C07",
   "status": "proved",
   "theorems": [
    "C07_population_columns",
    "C07_geno_population_columns",
    "C07_any_schedule",
    "C07_geno_any_schedule",
    "C07_schedules_exist"
   ],
   "note": "Sequential equality plus independence of the interleaving of the OpenMP loops."
  },
  {
   "property": "C08",
   "status": "partial",
   "theorems": [
    "C08_bounds_compose",
    "C08_bounds_lin_compose",
    "C08_bounds_round_trip",
    "C08_bounds_lin_round_trip",
    "C08_unbounded",
    "C08_unbounded_lin_refuted"
   ],
   "note": "Full statement is false for scaling without bounds: geno returns an uninitialised vector. Proved for the other three combinations."
  },
  {
   "property": "C09",
   "status": "partial",
   "theorems": [
    "C09_remove_pheno_partial",
    "C09_remove_geno_partial",
    "C09_any_order_refuted"
   ],
   "note": "Full statement is false for index lists not in decreasing order. Proved for decreasing lists, for every transform built by the public constructors."
  },
  {
   "property": "C10",
   "status": "proved",
   "theorems": [
    "C10_weights",
    "C10_weights_after_restart"
   ],
   "note": "Exact arithmetic."
  },
  {
   "property": "C11",
   "status": "proved",
   "theorems": [
    "C11_default_rates"
   ],
   "note": "Exact arithmetic."
  },
  {
   "property": "C12",
   "status": "proved",
   "theorems": [
    "C12_adaptations",
    "C12_free_dimensions",
    "C12_repeated_sep_inadmissible"
   ],
   "note": "Stronger than stated: only set_sep is limited to one call; repeated set_sep shown to leave the range."
  },
  {
   "property": "C13",
   "status": "partial",
   "theorems": [
    "C13_vd_rates_partial",
    "C13_vd_rates_refuted"
   ],
   "note": "Full statement is false for n<5 (negative c1); proved for n>=5."
  },
  {
   "property": "C14",
   "status": "proved",
   "theorems": [
    "C14_default_lambda",
    "C14_given_lambda"
   ],
   "note": ""
  },
  {
   "property": "C15",
   "status": "partial",
   "theorems": [
    "C15_restart_plain_partial",
    "C15_restart_refuted"
   ],
   "note": "Full statement is false for sep, noisy, TPA and fixed-parameter configurations; proved for the plain configuration, any number of restarts."
  },
  {
   "property": "C16",
   "status": "partial",
   "theorems": [
    "C16_fixed_iff_last_call_set",
    "C16_value_partial",
    "C16_last_value_refuted",
    "C16_free_dimensions"
   ],
   "note": "Full statement is false: a second set_fixed_p does not change the value. Proved: fixed iff the last call is a set; the value is the first one since the last unset; free dimension count."
  },
  {
   "property": "C17",
   "status": "partial",
   "theorems": [
    "C17_first_call_wins_partial",
    "C17_last_call_wins_partial",
    "C17_last_call_refuted"
   ],
   "note": "Full statement is false: the first call wins, and the constructor from a solution ignores the settings. Proved: exact first-call characterisation, last wins without conflicting calls."
  },
  {
   "property": "C18",
   "status": "partial",
   "theorems": [
    "C18_last_scheme_partial",
    "C18_zero_after_three_refuted"
   ],
   "note": "Full statement is false: 0 after 3 enables every scheme. Proved: exact characterisation of all other histories."
  },
  {
   "property": "C19",
   "status": "partial",
   "theorems": [
    "C19_documented_names_partial",
    "C19_unknown_name_partial",
    "C19_names_refuted"
   ],
   "note": "Full statement is false: two documented names are missing and an unknown name containing sep changes the parameters. Proved for the other names."
  },
  {
   "property": "C20",
   "status": "partial",
   "theorems": [
    "C20_nonzero_seeds_partial",
    "C20_constructor",
    "C20_zero_seed_refuted"
   ],
   "note": "Full statement is false for set_seed(0) and the call after it. Proved for non-zero seeds."
  },
  {
   "property": "C21",
   "status": "proved",
   "theorems": [
    "C21_symmetric_psd"
   ],
   "note": "Exact real arithmetic. All histories of ask, eval, tell, stop, optimize in any order, any populations, optimisers built from a start point or from a solution. Parameters: constructor followed by any adaptations with at most one set_sep."
  },
  {
   "property": "C22",
   "status": "proved",
   "theorems": [
    "C22_lower_bound",
    "C22_positive_definite"
   ],
   "note": "Exact real arithmetic. The bound (1-c1-cmu)^t is proved for histories of whole iterations; positive definiteness for all histories when c1+cmu<1."
  },
  {
   "property": "C23",
   "status": "partial",
   "theorems": [
    "C23_positive_partial",
    "C23_lower_bound",
    "C23_positive_refuted"
   ],
   "note": "Full statement is false: for large lambda c1+cmu=1 and a generation of coinciding points gives a zero variance (C23_positive_refuted). Proved when c1+cmu<1, with the bound (1-c1-cmu)^t."
  },
  {
   "property": "C24",
   "status": "partial",
   "theorems": [
    "C24_positive_definite_partial",
    "C24_sep_partial",
    "C24_refuted"
   ],
   "note": "Full statement is false: for large lambda c1+cmu=1 and one iteration can make the covariance negative (C24_refuted). Proved when c1 + 0.66 cmu < 0.66, for an exact eigensolver and every history in which each generation follows its own ask (no lazy updates); for sep along every history, without the eigensolver."
  },
  {
   "property": "C25",
   "status": "proved",
   "theorems": [
    "C25_sigma_positive"
   ],
   "note": "Exact real arithmetic: overflow, underflow and NaN of the step size are not covered. All variants, any sequence of setters, all histories."
  },
  {
   "property": "C26",
   "status": "proved",
   "theorems": [
    "C26_weighted_mean",
    "C26_any_ranking"
   ],
   "note": "Exact real arithmetic. With uncertainty handling the order is that of its ranking (C26_any_ranking, C59)."
  },
  {
   "property": "C27",
   "status": "partial",
   "theorems": [
    "C27_candidates",
    "C27_mean_partial",
    "C27_evaluated_partial",
    "C27_scaling_values",
    "C27_scaling_refuted",
    "C27_gradient_refuted"
   ],
   "note": "Full statement is false with a scaling (every candidate is evaluated with the value unscaled once too often: C27_scaling_values, C27_scaling_refuted) with the numerical gradient and with the second evaluations of uncertainty handling (points evaluated; C92_fixed_refuted). Candidates: always. Mean: no scaling, elitism scheme 0 or 1. Evaluated points: in addition identity transform, no gradient, no uncertainty handling, no edm."
  },
  {
   "property": "C28",
   "status": "proved",
   "theorems": [
    "C28_iterations",
    "C28_histories",
    "C28_optimize"
   ],
   "note": "Any history of operations, k iterations, and whole optimize() runs; without uncertainty handling or gradient (whose update uses values), and for whole runs without the value-based criteria TOLHISTFUN/EQUALFUNVALS/STAGNATION/FTARGET, which legitimately look at values. NaN is preserved by the transformation."
  },
  {
   "property": "C29",
   "status": "partial",
   "theorems": [
    "C29_translation_partial",
    "C29_iterations_partial",
    "C29_gradient_refuted"
   ],
   "note": "Translation is proved for every history of ask, evaluation+update, stop and optimize, and for any number of user ask/eval/tell iterations, in all six covariance/step-size variants, with fixed parameters, uncertainty handling, TPA and lazy updates, in exact arithmetic. The full statement is false with numerical gradients (C29_gradient_refuted): the finite-difference step is 1e-8(1+|x|). All elitism schemes and elitist restarts are included; for schemes that insert the initial point from the first generation on, the history calls optimize before it generates (initial_known). Missing: expected distance to minimum (it uses the numerical gradient)."
  },
  {
   "property": "C30",
   "status": "partial",
   "theorems": [
    "C30_scale_partial",
    "C30_iterations_partial",
    "C30_gradient_refuted"
   ],
   "note": "As C29 with x -> c x, c > 0 and initial step size times c. All elitism schemes and elitist restarts are included as in C29. The full statement is false with numerical gradients (C30_gradient_refuted): the finite-difference step 1e-8(1+|x|) is not proportional to c. Missing: expected distance to minimum (it uses the numerical gradient)."
  },
  {
   "property": "C31",
   "status": "partial",
   "theorems": [
    "C31_gradient_refuted",
    "C31_maximum_partial",
    "C31_from_solution_refuted"
   ],
   "note": "Full statement is false for the constructor from a solution (no negation) and with a gradient given by the user, which is not negated with the objective, so that the point proposed along it is the worst instead of the best (C31_gradient_refuted). Proved for the main constructor: best seen is the maximum of f over all calls."
  },
  {
   "property": "C32",
   "status": "proved",
   "theorems": [
    "C32_counter",
    "C32_counter_from_solution",
    "C32_log"
   ],
   "note": "Also from a given solution, with uncertainty handling, gradients, elitist restarts."
  },
  {
   "property": "C33",
   "status": "proved",
   "theorems": [
    "C33_schedule_independent",
    "C33_schedule_exists"
   ],
   "note": "Pure objective; every complete interleaving of the four steps of each iteration; a complete schedule exists."
  },
  {
   "property": "C34",
   "status": "proved",
   "theorems": [
    "C34_stable_ranking"
   ],
   "note": "Without uncertainty handling (whose ranking is C59)."
  },
  {
   "property": "C35",
   "status": "partial",
   "theorems": [
    "C35_best_seen_partial",
    "C35_over_all_calls_partial",
    "C35_elitism_refuted",
    "C35_uncertainty_refuted"
   ],
   "note": "Full statement is false with elitism (candidate 1 is overwritten before being looked at) and with uncertainty handling. Proved without them, for every history."
  },
  {
   "property": "C36",
   "status": "partial",
   "theorems": [
    "C36_worst_seen_partial",
    "C36_elitism_refuted"
   ],
   "note": "Full statement is false with elitism. Proved without elitism and uncertainty handling."
  },
  {
   "property": "C37",
   "status": "partial",
   "theorems": [
    "C37_last_generation_partial",
    "C37_before_partial",
    "C37_told_partial",
    "C37_ranked_partial",
    "C37_uncertainty_refuted",
    "C37_elitism_refuted"
   ],
   "note": "Full statement is false with uncertainty handling (C37_uncertainty_refuted) and with initial elitism (C37_elitism_refuted). Proved without them; under every setting best_candidate() is the first of the last ranking (C37_ranked_partial)."
  },
  {
   "property": "C38",
   "status": "proved",
   "theorems": [
    "C38_least_and_median",
    "C38_windows",
    "C38_lengths"
   ],
   "note": "Under every setting (elitism, uncertainty handling, restarts of optimize()): the four windows and their lengths, counted from the creation of the solution object."
  },
  {
   "property": "C39",
   "status": "partial",
   "theorems": [
    "C39_best_kept_partial",
    "C39_initial_scheme_refuted"
   ],
   "note": "Full statement is false for scheme 2, which brings back the initial point. Proved for scheme 1."
  },
  {
   "property": "C40",
   "status": "proved",
   "theorems": [
    "C40_counters"
   ],
   "note": "With elitist restarts the counters restart at zero; equality of both counters holds there too."
  },
  {
   "property": "C41",
   "status": "proved",
   "theorems": [
    "C41_stop_decision",
    "C41_run_status",
    "C41_flags"
   ],
   "note": "Documented conditions specified in SpecStop.v; the numeric criteria are conditions on the numeric state here (C49). Without uncertainty handling; elitism schemes 0 and 1."
  },
  {
   "property": "C42",
   "status": "proved",
   "theorems": [
    "C42_deactivated"
   ],
   "note": ""
  },
  {
   "property": "C43",
   "status": "proved",
   "theorems": [
    "C43_max_iter"
   ],
   "note": ""
  },
  {
   "property": "C44",
   "status": "proved",
   "theorems": [
    "C44_max_fevals"
   ],
   "note": "Generation cost includes re-evaluations and numerical gradients; the final expected-distance call counted."
  },
  {
   "property": "C45",
   "status": "partial",
   "theorems": [
    "C45_evaluation_budget",
    "C45_iteration_budget_partial",
    "C45_evaluation_budget_any",
    "C45_restart_refuted"
   ],
   "note": "Full statement is false with elitism scheme 3 and an iteration budget (endless restarts, proved for every fuel). Proved for evaluation budgets (any elitism) and for iteration budgets without restart."
  },
  {
   "property": "C46",
   "status": "partial",
   "theorems": [
    "C46_target_stops_partial",
    "C46_target_reported",
    "C46_initial_point_refuted"
   ],
   "note": "Full statement is false at iteration 0. Proved from the first iteration on, and that the status is only reported when reached."
  },
  {
   "property": "C47",
   "status": "proved",
   "theorems": [
    "C47_return_code"
   ],
   "note": ""
  },
  {
   "property": "C48",
   "status": "proved",
   "theorems": [
    "C48_progress"
   ],
   "note": ""
  },
  {
   "property": "C49",
   "status": "partial",
   "theorems": [
    "C49_condition_partial",
    "C49_condition_sep_partial",
    "C49_tolupsigma_partial",
    "C49_tolupsigma_sep_partial",
    "C49_tolx_refuted",
    "C49_tolx_fires_partial",
    "C49_tolx_only_partial",
    "C49_equalfunvals_partial",
    "C49_equalfunvals_refuted",
    "C49_tolhistfun_partial",
    "C49_tolhistfun_nan_refuted",
    "C49_tolhistfun_window_refuted",
    "C49_stagnation_partial",
    "C49_tolx_sign_refuted",
    "C49_tolx_exact_partial",
    "C49_condition_vd_partial",
    "C49_condition_vd_refuted"
   ],
   "note": "CONDITIONCOV is proved to fire exactly above the condition number 1e14 for positive semidefinite covariances and non-negative separable variances, TOLUPSIGMA exactly when sigma/sigma0 exceeds 1e20 times the largest standard deviation of the covariance. The full statement is false for TOLX (C49_tolx_refuted: the tolerance, not the spread, is multiplied by sigma/sigma0) and for EQUALFUNVALS (C49_equalfunvals_refuted: never fires when the history window is longer than the dimension); what they do test is proved. TOLHISTFUN and STAGNATION are proved to fire exactly under their condition along every run with values that are numbers, with the window rounded down instead of up (C49_tolhistfun_window_refuted); with NaN TOLHISTFUN may fire although the values differ (C49_tolhistfun_nan_refuted). With VD-CMA CONDITIONCOV compares the scales D and ignores v (C49_condition_vd_partial, C49_condition_vd_refuted). NOEFFECTAXIS and NOEFFECTCOOR are C93. TOLX tests the evolution path with its sign: of two mirrored generations with equal step size and variances it stops one only (C49_tolx_sign_refuted). What TOLX tests exactly is C49_tolx_exact_partial."
  },
  {
   "property": "C50",
   "status": "proved",
   "theorems": [
    "C50_runs",
    "C50_fresh_runs",
    "C50_generation_sizes",
    "C50_returns"
   ],
   "note": "Every run that completes: number of runs, parameters of each run, reason for stopping early, and each run equals the run of a new optimiser (without elitist restart). C50_returns adds that it completes under an evaluation budget. Overflow of lambda beyond int is a fault of the model."
  },
  {
   "property": "C51",
   "status": "partial",
   "theorems": [
    "C51_ipop_best_partial",
    "C51_bipop_best_partial",
    "C51_final_values",
    "C51_nan_refuted",
    "C51_no_run_refuted",
    "C51_ipop_return_code",
    "C51_bipop_return_code"
   ],
   "note": "Full statement is false: if the first run only sees NaN its solution is kept although a later run finds a number (C51_nan_refuted), and with zero restarts an empty solution is returned as a success (C51_no_run_refuted). Proved for IPOP and BIPOP when the final values are numbers, which holds when the objective returns numbers (C51_final_values). The return code is proved to be that of the solution returned."
  },
  {
   "property": "C52",
   "status": "partial",
   "theorems": [
    "C52_ipop_calls_partial",
    "C52_ipop_refuted",
    "C52_bipop_run_calls_partial",
    "C52_bipop_total_refuted",
    "C52_bipop_refuted"
   ],
   "note": "Full statement is false: the budget applies to each run, so IPOP may use almost twice the budget plus one generation (bound proved, C52_ipop_refuted shows the excess), and BIPOP makes at least lambda0(2^n-1) calls whatever the budget (C52_bipop_total_refuted, C52_bipop_refuted)."
  },
  {
   "property": "C53",
   "status": "partial",
   "theorems": [
    "C53_schedule",
    "C53_population",
    "C53_fresh_runs",
    "C53_returns_partial",
    "C53_progress_refuted",
    "C53_from_solution_refuted",
    "C53_small_runs",
    "C53_second_run"
   ],
   "note": "Schedule, population sizes and budgets of the runs proved for every run that completes; population at least 2 in exact arithmetic for draws in [0,1). Termination proved with an evaluation budget and a progress function that never stops. The full statement is false: a progress function that asks to stop makes BIPOP loop for ever (C53_progress_refuted) and the constructor from an existing solution leaves its budget uninitialised (C53_from_solution_refuted). Overflow of the int budgets is not modelled. Small runs are proved to have a step size in (0.02, 2] and a population between half the default and half the last large one (or the default)."
  },
  {
   "property": "C54",
   "status": "proved",
   "theorems": [
    "C54_remove_then_add",
    "C54_add_then_remove",
    "C54_outside_unchanged",
    "C54_remove_coordinates",
    "C54_rows_and_columns"
   ],
   "note": "Vectors shorter than 2^31; std::copy on overlapping ranges is modelled as memmove."
  },
  {
   "property": "C55",
   "status": "partial",
   "theorems": [
    "C55_values",
    "C55_phenotype_values",
    "C55_one_coordinate_value",
    "C55_unbounded_value",
    "C55_all_fixed_refuted",
    "C55_any_order_refuted",
    "C55_bounded_value_refuted"
   ],
   "note": "Proved for index lists from low to high that leave at least one free coordinate, values in the search space or (when reachable) in phenotype. The full statement is false for other lists: all coordinates fixed (C55_all_fixed_refuted), descending order (C55_any_order_refuted); and with bounds and two or more indices the search uses the bounds of another coordinate, so the value returned is not the value of the point returned (C55_bounded_value_refuted). The inner search is an oracle."
  },
  {
   "property": "C56",
   "status": "partial",
   "theorems": [
    "C56_interval",
    "C56_curve",
    "C56_accesses",
    "C56_first_kept_partial",
    "C56_last_kept_refuted",
    "C56_no_sample_refuted"
   ],
   "note": "Interval order, stored curve and in-range accesses proved (at least one sample, full eigenvector matrix). The full statement is false: the first interval computed for a coordinate is kept, later ones are dropped (C56_last_kept_refuted), and no sample is a fault (C56_no_sample_refuted)."
  },
  {
   "property": "C57",
   "status": "partial",
   "theorems": [
    "C57_later_steps",
    "C57_first_step_partial",
    "C57_computation_partial",
    "C57_zero_coordinate",
    "C57_refuted"
   ],
   "note": "Later steps always end; the first step ends when some doubling leaves the level; the computation ends when its first steps do. The full statement is false: if the coordinate of the optimum is zero the step is zero and doubles for ever (C57_zero_coordinate, C57_refuted). Overflow of the step is not modelled."
  },
  {
   "property": "C58",
   "status": "partial",
   "theorems": [
    "C58_count",
    "C58_level_partial",
    "C58_level_refuted"
   ],
   "note": "Number of points proved; level proved when cached intervals have the requested level. The full statement is false: cached intervals of another level are reused (C58_level_refuted)."
  },
  {
   "property": "C59",
   "status": "partial",
   "theorems": [
    "C59_generation_partial",
    "C59_noise_partial",
    "C59_elitism_refuted"
   ],
   "note": "Given that the sorts are defined (C60). Without elitism; with elitism the ranks no longer belong to the candidates (C59_elitism_refuted). The final order is by rank sum except where the comparison of C60 differs."
  },
  {
   "property": "C60",
   "status": "partial",
   "theorems": [
    "C60_order_partial",
    "C60_irreflexive_partial",
    "C60_order_refuted",
    "C60_asymmetry_refuted"
   ],
   "note": "Full statement is false (s2 = r2 + r2): a run reaches std::sort with a comparison that is not a strict weak order. Proved: irreflexive; strict weak order when no pair meets r1(a)+r2(a)=2 r2(b)."
  },
  {
   "property": "C61",
   "status": "proved",
   "theorems": [
    "C61_bounded"
   ],
   "note": "No elitism (elitism may overwrite a mirrored point); lambda at least 2, 3 with the gradient; 0 <= tpa_csigma <= 1."
  },
  {
   "property": "C62",
   "status": "partial",
   "theorems": [
    "C62_calls",
    "C62_user_gradient",
    "C62_inside_bounds_partial",
    "C62_inside_bounds_refuted",
    "C62_affine_partial",
    "C62_affine_refuted"
   ],
   "note": "Number, place and counting of the objective calls are proved in general; calls inside the bounds for bounds without scaling; exactness on affine objectives while the step stays below the upper bound. The full statement is false: with linear scaling the step is cut at the bound of the internal space, so a call can leave the user's bounds (C62_inside_bounds_refuted), and at the upper bound the estimate is zero (C62_affine_refuted)."
  },
  {
   "property": "C63",
   "status": "partial",
   "theorems": [
    "C63_no_fault_partial",
    "C63_gradient_tpa_refuted",
    "C63_user_loop_refuted",
    "C63_from_solution_refuted",
    "C63_every_mode_partial",
    "C63_elitist_restart_refuted"
   ],
   "note": "Full statement is false for lambda=2 with gradient and TPA, for user loops with scheme 2, for a solution of another lambda, and for the elitist restart with the initial evaluation (C63_elitist_restart_refuted). Proved for every history of the other configurations; with uncertainty handling the only fault left is that of its sort (C63_every_mode_partial, C60)."
  },
  {
   "property": "C64",
   "status": "partial",
   "theorems": [
    "C64_full_partial",
    "C64_sep",
    "C64_vd_partial",
    "C64_sep_matrix_refuted"
   ],
   "note": "Full statement is false: corr() of sep-CMA-ES is one column. Proved for full covariance when c1+cmu<1, for corr(i,j) of sep, and for vd while no scaling coefficient is zero."
  },
  {
   "property": "C65",
   "status": "partial",
   "theorems": [
    "C65_window_partial",
    "C65_most_recent_calls_partial",
    "C65_end_of_sequence",
    "C65_lowered_length_refuted",
    "C65_elitism_refuted"
   ],
   "note": "Without elitism and uncertainty handling, and with the length set before the run: the set is the last l evaluated candidates since the last reset, and the last calls of the objective. For any later change of the length it is still the end of the sequence of evaluated candidates. The full statement is false: lowering the length leaves the set longer than it (C65_lowered_length_refuted), and elitism puts a re-injected candidate into the set (C65_elitism_refuted)."
  },
  {
   "property": "C66",
   "status": "partial",
   "theorems": [
    "C66_true_values_partial",
    "C66_criteria_kept_partial",
    "C66_prediction_reported_refuted",
    "C66_overflow_refuted",
    "C66_criteria_refuted"
   ],
   "note": "Proved for ACM when objective values are below the largest double, and for the simple strategy with its default lifelength. The full statement is false: predictions are reported as best (C66_prediction_reported_refuted), an overflowing objective makes ACM report the largest double (C66_overflow_refuted), and FTARGET, STAGNATION, AUTOMAXITER are overridden (C66_criteria_refuted); all other criteria are kept (C66_criteria_kept_partial)."
  },
  {
   "property": "C67",
   "status": "partial",
   "theorems": [
    "C67_multipliers",
    "C67_training_returns",
    "C67_svm_error_partial",
    "C67_svm_error_refuted",
    "C67_one_point_refuted",
    "C67_other_training_set_refuted",
    "C67_errors_partial",
    "C67_small_population_refuted"
   ],
   "note": "Multipliers: proved for any kernel, any draws and any number of iterations with floating-point numbers (any monotone rounding, binary64 is an instance). Errors, of the strategies and of the SVM, are in [0,1] for two points and more. The full statement is false: with one evaluated point the error is 0/0 (C67_small_population_refuted, C67_svm_error_refuted), with one training point training computes a remainder by zero (C67_one_point_refuted), and predictions from a larger training set read past the multipliers (C67_other_training_set_refuted)."
  },
  {
   "property": "C68",
   "status": "partial",
   "theorems": [
    "C68_as_if_alone_partial",
    "C68_creation_seeds",
    "C68_same_seed_partial",
    "C68_interleaving_refuted",
    "C68_creation_refuted",
    "C68_repeated_candidates_refuted",
    "C68_random_start_refuted",
    "C68_uncertainty_refuted"
   ],
   "note": "Proved for an optimiser with a given start point and no uncertainty handling, whatever the program did before, as long as no optimiser is created and no other optimiser samples while it runs. The full statement is false: the generator is shared by the process (C68_interleaving_refuted, C68_creation_refuted, C68_repeated_candidates_refuted), a random start point is not drawn from the seed (C68_random_start_refuted), and uncertainty handling reads the random device (C68_uncertainty_refuted). Construction leaves the generator exactly as the seed sets it (C68_creation_seeds)."
  },
  {
   "property": "C69",
   "status": "partial",
   "theorems": [
    "C69_level_partial",
    "C69_negative_minimum",
    "C69_negative_refuted",
    "C69_not_reached_refuted"
   ],
   "note": "Each bound is zero, the optimum, or the coordinate of a point at the level. The full statement is false: a negative minimum makes every search a failure (C69_negative_minimum, C69_negative_refuted) and a level that is missed leaves the interval at zero (C69_not_reached_refuted)."
  },
  {
   "property": "C70",
   "status": "partial",
   "theorems": [
    "C70_diagonal_refuted",
    "C70_full_partial"
   ],
   "note": "Full statement is false: with a diagonal covariance (sep or vd) the profile likelihood always adds vectors of different sizes, in dimension two and more (C70_diagonal_refuted). Holds with a full matrix."
  },
  {
   "property": "C71",
   "status": "proved",
   "theorems": [
    "C71_counter"
   ],
   "note": "Every history, strategy, configuration."
  },
  {
   "property": "C72",
   "status": "partial",
   "theorems": [
    "C72_preselection_ends_partial",
    "C72_sizes_needed",
    "C72_small_prelambda_refuted",
    "C72_large_lambdaprime_refuted",
    "C72_zero_lifelength_refuted"
   ],
   "note": "Proved when prelambda >= lambda >= lambdaprime and the draws are fair (every index drawn again and again); both inequalities are necessary (C72_sizes_needed). The full statement is false: C72_small_prelambda_refuted, C72_large_lambdaprime_refuted, and set_nsteps(0) divides by zero (C72_zero_lifelength_refuted)."
  },
  {
   "property": "C73",
   "status": "partial",
   "theorems": [
    "C73_best_of_generation_partial",
    "C73_unsorted_generation_refuted"
   ],
   "note": "Proved except in the generation in which the training set becomes full; there the candidates are not sorted and the statement is false (C73_unsorted_generation_refuted)."
  },
  {
   "property": "C74",
   "status": "partial",
   "theorems": [
    "C74_dual_improves_partial",
    "C74_stuck_refuted"
   ],
   "note": "Exact real arithmetic, consecutive training points at positive kernel distance. The dual objective never decreases. The second half is false: the acceptance test adds epsilon to the change and rejects steps that would improve (C74_stuck_refuted)."
  },
  {
   "property": "C75",
   "status": "partial",
   "theorems": [
    "C75_binary64_feasible_partial",
    "C75_binary64_within_range_partial",
    "C75_scaled_nearly_partial",
    "C75_scaling_refuted",
    "C75_large_bounds_refuted",
    "C75_far_genotype_refuted"
   ],
   "note": "Full statement is false: with linear scaling the result can lie one unit in the last place below the bound (C75_scaling_refuted), with bounds of magnitude 2^600 the lower bound itself is mapped to infinity (C75_large_bounds_refuted), and a genotype too far away makes the int conversion undefined (C75_far_genotype_refuted). Proved in binary64 arithmetic, every rounding modelled: without scaling feasible for every genotype that is not NaN when the bounds are at most 2^500 in magnitude, at least 2^-400 and 2^-40 of their magnitude apart; with scaling inside up to 2^-48 of the magnitude of the bounds."
  },
  {
   "property": "C76",
   "status": "partial",
   "theorems": [
    "C76_iterations_partial",
    "C76_optimize_partial",
    "C76_best_seen_partial",
    "C76_best_seen_refuted",
    "C76_sizes_partial",
    "C76_sep_refuted",
    "C76_before_refuted"
   ],
   "note": "Full statement is false: after a separable or VD run, and before the first iteration of any, reset creates a covariance and paths with no elements (C76_sep_refuted, C76_before_refuted); the best candidate seen is kept even when the objective is another one (C76_best_seen_refuted); BIPOP and a different population size go wrong (C53_from_solution_refuted, C63_from_solution_refuted). Proved for full covariance, default step-size adaptation, no elitism, uncertainty handling or gradients: every solution left by any runs, every objective and number of iterations, and optimize with its return code."
  },
  {
   "property": "C77",
   "status": "partial",
   "theorems": [
    "C77_codes_partial",
    "C77_names_partial",
    "C77_after_sep_refuted",
    "C77_after_vd_refuted",
    "C77_renamed_refuted",
    "C77_surrogate_refuted",
    "C77_unknown_code",
    "C77_functions_partial",
    "C77_plot_refuted",
    "C77_continue_partial",
    "C77_continue_refuted"
   ],
   "note": "Full statement is false: cmaes() adapts the caller's parameter object, so that an unrestricted algorithm selected after a separable or VD one runs restricted (C77_after_sep_refuted, C77_after_vd_refuted, C77_renamed_refuted); surrcmaes() repeats the adaptation at every call (C77_surrogate_refuted); four algorithms drop the plot function when a solution is passed (C77_plot_refuted); a solution of a separable or VD run is ignored (C77_continue_refuted). Proved for every program that stays within one restriction."
  },
  {
   "property": "C78",
   "status": "partial",
   "theorems": [
    "C78_plain",
    "C78_scaled_interval",
    "C78_scaled_factors",
    "C78_no_point",
    "C78_bounds_partial",
    "C78_bounds_exact",
    "C78_bounds_scaled_partial",
    "C78_bounds_scaled_exact",
    "C78_bounds_factors_partial",
    "C78_bounds_refuted",
    "C78_bounds_scaled_refuted",
    "C78_transform_image",
    "C78_transform_refuted",
    "C78_first_call"
   ],
   "note": "Full statement is false: with bounds, a feasible point on the strips along the bounds is moved (C78_bounds_refuted, C78_bounds_scaled_refuted), and the search starts at the image of the point under the transform of the user (C78_transform_refuted). Proved without bounds for every scaling, and with bounds exactly when the point is off the strips (C78_bounds_exact, C78_bounds_scaled_exact)."
  },
  {
   "property": "C79",
   "status": "partial",
   "theorems": [
    "C79_normal_partial",
    "C79_active_partial",
    "C79_active_sep_partial",
    "C79_vd_partial",
    "C79_draws_used_once",
    "C79_draws_counted",
    "C79_lazy_refuted"
   ],
   "note": "Full statement is false with lazy updates: the sampler keeps the mean of its last decomposition, so that the points are not centred on the mean (C79_lazy_refuted). Proved without lazy updates for every history of the standard and separable updates (C79_normal_partial), for the active updates under the conditions of C24 (C79_active_partial, C79_active_sep_partial) and for every state of VD-CMA whose direction is not zero (C79_vd_partial); that the draws of different populations are different is C79_draws_used_once and C79_draws_counted. Rounding is not modelled."
  },
  {
   "property": "C80",
   "status": "partial",
   "theorems": [
    "C80_pair_partial",
    "C80_active_pair_partial",
    "C80_vd_refuted",
    "C80_effect_partial"
   ],
   "note": "Full statement is false for VD-CMA, which measures the move with the square root of D alone (C80_vd_refuted). The pair is proved for the standard, separable and active updates without lazy updates, when the mean has moved in the last iteration (otherwise the code divides by zero). The effect on the step size is proved for every variant, without elitism and uncertainty handling."
  },
  {
   "property": "C81",
   "status": "partial",
   "theorems": [
    "C81_floor",
    "C81_direction_partial",
    "C81_two_point_partial"
   ],
   "note": "The lower bound of the rate is proved in full for sequences of iterations with every variant, elitism and uncertainty handling included, when some parameter is free. The direction is proved without uncertainty handling, which scales the step size itself, and two-point adaptation without elitism and uncertainty handling, from the second iteration on and for the parameters of the constructors other than VD. Rounding is not modelled."
  },
  {
   "property": "C82",
   "status": "partial",
   "theorems": [
    "C82_full_partial",
    "C82_active_partial",
    "C82_separable_partial",
    "C82_active_separable_partial",
    "C82_separable_refuted",
    "C82_vd_path_refuted"
   ],
   "note": "Full statement is false for the separable algorithms: set_sep changes the rate of the covariance path but not the factor its increment is normalised with (C82_separable_refuted); and for VD-CMA the step-size path is scaled coordinate by coordinate and not whitened (C82_vd_path_refuted). Proved in full for standard and active CMA-ES and for separable and active separable CMA-ES with the factor of the standard rate, under: exact eigensolver, no lazy updates, rates away from their limit, no uncertainty handling, cumulative step-size adaptation. The rest of the VD update is C89. Rounding is not modelled."
  },
  {
   "property": "C83",
   "status": "proved",
   "theorems": [
    "C83_rotation",
    "C83_solver",
    "C83_iterations",
    "C83_told",
    "C83_ask"
   ],
   "note": "The conditions are those of the statement. In C83_rotation and C83_iterations, which cover ask and optimize, both searches use the same draws and the second eigensolver returns the rotated eigenvectors of the first (a correct eigensolver by C83_solver); C83_told and C83_ask are for any two correct eigensolvers and any draws. Rounding is not modelled."
  },
  {
   "property": "C84",
   "status": "partial",
   "theorems": [
    "C84_variances",
    "C84_variances_active_partial",
    "C84_variances_active_sep_partial",
    "C84_variances_vd",
    "C84_plain",
    "C84_scaled",
    "C84_scaled_by_bounds",
    "C84_bounded_partial",
    "C84_bounded_total",
    "C84_bounded_scaled_partial",
    "C84_bounded_zero_refuted",
    "C84_errors_partial",
    "C84_errors_refuted"
   ],
   "note": "Full statement is false: errors() multiplies by sqrt(sigma) instead of sigma, so it is the sampling deviation exactly when sigma is 1 (C84_errors_partial, C84_errors_refuted), and with bounds the reported deviation can be 0 for a variance of 1 because the point one deviation above the mean is reflected onto the mean (C84_bounded_zero_refuted). Proved: the values without bounds and with linear scaling, the upper bounds and the exact value in the core with bounds. Equality with bounds and scaling together and user transform functions are not covered; the active variances need the rate condition of C24."
  },
  {
   "property": "C85",
   "status": "partial",
   "theorems": [
    "C85_same_search",
    "C85_same_result",
    "C85_file",
    "C85_rows_partial",
    "C85_blocks",
    "C85_last_row_refuted",
    "C85_evaluations",
    "C85_line",
    "C85_full_line",
    "C85_eigenvalues_partial",
    "C85_eigenvalues_diagonal",
    "C85_eigenvalues_refuted",
    "C85_axis_ratio",
    "C85_sign_refuted",
    "C85_best_point_refuted"
   ],
   "note": "Full statement is false: when the progress function ends the search the final iteration has no line (C85_last_row_refuted); the first column is the absolute value of the objective, so the sign is lost (C85_sign_refuted); the eigenvalues are zeros in the first line and afterwards those of the covariance before the update of the iteration (C85_eigenvalues_refuted, C85_eigenvalues_partial; without lazy updates); for vd they are the scaling vector, not eigenvalues (C85_eigenvalues_diagonal); and the best point of the full plot is in internal coordinates (C85_best_point_refuted). Proved: same search and result with and without the file, the file is the concatenation of the lines of consecutive iterations, one block for each elitist restart, width and content of the lines, evaluation column and axis ratio. C85_rows_partial leaves out edm, which runs after the last line. Number formatting, times and the extra column of surrogates are not modelled."
  },
  {
   "property": "C86",
   "status": "partial",
   "theorems": [
    "C86_constructed",
    "C86_start",
    "C86_sampling_partial",
    "C86_sampling_refuted",
    "C86_plain_refuted",
    "C86_bounds",
    "C86_no_bounds_refuted",
    "C86_zero_refuted"
   ],
   "note": "Full statement is false: the scalar step size is set to the least of the vector on top of the scaling, so that the standard deviations are sigma_i times the least sigma: right exactly when the least is 1, 4 instead of 2 for one parameter (C86_sampling_partial, C86_sampling_refuted; default and separable variants without gradient). Transform classes without linear scaling use only the least step size (C86_plain_refuted); the bound transform without bounds cannot evaluate any point (C86_no_bounds_refuted); a zero divides by zero (C86_zero_refuted). Proved: the object is built for positive vectors, the search starts at x0, and with bounds every point is feasible."
  },
  {
   "property": "C87",
   "status": "partial",
   "theorems": [
    "C87_restarts",
    "C87_never_worse_partial",
    "C87_library_start",
    "C87_scaling_refuted",
    "C87_test_defined_partial",
    "C87_test_refuted"
   ],
   "note": "Full statement is false: with a linear scaling the restart point is scaled a second time, so that the search starts elsewhere and can end worse than it was (C87_scaling_refuted); when a restarted run ends after its first iteration the test reads _best_seen_iter, which was never written (C87_test_refuted: a budget of evaluations that ends the first run does this). Proved: the sequence of runs for any objective (C87_restarts), and for deterministic objectives without scaling, fixed parameters, uncertainty handling and evaluation of the initial point before the first run the rest of the statement; the test is defined for every other run."
  },
  {
   "property": "C88",
   "status": "partial",
   "theorems": [
    "C88_ranks",
    "C88_similarity",
    "C88_similarity_sep",
    "C88_kernel",
    "C88_trained",
    "C88_trained_iff",
    "C88_repeated_refuted",
    "C88_predicted",
    "C88_two_points",
    "C88_dual"
   ],
   "note": "Full statement is false: a point that is twice in the training set with the same rank, as a best point that elitism puts back, makes training divide by zero (C88_repeated_refuted; C88_trained_iff says exactly when training is defined). Everything else is proved, in exact arithmetic, for any comparison sort."
  },
  {
   "property": "C89",
   "status": "partial",
   "theorems": [
    "C89_derivatives",
    "C89_density",
    "C89_inverse",
    "C89_weight",
    "C89_definite",
    "C89_natural_gradient",
    "C89_ascent",
    "C89_frozen",
    "C89_small_dimension",
    "C89_positive_refuted"
   ],
   "note": "Full statement is false: nothing bounds the step, so that a scale can be negative after one generation (C89_positive_refuted; the covariance is then that of the absolute value with the sign of that coordinate of v changed), and in five dimensions or less the rates of set_vd are not positive and v and D never change (C89_small_dimension). Proved: the move is the only solution of the system (C89_natural_gradient), the modified Fisher information is positive definite (C89_definite), the move is uphill (C89_ascent), and the matrices of the system are the derivatives of the covariance and of the log-density (C89_derivatives, C89_density; the density is given with its determinant in closed form). Conditions: no uncertainty handling, v not zero, no scale zero. Rounding is not modelled."
  },
  {
   "property": "C90",
   "status": "partial",
   "theorems": [
    "C90_sep",
    "C90_full_partial",
    "C90_bounds_partial",
    "C90_refuted",
    "C90_factor_partial",
    "C90_factor_refuted",
    "C90_reports",
    "C90_optimize"
   ],
   "note": "Full statement is false: for a full covariance the code multiplies the gradient by B sqrt(D) without the transpose of B, so that the eigenvalues weigh the coordinates in the order the solver returns them (C90_full_partial says what is reported, C90_refuted has a run where it is too small, C90_bounds_partial bounds the error by the square root of the condition number); with two points per generation the divisor is zero (C90_factor_refuted). Proved as documented for the separable variant (C90_sep). Not covered: VD-CMA, for which the code multiplies matrices of different sizes, and lazy decomposition updates."
  },
  {
   "property": "C91",
   "status": "partial",
   "theorems": [
    "C91_full",
    "C91_sep",
    "C91_others",
    "C91_vd_refuted"
   ],
   "note": "Full statement is false for VD-CMA, which uses its scales as if they were variances and leaves out v (C91_vd_refuted, at the first generation). Proved for the full covariance (positive definite, exact eigensolver, no lazy decomposition) and the separable variant, without fixed parameters. C91_others: every variant, not with two-point adaptation, which overwrites the first points."
  },
  {
   "property": "C92",
   "status": "partial",
   "theorems": [
    "C92_points",
    "C92_feasible_refuted",
    "C92_fixed_refuted"
   ],
   "note": "Full statement is false with bounds (the second point is moved after the transform: C92_feasible_refuted) and with fixed parameters (C92_fixed_refuted). The number of second evaluations, their points and the draws they use are proved for every state and every candidate matrix."
  },
  {
   "property": "C93",
   "status": "partial",
   "theorems": [
    "C93_coordinates",
    "C93_axes_separable",
    "C93_axes_full_partial",
    "C93_axes_full_refuted",
    "C93_vd_refuted",
    "C93_nan"
   ],
   "note": "Full statement is false for NOEFFECTAXIS with a full covariance, where the code pairs the eigenvalue i with coordinate i instead of with its axis (C93_axes_full_refuted; what it tests is C93_axes_full_partial), and for VD-CMA, where scales are used as variances (C93_vd_refuted). Proved in binary64 arithmetic for NOEFFECTCOOR with full and separable covariances and for NOEFFECTAXIS with separable ones; between 2^-55 and 2^-52 either outcome is allowed."
  },
  {
   "property": "C94",
   "status": "proved",
   "theorems": [
    "C94_renaming",
    "C94_iterations",
    "C94_draws",
    "C94_points"
   ],
   "note": "Exact arithmetic. That renamed normal draws have the same distribution is not modelled. Full covariances are covered by C83 with a permutation matrix."
  }
 ]
}