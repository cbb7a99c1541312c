# Formal model of beniz/libcmaes in Rocq (Coq 8.16.1)

Nothing here runs the C++ code: `/repo` was read as text.  The theorems are about the
model; the tie to the code is the `file:lines` citation carried by each definition.

* `properties.jsonl` — the properties, in terms of the API.
* `rocq/theories/` — model, specifications, proofs, property theorems.
* `MANIFEST.json` — for each property the theorems, and what is missing if partial.
* `seeded/LOG.jsonl` — wrong programs tried against the theorems.

## 1. Layers of the model

* **Objective values** (`Dbl.v`).  An objective value is a `dbl`: `NaN`, `-inf`, `+inf` or
  `Fin z`, which stands for z·2^-1074.  Every finite double is such a multiple, so the
  comparisons, minimum, maximum and unary minus the code applies to objective values are
  exact.  `Fin` also contains numbers that are not doubles; the theorems hold for those too.
  Everything the code decides by *comparing* objective values (sorting, best/worst seen,
  elitism, target, restarts, surrogates) is modelled on this type, computably.
* **Numbers** (`R`).  Transforms, strategy parameters, mean / path / covariance / step-size
  updates, stopping criteria, error estimation.  Arithmetic is exact: rounding, overflow to
  infinity and underflow are not modelled, except for the bound transform and the linear
  scaling (`Pwq64.v`) and the no-effect criteria (`NoEff64.v`), which are also modelled in
  IEEE binary64 (Flocq), operation by operation.
  Conversions to `int` that are out of range and
  divisions by zero are faults.  The ranking SVM is generic in its arithmetic: C67 is proved
  for any monotone rounding, with IEEE binary64 (Flocq) as an instance.
* **State machine** (`Search.v`, `Restart.v`, `Surr.v`, `Errstats.v`, `Rng.v`).
  `ask`/`eval`/`tell`/`inc_iter`/`stop`/`optimize`, restarts, surrogates and error estimation
  as functions on records.  Random draws, the progress function, the user's objective and
  gradient, `std::sort` and the eigensolver are arguments (oracles); theorems quantify over
  them.  The objective function may depend on the history of its calls.  The state carries a
  ghost log of all calls, which no function reads.
* **Faults** are a distinct outcome (`Fault _` of `res`, `Base.v`), never a default value:
  index out of range, operands of different sizes, `int` conversion out of range, division
  by zero, `front()` of an empty vector, read of an uninitialised member, `std::sort` with a
  comparison that is not a strict weak order, and a loop whose fuel runs out (`Diverges`).
  Statements of the form "the call returns" are proved as "for some fuel the result is `Ok`",
  statements of the form "the call never returns" as "for every fuel it is `Fault Diverges`".
* **Threads** (`Par.v`, `GpPar.v`, `EvalPar.v`).  A parallel loop is any interleaving of the
  atomic steps of its iterations.

Statements that turn out to be false of the code are kept, proved false (`*_refuted`, with
a witness), and the part that holds is proved with its restriction in the statement.

## 2. Organisation of the files

* Model: `Base Dbl EoMatrix Pwq Scaling GenoPheno Pwq64 Par GpPar Params Config Dispatch Start Search EvalPar Vec
  Update Corr Restart Errstats Surr Rng Rsvm`.  No proofs in these files.
* Specifications (`Spec*.v`): the vocabulary of the statements, written from the English
  property, independent of the helpers of the model where possible.
* Property theorems (`Props*.v`): statement, one-line proof, `Print Assumptions`, and an
  `Example` that a concrete case meets the hypotheses.
* `*Demo*.v`: concrete instances.  All other files: proofs.

## 3. Trusted base

* Coq's kernel (8.16.1); `vm_compute` is used in examples and counterexamples.
* No axiom, parameter, or assumption is declared in this development.  Section 7 gives what
  `Print Assumptions` lists for each property theorem.  All of it comes from the standard library:
  - `ClassicalDedekindReals.sig_not_dec`, `ClassicalDedekindReals.sig_forall_dec`
    (Dedekind reals),
  - `FunctionalExtensionality.functional_extensionality_dep`,
  - `Classical_Prop.classic`.
  `coqchk -o` also lists the constants the standard library declares in the module types of
  `Coq.Reals.Rdefinitions` and `Coq.ssr.ssrunder`; these have implementations.
* Flocq is used in `Pwq64*.v` (its `binary_float 53 1024` is the model of `double`, rounding
  to nearest even) and in `Binary64.v`, to show that binary64 meets the hypotheses of the
  ranking SVM theorems.  It adds no axiom.
* The correspondence between the C++ code and the model, by reading.
* The reading of the specifications.

## 4. What is modelled and what is not

| code | modelled in | left out |
|---|---|---|
| `pwq_bound_strategy.{h,cc}` | `Pwq.v` (exact); `Pwq64.v` (binary64, every rounding) | `to_internal_representation` in binary64 |
| `noboundstrategy.h` | `GenoPheno.v` | |
| `scaling.h` | `Scaling.v` (exact); `Pwq64.v` (binary64, `compute_scaling`, `scale_to_f`) | `scale_to_internal` in binary64 |
| `genopheno.h` | `GenoPheno.v`, `GpPar.v` (parallel loops); `Pwq64.v` (`pheno` with bounds, binary64) | rounding of `geno` |
| `eo_matrix.h` | `EoMatrix.v` | |
| `parameters.h`, `cmaparameters.{h,cc}` | `Params.v` (numbers), `Config.v` (settings), `Start.v` (set_x0), `VecSigma.v` (vector-sigma constructor) | `int` overflow of lambda |
| `candidate.h`, `cmasolutions.{h,cc}` | `Search.v`, `Update.v`, `Corr.v`, `Start.v` (initial mean), `Report.v` (stds, errors) | printing |
| `esostrategy.{h,cc}` | `Search.v`, `Update.v`, `EvalPar.v` | timing |
| `cmastrategy.{h,cc}` | `Search.v`, `Update.v`, `Plot.v` (plot file) | number formatting and times in the plot file |
| `covarianceupdate.cc`, `acovarianceupdate.cc`, `vdcmaupdate.cc` | `Update.v` | rounding |
| `cmastopcriteria.{h,cc}` | `Search.v` (dispatch), `Update.v` (numeric conditions), `NoEff64.v` (NOEFFECTAXIS and NOEFFECTCOOR in binary64) | rounding of the other criteria |
| `eigenmvn.h` | sampler in `Update.v` (any draws), generators in `Rng.v` | distribution of the draws |
| `esoptimizer.h`, `cmaes.h` | `Dispatch.v` (entry points), `Search.v`, `Config.v` (names) | timing |
| `ipopcmastrategy`, `bipopcmastrategy` | `Restart.v` | `int` overflow of BIPOP's budgets |
| `errstats.{h,cc}`, `pli.h`, `contour.h` | `Errstats.v`; the inner search is an oracle | rounding; printing |
| `surrogatestrategy.{h,cc}`, `surrcmaes.h` | `Surr.v`, `Dispatch.v` (entry point); train and predict are oracles | |
| `surrogates/rankingsvm.hpp`, `rsvm_surr_strategy.hpp` | `Rsvm.v` with any kernel and encoding, any arithmetic; `Kernel.v` with the RBF kernel, its width, the encoding and the sort, exact arithmetic | rounding of the RBF kernel |
| `opti_err.h`, `llogging.h`, Python bindings, tests, tools | | not modelled |

## 5. Plan per property

| id | modelled | proof |
|---|---|---|
| C01-C03 | `pwq_bound_strategy.cc` coordinate-wise over R, int cast and division by zero as faults | case analysis on the pieces, nra; lists by induction |
| C04 | `scaling.h` | field |
| C05, C06, C08 | `genopheno.h`, the four specialisations, both constructors | composition of the above; refutation for reported bounds and for the uninitialised return |
| C07, C33 | parallel loop as any interleaving of per-column writes | confluence of disjoint writes, induction on the schedule |
| C09, C54, C55 | `eo_matrix.h` on lists, `remove_dimensions`, `optimize_vpk` | list induction; refutation for ascending index lists |
| C10-C15 | `cmaparameters.cc` over R with logs | real analysis: ln monotone, sums, Cauchy-Schwarz |
| C16-C20 | setters as operations on a record, histories as lists | induction over histories; refutations |
| C21-C27, C64 | one covariance update as function on matrices, histories as lists of populations | quadratic forms, induction on history |
| C28-C31 | two coupled executions | simulation relation, induction on number of iterations |
| C32, C34-C40, C63 | search state with histories and counters | invariants by induction on operations |
| C41-C49 | `cmastopcriteria.cc` and the optimise loop with fuel | induction on fuel; refutations |
| C50-C53 | restart loops over the inner run of `Search.v` | induction on restart count; refutations |
| C55-C58, C69, C70 | `errstats.cc` with an arbitrary inner optimiser | induction on loops; refutations |
| C59-C62 | `esostrategy.cc` uncertainty handling, TPA, gradient | lists / permutations; refutation of the comparator |
| C65, C66, C71-C73 | surrogate strategies with arbitrary train and predict | invariants by induction on histories; refutations |
| C75 | bounds and scaling coordinate by coordinate in Flocq's `binary_float 53 1024` | error analysis over an abstract rounding (`Pwq64Real.v`), then Flocq's correctness lemmas |
| C67, C74 | ranking SVM, generic arithmetic | invariant of the multipliers; dual objective as a quadratic form |
| C68 | the process-wide generator as shared state | induction on the program; refutations |
| C77 | the two entry points as functions on the parameter object, programs as lists of calls | case analysis on the fifteen codes, induction on the program; refutations |
| C78 | choice of the initial mean (set_x0, draws, fixed values, scaling), composed with pheno and with the state machine | coordinate lemmas of the bound transform; fixed points of the transform are exactly the points off the strips; invariant on the log for the first call |
| C79 | the sampler of `Update.v` inside ask, the random generator as a sequence of draws | square root of the reported matrix from the eigendecomposition; invariants of C21-C24 for its existence; draws counted by an invariant; refutation with lazy updates |
| C80 | ask and tell with two-point adaptation | the pair by the diagonalisation lemmas of C24; its ranks by the permutation of the sort; invariant on the positions; refutation for VD |
| C81 | tell; every update of the step size; constructors and setters of the parameters | every step multiplies sigma by at least exp(-c/d); induction on the iterations; monotonicity of exp |
| C82 | ask, eval and tell with the standard, active and separable updates; constructors and setters | separate textbook specification (SpecAlgo.v); spectral calculus for the inverse square root; the negative rate is maximal because an eigenvector attains the bound; refutations for separable and VD |
| C83 | the whole search with the standard and active updates, the eigensolver and the draws as parameters | simulation (`MorphProofs.v`) between the search and its image; two decompositions of corresponding matrices differ by an orthogonal v that commutes with the eigenvalues; functions of the matrix agree |
| C84 | `Report.v`: stds and errors with any genotype-phenotype transform | the bound transform is shown to be 1-Lipschitz (the shift is a triangular wave, each quadratic piece has slope at most one: `LipProofs.v`); the rest follows coordinate by coordinate from the invariants on the covariance |
| C85 | `Plot.v`: stop and optimize with an output stream, the two default plot functions | induction over the loop: erasing the lines gives `optimize`; the list of solutions handed to the plot function is chained by generations; the cells follow from the numeric update |
| C86 | `VecSigma.v`: the vector-sigma constructor for the four transform classes | the scaling of the mean and of the sampled points (C79) are composed coordinate by coordinate |
| C87 | `Search.v` (restart_wanted, reinit, optimize) | `SpecElitRestart.v` defines the sequence of runs; an invariant of a run relates best seen, initial candidate and last best candidate, using that elitism keeps the initial candidate or a better one |
| C88 | `Kernel.v` over `Rsvm.v` | naturality of the sort for ranks; squared distances of encoded points scale by k^2 under a similarity, the width by 1/k^2; the divisors are 2(1-K) of consecutive points; the dual objective by the C74 argument |
| C89 | the `vd_*` definitions of `Update.v`; specification `SpecVd.v` (Fisher information, score, log-density) | closed forms of the Fisher blocks and of the score from the inverse of D (1+vv^T) D; the step of the code solves the two block rows (Sherman-Morrison); definiteness by completing the square with the bound that the published weight gives; derivatives with Coquelicot's auto_derive; one explicit generation for the refutation |
| C90 | `edm_num`, `grad_vec`, `grad_gp` of `Update.v`, `edm` and `optimize` of `Search.v`; specification `SpecEdm.v` | the value of the code unfolded through the eigendecomposition kept by `ask`; orthogonality of B turns the norm into a sum weighted by the eigenvalues; bounds from the quadratic form on the eigenvectors; two explicit generations of a linear objective for the refutation |
| C91 | `grad_col`, `grad_vec` of `Update.v`, `ask` of `Search.v`; specification `SpecGradPt.v` | the injected column unfolded through the eigendecomposition of `ask` to -sqrt(n) C g / sqrt(g^T C g); minimality from Cauchy-Schwarz in the metric of C, by the sign of a quadratic form along a line; the other columns by comparing with `ask` of the configuration without gradient; an explicit first generation refutes it for VD-CMA |
| C92 | `eval` with `g_uh`, `n_coin`, `n_mutate` of `Search.v`, `coin_num`, `mutate_num` of `Update.v`; specification `SpecReev.v` | the log of calls and the positions in the stream of draws followed through the two loops of `eval`; a candidate on the upper bound and a fixed coordinate for the refutations |
| C93 | `no_effect_coor64`, `no_effect_axis_sep64`, `no_effect_axis64` of `NoEff64.v`, every operation in Flocq's binary64; specification `SpecNoEff.v` | relative errors of products and roots composed (`near`), the distance to the neighbouring doubles for the final comparison; a permuted eigenbasis and a large scale for the refutations |
| C94 | the separable and VD branches of `Update.v` and the loop of `Search.v` for two searches related by a permutation of the parameters; specification `SpecPerm.v` | the simulation of `MorphProofs.v`, with sums, norms, maxima and tests over all coordinates shown invariant under reindexing |
| C76 | the search of `Search.v` started from the solution of an earlier run | simulation between the two searches (`WarmThms.v`), induction on iterations; refutations |

No property on the list is inexpressible in a model.

## 6. Findings

Expectations of a user that the code does not meet, each with a machine-checked
counterexample on the model (see `MANIFEST.json` for the part that holds):

* **C06** User scaling vector with bounds: feasibility and reported bounds — `C06_reported_bounds_refuted`, `C06_feasible_refuted`, `C06_no_bounds_refuted`
* **C08** Custom genotype/phenotype transforms are honoured by geno and pheno — `C08_unbounded_lin_refuted`
* **C09** Removing dimensions keeps the remaining dimensions' bounds and scaling — `C09_any_order_refuted`
* **C13** VD-CMA adaptation yields usable learning rates — `C13_vd_rates_refuted`
* **C15** A restart keeps the configured variant's learning rates — `C15_restart_refuted`
* **C16** Fixed-parameter settings: last setting wins — `C16_last_value_refuted`
* **C17** Stopping-criterion settings: last setting wins — `C17_last_call_refuted`
* **C18** Elitism settings: last setting wins — `C18_zero_after_three_refuted`
* **C19** Algorithm selection by name — `C19_names_refuted`
* **C20** Seed settings — `C20_zero_seed_refuted`
* **C23** Diagonal variances stay positive (sep-CMA-ES) — `C23_positive_refuted`
* **C24** Active covariance update stays symmetric positive definite — `C24_refuted`
* **C27** Fixed parameters never move — `C27_scaling_refuted`, `C27_gradient_refuted`
* **C29** Translation invariance — `C29_gradient_refuted`
* **C30** Scale invariance — `C30_gradient_refuted`
* **C31** Maximisation is minimisation of the negated objective — `C31_gradient_refuted`, `C31_from_solution_refuted`
* **C35** Best seen candidate is the minimum of everything evaluated — `C35_elitism_refuted`, `C35_uncertainty_refuted`
* **C36** Worst seen candidate is the maximum of everything evaluated — `C36_elitism_refuted`
* **C37** best_candidate() is the best of the last generation — `C37_uncertainty_refuted`, `C37_elitism_refuted`
* **C39** Elitism never loses the best point — `C39_initial_scheme_refuted`
* **C45** A budget implies termination — `C45_restart_refuted`
* **C46** Objective target stops the run — `C46_initial_point_refuted`
* **C49** Numerical criteria fire when their documented condition holds — `C49_tolx_refuted`, `C49_equalfunvals_refuted`, `C49_tolhistfun_nan_refuted`, `C49_tolhistfun_window_refuted`, `C49_tolx_sign_refuted`, `C49_condition_vd_refuted`
* **C51** Restart strategies return the best of all runs — `C51_nan_refuted`, `C51_no_run_refuted`
* **C52** Restart strategies respect the evaluation budget — `C52_ipop_refuted`, `C52_bipop_total_refuted`, `C52_bipop_refuted`
* **C53** BIPOP terminates, balances its budgets and keeps valid population sizes — `C53_progress_refuted`, `C53_from_solution_refuted`
* **C55** Optimising with some coordinates held fixed returns a point with those coordinates — `C55_all_fixed_refuted`, `C55_any_order_refuted`, `C55_bounded_value_refuted`
* **C56** Profile likelihood interval is well formed — `C56_last_kept_refuted`, `C56_no_sample_refuted`
* **C57** The profile likelihood line search terminates — `C57_refuted`
* **C58** Contour computation returns the requested number of points — `C58_level_refuted`
* **C59** Uncertainty handling ranks form permutations and re-evaluations are counted — `C59_elitism_refuted`
* **C60** Uncertainty-handling comparator is a strict weak order — `C60_order_refuted`, `C60_asymmetry_refuted`
* **C62** Numerical gradient is counted and differentiates the objective inside the bounds — `C62_inside_bounds_refuted`, `C62_affine_refuted`
* **C63** Index safety of population and history access — `C63_gradient_tpa_refuted`, `C63_user_loop_refuted`, `C63_from_solution_refuted`, `C63_elitist_restart_refuted`
* **C64** Correlations are correlations — `C64_sep_matrix_refuted`
* **C65** Surrogate training set is a bounded sliding window of true evaluations — `C65_lowered_length_refuted`, `C65_elitism_refuted`
* **C66** Surrogate runs report true objective values — `C66_prediction_reported_refuted`, `C66_overflow_refuted`, `C66_criteria_refuted`
* **C67** Ranking SVM multipliers stay in their box and the error is a proportion — `C67_svm_error_refuted`, `C67_one_point_refuted`, `C67_other_training_set_refuted`, `C67_small_population_refuted`
* **C68** Same seed, same run — `C68_interleaving_refuted`, `C68_creation_refuted`, `C68_repeated_candidates_refuted`, `C68_random_start_refuted`, `C68_uncertainty_refuted`
* **C69** Profile likelihood bounds are at the requested level — `C69_negative_refuted`, `C69_not_reached_refuted`
* **C70** Error estimation works after every algorithm variant — `C70_diagonal_refuted`
* **C72** Preselection terminates — `C72_small_prelambda_refuted`, `C72_large_lambdaprime_refuted`, `C72_zero_lifelength_refuted`
* **C73** Best of the generation with a surrogate — `C73_unsorted_generation_refuted`
* **C74** Training of the ranking SVM never degrades the model — `C74_stuck_refuted`
* **C75** Bounds hold for the doubles actually passed to the objective — `C75_scaling_refuted`, `C75_large_bounds_refuted`, `C75_far_genotype_refuted`
* **C76** A search started from a solution behaves as a new one — `C76_best_seen_refuted`, `C76_sep_refuted`, `C76_before_refuted`
* **C77** The entry points run the selected algorithm — `C77_after_sep_refuted`, `C77_after_vd_refuted`, `C77_renamed_refuted`, `C77_surrogate_refuted`, `C77_plot_refuted`, `C77_continue_refuted`
* **C78** The search starts at the initial point — `C78_bounds_refuted`, `C78_bounds_scaled_refuted`, `C78_transform_refuted`
* **C79** The proposed points follow the current distribution — `C79_lazy_refuted`
* **C80** Two-point adaptation tries the last move and follows the outcome — `C80_vd_refuted`
* **C82** A generation is the published update — `C82_separable_refuted`, `C82_vd_path_refuted`
* **C84** Reported standard deviations — `C84_bounded_zero_refuted`, `C84_errors_refuted`
* **C85** The plot file — `C85_last_row_refuted`, `C85_eigenvalues_refuted`, `C85_sign_refuted`, `C85_best_point_refuted`
* **C86** A step size for each parameter — `C86_sampling_refuted`, `C86_plain_refuted`, `C86_no_bounds_refuted`, `C86_zero_refuted`
* **C87** The elitist restart continues from the best point seen — `C87_scaling_refuted`, `C87_test_refuted`
* **C88** The surrogate's ranking model — `C88_repeated_refuted`
* **C89** VD-CMA follows the natural gradient — `C89_positive_refuted`
* **C90** The expected distance to the minimum — `C90_refuted`, `C90_factor_refuted`
* **C91** The point proposed along the gradient — `C91_vd_refuted`
* **C92** The second evaluations of uncertainty handling — `C92_feasible_refuted`, `C92_fixed_refuted`
* **C93** Stopping because a step has no effect — `C93_axes_full_refuted`, `C93_vd_refuted`

## 7. Print Assumptions, theorem by theorem

D = `sig_forall_dec`, N = `sig_not_dec` (both `ClassicalDedekindReals`),
E = `functional_extensionality_dep`, C = `Classical_Prop.classic`.

* **C D E N**: `C10_weights`, `C10_weights_after_restart`, `C11_default_rates`, `C12_adaptations`, `C12_repeated_sep_inadmissible`, `C13_vd_rates_partial`, `C13_vd_rates_refuted`, `C14_default_lambda`, `C14_given_lambda`, `C15_restart_plain_partial`, `C15_restart_refuted`, `C16_fixed_iff_last_call_set`, `C16_free_dimensions`, `C16_value_partial`, `C21_symmetric_psd`, `C22_lower_bound`, `C22_positive_definite`, `C23_lower_bound`, `C23_positive_partial`, `C23_positive_refuted`, `C24_positive_definite_partial`, `C24_refuted`, `C24_sep_partial`, `C25_sigma_positive`, `C26_any_ranking`, `C26_weighted_mean`, `C27_candidates`, `C27_evaluated_partial`, `C27_gradient_refuted`, `C27_mean_partial`, `C27_scaling_refuted`, `C27_scaling_values`, `C29_gradient_refuted`, `C29_iterations_partial`, `C29_translation_partial`, `C30_gradient_refuted`, `C30_iterations_partial`, `C30_scale_partial`, `C31_gradient_refuted`, `C49_condition_partial`, `C49_condition_sep_partial`, `C49_condition_vd_partial`, `C49_condition_vd_refuted`, `C49_tolupsigma_partial`, `C49_tolupsigma_sep_partial`, `C49_tolx_exact_partial`, `C49_tolx_fires_partial`, `C49_tolx_only_partial`, `C49_tolx_refuted`, `C49_tolx_sign_refuted`, `C51_bipop_best_partial`, `C51_bipop_return_code`, `C52_bipop_refuted`, `C52_bipop_run_calls_partial`, `C52_bipop_total_refuted`, `C53_fresh_runs`, `C53_from_solution_refuted`, `C53_population`, `C53_progress_refuted`, `C53_returns_partial`, `C53_schedule`, `C53_second_run`, `C53_small_runs`, `C61_bounded`, `C62_affine_partial`, `C62_affine_refuted`, `C62_calls`, `C62_inside_bounds_partial`, `C62_inside_bounds_refuted`, `C62_user_gradient`, `C64_full_partial`, `C64_sep_matrix_refuted`, `C75_binary64_feasible_partial`, `C75_binary64_within_range_partial`, `C75_far_genotype_refuted`, `C75_large_bounds_refuted`, `C75_scaled_nearly_partial`, `C75_scaling_refuted`, `C76_before_refuted`, `C76_iterations_partial`, `C76_optimize_partial`, `C76_sep_refuted`, `C76_sizes_partial`, `C77_surrogate_refuted`, `C78_first_call`, `C79_active_partial`, `C79_active_sep_partial`, `C79_draws_counted`, `C79_draws_used_once`, `C79_lazy_refuted`, `C79_normal_partial`, `C79_vd_partial`, `C80_active_pair_partial`, `C80_effect_partial`, `C80_pair_partial`, `C80_vd_refuted`, `C81_direction_partial`, `C81_floor`, `C81_two_point_partial`, `C82_active_partial`, `C82_active_separable_partial`, `C82_full_partial`, `C82_separable_partial`, `C82_separable_refuted`, `C82_vd_path_refuted`, `C83_ask`, `C83_iterations`, `C83_rotation`, `C83_told`, `C84_bounded_zero_refuted`, `C84_errors_partial`, `C84_errors_refuted`, `C84_variances`, `C84_variances_active_partial`, `C84_variances_active_sep_partial`, `C85_axis_ratio`, `C85_best_point_refuted`, `C85_eigenvalues_diagonal`, `C85_eigenvalues_partial`, `C85_eigenvalues_refuted`, `C85_sign_refuted`, `C86_sampling_partial`, `C86_sampling_refuted`, `C87_library_start`, `C88_dual`, `C88_kernel`, `C88_predicted`, `C88_repeated_refuted`, `C88_trained`, `C88_trained_iff`, `C88_two_points`, `C89_ascent`, `C89_density`, `C89_derivatives`, `C89_frozen`, `C89_natural_gradient`, `C89_positive_refuted`, `C89_small_dimension`, `C90_bounds_partial`, `C90_factor_refuted`, `C90_full_partial`, `C90_refuted`, `C90_reports`, `C90_sep`, `C91_full`, `C91_others`, `C91_sep`, `C91_vd_refuted`, `C92_feasible_refuted`, `C92_fixed_refuted`, `C92_points`, `C93_axes_full_partial`, `C93_axes_full_refuted`, `C93_axes_separable`, `C93_coordinates`, `C93_nan`, `C93_vd_refuted`, `C94_iterations`, `C94_renaming`

* **D**: `C16_last_value_refuted`, `C51_nan_refuted`, `C52_ipop_refuted`, `C94_points`

* **D E**: `C01_feasible`, `C01_feasible_within_range`, `C03_core_identity`, `C03_monotone`, `C03_no_stretch`, `C03_periodic`, `C04_endpoints`, `C04_increasing`, `C04_inverse`, `C04_user_inverse`, `C05_feasible`, `C05_reported_bounds`, `C06_feasible_positive_partial`, `C06_feasible_refuted`, `C06_no_bounds_refuted`, `C06_reported_bounds_refuted`, `C07_any_schedule`, `C07_population_columns`, `C07_schedules_exist`, `C09_any_order_refuted`, `C09_remove_pheno_partial`, `C57_first_step_partial`, `C57_later_steps`, `C74_dual_improves_partial`, `C78_bounds_exact`, `C78_bounds_factors_partial`, `C78_bounds_partial`, `C78_bounds_refuted`, `C78_bounds_scaled_exact`, `C78_bounds_scaled_partial`, `C78_bounds_scaled_refuted`, `C78_no_point`, `C78_plain`, `C78_scaled_factors`, `C78_scaled_interval`, `C78_transform_image`, `C78_transform_refuted`, `C83_solver`, `C84_variances_vd`, `C86_bounds`, `C86_constructed`, `C86_no_bounds_refuted`, `C86_plain_refuted`, `C86_start`, `C86_zero_refuted`, `C89_inverse`

* **D E N**: `C02_round_trip`, `C03_reached_from_far`, `C05_round_trip`, `C07_geno_any_schedule`, `C07_geno_population_columns`, `C08_bounds_compose`, `C08_bounds_lin_compose`, `C08_bounds_lin_round_trip`, `C08_bounds_round_trip`, `C08_unbounded`, `C08_unbounded_lin_refuted`, `C09_remove_geno_partial`, `C12_free_dimensions`, `C19_documented_names_partial`, `C19_names_refuted`, `C19_unknown_name_partial`, `C41_run_status`, `C41_stop_decision`, `C46_target_reported`, `C46_target_stops_partial`, `C55_all_fixed_refuted`, `C55_any_order_refuted`, `C55_bounded_value_refuted`, `C55_one_coordinate_value`, `C55_phenotype_values`, `C55_unbounded_value`, `C55_values`, `C56_accesses`, `C56_curve`, `C56_first_kept_partial`, `C56_interval`, `C56_last_kept_refuted`, `C56_no_sample_refuted`, `C57_computation_partial`, `C57_refuted`, `C57_zero_coordinate`, `C58_count`, `C58_level_partial`, `C58_level_refuted`, `C64_sep`, `C64_vd_partial`, `C69_level_partial`, `C69_negative_minimum`, `C69_negative_refuted`, `C69_not_reached_refuted`, `C70_diagonal_refuted`, `C70_full_partial`, `C74_stuck_refuted`, `C77_after_sep_refuted`, `C77_after_vd_refuted`, `C77_codes_partial`, `C77_continue_partial`, `C77_continue_refuted`, `C77_functions_partial`, `C77_names_partial`, `C77_plot_refuted`, `C77_renamed_refuted`, `C77_unknown_code`, `C84_bounded_partial`, `C84_bounded_scaled_partial`, `C84_bounded_total`, `C84_plain`, `C84_scaled`, `C84_scaled_by_bounds`, `C85_full_line`, `C85_line`, `C88_ranks`, `C88_similarity`, `C88_similarity_sep`, `C89_definite`, `C89_weight`, `C90_factor_partial`

* **closed under the global context**: `C17_first_call_wins_partial`, `C17_last_call_refuted`, `C17_last_call_wins_partial`, `C18_last_scheme_partial`, `C18_zero_after_three_refuted`, `C20_constructor`, `C20_nonzero_seeds_partial`, `C20_zero_seed_refuted`, `C28_histories`, `C28_iterations`, `C28_optimize`, `C31_from_solution_refuted`, `C31_maximum_partial`, `C32_counter`, `C32_counter_from_solution`, `C32_log`, `C33_schedule_exists`, `C33_schedule_independent`, `C34_stable_ranking`, `C35_best_seen_partial`, `C35_elitism_refuted`, `C35_over_all_calls_partial`, `C35_uncertainty_refuted`, `C36_elitism_refuted`, `C36_worst_seen_partial`, `C37_before_partial`, `C37_elitism_refuted`, `C37_last_generation_partial`, `C37_ranked_partial`, `C37_told_partial`, `C37_uncertainty_refuted`, `C38_least_and_median`, `C38_lengths`, `C38_windows`, `C39_best_kept_partial`, `C39_initial_scheme_refuted`, `C40_counters`, `C41_flags`, `C42_deactivated`, `C43_max_iter`, `C44_max_fevals`, `C45_evaluation_budget`, `C45_evaluation_budget_any`, `C45_iteration_budget_partial`, `C45_restart_refuted`, `C46_initial_point_refuted`, `C47_return_code`, `C48_progress`, `C49_equalfunvals_partial`, `C49_equalfunvals_refuted`, `C49_stagnation_partial`, `C49_tolhistfun_nan_refuted`, `C49_tolhistfun_partial`, `C49_tolhistfun_window_refuted`, `C50_fresh_runs`, `C50_generation_sizes`, `C50_returns`, `C50_runs`, `C51_final_values`, `C51_ipop_best_partial`, `C51_ipop_return_code`, `C51_no_run_refuted`, `C52_ipop_calls_partial`, `C54_add_then_remove`, `C54_outside_unchanged`, `C54_remove_coordinates`, `C54_remove_then_add`, `C54_rows_and_columns`, `C59_elitism_refuted`, `C59_generation_partial`, `C59_noise_partial`, `C60_asymmetry_refuted`, `C60_irreflexive_partial`, `C60_order_partial`, `C60_order_refuted`, `C63_elitist_restart_refuted`, `C63_every_mode_partial`, `C63_from_solution_refuted`, `C63_gradient_tpa_refuted`, `C63_no_fault_partial`, `C63_user_loop_refuted`, `C65_elitism_refuted`, `C65_end_of_sequence`, `C65_lowered_length_refuted`, `C65_most_recent_calls_partial`, `C65_window_partial`, `C66_criteria_kept_partial`, `C66_criteria_refuted`, `C66_overflow_refuted`, `C66_prediction_reported_refuted`, `C66_true_values_partial`, `C67_errors_partial`, `C67_multipliers`, `C67_one_point_refuted`, `C67_other_training_set_refuted`, `C67_small_population_refuted`, `C67_svm_error_partial`, `C67_svm_error_refuted`, `C67_training_returns`, `C68_as_if_alone_partial`, `C68_creation_refuted`, `C68_creation_seeds`, `C68_interleaving_refuted`, `C68_random_start_refuted`, `C68_repeated_candidates_refuted`, `C68_same_seed_partial`, `C68_uncertainty_refuted`, `C71_counter`, `C72_large_lambdaprime_refuted`, `C72_preselection_ends_partial`, `C72_sizes_needed`, `C72_small_prelambda_refuted`, `C72_zero_lifelength_refuted`, `C73_best_of_generation_partial`, `C73_unsorted_generation_refuted`, `C76_best_seen_partial`, `C76_best_seen_refuted`, `C85_blocks`, `C85_evaluations`, `C85_file`, `C85_last_row_refuted`, `C85_rows_partial`, `C85_same_result`, `C85_same_search`, `C87_never_worse_partial`, `C87_restarts`, `C87_scaling_refuted`, `C87_test_defined_partial`, `C87_test_refuted`, `C90_optimize`, `C94_draws`
