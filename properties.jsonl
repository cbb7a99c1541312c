{"id": "C01", "title": "Bounded search only evaluates feasible points", "statement": "When an optimisation is run with piecewise-quadratic bounds lb<ub, the phenotype handed to the objective function for any genotype the search may produce lies inside [lb,ub] in every coordinate, or else the transform does not return a value because the period count does not fit an int (undefined behaviour).", "quantifier": "all dimensions, all lb<ub, all real genotype vectors", "why_tests_cant": "genotypes are drawn from an unbounded Gaussian; no finite set of samples covers the real line or every bound pair", "anchors": ["src/pwq_bound_strategy.cc: pwqBoundStrategy::to_f_representation, shift_into_feasible", "include/libcmaes/genopheno.h: GenoPheno::pheno"]}
{"id": "C02", "title": "Bounds round trip", "statement": "For every point y inside the bounds, encoding y to the internal representation and decoding it again gives y back exactly (in exact arithmetic), so a user starting point inside the bounds is the point the search starts from.", "quantifier": "all dimensions, all lb<ub, all y in [lb,ub]", "why_tests_cant": "a continuum of points and bounds; the boundary cases lb and ub use different branches", "anchors": ["src/pwq_bound_strategy.cc: to_internal_representation, to_f_representation"]}
{"id": "C03", "title": "Bounds transform is the identity in the core, monotone on the extended interval and periodic", "statement": "The bound transform changes nothing for genotypes in [lb+al,ub-au], is non-decreasing on [lb-al,ub+au] with range [lb,ub], and repeats with period 2(ub-lb+al+au), so each feasible point is reachable from genotypes arbitrarily far out.", "quantifier": "all lb<ub and all genotype values", "why_tests_cant": "continuum of inputs", "anchors": ["src/pwq_bound_strategy.cc: pwqBoundStrategy ctor, to_f_representation, shift_into_feasible"]}
{"id": "C04", "title": "Linear scaling is an exact affine bijection mapping the bounds to [0,10]", "statement": "Scaling built from bounds lb<ub maps lb to 0 and ub to 10, is strictly increasing, and scaling to internal and back is the identity in both directions; scaling given by the user (non-zero factors) is a bijection as well.", "quantifier": "all dimensions, all lb<ub, all non-zero scaling vectors, all points", "why_tests_cant": "continuum of inputs", "anchors": ["include/libcmaes/scaling.h: linScalingStrategy::compute_scaling, scale_to_internal, scale_to_f"]}
{"id": "C05", "title": "Scaling combined with bounds still respects the user bounds", "statement": "With GenoPheno(lb,ub,dim) using both bounds and linear scaling, every genotype decodes to a phenotype inside the user's [lb,ub], every phenotype inside the bounds survives geno-then-pheno unchanged, and the bounds the object reports are the user's bounds.", "quantifier": "all dimensions, all lb<ub, all genotypes and phenotypes", "why_tests_cant": "continuum of inputs; composition of two independently tested transforms", "anchors": ["include/libcmaes/genopheno.h: GenoPheno<pwqBoundStrategy,linScalingStrategy> ctor, pheno, geno, getPhenoLBound, getPhenoUBound"]}
{"id": "C06", "title": "User scaling vector with bounds: feasibility and reported bounds", "statement": "With GenoPheno(scaling,shift,lb,ub) every genotype decodes into the user's bounds and the reported phenotype bounds are the user's bounds.", "quantifier": "all scaling vectors with non-zero entries, all lb<ub, all genotypes", "why_tests_cant": "continuum of inputs, sign of the scaling factor matters", "anchors": ["include/libcmaes/genopheno.h: GenoPheno(scaling,shift,lbounds,ubounds) specialisation"]}
{"id": "C07", "title": "Population transform is the column-by-column transform", "statement": "Decoding a whole population matrix gives, in every column, exactly the decoding of that column, for any number of columns and for any order or interleaving in which the columns are processed.", "quantifier": "all population sizes, all dimensions, all schedules of the parallel loop", "why_tests_cant": "all interleavings of the OpenMP loop", "anchors": ["include/libcmaes/genopheno.h: GenoPheno::pheno(dMat)"]}
{"id": "C08", "title": "Custom genotype/phenotype transforms are honoured by geno and pheno", "statement": "When the user supplies encode/decode functions, geno applies the encode function and pheno the decode function (composed with scaling and bounds), and geno followed by pheno is the identity whenever decode inverts encode.", "quantifier": "all user transforms, all vectors, each of the four bound/scaling combinations", "why_tests_cant": "universally quantified over user functions", "anchors": ["include/libcmaes/genopheno.h: GenoPheno::geno, GenoPheno::pheno and specialisations"]}
{"id": "C09", "title": "Removing dimensions keeps the remaining dimensions' bounds and scaling", "statement": "After removing a set of dimensions from a transform, the transform of the remaining coordinates is the same as before the removal.", "quantifier": "all dimensions, all sets and orders of removed indices", "why_tests_cant": "all index lists in all orders", "anchors": ["src/pwq_bound_strategy.cc: remove_dimensions", "include/libcmaes/scaling.h: remove_dimensions", "include/libcmaes/genopheno.h: remove_dimensions", "include/libcmaes/eo_matrix.h"]}
{"id": "C10", "title": "Recombination weights are a proper decreasing probability vector", "statement": "For every dimension n>=1 and population size lambda>=2 the constructed parameters have mu=floor(lambda/2)>=1 weights, all strictly positive, strictly decreasing and summing to one, with effective size 1<=mueff<=mu.", "quantifier": "all n>=1, all lambda>=2", "why_tests_cant": "two unbounded integers", "anchors": ["src/cmaparameters.cc: CMAParameters::initialize_parameters"]}
{"id": "C11", "title": "Default learning rates stay in their admissible ranges", "statement": "For every dimension and population size: 0<csigma<1, dsigma>=1+csigma>1, 0<cc<=1, 0<c1<1, 0<=cmu and c1+cmu<=1, chi>0 and the lazy-update period is positive, so no coefficient of the mean, path and covariance updates is negative and no square root of a negative number is taken.", "quantifier": "all n>=1, all lambda>=2", "why_tests_cant": "two unbounded integers; rational expressions with logs", "anchors": ["src/cmaparameters.cc: initialize_parameters"]}
{"id": "C12", "title": "sep, noisy, TPA and fixed-parameter adaptations keep the learning rates admissible", "statement": "After set_sep, set_noisy, set_tpa and set_fixed_p (each called at most once, in any order) the rates still satisfy 0<c1, 0<=cmu and c1+cmu<=1.", "quantifier": "all n, lambda, all orders of the adaptation calls", "why_tests_cant": "unbounded integers and call histories", "anchors": ["src/cmaparameters.cc: set_sep, set_noisy, set_tpa, set_fixed_p"]}
{"id": "C13", "title": "VD-CMA adaptation yields usable learning rates", "statement": "set_vd gives non-negative learning rates with c1+cmu<=1.", "quantifier": "all n>=1, lambda>=2", "why_tests_cant": "the sign depends on the dimension", "anchors": ["src/cmaparameters.cc: set_vd"]}
{"id": "C14", "title": "Default population size", "statement": "A population size given as -1 or any value below 2 is replaced by 4+floor(3 ln n), which is at least 4; any other value is kept.", "quantifier": "all n>=1, all integers lambda", "why_tests_cant": "unbounded integers, logarithm rounding", "anchors": ["include/libcmaes/parameters.h: Parameters ctor"]}
{"id": "C15", "title": "A restart keeps the configured variant's learning rates", "statement": "After the population size is changed by a restart, the parameters equal the ones obtained by configuring the same variant (sep, VD, noisy, TPA, fixed parameters) with that population size from scratch.", "quantifier": "all n, lambda, variants and restart indices", "why_tests_cant": "all histories of configuration calls and restarts", "anchors": ["src/ipopcmastrategy.cc: lambda_inc", "src/bipopcmastrategy.cc: r1, r2", "src/cmaparameters.cc: initialize_parameters"]}
{"id": "C16", "title": "Fixed-parameter settings: last setting wins", "statement": "After any sequence of set_fixed_p/unset_fixed_p calls, a parameter is fixed iff its last call was a set, and then at the value of that last call; the free dimension count is n minus the number of fixed parameters.", "quantifier": "all call histories", "why_tests_cant": "arbitrary histories", "anchors": ["include/libcmaes/parameters.h: set_fixed_p, unset_fixed_p", "src/cmaparameters.cc: set_fixed_p, unset_fixed_p"]}
{"id": "C17", "title": "Stopping-criterion settings: last setting wins", "statement": "After any sequence of set_stopping_criteria calls, each criterion is active in the optimiser exactly as its last call said (active by default).", "quantifier": "all call histories", "why_tests_cant": "arbitrary histories", "anchors": ["include/libcmaes/cmaparameters.h: set_stopping_criteria", "src/cmastrategy.cc: CMAStrategy ctor"]}
{"id": "C18", "title": "Elitism settings: last setting wins", "statement": "After any sequence of set_elitism(e) calls, exactly the scheme of the last valid call is enabled (0: none, 1: reinjection, 2: initial elitism, 3: initial elitism on restart).", "quantifier": "all call histories", "why_tests_cant": "arbitrary histories", "anchors": ["include/libcmaes/cmaparameters.h: set_elitism"]}
{"id": "C19", "title": "Algorithm selection by name", "statement": "set_str_algo with a documented name selects that algorithm, an unknown name changes nothing, and the sep/vd adaptations are applied exactly for the sep and vd names.", "quantifier": "all documented names, all other strings", "why_tests_cant": "all strings", "anchors": ["include/libcmaes/cmaparameters.h: set_str_algo, _algos"]}
{"id": "C20", "title": "Seed settings", "statement": "set_seed(s) with s<>0 makes s the seed used; set_seed(0) asks for a random (clock based) seed.", "quantifier": "all seeds, all call histories", "why_tests_cant": "arbitrary histories", "anchors": ["include/libcmaes/parameters.h: set_seed"]}
{"id": "C21", "title": "Covariance stays symmetric positive semi-definite (vanilla)", "statement": "In every run of vanilla CMA-ES, whatever candidates and objective values are fed to tell, the covariance returned by cov() is symmetric and positive semi-definite after every iteration.", "quantifier": "all dimensions, all sequences of populations and rankings, any length", "why_tests_cant": "unbounded histories of real-valued updates", "anchors": ["src/covarianceupdate.cc: CovarianceUpdate::update", "src/cmasolutions.cc: CMASolutions ctor"]}
{"id": "C22", "title": "Covariance stays positive definite (vanilla)", "statement": "In every run of vanilla CMA-ES with c1+cmu<1 the covariance stays positive definite, with smallest eigenvalue bounded below by (1-c1-cmu)^t.", "quantifier": "all dimensions, all histories", "why_tests_cant": "unbounded histories", "anchors": ["src/covarianceupdate.cc: CovarianceUpdate::update"]}
{"id": "C23", "title": "Diagonal variances stay positive (sep-CMA-ES)", "statement": "In every run of sep-CMA-ES all coordinate variances stay strictly positive.", "quantifier": "all dimensions, all histories", "why_tests_cant": "unbounded histories", "anchors": ["src/covarianceupdate.cc: CovarianceUpdate::update (sep branch)"]}
{"id": "C24", "title": "Active covariance update stays symmetric positive definite", "statement": "In every run of active CMA-ES the covariance stays symmetric and positive definite, assuming the inverse square root used by the update is exact.", "quantifier": "all dimensions, all histories", "why_tests_cant": "unbounded histories; the negative update subtracts a matrix", "anchors": ["src/acovarianceupdate.cc: ACovarianceUpdate::update"]}
{"id": "C25", "title": "Step size stays positive", "statement": "Starting from a positive initial step size, sigma is strictly positive after any number of updates of any variant.", "quantifier": "all variants, all histories", "why_tests_cant": "unbounded histories", "anchors": ["src/covarianceupdate.cc", "src/acovarianceupdate.cc", "src/vdcmaupdate.cc"]}
{"id": "C26", "title": "New mean is a convex combination of selected candidates", "statement": "After tell, the mean is the weighted average (weights of the parameters, summing to one) of the mu best candidates, so each coordinate lies between the smallest and largest value of that coordinate among the selected candidates.", "quantifier": "all dimensions, lambda, candidates and rankings", "why_tests_cant": "continuum of inputs", "anchors": ["src/covarianceupdate.cc", "src/acovarianceupdate.cc", "src/vdcmaupdate.cc"]}
{"id": "C27", "title": "Fixed parameters never move", "statement": "A parameter fixed with set_fixed_p keeps its value in every candidate evaluated and in the distribution mean throughout the run.", "quantifier": "all histories, all sets of fixed parameters", "why_tests_cant": "unbounded histories", "anchors": ["src/cmastrategy.cc: ask", "src/cmasolutions.cc: ctor", "src/covarianceupdate.cc"]}
{"id": "C28", "title": "Only the ranking of objective values matters", "statement": "Replacing the objective f by g(f) with g strictly increasing leaves the whole sequence of candidates, means, covariances and step sizes unchanged, for as many iterations as one runs.", "quantifier": "all objectives, all strictly increasing g, all random streams, all iteration counts", "why_tests_cant": "relational property over two unbounded executions", "anchors": ["src/cmastrategy.cc: ask, tell", "include/libcmaes/cmasolutions.h: sort_candidates", "src/covarianceupdate.cc"]}
{"id": "C29", "title": "Translation invariance", "statement": "Without bounds, moving the starting point by a and the objective to f(x-a) moves all candidates and means by a and leaves step sizes and covariances unchanged.", "quantifier": "all objectives, shifts, random streams, iteration counts", "why_tests_cant": "relational property over two unbounded executions", "anchors": ["src/cmastrategy.cc: ask, tell", "src/covarianceupdate.cc"]}
{"id": "C30", "title": "Scale invariance", "statement": "Without bounds, multiplying starting point and initial step size by a>0 and using f(x/a) multiplies all candidates and means by a and leaves the covariance unchanged.", "quantifier": "all objectives, scales, random streams, iteration counts", "why_tests_cant": "relational property over two unbounded executions", "anchors": ["src/cmastrategy.cc: ask, tell", "src/covarianceupdate.cc"]}
{"id": "C31", "title": "Maximisation is minimisation of the negated objective", "statement": "An optimiser with set_maximize(true) behaves exactly like one minimising -f, whichever constructor it was created with.", "quantifier": "all objectives, all histories, both constructors", "why_tests_cant": "universally quantified over objectives and histories", "anchors": ["src/esostrategy.cc: ESOStrategy ctors"]}
{"id": "C32", "title": "Function-evaluation counter is exact", "statement": "At every point of any ask/eval/tell history or optimize() run, fevals() equals the number of times the objective function was actually called by that optimiser (initial point, population, re-evaluations and numerical gradients included).", "quantifier": "all histories, all objectives and configurations", "why_tests_cant": "unbounded histories", "anchors": ["src/esostrategy.cc: eval, update_fevals, gradf, perform_uh", "src/cmastrategy.cc: optimize"]}
{"id": "C33", "title": "Parallel evaluation is schedule independent", "statement": "Evaluating a population with multithreading gives the same candidates, values, ids and counters as the sequential loop for every interleaving of the workers, given a pure objective function.", "quantifier": "all population sizes and all interleavings", "why_tests_cant": "exponentially many schedules", "anchors": ["src/esostrategy.cc: eval", "include/libcmaes/parameters.h: set_mt_feval"]}
{"id": "C34", "title": "Candidates are ranked by a stable sort", "statement": "After tell the candidates are a permutation of the evaluated ones in non-decreasing order of value, equal values keeping their evaluation order (no value being NaN).", "quantifier": "all populations", "why_tests_cant": "all permutations and ties", "anchors": ["include/libcmaes/cmasolutions.h: sort_candidates"]}
{"id": "C35", "title": "Best seen candidate is the minimum of everything evaluated", "statement": "At the end of every iteration get_best_seen_candidate() is a candidate that was evaluated, and its value is the minimum of all values returned by the objective on populations so far.", "quantifier": "all histories", "why_tests_cant": "unbounded histories, NaN and elitism corner cases", "anchors": ["src/cmasolutions.cc: update_best_candidates"]}
{"id": "C36", "title": "Worst seen candidate is the maximum of everything evaluated", "statement": "At the end of every iteration get_worst_seen_candidate() is the evaluated candidate of largest value.", "quantifier": "all histories", "why_tests_cant": "unbounded histories", "anchors": ["src/cmasolutions.cc: update_best_candidates"]}
{"id": "C37", "title": "best_candidate() is the best of the last generation", "statement": "best_candidate() returns the best candidate of the last completed generation, the initial point before that, and never indexes an empty container.", "quantifier": "all histories", "why_tests_cant": "unbounded histories", "anchors": ["include/libcmaes/cmasolutions.h: best_candidate", "src/cmasolutions.cc: update_best_candidates"]}
{"id": "C38", "title": "History windows are bounded and keep the most recent entries", "statement": "The histories of best candidates, k-th values and medians never exceed their limits and always contain the most recent entries in order.", "quantifier": "all histories", "why_tests_cant": "unbounded histories", "anchors": ["src/cmasolutions.cc: update_best_candidates"]}
{"id": "C39", "title": "Elitism never loses the best point", "statement": "With elitism on, after the first generation every evaluated generation contains a candidate at least as good as the best seen so far.", "quantifier": "all histories", "why_tests_cant": "unbounded histories", "anchors": ["src/esostrategy.cc: eval"]}
{"id": "C40", "title": "Iteration counters agree", "statement": "The iteration count of the strategy and of the solution object are equal after every operation of an optimize() run and equal the number of completed ask/eval/tell rounds.", "quantifier": "all histories", "why_tests_cant": "unbounded histories", "anchors": ["src/esostrategy.cc: inc_iter", "src/cmastrategy.cc: optimize"]}
{"id": "C41", "title": "Reported stop status names an active criterion that holds", "statement": "When the optimiser stops because of a termination criterion, the reported status is a criterion that is active and whose condition holds on the final state, and it is the first such criterion in ascending code order; conversely it continues only if no active criterion holds.", "quantifier": "all states, all activation maps", "why_tests_cant": "all subsets of criteria and all states", "anchors": ["src/cmastopcriteria.cc: stop, set_criteria_active", "src/cmastrategy.cc: stop"]}
{"id": "C42", "title": "Deactivated criteria never stop the run", "statement": "A criterion disabled by the user is never the reported status, in any run.", "quantifier": "all histories and activation settings", "why_tests_cant": "unbounded histories", "anchors": ["src/cmastopcriteria.cc: stop, set_criteria_active", "src/cmastrategy.cc: CMAStrategy ctors"]}
{"id": "C43", "title": "Iteration budget is respected", "statement": "With max_iter=m>=1 and no restart, optimize() performs at most m iterations; with m=0 it still performs one iteration.", "quantifier": "all objectives and configurations", "why_tests_cant": "universally quantified over runs", "anchors": ["src/cmastopcriteria.cc: maxIter", "src/cmastrategy.cc: stop, optimize"]}
{"id": "C44", "title": "Evaluation budget is exceeded by less than one generation", "statement": "With max_fevals=m>0, a single run of optimize() makes fewer than m plus one generation's worth of objective calls (plus the initial evaluation).", "quantifier": "all objectives and configurations", "why_tests_cant": "universally quantified over runs", "anchors": ["src/cmastopcriteria.cc: maxFEvals", "src/cmastrategy.cc: stop, optimize"]}
{"id": "C45", "title": "A budget implies termination", "statement": "If an iteration or evaluation budget is set (and active) the optimisation loop terminates for every objective and random stream.", "quantifier": "all objectives, random streams, configurations", "why_tests_cant": "termination over all executions", "anchors": ["src/cmastrategy.cc: optimize, stop"]}
{"id": "C46", "title": "Objective target stops the run", "statement": "With ftarget set, the loop ends at the first check at which best_candidate() has value <= ftarget, and FTARGET is reported only if that holds.", "quantifier": "all histories", "why_tests_cant": "universally quantified over runs", "anchors": ["src/cmastopcriteria.cc: fTarget"]}
{"id": "C47", "title": "Return code matches run status", "statement": "optimize() returns success exactly when the final run status is non-negative.", "quantifier": "all runs", "why_tests_cant": "universally quantified over runs", "anchors": ["src/cmastrategy.cc: optimize", "src/ipopcmastrategy.cc: optimize", "src/bipopcmastrategy.cc: optimize"]}
{"id": "C48", "title": "User progress function stops the run", "statement": "A non-zero return of the user's progress function ends the run before another population is drawn, and the reported status is then not that of a criterion evaluated in that check.", "quantifier": "all histories and progress functions", "why_tests_cant": "universally quantified over callbacks", "anchors": ["src/cmastrategy.cc: stop"]}
{"id": "C49", "title": "Numerical criteria fire when their documented condition holds", "statement": "EQUALFUNVALS fires when the recent best values are all equal; TOLHISTFUN fires when the best values of the last 10+ceil(30 n/lambda) iterations are within the tolerance of each other; STAGNATION fires when the median of the last 20 best values has not improved over the oldest kept medians; TOLX fires when all coordinate spreads relative to the initial step are below tolerance; CONDITIONCOV fires when the condition number exceeds its limit.", "quantifier": "all states", "why_tests_cant": "all states, including degenerate eigenvalues", "anchors": ["src/cmastopcriteria.cc: equalFunVals, tolX, conditionCov, tolHistFun, stagnation, noEffectAxis, noEffectCoor"]}
{"id": "C50", "title": "IPOP runs the requested number of restarts with doubled populations", "statement": "IPOP performs at most the requested number of runs, the k-th with population size lambda0*2^k.", "quantifier": "all lambda0, restart counts, run outcomes", "why_tests_cant": "universally quantified over outcomes of the inner runs", "anchors": ["src/ipopcmastrategy.cc: optimize, lambda_inc"]}
{"id": "C51", "title": "Restart strategies return the best of all runs", "statement": "The solution returned by IPOP/BIPOP has a value no larger than the final value of every inner run performed.", "quantifier": "all numbers of runs and outcomes", "why_tests_cant": "universally quantified over outcomes", "anchors": ["src/ipopcmastrategy.cc: capture_best_solution", "src/bipopcmastrategy.cc: optimize"]}
{"id": "C52", "title": "Restart strategies respect the evaluation budget", "statement": "With max_fevals=m>0 the total number of objective calls over all runs of IPOP (BIPOP) is below m plus one generation.", "quantifier": "all runs", "why_tests_cant": "universally quantified over outcomes", "anchors": ["src/ipopcmastrategy.cc: optimize", "src/bipopcmastrategy.cc: optimize, r2"]}
{"id": "C53", "title": "BIPOP terminates, balances its budgets and keeps valid population sizes", "statement": "BIPOP performs its requested restarts and returns, the small-population runs never leave the small budget more than one run ahead, and every population size it uses is at least 2.", "quantifier": "all outcomes, all random draws", "why_tests_cant": "termination over all executions", "anchors": ["src/bipopcmastrategy.cc: optimize, r1, r2"]}
{"id": "C54", "title": "Removing and re-inserting a coordinate are inverse", "statement": "removeElement after addElement at the same index restores the vector, and addElement after removeElement with the removed value restores it; other indices leave the vector unchanged.", "quantifier": "all vectors, indices, values", "why_tests_cant": "unbounded sizes and indices", "anchors": ["include/libcmaes/eo_matrix.h: removeElement, addElement, removeRow, removeColumn"]}
{"id": "C55", "title": "Optimising with some coordinates held fixed returns a point with those coordinates", "statement": "optimize_vpk returns a full-dimension candidate in which the chosen coordinates have the requested values.", "quantifier": "all dimensions, all index sets and orders, all values", "why_tests_cant": "all index lists in all orders", "anchors": ["src/errstats.cc: optimize_vpk, optimize_pk"]}
{"id": "C56", "title": "Profile likelihood interval is well formed", "statement": "The returned interval has min <= max, all accesses to the sampled curve are in range, and results cached for a parameter are those of the last computation.", "quantifier": "all sample sizes, all objectives", "why_tests_cant": "universally quantified over objectives and sizes", "anchors": ["src/errstats.cc: profile_likelihood, profile_likelihood_search", "include/libcmaes/pli.h"]}
{"id": "C57", "title": "The profile likelihood line search terminates", "statement": "The search for the initial step of the profile likelihood ends for every objective and every current point.", "quantifier": "all objectives and points", "why_tests_cant": "termination over all inputs", "anchors": ["src/errstats.cc: take_linear_step"]}
{"id": "C58", "title": "Contour computation returns the requested number of points", "statement": "contour() returns at least 4 and at most max(4,n) points and uses profile likelihoods computed for the requested level.", "quantifier": "all objectives, all n, all histories of previous calls", "why_tests_cant": "universally quantified over histories", "anchors": ["src/errstats.cc: contour_points"]}
{"id": "C59", "title": "Uncertainty handling ranks form permutations and re-evaluations are counted", "statement": "Uncertainty handling re-evaluates between 1 and lambda candidates, counts each call, assigns each candidate of the two-value ranking a rank, and leaves the population's points and ids unchanged. The rank change of a re-evaluated candidate, compared with the tenth percentile of the possible changes, decides whether the step size is increased; the population is then ordered by the sum of the two ranks.", "quantifier": "all populations, values, random draws", "why_tests_cant": "all permutations and draws", "anchors": ["src/esostrategy.cc: uncertainty_handling, perform_uh, select_candidates_uh, eval_candidates_uh"]}
{"id": "C60", "title": "Uncertainty-handling comparator is a strict weak order", "statement": "The comparison used to rank candidates by the sum of their ranks is irreflexive, asymmetric and transitive, as std::sort requires.", "quantifier": "all pairs and triples of ranks", "why_tests_cant": "all triples of candidates", "anchors": ["src/esostrategy.cc: uncertainty_handling"]}
{"id": "C61", "title": "Two-point adaptation coefficient stays bounded", "statement": "The smoothed two-point adaptation measure stays within [-1,1] for every history when both mirrored points are found in the population.", "quantifier": "all histories", "why_tests_cant": "unbounded histories", "anchors": ["src/esostrategy.cc: tpa_update"]}
{"id": "C62", "title": "Numerical gradient is counted and differentiates the objective inside the bounds", "statement": "Without a user gradient, a gradient costs exactly n+1 objective calls, each at a point inside the bounds; with a user gradient it costs none; for an affine objective the result is the exact gradient.", "quantifier": "all dimensions and objectives", "why_tests_cant": "universally quantified over objectives", "anchors": ["src/esostrategy.cc: gradf, gradgp"]}
{"id": "C63", "title": "Index safety of population and history access", "statement": "No operation of an ask/eval/tell history on a state built from n>=1 and lambda>=2 indexes candidates, weights or history out of range.", "quantifier": "all n, lambda, configurations, histories", "why_tests_cant": "unbounded histories", "anchors": ["src/cmasolutions.cc", "src/cmastrategy.cc: ask", "src/esostrategy.cc: eval"]}
{"id": "C64", "title": "Correlations are correlations", "statement": "corr(i,j) is symmetric, 1 on the diagonal and in [-1,1] for every covariance the optimiser can reach.", "quantifier": "all histories, all i,j", "why_tests_cant": "unbounded histories", "anchors": ["src/cmasolutions.cc: corr"]}
{"id": "C65", "title": "Surrogate training set is a bounded sliding window of true evaluations", "statement": "The training set never exceeds its configured length and contains the most recent truly evaluated candidates in order.", "quantifier": "all histories", "why_tests_cant": "unbounded histories", "anchors": ["src/surrogatestrategy.cc: add_to_training_set, eval"]}
{"id": "C66", "title": "Surrogate runs report true objective values", "statement": "With a surrogate, the best candidate reported carries a value the objective function actually returned, and user stopping-criteria settings are kept.", "quantifier": "all histories", "why_tests_cant": "unbounded histories", "anchors": ["src/surrogatestrategy.cc: SimpleSurrogateStrategy::eval, ACMSurrogateStrategy::pre_selection_eval"]}
{"id": "C67", "title": "Ranking SVM multipliers stay in their box and the error is a proportion", "statement": "After any number of optimisation steps every Lagrange multiplier of the ranking SVM is within [0,C_i], and the reported ranking error is in [0,1].", "quantifier": "all training sets, all random draws, all iteration counts", "why_tests_cant": "unbounded histories", "anchors": ["include/libcmaes/surrogates/rankingsvm.hpp: optimize, error", "src/surrogatestrategy.cc: compute_error"]}
{"id": "C68", "title": "Same seed, same run", "statement": "Two optimisers with the same configuration and seed draw the same candidates, whatever other optimisers are created or run in between in the same program.", "quantifier": "all interleavings of optimiser operations", "why_tests_cant": "all interleavings", "anchors": ["include/libcmaes/eigenmvn.h: scalar_normal_dist_op, EigenMultivariateNormal"]}
{"id": "C69", "title": "Profile likelihood bounds are at the requested level", "statement": "The bounds returned by the profile likelihood of a coordinate are values of that coordinate for which the constrained minimum is, within ten percent, the requested level above the minimum; the optimum is inside the interval.", "quantifier": "all objectives, levels and solutions", "why_tests_cant": "all objectives", "anchors": ["src/errstats.cc: profile_likelihood, profile_likelihood_search", "include/libcmaes/pli.h: setErrMinMax, getMinMax"]}
{"id": "C70", "title": "Error estimation works after every algorithm variant", "statement": "The profile likelihood can be computed from the solution of any CMA-ES variant, without an operation on vectors of different sizes.", "quantifier": "all variants, objectives, dimensions", "why_tests_cant": "all variants and inputs", "anchors": ["src/errstats.cc: take_linear_step", "src/cmastrategy.cc: tell"]}
{"id": "C71", "title": "Evaluation counter with a surrogate", "statement": "With a surrogate, the reported number of evaluations is the number of calls of the true objective; predictions are not counted.", "quantifier": "all histories, surrogates, objectives", "why_tests_cant": "unbounded histories and arbitrary surrogates", "anchors": ["src/surrogatestrategy.cc: eval, pre_selection_eval", "include/libcmaes/surrogatestrategy.h: SurrogateStrategy"]}
{"id": "C72", "title": "Preselection terminates", "statement": "A generation of the surrogate-assisted strategy ends, whatever settings the setters accept.", "quantifier": "all settings, populations and draws", "why_tests_cant": "non-termination cannot be observed by a test; all settings", "anchors": ["src/surrogatestrategy.cc: pre_selection_eval", "include/libcmaes/surrogatestrategy.h: set_prelambda, set_lambdaprime, set_nsteps"]}
{"id": "C73", "title": "Best of the generation with a surrogate", "statement": "After each generation the best candidate reported by the surrogate-assisted strategy is no worse than any candidate evaluated in that generation.", "quantifier": "all histories, surrogates, objectives", "why_tests_cant": "depends on the generation in which the training set becomes full", "anchors": ["src/surrogatestrategy.cc: ACMSurrogateStrategy::tell, ACMSurrogateStrategy::eval"]}
{"id": "C74", "title": "Training of the ranking SVM never degrades the model", "statement": "Giving the ranking SVM more training iterations never lowers the dual objective of its ranking problem, and training leaves no single multiplier that could be improved.", "quantifier": "all training sets, kernels, draws and iteration counts", "why_tests_cant": "unbounded iterations, all training sets", "anchors": ["include/libcmaes/surrogates/rankingsvm.hpp: train, optimize"]}
{"id": "C75", "title": "Bounds hold for the doubles actually passed to the objective", "statement": "With bounds, every coordinate the objective receives is a finite double between its lower and its upper bound, rounding included, with and without linear scaling.", "quantifier": "all pairs of finite bounds, all dimensions, all genotypes (doubles)", "why_tests_cant": "rounding errors appear at particular bit patterns; 2^64 values per coordinate", "anchors": ["include/libcmaes/pwq_bound_strategy.h: pwqBoundStrategy", "src/pwq_bound_strategy.cc: to_f_representation, shift_into_feasible", "include/libcmaes/scaling.h: linScalingStrategy::compute_scaling, scale_to_f", "include/libcmaes/genopheno.h: GenoPheno::pheno"]}
{"id": "C76", "title": "A search started from a solution behaves as a new one", "statement": "Starting a search from the solution object of an earlier run of the same size behaves, for every objective, as a new search from the mean and step size of that solution: counters, status and histories start over, the covariance is the identity, and both make the same evaluations and reach the same states when they draw the same random numbers. The best candidate seen is the better of the earlier one and the new ones.", "quantifier": "all solutions left by runs, objectives, settings, numbers of iterations", "why_tests_cant": "all earlier runs and all later iterations; any member the reset forgets influences the new search silently", "anchors": ["include/libcmaes/esostrategy.h: start_from_solution", "src/esostrategy.cc: ESOStrategy", "src/cmasolutions.cc: reset", "src/cmastrategy.cc: CMAStrategy"]}
{"id": "C77", "title": "The entry points run the selected algorithm", "statement": "cmaes() and surrcmaes() run the algorithm selected last by code or by name: with the restarts (none, IPOP, BIPOP), the covariance update (standard, active, VD) and the restriction of the covariance (none, diagonal, rank one plus diagonal) documented for it, on the caller's parameters adapted once; they pass on the gradient, progress and plot functions, and start from the solution the caller passes, if any.", "quantifier": "All sequences of selections (by code or by name) and runs with one parameter object, all parameters, all solutions passed.", "why_tests_cant": "There are fifteen algorithms with two branches each, and the entry points modify the caller's parameters, so that what a call runs depends on the history of calls made with the same object.", "anchors": ["include/libcmaes/cmaes.h: cmaes", "include/libcmaes/surrcmaes.h: surrcmaes", "include/libcmaes/esoptimizer.h: ESOptimizer", "include/libcmaes/cmaparameters.h: set_algo, set_str_algo"]}
{"id": "C78", "title": "The search starts at the initial point", "statement": "The search starts at the initial point the user gave, with the values of the fixed parameters in their places: the objective's parameters for the initial mean are that point, or a point of the given interval or box, whatever the bounds, the scaling and the transform; with no initial point they are in [-4,4]. When the initial point is to be evaluated it is the first point the objective gets.", "quantifier": "All dimensions, initial points and boxes, bounds, scalings, transforms, fixed parameters and random draws.", "why_tests_cant": "The initial mean goes through the scaling in one direction only, so that the point depends on all of these together; tests use x0 well inside the bounds.", "anchors": ["src/cmasolutions.cc: CMASolutions::CMASolutions", "include/libcmaes/parameters.h: set_x0", "include/libcmaes/genopheno.h: pheno", "src/cmastrategy.cc: optimize"]}
{"id": "C79", "title": "The proposed points follow the current distribution", "statement": "The points ask proposes are mean + step size * A z, where A A^T is the covariance matrix the solution reports and z are standard normal draws of the generator, a new draw for every coordinate of every point of every population; the exceptions are the coordinates of fixed parameters, the point of the gradient and the two points of two-point adaptation.", "quantifier": "All dimensions, population sizes, parameters, objectives and histories of calls before the ask; all variants of the covariance update.", "why_tests_cant": "A sampler that uses a stale decomposition, a wrong square root or the same draws twice still gives plausible points; only a statistical test on one distribution would notice.", "anchors": ["src/cmastrategy.cc: CMAStrategy::ask", "include/libcmaes/eigenmvn.h: samples, samples_ind, setCovar", "src/cmasolutions.cc: full_cov"]}
{"id": "C80", "title": "Two-point adaptation tries the last move and follows the outcome", "statement": "With two-point adaptation, from the second iteration on, two of the proposed points lie on both sides of the mean along its last move, at the distance of a sampled point measured in the current distribution. The step size then changes by the factor exp(s/d), where s averages the difference of the ranks the two points got, over their largest possible difference: it grows when the point ahead ranks better, by the rule s := (1-c) s + c (rank behind - rank ahead)/(lambda-1).", "quantifier": "All dimensions, population sizes, objectives, histories of calls and random draws; all variants of the covariance update, with and without gradient.", "why_tests_cant": "The pair must be found again after sorting; ranks, positions and the sign of the change depend on the history and on ties.", "anchors": ["src/cmastrategy.cc: CMAStrategy::ask, CMAStrategy::tell", "src/covarianceupdate.cc: CovarianceUpdate::update", "src/cmasolutions.cc: get_best_seen_candidate", "include/libcmaes/cmasolutions.h: _tpa_p1, _tpa_p2"]}
{"id": "C81", "title": "The step size changes at a bounded rate and in the right direction", "statement": "With cumulative step-size adaptation n iterations never divide the step size by more than exp(n c/d), c and d being the learning rate and the damping; an iteration increases the step size exactly when the evolution path is longer than its expected length and decreases it exactly when it is shorter. With two-point adaptation an iteration changes it by a factor between exp(-1/d) and exp(1/d).", "quantifier": "All dimensions, population sizes, parameters built by the constructors and setters, objectives, histories of iterations and random draws; all variants of the covariance update.", "why_tests_cant": "The bound is about every objective and any number of iterations; a test sees one trajectory.", "anchors": ["src/covarianceupdate.cc: CovarianceUpdate::update", "src/acovarianceupdate.cc: ACovarianceUpdate::update", "src/vdcmaupdate.cc: VDCMAUpdate::update", "src/cmaparameters.cc: initialize_parameters, set_vd"]}
{"id": "C82", "title": "A generation is the published update", "statement": "One generation (ask, eval, tell) replaces mean, step size, covariance and evolution paths by those of the published algorithm (standard, active or separable CMA-ES) for the points evaluated, best first: weighted mean of the best half; paths with increments normalised for their rates and, for the step size, whitened by the inverse square root of the covariance; rank-one and rank-mu updates with the stall test; active update with the largest negative rate that removes at most 0.34 (1-cmu) of the covariance; cumulative step-size adaptation.", "quantifier": "All dimensions, population sizes, parameters built by the constructors and setters, objectives, histories of calls before the generation, and points.", "why_tests_cant": "The update couples all members of the state; a wrong normalisation, a stale decomposition or a mixed-up order of updates leaves an optimiser that still converges on test functions, only worse.", "anchors": ["src/cmastrategy.cc: ask, tell", "src/covarianceupdate.cc: CovarianceUpdate::update", "src/acovarianceupdate.cc: ACovarianceUpdate::update", "src/cmaparameters.cc: initialize_parameters, set_sep", "src/vdcmaupdate.cc: VDCMAUpdate::update"]}
{"id": "C83", "title": "Rotation invariance of the full-matrix algorithms", "statement": "Turning the problem by a rotation or reflection q of the search space (objective f(q^T x), start q x0) turns the whole search: points, means, evolution paths and objective calls are rotated, the covariance becomes q C q^T, and values, counters, stop status and step size are the same; faults come at the same calls. When the second search is told the rotated populations this holds whichever correct eigensolver and whichever random draws it uses, and the population it then asks for is the rotated one up to an orthogonal change of the coordinates of its normal draws.", "quantifier": "All dimensions, orthogonal maps, objectives and histories of ask, evaluation and update, stop and optimize; standard and active CMA-ES with the full covariance matrix in an unbounded space without fixed parameters, gradients, or uncertainty handling (elitism that inserts the initial point needs optimize, which evaluates it, to be called before generations are made), and with the stopping criteria that look at single coordinates (TolX, NoEffectAxis, NoEffectCoor) switched off.", "why_tests_cant": "Invariance relates two whole runs for every rotation and objective; eigenvectors are only defined up to sign and order, so that two test runs cannot be compared number by number.", "anchors": ["src/cmastrategy.cc: ask, tell, stop", "src/covarianceupdate.cc: CovarianceUpdate::update", "src/acovarianceupdate.cc: ACovarianceUpdate::update", "src/eigenmvn.h: setCovar, samples", "src/cmastopcriteria.cc"]}
{"id": "C84", "title": "Reported standard deviations", "statement": "stds() of a solution is the vector of the square roots of the variances of the reported covariance, expressed in the user's parameters: unchanged without a transform, divided by the absolute scaling factor with linear scaling, and with bounds never larger than without them, never larger than the interval, and positive when the variance is. errors() is the vector of the standard deviations of the points the search samples.", "quantifier": "every reachable state of every variant, every transform without user functions", "why_tests_cant": "The values depend on the whole history and on where the mean lies relative to the reflections at the bounds; a test compares a few of them.", "anchors": ["include/libcmaes/cmasolutions.h: stds, errors", "include/libcmaes/genopheno.h: pheno", "src/pwq_bound_strategy.cc: to_f_representation"]}
{"id": "C85", "title": "The plot file", "statement": "Asking for a plot file does not change the search. The file has one line for each iteration from the first to the final state, in order and without gap, and one such block for each run of an elitist restart; every line has the same number of cells. The evaluation column grows by the evaluations of the generation, the axis ratio is the square root of the quotient of the extreme eigenvalues of the same line, the eigenvalue columns are the eigenvalues of the covariance, the first column is the value of the best point of the iteration, and all points are in the user's coordinates.", "quantifier": "every search, objective, progress function, number of iterations and restarts; the default and the full plot function, all variants and transforms for the columns", "why_tests_cant": "The file is produced along a whole run whose length and end depend on the objective; a test reads one file, if any, and cannot see that a column lags by one iteration or is in other coordinates.", "anchors": ["src/cmastrategy.cc: stop, optimize, fpfuncdef_impl, fpfuncdef_full_impl", "include/libcmaes/esostrategy.h: set_plot_func", "include/libcmaes/cmasolutions.h: best_candidate, stds, eigenvalues"]}
{"id": "C86", "title": "A step size for each parameter", "statement": "Parameters built from a vector of positive step sizes start the search at the given point, and the first points are normal around it with these standard deviations in the user's parameters, whatever the transform class; with bounds every point is feasible; a non-positive step size is replaced by an automatic value.", "quantifier": "all dimensions, starting points, vectors of step sizes, bounds and random draws", "why_tests_cant": "The effect of the vector is a property of the distribution of the points in the user's coordinates, after two changes of scale; a run of a test function converges with any scale.", "anchors": ["src/cmaparameters.cc: CMAParameters(x0, vector sigma, ...)", "include/libcmaes/genopheno.h: GenoPheno(scaling, shift, lbounds, ubounds)", "src/cmasolutions.cc: CMASolutions(Parameters)"]}
{"id": "C87", "title": "The elitist restart continues from the best point seen", "statement": "With elitism scheme 3, optimize() starts over exactly when the best candidate of the last generation is worse than the best candidate seen and that one is at least three iterations old; it starts over from the best point seen, keeping the count of evaluations, and evaluates that point first. For a deterministic objective the best value seen never gets worse from one run to the next, gets strictly better in every run that is restarted after the first, and the final best is the best of all runs. Whether to restart is decided on values that were recorded.", "quantifier": "All deterministic objectives without NaN, dimensions, population sizes, initial points, numbers of restarts and iterations, random draws, stopping criteria and budgets.", "why_tests_cant": "Whether a restart happens, and what it starts from, depends on the whole history of values; a test sees one history, and an uninitialised number read by the decision usually looks harmless.", "anchors": ["src/cmastrategy.cc: CMAStrategy::optimize, CMAStrategy::eval", "src/cmasolutions.cc: CMASolutions, update_best_candidates", "include/libcmaes/cmaparameters.h: set_elitism", "include/libcmaes/parameters.h: set_x0"]}
{"id": "C88", "title": "The surrogate's ranking model", "statement": "The ranking model a surrogate search trains on its evaluated points depends on the ranks of their values only: a strictly increasing change of the objective gives the same model and the same predictions. Moving, scaling and rotating the points together with the mean and the whitening changes no prediction (translations and scalings for the separable variants). Training succeeds on any set of two or more different points, with a positive kernel width and one multiplier in range for each consecutive pair; more iterations never make its dual objective worse. It gives each candidate one prediction, never larger than the sum of the multipliers; a model of two points ranks them as the objective does. Training succeeds on any training set the search collects.", "quantifier": "All training sets, values, dimensions, means, whitenings, similarities of the space, iteration counts and random draws.", "why_tests_cant": "Invariance relates two runs with different data, for every change of the objective and of the space; a set with a repeated point, which elitism produces, only shows as a NaN in a ranking.", "anchors": ["include/libcmaes/surrogates/rankingsvm.hpp: RBFKernel, RankingSVM::train, RankingSVM::predict, RankingSVM::encode", "include/libcmaes/surrogates/rsvm_surr_strategy.hpp: to_mat_vec, RSVMSurrogateStrategy"]}
{"id": "C89", "title": "VD-CMA follows the natural gradient", "statement": "VD-CMA keeps the covariance D (1 + v v^T) D, with D diagonal. In every generation v and D move by the solution of the linear system whose matrix is the Fisher information of the normal distribution at (v, D), its mixed part reduced as published, and whose right-hand side is the gradient of the weighted log-likelihood of the selected steps and of the evolution path. The system has exactly one solution, so the move is uphill for that likelihood, and the entries of D stay positive. The model adapts in every dimension.", "quantifier": "All dimensions, population sizes, histories, objectives, random draws and selected points, every v other than zero and every D without zero entry.", "why_tests_cant": "The code computes the step from a closed form with about ten intermediate vectors; a wrong sign or factor in one of them still converges on test functions, and only the linear system says what the step should be.", "anchors": ["src/vdcmaupdate.cc: VDCMAUpdate::update", "src/cmaparameters.cc: CMAParameters::set_vd", "src/cmasolutions.cc: CMASolutions"]}
{"id": "C90", "title": "The expected distance to the minimum", "statement": "When asked for, optimize() ends by reporting the expected distance to the minimum: n / (10 (sqrt(lambda/4 + 1/2) - 1)) times the standard deviation, under the search distribution N(m, sigma^2 C), of the linear model of the objective at the mean, that is sigma sqrt(g^T C g) with g the gradient with respect to the internal parameters. It is a finite non-negative number. Computing it changes nothing else but the count of evaluations, by dimension plus one with a numerical gradient and by none with the user's gradient.", "quantifier": "All dimensions, population sizes, covariances, means, step sizes, transforms, objectives and gradients, all variants.", "why_tests_cant": "The value is one number that depends on the whole covariance and on an eigendecomposition; no test knows what it should be, and on the identity covariance of a first generation several wrong formulas agree.", "anchors": ["src/esostrategy.cc: edm, gradf, gradgp", "src/cmastrategy.cc: CMAStrategy::optimize", "include/libcmaes/cmasolutions.h: edm", "include/libcmaes/parameters.h: set_edm"]}
{"id": "C91", "title": "The point proposed along the gradient", "statement": "With the gradient in use, the first point ask() proposes lies at the typical distance sigma sqrt(n) from the mean, measured in the metric of the search distribution, in the direction of steepest descent for that metric: among all points at that distance it has the least value of the linear model of the objective at the mean. The other points are those proposed without gradient, and with a zero gradient all of them are.", "quantifier": "All dimensions, means, step sizes, covariances, objectives, gradients, transforms and random draws, all variants.", "why_tests_cant": "A point uphill, or too far, is just one bad candidate among many and does not stop a test from converging; which point is the best is a statement about every other point at that distance.", "anchors": ["src/cmastrategy.cc: CMAStrategy::ask", "src/esostrategy.cc: gradf, gradgp", "include/libcmaes/parameters.h: set_gradient"]}
{"id": "C92", "title": "The second evaluations of uncertainty handling", "statement": "With uncertainty handling, eval() calls the objective once for every candidate and then a second time for the first r of them, where r is r_lambda lambda rounded up with the probability of its fractional part, and at least one. Each second evaluation is at the evaluated point plus eps sigma times new standard normal draws in every coordinate. They stay within the bounds, and fixed parameters keep their values.", "quantifier": "All dimensions, population sizes, candidates, step sizes, transforms, objectives, random draws and numbers of earlier draws.", "why_tests_cant": "The number of calls is random and the points differ from the candidates by a tiny random amount; a test sees neither that a draw is reused nor that a point is outside the bounds by 1e-7.", "anchors": ["src/esostrategy.cc: perform_uh, select_candidates_uh, eval_candidates_uh", "include/libcmaes/eigenmvn.h: samples_ind", "include/libcmaes/cmaparameters.h: set_uh"]}
{"id": "C93", "title": "Stopping because a step has no effect", "statement": "NOEFFECTCOOR stops the search when adding a fifth of its standard deviation to any coordinate of the mean leaves the mean as it is in double precision, NOEFFECTAXIS when adding a tenth of the standard deviation along any principal axis does. They never stop a search whose steps still exceed the relative precision 2^-52 of the mean in some coordinate or axis, they always stop one whose steps are below 2^-55, and a mean that is not a number does not count as unaffected. This holds for every variant of the covariance.", "quantifier": "All dimensions, means up to 2^1000, step sizes, variances and eigenvectors between 2^-300 and 2^300 or zero, and all roundings.", "why_tests_cant": "The criteria compare doubles for equality after several roundings; a premature stop looks like convergence, and tests converge to means near which every scale agrees.", "anchors": ["src/cmastopcriteria.cc: noEffectAxis, noEffectCoor", "src/cmasolutions.cc: CMASolutions::update_eigenv", "src/cmastrategy.cc: CMAStrategy::stop, CMAStrategy::tell"]}
{"id": "C94", "title": "The names of the parameters", "statement": "With the variants that keep no full covariance (sep-CMA-ES, its active form and VD-CMA) nothing depends on the order in which the user lists the parameters: a search given the renamed starting point and the renamed objective, and whose normal draws are those of the first search with each block of n renamed, proposes the renamed points, calls the objective at the renamed points, keeps the same step size, values, counters and ranking, and stops for the same reason at the same time; if one goes wrong, so does the other, at the same point. This is claimed without fixed parameters, bounds, scaling or gradient.", "quantifier": "All permutations of the parameters, dimensions, population sizes, objectives, starting points, random draws and sequences of ask, of evaluation and update, of stop and of optimize, with or without uncertainty handling, elitism and two-point adaptation.", "why_tests_cant": "A test compares a few runs with fixed seeds; a criterion or update that looks at one coordinate only, or at a neighbouring one, is invisible on symmetric test functions.", "anchors": ["src/covarianceupdate.cc: CovarianceUpdate::update", "src/acovarianceupdate.cc: ACovarianceUpdate::update", "src/vdcmaupdate.cc: VDCMAUpdate::update", "src/cmastrategy.cc: CMAStrategy::ask, CMAStrategy::tell", "include/libcmaes/eigenmvn.h: samples_ind", "src/cmastopcriteria.cc"]}
