{"id": "C01", "title": "2x2 ATT is the difference in differences of cell means", "statement": "Fitting DifferenceInDifferences without covariates on data that has observations in all four treatment-by-period cells returns att = (mean treated post - mean treated pre) - (mean control post - mean control pre), whatever the cell sizes.", "quantifier": "all finite outcome samples of any size with four non-empty cells, any least-squares solution the solver returns", "why_tests_cant": "Tests check a few simulated samples to a tolerance; the identity must hold for every sample size and imbalance.", "anchors": ["diff_diff/estimators.py:DifferenceInDifferences.fit", "diff_diff/linalg.py:solve_ols"]}
{"id": "C02", "title": "ATT is equivariant to shifts and rescaling of the outcome", "statement": "Adding a constant, a treated-group constant or a post-period constant to the outcome leaves the 2x2 ATT unchanged; adding c to treated-post rows adds exactly c; multiplying the outcome by s multiplies the ATT by s.", "quantifier": "all samples, all real shifts and scales", "why_tests_cant": "A continuum of shifts and scales on every sample.", "anchors": ["diff_diff/estimators.py:DifferenceInDifferences.fit"]}
{"id": "C03", "title": "Results do not depend on row order or on cluster labels", "statement": "Permuting the rows of the input, or renaming the cluster identifiers one-to-one, changes neither the coefficients nor any entry of the HC1 or cluster-robust variance matrix.", "quantifier": "all designs, all residual vectors, all permutations, all injective relabellings", "why_tests_cant": "The number of permutations and labelings is unbounded.", "anchors": ["diff_diff/linalg.py:compute_robust_vcov", "diff_diff/linalg.py:_factorize_cluster_ids"]}
{"id": "C04", "title": "Reported estimate, standard error, t, p and interval agree", "statement": "For an identified coefficient with positive standard error, LinearRegression.get_inference reports a confidence interval centred at the coefficient and containing it, and p < alpha exactly when zero is outside the (1-alpha) interval; a dropped (NaN) coefficient yields NaN for se, t, p and both interval ends and is never significant.", "quantifier": "all coefficients, standard errors, alpha in (0,1), degrees of freedom, and any strictly decreasing symmetric reference distribution", "why_tests_cant": "A boundary equivalence over a continuum of coefficient/SE/alpha triples.", "anchors": ["diff_diff/linalg.py:LinearRegression.get_inference", "diff_diff/linalg.py:InferenceResult"]}
{"id": "C05", "title": "Rank-deficient designs: dropped coefficients are NaN, the rest are the reduced fit", "statement": "When columns are dropped, solve_ols returns NaN exactly at the dropped positions of the coefficients and of the variance matrix, the remaining entries are those of the regression on the kept columns, fitted plus residual equals y, and the fitted values equal those of the full column space; action 'error' raises instead, and 'silent' differs from 'warn' only in the warning.", "quantifier": "all designs of any width, any set of dropped columns in the span of the kept ones", "why_tests_cant": "Unboundedly many collinearity patterns.", "anchors": ["diff_diff/linalg.py:_solve_ols_numpy", "diff_diff/linalg.py:_expand_coefficients_with_nan", "diff_diff/linalg.py:_expand_vcov_with_nan"]}
{"id": "C06", "title": "Sandwich variances are symmetric and never negative", "statement": "The HC1 and the cluster-robust matrices returned by compute_robust_vcov are symmetric with non-negative quadratic form (hence non-negative diagonal), and clustering on a unique id per row reproduces the HC1 matrix exactly.", "quantifier": "all designs with invertible X'X, all residuals, all clusterings with at least two clusters and n > k", "why_tests_cant": "Positive semidefiniteness is a for-all statement over vectors.", "anchors": ["diff_diff/linalg.py:_compute_robust_vcov_numpy"]}
{"id": "C07", "title": "Any design accepted by solve_ols gets a variance", "statement": "If solve_ols accepts X and y (n >= k, finite, full rank) it returns coefficients and a variance matrix rather than raising an arithmetic error.", "quantifier": "all accepted designs, including n = k", "why_tests_cant": "The n = k boundary is not exercised by ordinary data.", "anchors": ["diff_diff/linalg.py:solve_ols", "diff_diff/linalg.py:_compute_robust_vcov_numpy"]}
{"id": "C08", "title": "The reported inference method is the one used", "statement": "A result returned by DifferenceInDifferences.fit (or TwoWayFixedEffects.fit) says inference_method='wild_bootstrap' exactly when that fit ran the wild bootstrap, whatever fits were run before on the same estimator object.", "quantifier": "all sequences of fit and set_params calls on one estimator", "why_tests_cant": "History-dependent: needs every sequence of calls.", "anchors": ["diff_diff/estimators.py:DifferenceInDifferences.fit", "diff_diff/twfe.py:TwoWayFixedEffects.fit"]}
{"id": "C09", "title": "The formula interface means the same as the explicit interface", "statement": "'y ~ d * t + x1 + ... + xn' parses to outcome y, treatment d, time t and covariates x1..xn for all names; a formula without '~', without an interaction or naming a missing column raises ValueError; fit(formula) then uses exactly those variables together with the covariates argument.", "quantifier": "all column names and covariate lists, arbitrary whitespace", "why_tests_cant": "Unbounded strings.", "anchors": ["diff_diff/estimators.py:DifferenceInDifferences._parse_formula", "diff_diff/estimators.py:DifferenceInDifferences.fit"]}
{"id": "C10", "title": "get_params and set_params are inverse and atomic", "statement": "set_params(**get_params()) leaves an estimator unchanged; after set_params(k=v) get_params()[k]==v and nothing else changed and fit behaves as if constructed that way; an unknown name raises ValueError and changes nothing.", "quantifier": "all estimators, all parameter assignments, all sequences", "why_tests_cant": "Histories of assignments.", "anchors": ["diff_diff/estimators.py:set_params", "diff_diff/staggered.py:set_params", "diff_diff/sun_abraham.py:set_params", "diff_diff/honest_did.py:set_params", "diff_diff/bacon.py:set_params"]}
{"id": "C11", "title": "R-squared is in [0,1] with an intercept and fitted + residual = y", "statement": "For a least-squares fit whose column space contains the constant, 0 <= R^2 <= 1, residuals are orthogonal to every column and sum to zero; a constant outcome gives 0.0.", "quantifier": "all designs and outcomes", "why_tests_cant": "Continuum of inputs.", "anchors": ["diff_diff/linalg.py:compute_r_squared", "diff_diff/linalg.py:LinearRegression.fit"]}
{"id": "C12", "title": "Two-way within transformation removes additive unit and time effects", "statement": "On a balanced panel within_transform maps y_it and y_it + a_i + b_t to the same column, has zero mean in every unit and every period, and is idempotent; the same holds for unbalanced panels.", "quantifier": "all panels, all additive effects", "why_tests_cant": "Arbitrary panels and effects.", "anchors": ["diff_diff/utils.py:within_transform", "diff_diff/utils.py:demean_by_group"]}
{"id": "C13", "title": "MultiPeriodDiD period effects and their average", "statement": "avg_att is the mean of the per-period effects and avg_se is the delta-method SE from the joint variance; if any period effect is unidentified avg_att is NaN; with one pre-period each effect is the difference in differences of cell means against that period, and the choice of reference among pre-periods does not change any effect.", "quantifier": "all panels with non-empty cells, any number of periods", "why_tests_cant": "Any number of periods and rows.", "anchors": ["diff_diff/estimators.py:MultiPeriodDiD.fit"]}
{"id": "C14", "title": "TWFE recovers a constant treatment effect", "statement": "On a balanced panel with y_it = a_i + b_t + tau*D_i*post_t exactly, TwoWayFixedEffects returns att = tau.", "quantifier": "all balanced panels, all unit and time effects, all tau", "why_tests_cant": "Continuum of panels; existing tests only check sign or loose tolerance.", "anchors": ["diff_diff/twfe.py:TwoWayFixedEffects.fit"]}
{"id": "C15", "title": "Wild-bootstrap weight distributions are standardised", "statement": "Rademacher, Webb and Mammen weights each have mean 0 and variance 1, and Mammen's third moment is 1.", "quantifier": "the exact distributions the generators sample from", "why_tests_cant": "Sampling can only estimate moments.", "anchors": ["diff_diff/utils.py:_generate_rademacher_weights", "diff_diff/utils.py:_generate_webb_weights", "diff_diff/utils.py:_generate_mammen_weights"]}
{"id": "C16", "title": "The wild bootstrap imposes the null hypothesis", "statement": "wild_bootstrap_se builds bootstrap samples in which the tested coefficient equals null_hypothesis, so its bootstrap coefficients are centred at the null, and its p-value lies in [1/(B+1), 1].", "quantifier": "all designs, outcomes, nulls and symmetric weight draws", "why_tests_cant": "A statement about the bootstrap distribution for every data set.", "anchors": ["diff_diff/utils.py:wild_bootstrap_se"]}
{"id": "C17", "title": "Callaway-Sant'Anna never uses already-treated units as controls", "statement": "For every estimated ATT(g,t), no control unit has been treated (or is inside its anticipation window) at period t or at the base period, and the base period lies strictly before g - anticipation for post-treatment t.", "quantifier": "all cohort assignments, all (g,t), all settings of control_group, base_period, anticipation", "why_tests_cant": "Combinatorially many cohort/period/setting combinations.", "anchors": ["diff_diff/staggered.py:CallawaySantAnna._compute_att_gt_fast"]}
{"id": "C18", "title": "Callaway-Sant'Anna recovers the true effects under exact parallel trends", "statement": "If y_it = a_i + b_t + tau(g_i,t)*1{t>=g_i} then every reported post-treatment ATT(g,t) equals tau(g,t), pre-treatment ATT(g,t) equal 0, with each of the three estimation methods, and the overall ATT is the cohort-size weighted mean of the tau(g,t), t>=g.", "quantifier": "all balanced panels, cohorts, effects; no anticipation", "why_tests_cant": "Continuum of data; tests use noise and tolerances.", "anchors": ["diff_diff/staggered.py:CallawaySantAnna", "diff_diff/staggered_aggregation.py:_aggregate_simple"]}
{"id": "C19", "title": "Without covariates dr, ipw and reg agree", "statement": "With no covariates the three estimation methods give the same ATT(g,t), equal to the difference in mean changes, and each influence function sums to zero.", "quantifier": "all samples of outcome changes", "why_tests_cant": "Continuum of samples.", "anchors": ["diff_diff/staggered.py:_outcome_regression", "diff_diff/staggered.py:_ipw_estimation", "diff_diff/staggered.py:_doubly_robust"]}
{"id": "C20", "title": "Aggregations are averages of the right cells", "statement": "The overall ATT, each event-study effect and each group effect are convex combinations (non-negative weights summing to one) of the ATT(g,t) they claim to average: post-treatment cells only, cells with t-g=e, cells of group g with t>=g; in particular each lies between the smallest and largest of them.", "quantifier": "all sets of (g,t) effects and cohort sizes, any anticipation", "why_tests_cant": "Any number of groups and periods.", "anchors": ["diff_diff/staggered_aggregation.py:_aggregate_simple", "diff_diff/staggered_aggregation.py:_aggregate_event_study", "diff_diff/staggered_aggregation.py:_aggregate_by_group"]}
{"id": "C21", "title": "balance_e gives a fixed composition of groups", "statement": "With balance_e set, every group that contributes to any reported event time contributes to every reported event time.", "quantifier": "all sets of estimated (g,t) effects and values of balance_e", "why_tests_cant": "Any pattern of missing cells.", "anchors": ["diff_diff/staggered_aggregation.py:_aggregate_event_study"]}
{"id": "C22", "title": "The two codings of never-treated are interchangeable", "statement": "first_treat = 0 and first_treat = inf are both never-treated: recoding one as the other changes no reported group, count or effect in CallawaySantAnna, SunAbraham and BaconDecomposition.", "quantifier": "all cohort vectors", "why_tests_cant": "All recodings.", "anchors": ["diff_diff/staggered.py:fit", "diff_diff/sun_abraham.py:fit", "diff_diff/bacon.py:fit"]}
{"id": "C23", "title": "Multiplier bootstrap statistics are well-formed", "statement": "The bootstrap p-value lies in [1/(n+1), 1] and is NaN exactly when too few draws are finite; the standard error is non-negative; the interval is ordered; the aggregation weights used in the bootstrap equal those of the point estimate.", "quantifier": "all bootstrap draws (including NaN/inf), all effects", "why_tests_cant": "Arbitrary draw vectors.", "anchors": ["diff_diff/staggered_bootstrap.py:_compute_bootstrap_pvalue", "diff_diff/staggered_bootstrap.py:_compute_effect_bootstrap_stats", "diff_diff/staggered_bootstrap.py:_run_multiplier_bootstrap"]}
{"id": "C24", "title": "Sun-Abraham aggregation uses cohort shares", "statement": "Each interaction-weighted event-study effect is the cohort-size weighted average of the cohort effects at that relative time, the overall ATT is a convex combination of the effects at e >= 0, and under exact parallel trends both equal the corresponding averages of the true effects.", "quantifier": "all cohort sizes and effects", "why_tests_cant": "Any number of cohorts.", "anchors": ["diff_diff/sun_abraham.py:_compute_iw_effects", "diff_diff/sun_abraham.py:_compute_overall_att"]}
{"id": "C25", "title": "control_group selects the comparison group in SunAbraham", "statement": "SunAbraham(control_group='never_treated') and (control_group='not_yet_treated') use different comparison samples, and the latter works without never-treated units.", "quantifier": "all data sets", "why_tests_cant": "For-all statement on sample selection.", "anchors": ["diff_diff/sun_abraham.py:fit"]}
{"id": "C26", "title": "Synthetic DiD weights are probability weights", "statement": "Unit weights and time weights returned by compute_synthetic_weights and compute_time_weights are non-negative and sum to one, for every input and every number of optimiser iterations.", "quantifier": "all outcome matrices, penalties, iteration counts", "why_tests_cant": "Continuum of matrices.", "anchors": ["diff_diff/utils.py:compute_synthetic_weights", "diff_diff/utils.py:compute_time_weights", "diff_diff/utils.py:_project_simplex"]}
{"id": "C27", "title": "Simplex projection returns the nearest point of the simplex", "statement": "_project_simplex(v) is the unique closest point of the probability simplex to v; it is idempotent and order-preserving, and the Rust and Python backends agree.", "quantifier": "all real vectors of every length", "why_tests_cant": "Optimality is a for-all statement.", "anchors": ["diff_diff/utils.py:_project_simplex", "rust/src/weights.rs:project_simplex_internal"]}
{"id": "C28", "title": "Synthetic DiD is exact under additive effects", "statement": "With weights summing to one, the SDID estimate is invariant to adding unit and time effects that are common, equals tau when y = a_i + b_t + tau*D*post, and is linear in the outcomes.", "quantifier": "all balanced panels, all probability weights", "why_tests_cant": "Continuum of panels and weights.", "anchors": ["diff_diff/utils.py:compute_sdid_estimator", "diff_diff/synthetic_did.py:SyntheticDiD.fit"]}
{"id": "C29", "title": "Synthetic DiD placebo variance and p-value", "statement": "The placebo standard error is the population standard deviation of the placebo effects; the p-value lies in [1/(B+1),1]; the reported p-value and confidence interval agree about zero.", "quantifier": "all placebo and bootstrap draws", "why_tests_cant": "Arbitrary draws.", "anchors": ["diff_diff/synthetic_did.py:_placebo_variance_se", "diff_diff/synthetic_did.py:_bootstrap_se", "diff_diff/synthetic_did.py:fit"]}
{"id": "C30", "title": "Triple difference equals the difference of two difference-in-differences", "statement": "Without covariates TripleDifference returns the triple difference of the eight cell means with each estimation method; data lacking one of the eight cells is rejected.", "quantifier": "all samples with eight non-empty cells of any sizes", "why_tests_cant": "All cell sizes and values.", "anchors": ["diff_diff/triple_diff.py:_regression_adjustment", "diff_diff/triple_diff.py:_ipw_estimation", "diff_diff/triple_diff.py:_doubly_robust", "diff_diff/triple_diff.py:_validate_data"]}
{"id": "C31", "title": "The doubly robust triple difference uses the outcome model", "statement": "With covariates, the 'dr' estimate depends on the fitted outcome regressions and is invariant to adding a constant to the outcome.", "quantifier": "all samples, propensity scores and outcome fits", "why_tests_cant": "Functional dependence cannot be excluded by samples.", "anchors": ["diff_diff/triple_diff.py:_doubly_robust"]}
{"id": "C32", "title": "cluster= changes the standard errors of TripleDifference", "statement": "When a cluster column is given, TripleDifference reports cluster-robust standard errors.", "quantifier": "all samples", "why_tests_cant": "For-all statement on data flow.", "anchors": ["diff_diff/triple_diff.py:TripleDifference.fit"]}
{"id": "C33", "title": "Goodman-Bacon weights form a probability distribution and add up by type", "statement": "After decomposition the comparison weights are non-negative and sum to one, the per-type totals sum to one, and each comparison uses only windows in which the treated group changes status and the control group does not.", "quantifier": "all staggered panels", "why_tests_cant": "Any cohort structure.", "anchors": ["diff_diff/bacon.py:fit", "diff_diff/bacon.py:_compute_timing_comparison"]}
{"id": "C34", "title": "Goodman-Bacon decomposition identity", "statement": "The weighted sum of the 2x2 comparisons equals the TWFE coefficient (decomposition_error = 0) on balanced panels with weights='exact'.", "quantifier": "all balanced staggered panels", "why_tests_cant": "All cohort structures and outcomes.", "anchors": ["diff_diff/bacon.py:_recompute_exact_weights", "diff_diff/bacon.py:_compute_twfe"]}
{"id": "C35", "title": "Relative-magnitudes bounds are the sharp identified set", "statement": "For restriction 'relative_magnitude', HonestDiD reports the set {l'(beta_post) - l'delta : |delta_t| <= Mbar*max pre violation}: each value is attained and nothing outside is; the bounds are nested in Mbar and collapse to the estimate at Mbar = 0.", "quantifier": "all post effects, weight vectors l, Mbar >= 0", "why_tests_cant": "Sharpness is a for-all/exists statement.", "anchors": ["diff_diff/honest_did.py:_compute_rm_bounds", "diff_diff/honest_did.py:HonestDiD._compute_rm_bounds"]}
{"id": "C36", "title": "Smoothness bounds are informative", "statement": "For restriction 'smoothness' and every finite M the identified set is bounded; at M = 0 it is the linear extrapolation of the pre-trend.", "quantifier": "all numbers of pre and post periods, all M", "why_tests_cant": "Quantifies over an LP feasible region.", "anchors": ["diff_diff/honest_did.py:_solve_bounds_lp", "diff_diff/honest_did.py:_construct_constraints_sd"]}
{"id": "C37", "title": "HonestDiD uses the variance of the post-period effects", "statement": "For MultiPeriodDiD results the standard error used by HonestDiD for the average effect equals the avg_se of the results.", "quantifier": "all fitted MultiPeriodDiD results", "why_tests_cant": "Index arithmetic for every number of periods.", "anchors": ["diff_diff/honest_did.py:_extract_event_study_params", "diff_diff/honest_did.py:HonestDiD.fit"]}
{"id": "C38", "title": "Breakdown value brackets the sign change", "statement": "breakdown_value returns M such that the interval excludes zero below M - tol and includes it above; None means the result is significant for every M; sensitivity_analysis agrees.", "quantifier": "all monotone significance profiles, all tolerances", "why_tests_cant": "Continuum of profiles.", "anchors": ["diff_diff/honest_did.py:HonestDiD.breakdown_value", "diff_diff/honest_did.py:HonestDiD._find_breakdown"]}
{"id": "C39", "title": "An undefined interval is not significant", "statement": "No result object in the package reports significance when its p-value or interval is NaN.", "quantifier": "all result objects and NaN patterns", "why_tests_cant": "All result classes and NaN patterns.", "anchors": ["diff_diff/honest_did.py:HonestDiDResults.is_significant", "diff_diff/results.py", "diff_diff/linalg.py:InferenceResult.is_significant"]}
{"id": "C40", "title": "Pre-trends power: MDV attains the target power", "statement": "The minimum detectable violation reported by PreTrendsPower has power equal to the target; power is increasing and symmetric in the violation size and equals alpha at zero; power_at(M) of a result agrees with refitting at M.", "quantifier": "all variance matrices, weights, target powers, M", "why_tests_cant": "Continuum.", "anchors": ["diff_diff/pretrends.py:_compute_mdv", "diff_diff/pretrends.py:_compute_power", "diff_diff/pretrends.py:PreTrendsPowerResults.power_at"]}
{"id": "C41", "title": "Analytical power, MDE and sample size are mutually consistent", "statement": "power(mde(...)) is at least the target power, with equality for one-sided tests; power is increasing in |effect| and in sample size; sample_size(effect) returns a sample whose MDE is at most effect.", "quantifier": "all sizes, effects, variances, correlations, alternatives", "why_tests_cant": "Continuum of designs.", "anchors": ["diff_diff/power.py:PowerAnalysis"]}
{"id": "C42", "title": "simulate_power works for the supported estimators", "statement": "simulate_power with CallawaySantAnna returns a rejection rate in [0,1] equal to the share of successful simulations with p < alpha.", "quantifier": "all data generators and seeds", "why_tests_cant": "All simulation outcomes.", "anchors": ["diff_diff/power.py:simulate_power"]}
{"id": "C43", "title": "balance_panel returns a balanced panel without touching observed rows", "statement": "'inner' keeps exactly the rows of the units observed in all periods; 'outer' has one row per unit-period when keys are unique; 'fill' with a value leaves no missing outcome and changes no observed value.", "quantifier": "all panels", "why_tests_cant": "All missingness patterns.", "anchors": ["diff_diff/prep.py:balance_panel"]}
{"id": "C44", "title": "Indicator and reshape helpers are faithful", "statement": "make_treatment_indicator and make_post_indicator return 0/1 columns that are 1 exactly on the rows they document and leave other columns alone; wide_to_long loses no value and long format has one row per unit and period; create_event_time is t - g, NaN for never treated.", "quantifier": "all data frames", "why_tests_cant": "All inputs.", "anchors": ["diff_diff/prep.py:make_treatment_indicator", "diff_diff/prep.py:make_post_indicator", "diff_diff/prep.py:wide_to_long", "diff_diff/prep.py:create_event_time"]}
{"id": "C45", "title": "rank_control_units ranks eligible controls and keeps the required ones", "statement": "The output is sorted by decreasing score, contains no treated or excluded unit, contains every required unit, has min(max(n_top, #required), #candidates) rows, and the scores lie in [0,1].", "quantifier": "all panels, exclusion/requirement lists, n_top", "why_tests_cant": "All lists.", "anchors": ["diff_diff/prep.py:rank_control_units"]}
{"id": "C46", "title": "The permutation test is valid at any sample size", "statement": "permutation_test's p-value lies in [1/(n+1),1] and, under exchangeability, rejects at level alpha with probability at most alpha for every number of permutations.", "quantifier": "all permutation counts and value vectors, all alpha", "why_tests_cant": "Exactness is a counting statement over all rank positions.", "anchors": ["diff_diff/diagnostics.py:permutation_test"]}
{"id": "C47", "title": "placebo_group_test uses only never-treated units", "statement": "The fake-group placebo test is computed from never-treated units only.", "quantifier": "all panels and fake groups", "why_tests_cant": "For-all statement on sample selection.", "anchors": ["diff_diff/diagnostics.py:placebo_group_test"]}
{"id": "C48", "title": "Data accepted by validate_did_data can be fitted", "statement": "If validate_did_data reports valid=True then DifferenceInDifferences.fit passes its own validation on the same columns.", "quantifier": "all data frames", "why_tests_cant": "All inputs.", "anchors": ["diff_diff/prep.py:validate_did_data", "diff_diff/estimators.py:DifferenceInDifferences._validate_data"]}
{"id": "C49", "title": "Significance stars and is_significant agree", "statement": "Stars are a monotone function of the p-value with the documented thresholds; a result with alpha=0.05 is significant exactly when it has at least one star; NaN gives no stars; summary(alpha) reports an interval at that alpha.", "quantifier": "all p-values and alphas", "why_tests_cant": "Boundary behaviour.", "anchors": ["diff_diff/results.py:_get_significance_stars", "diff_diff/results.py:DiDResults.is_significant", "diff_diff/results.py:DiDResults.summary"]}
{"id": "C50", "title": "Equivalence test of pre-trends", "statement": "equivalence_test_trends declares equivalence exactly when both one-sided tests reject at 5%, i.e. the 90% interval lies inside the margins; the decision is monotone in the margin.", "quantifier": "all mean differences, standard errors, margins", "why_tests_cant": "Continuum.", "anchors": ["diff_diff/utils.py:equivalence_test_trends"]}
{"id": "C51", "title": "An unidentified ATT is reported as NaN", "statement": "When one of the four treatment-by-period cells has no observations, so that the difference in differences is not identified, DifferenceInDifferences.fit either raises or reports att = NaN (never a finite number that is some other contrast).", "quantifier": "all data sets with an empty cell, all rank decisions the QR factorisation may take", "why_tests_cant": "Which column the pivoted QR removes depends on the data; tests cover one pivot order.", "anchors": ["diff_diff/estimators.py:DifferenceInDifferences.fit", "diff_diff/linalg.py:_detect_rank_deficiency"]}
{"id": "C52", "title": "Rust and NumPy synthetic-control weights agree", "statement": "For the same control outcomes, treated outcomes and penalty, the Rust backend and the NumPy fallback return the same unit weights: the minimiser of the penalised pre-period fit over the simplex.", "quantifier": "all outcome matrices, penalties and iteration budgets", "why_tests_cant": "The equivalence tests use a handful of well-scaled random matrices; agreement depends on the curvature of the problem relative to the step size.", "anchors": ["rust/src/weights.rs:compute_synthetic_weights_internal", "diff_diff/utils.py:_compute_synthetic_weights_numpy"]}
{"id": "C53", "title": "Staggered adoption is detected exactly", "statement": "TwoWayFixedEffects warns about staggered timing exactly when two treated units have different first treated periods.", "quantifier": "all panels, any number of units and periods, rows in any order", "why_tests_cant": "All row orders and adoption patterns.", "anchors": ["diff_diff/twfe.py:TwoWayFixedEffects._check_staggered_treatment"]}
{"id": "C54", "title": "Parallel-trends slope test", "statement": "check_parallel_trends compares the least-squares slopes of the two groups over the pre-periods; group levels and a common linear trend do not change the difference, its standard error or the verdict; exactly linear trends are recovered exactly and unequal ones are declared implausible.", "quantifier": "all data sets and pre-period choices", "why_tests_cant": "All outcome paths.", "anchors": ["diff_diff/utils.py:check_parallel_trends"]}
{"id": "C55", "title": "Distributional parallel-trends test", "statement": "The outcome changes used by check_parallel_trends_robust and equivalence_test_trends do not depend on unit effects (or, without a unit column, on group levels); the permutation p-value is a valid p-value: it lies in (0, 1].", "quantifier": "all panels, all permutation draws", "why_tests_cant": "All draws and panels.", "anchors": ["diff_diff/utils.py:_compute_outcome_changes", "diff_diff/utils.py:check_parallel_trends_robust"]}
{"id": "C56", "title": "Multiplier bootstrap variance equals the analytic variance", "statement": "For standardised multiplier weights, each bootstrap draw of an event-study, group or overall effect is centred at the estimate and its exact variance over the weights equals the squared analytic standard error.", "quantifier": "all panels, cells and standardised weight laws (Rademacher, Mammen, Webb)", "why_tests_cant": "Exact moments over all weight draws.", "anchors": ["diff_diff/staggered_bootstrap.py:_run_multiplier_bootstrap", "diff_diff/staggered_aggregation.py:_compute_aggregated_se", "diff_diff/staggered_aggregation.py:_compute_aggregated_se_with_wif"]}
{"id": "C57", "title": "Exact in-sample double robustness of the (g,t) estimators", "statement": "If the outcome changes of the controls follow the linear outcome model exactly, reg and dr return the mean treatment effect whatever the propensity score; if the odds weights balance the covariates, dr equals ipw whatever the outcome model; estimates are affine equivariant.", "quantifier": "all samples, covariates, propensity scores, solvers meeting the least-squares specification", "why_tests_cant": "Continuum of samples and scores.", "anchors": ["diff_diff/staggered.py:_outcome_regression", "diff_diff/staggered.py:_ipw_estimation", "diff_diff/staggered.py:_doubly_robust"]}
{"id": "C58", "title": "CallawaySantAnna options that matter", "statement": "base_period only affects pre-treatment cells: post-treatment effects, the overall ATT and its standard error do not depend on it; the cluster column changes the standard errors.", "quantifier": "all panels and configurations", "why_tests_cant": "For-all statement over data sets.", "anchors": ["diff_diff/staggered.py:CallawaySantAnna.__init__", "diff_diff/staggered.py:_compute_att_gt_fast"]}
{"id": "C59", "title": "CallawaySantAnna inference is coherent", "statement": "For every (g,t), event-time and group effect: t = effect/se, the p-value is below alpha exactly when the interval excludes zero, the interval is centred at the effect, and an undefined standard error (or zero) gives an undefined t, p and interval.", "quantifier": "all effects, standard errors, alpha, symmetric continuous reference distributions", "why_tests_cant": "Continuum of values.", "anchors": ["diff_diff/staggered.py:fit", "diff_diff/utils.py:compute_confidence_interval", "diff_diff/utils.py:compute_p_value"]}
{"id": "C60", "title": "Sun-Abraham inference is coherent", "statement": "The standard error of every reported Sun-Abraham effect is the clustered variance of exactly the combination of coefficients reported; t, p value and interval agree with it; and an undefined or absent estimate is never reported as a defined test.", "quantifier": "all panels on which the saturated regression is estimated, of any rank", "why_tests_cant": "Quantifies over all designs and weights, including rank-deficient ones that tests rarely build.", "anchors": ["diff_diff/sun_abraham.py:SunAbraham._compute_iw_effects", "diff_diff/sun_abraham.py:SunAbraham._compute_overall_att", "diff_diff/sun_abraham.py:SunAbraham.fit"]}
{"id": "C61", "title": "Sun-Abraham and Callaway-Sant'Anna agree", "statement": "On a balanced panel without covariates, with never-treated controls and every reference period observed, each Sun-Abraham cohort effect equals the Callaway-Sant'Anna ATT(g,t) of the same cell (both are the 2x2 difference in differences), and the two overall ATTs are equal.", "quantifier": "all balanced panels with valid cohort coding, all outcomes", "why_tests_cant": "An equality between two independent estimators over all data; a test checks a few simulated panels to a tolerance.", "anchors": ["diff_diff/sun_abraham.py:SunAbraham.fit", "diff_diff/staggered.py:CallawaySantAnna.fit"]}
{"id": "C62", "title": "The Sun-Abraham bootstrap resamples units", "statement": "Every bootstrap replicate is computed on exactly the rows of the drawn units, each draw being a new unit; failed replicates do not change the reported precision; the p value lies in [1/(B+1), 1] and is defined only if the standard error is.", "quantifier": "all data frames (any index), all draws, all replicate outcomes", "why_tests_cant": "Needs non-default indices and failing replicates, which seeded tests do not produce.", "anchors": ["diff_diff/sun_abraham.py:SunAbraham._run_bootstrap", "diff_diff/sun_abraham.py:SunAbraham._compute_bootstrap_pvalue"]}
{"id": "C63", "title": "Triple difference with covariates by regression", "statement": "With estimation_method='reg' the ATT is the triple difference of the covariate-adjusted outcome; if the outcome is a sum of arbitrary pairwise group-partition-period terms, a linear function of the covariates and tau on treated-eligible-post rows, the ATT is exactly tau; without covariates the HC1 standard error is that of eight independent cell means, and the 'dr' standard error uses the eight unbiased cell variances.", "quantifier": "all samples, cell sizes, covariates and coefficients", "why_tests_cant": "Exact recovery over all nuisance functions is not testable by sampling.", "anchors": ["diff_diff/triple_diff.py:_regression_adjustment", "diff_diff/triple_diff.py:_doubly_robust"]}
{"id": "C64", "title": "Triple difference inference is coherent", "statement": "t, p-value and confidence interval of TripleDifference agree with each other; an estimate that is undefined or has no sampling variance is not reported with a definite p-value.", "quantifier": "all samples, methods, significance levels and distributions", "why_tests_cant": "Rank-deficient designs and one-row cells are corner cases not in the test-suite.", "anchors": ["diff_diff/triple_diff.py:TripleDifference.fit"]}
{"id": "C65", "title": "Standard errors of the triple difference do not depend on the level of the outcome", "statement": "Adding a constant to the outcome leaves the standard error unchanged for each estimation method.", "quantifier": "all samples and constants", "why_tests_cant": "Requires comparing two runs for all shifts.", "anchors": ["diff_diff/triple_diff.py:_compute_ipw_se"]}
{"id": "C66", "title": "The fake-timing placebo uses pre-treatment data only", "statement": "The effect, standard error, test and verdict of placebo_timing_test depend on the rows of pre-treatment periods only, the effect is the 2x2 estimate with the fake date and is zero exactly when the group gap is the same before and after it; a fake date that is not strictly inside the pre-treatment periods is refused.", "quantifier": "all panels, fake dates, post-period lists", "why_tests_cant": "Independence of the post-treatment rows quantifies over all data sets that agree before treatment.", "anchors": ["diff_diff/diagnostics.py:placebo_timing_test"]}
{"id": "C67", "title": "The leave-one-out test drops each treated unit once and summarises the estimates", "statement": "leave_one_out_test re-estimates once per treated unit, the average of the estimates equals the original estimate in a balanced panel, and its p-value is a test of the average estimate.", "quantifier": "all panels and treated units", "why_tests_cant": "The averaging identity holds for all balanced panels; identical estimates are a corner case.", "anchors": ["diff_diff/diagnostics.py:leave_one_out_test"]}
{"id": "C68", "title": "The placebo battery runs all tests and reports them with the right meaning", "statement": "run_all_placebo_tests returns one fake-timing result per later pre-period, a permutation result and a leave-one-out result; run_placebo_test dispatches on the (case-insensitive) type and rejects unknown types; the printed interpretation matches the test.", "quantifier": "all panels, types and options", "why_tests_cant": "The battery stores errors as results, so tests that only look at the keys pass.", "anchors": ["diff_diff/diagnostics.py:run_all_placebo_tests", "diff_diff/diagnostics.py:run_placebo_test", "diff_diff/diagnostics.py:PlaceboTestResults.summary"]}
{"id": "C69", "title": "Generated data sets are balanced panels labelled with the design that was asked for", "statement": "Each generator of prep_dgp returns one row per unit and period (per cell and draw for triple-difference data), with the first int(n*fraction) units treated, post and event time determined by the period, cohorts constant within units and drawn from the listed ones, and true_effect equal to the configured effect exactly on treated post rows; impossible designs raise ValueError and the default arguments are accepted for every number of periods.", "quantifier": "all sizes, fractions, periods, effects and random draws", "why_tests_cant": "Tests inspect one seeded data set per generator; the statement covers every size and every draw.", "anchors": ["diff_diff/prep_dgp.py:generate_did_data", "diff_diff/prep_dgp.py:generate_panel_data", "diff_diff/prep_dgp.py:generate_staggered_data", "diff_diff/prep_dgp.py:generate_ddd_data", "diff_diff/prep_dgp.py:generate_factor_data", "diff_diff/prep_dgp.py:generate_event_study_data"]}
{"id": "C70", "title": "The estimators recover the effect their generator puts in", "statement": "On generated data the estimate equals the configured effect plus noise_sd times the same contrast of the noise draws, whatever the unit effects, trends and draws: 2x2 DiD on generate_did_data, every period effect of MultiPeriodDiD on generate_event_study_data, every estimation method of TripleDifference on generate_ddd_data; without noise CallawaySantAnna and SunAbraham return the true dynamic effect of every cohort and period on generate_staggered_data, and a fit exists whenever both treated and never-treated units exist.", "quantifier": "all sizes, effects, draws of unit effects and noise, estimator settings", "why_tests_cant": "A simulation test checks that the estimate is within a tolerance for one seed; this is an exact identity over all draws, end to end from generator through regression.", "anchors": ["diff_diff/prep_dgp.py:generate_did_data", "diff_diff/prep_dgp.py:generate_staggered_data", "diff_diff/estimators.py:DifferenceInDifferences.fit", "diff_diff/staggered.py:CallawaySantAnna.fit", "diff_diff/sun_abraham.py:SunAbraham.fit", "diff_diff/triple_diff.py:TripleDifference.fit"]}
{"id": "C71", "title": "The true_effect column is the estimand of the 2x2 estimator", "statement": "In noise-free data the 2x2 estimate equals the value in the true_effect column also when generate_panel_data violates parallel trends or generate_factor_data uses interactive factors.", "quantifier": "all sizes, violations, factor draws and loadings", "why_tests_cant": "The size of the bias as a function of the violation, the number of periods and the factor draws is a closed form, not a number.", "anchors": ["diff_diff/prep_dgp.py:generate_panel_data", "diff_diff/prep_dgp.py:generate_factor_data"]}
{"id": "C72", "title": "The backend switch is respected", "statement": "DIFF_DIFF_BACKEND=python never uses compiled code, =rust uses it or raises ImportError, unset or auto uses it when available, and an unknown value is rejected.", "quantifier": "all values of the environment variable and availabilities", "why_tests_cant": "The choice is made at import time, so one test process sees a single case.", "anchors": ["diff_diff/_backend.py"]}
{"id": "C73", "title": "TROP: treated outcomes never influence the counterfactual", "statement": "Adding any numbers to the outcomes of treated cells leaves the selected penalties, the cross-validation score and the counts unchanged, shifts each cell effect by exactly the number added to its cell and the ATT by their average; adding one constant leaves the standard error unchanged as well.", "quantifier": "all panels, grids, added effects, bootstrap draws and decomposition routines", "why_tests_cant": "Independence of treated outcomes is a statement about pairs of data sets; a test compares finitely many.", "anchors": ["diff_diff/trop.py:TROP.fit", "diff_diff/trop.py:TROP._estimate_model"]}
{"id": "C74", "title": "TROP recovers the effect under parallel trends", "statement": "If untreated outcomes are unit effect plus period effect, the estimated ATT is the average of the true effects of the treated cells.", "quantifier": "all additive panels, unbalanced or not, all effects and penalties in the grids", "why_tests_cant": "Tests simulate factor data and allow a wide tolerance; the error bound in terms of iterations, tolerance and share of fully observed controls, and the closed-form bias for a zero penalty, are not visible from samples.", "anchors": ["diff_diff/trop.py:TROP.fit", "diff_diff/trop.py:TROP._estimate_model", "diff_diff/trop.py:TROP._weighted_nuclear_norm_solve"]}
{"id": "C75", "title": "TROP does not depend on unit levels or on the order of the rows", "statement": "Adding a constant to all outcomes of a unit (any constants if lambda_unit = 0, a common one otherwise) leaves every estimated effect unchanged; permuting the rows of the data frame changes nothing.", "quantifier": "all panels, constants and permutations", "why_tests_cant": "Quantifies over all shifts and all row orders.", "anchors": ["diff_diff/trop.py:TROP._estimate_model", "diff_diff/trop.py:TROP.fit"]}
{"id": "C76", "title": "The TROP ATT is the mean of the cell effects", "statement": "One effect per treated cell; the ATT is their mean; treated and control units add up to all units; at least two pre-periods and one treated and one control unit exist; the ATT is defined exactly when every treated outcome is observed.", "quantifier": "all panels that pass validation", "why_tests_cant": "Missing treated outcomes are not part of the test data.", "anchors": ["diff_diff/trop.py:TROP.fit"]}
{"id": "C77", "title": "TROP observation weights", "statement": "Weights lie in [0,1], equal 1 at the target cell, vanish for other units treated in the target period, decay with the distance in time and with the distance between units, and the unit distance is symmetric and ignores period shocks and treated outcomes; they are computed from the data being fitted.", "quantifier": "all panels, penalties and target cells; the point estimate and every bootstrap replicate", "why_tests_cant": "The weights of a bootstrap replicate are not observable from outside.", "anchors": ["diff_diff/trop.py:TROP._compute_observation_weights", "diff_diff/trop.py:TROP._compute_unit_distance_for_obs", "diff_diff/trop.py:TROP._bootstrap_variance"]}
{"id": "C78", "title": "The low-rank step solves the stated penalised problem and the iterations never increase it", "statement": "Soft-thresholding the singular values minimises half the squared distance plus the penalty times the nuclear norm; each outer iteration does not increase the weighted residual sum of squares plus penalty; the objective is the documented one.", "quantifier": "all matrices, nonnegative weights, penalties and iteration counts", "why_tests_cant": "Optimality over all matrices cannot be sampled.", "anchors": ["diff_diff/trop.py:TROP._soft_threshold_svd", "diff_diff/trop.py:TROP._weighted_nuclear_norm_solve", "diff_diff/trop.py:TROP._estimate_model"]}
{"id": "C79", "title": "TROP selects the penalties that minimise the leave-one-out score", "statement": "The selected triple belongs to the grids and no grid point has a smaller score; the reported score is that of the reported triple.", "quantifier": "all grids (with infinite values) and score functions", "why_tests_cant": "The search is greedy; only particular score surfaces expose it.", "anchors": ["diff_diff/trop.py:TROP.fit", "diff_diff/trop.py:TROP._univariate_loocv_search", "diff_diff/trop.py:TROP._cycling_parameter_search"]}
{"id": "C80", "title": "TROP accepts exactly the valid panels", "statement": "Validation passes if and only if treatment is absorbing over each unit's observed periods, some cell is treated, some unit is never treated and no cell is treated in the first two periods.", "quantifier": "all treatment matrices with any pattern of missing rows", "why_tests_cant": "An equivalence over all patterns.", "anchors": ["diff_diff/trop.py:TROP.fit"]}
{"id": "C81", "title": "TROP inference is coherent", "statement": "The test and the confidence interval agree; an interval contains the estimate; undefined or zero standard errors give undefined inference; a jackknife replicate does not depend on the unit left out.", "quantifier": "all estimates, standard errors, sample sizes, levels and distributions", "why_tests_cant": "Agreement fails only for particular t statistics; the one-treated-unit jackknife is a corner case.", "anchors": ["diff_diff/trop.py:TROP.fit", "diff_diff/trop.py:TROP._jackknife_variance", "diff_diff/trop.py:TROP._bootstrap_variance"]}
{"id": "C82", "title": "Joint TROP is equivariant under a constant treatment effect", "statement": "Adding a constant c to every treated outcome adds c to the estimate, to every reported cell effect and to every bootstrap or jackknife replicate, and changes neither the selected penalties, nor their score, nor the standard error.", "quantifier": "all complete panels with at least two never-treated units, all penalty grids (finite or infinite), any SVD routine, any minimum-norm least-squares routine, any cross-validation subsample and any bootstrap draws containing a control unit", "why_tests_cant": "The tuning search, the low-rank iterations and the resampling all have to be shown to ignore treated levels.", "anchors": ["diff_diff/trop.py:TROP._fit_joint", "diff_diff/trop.py:TROP._solve_joint_no_lowrank", "diff_diff/trop.py:TROP._solve_joint_with_lowrank"]}
{"id": "C83", "title": "Joint TROP recovers a constant effect under additive untreated outcomes", "statement": "If every observed outcome is a unit effect plus a period effect plus tau times the treatment indicator, the estimate is exactly tau, whatever penalties are selected.", "quantifier": "all panels, any pattern of missing outcomes that leaves one complete two-by-two block, all grids", "why_tests_cant": "Holds for every penalty and every missing pattern.", "anchors": ["diff_diff/trop.py:TROP._fit_joint"]}
{"id": "C84", "title": "Without the low-rank part joint TROP is a weighted difference in differences, and its cell effects are the effects of the cells", "statement": "On a complete panel with the low-rank part off the estimate is the difference in differences of the four weighted block means; under heterogeneous effects it is a convex average of them; the treatment effect reported for a treated cell is the effect of that cell.", "quantifier": "all complete simultaneous-adoption panels, outcomes and penalties", "why_tests_cant": "The closed form is an identity over all panels.", "anchors": ["diff_diff/trop.py:TROP._solve_joint_no_lowrank", "diff_diff/trop.py:TROP._compute_joint_weights", "diff_diff/trop.py:TROP._fit_joint"]}
{"id": "C85", "title": "Joint TROP is invariant to unit and period effects", "statement": "Adding a period effect to every unit, or a unit effect to every period, changes nothing in the result.", "quantifier": "all complete panels, effects, grids and resampling draws", "why_tests_cant": "Invariance over all shifts; the weights depend on outcome levels.", "anchors": ["diff_diff/trop.py:TROP._compute_joint_weights", "diff_diff/trop.py:TROP._fit_joint"]}
{"id": "C86", "title": "Joint TROP minimises its objective over the coefficients and its score over the grid", "statement": "The selected penalties have the smallest score on the grid; the fit with a low-rank part has a documented objective (weighted squares plus penalty) no larger than any choice of coefficients without one, up to the numerical cut-off of singular values at 1e-10.", "quantifier": "all grids and score functions; all panels, weights, penalties and iteration counts", "why_tests_cant": "Optimality over all alternatives cannot be sampled.", "anchors": ["diff_diff/trop.py:TROP._fit_joint", "diff_diff/trop.py:TROP._solve_joint_with_lowrank"]}
{"id": "C87", "title": "Joint TROP accepts exactly the panels with simultaneous adoption", "statement": "The fit is rejected as staggered if and only if two treated units start treatment in different periods; on accepted complete panels the treatment indicator is unit group times post period.", "quantifier": "all treatment matrices with any pattern of missing rows", "why_tests_cant": "Needs a missing row exactly in the adoption period.", "anchors": ["diff_diff/trop.py:TROP._fit_joint"]}
{"id": "C88", "title": "Joint TROP reports undefined results as undefined", "statement": "When no treated outcome is observed no effect is reported; a jackknife replicate does not depend on the unit left out; with a single treated unit the jackknife reports no standard error; invalid iteration limits raise a ValueError.", "quantifier": "all panels and configurations", "why_tests_cant": "Degenerate inputs are not in the tests.", "anchors": ["diff_diff/trop.py:TROP._solve_joint_no_lowrank", "diff_diff/trop.py:TROP._solve_joint_with_lowrank", "diff_diff/trop.py:TROP._jackknife_variance_joint"]}
{"id": "C89", "title": "Joint time weights are centred on the treated block", "statement": "Time weights decay with the distance to the centre of the treated periods, so periods equally far from the centre get equal weights.", "quantifier": "all panel lengths and treated-block lengths", "why_tests_cant": "The weights are internal.", "anchors": ["diff_diff/trop.py:TROP._compute_joint_weights"]}
{"id": "C90", "title": "The event-study plot shows the reported effects and intervals", "statement": "Every plotted point carries the effect and standard error the results object reports for that period (minus the effect of an explicitly given reference period), with the results object's own confidence interval; periods with an undefined effect are left out; the shaded stretch covers exactly the negative event times and the hollow marker exactly the reference period.", "quantifier": "all result objects (data frames, MultiPeriodDiD, CallawaySantAnna, SunAbraham), all period selections, reference periods and levels", "why_tests_cant": "The plotting tests only check that a figure is produced.", "anchors": ["diff_diff/visualization.py:plot_event_study", "diff_diff/visualization.py:_extract_plot_data"]}
{"id": "C91", "title": "The honest event-study plot can be drawn for every fitted result and shows period-specific robust intervals", "statement": "plot_honest_event_study succeeds on every HonestDiD result obtained from finite estimates and shows for each period an interval robust for that period.", "quantifier": "all event studies and fitted HonestDiD results", "why_tests_cant": "Tests plot one result whose interval covers every effect.", "anchors": ["diff_diff/visualization.py:plot_honest_event_study", "diff_diff/honest_did.py:HonestDiD.fit"]}
{"id": "C92", "title": "The power-curve marker lies on the plotted curve at the minimum detectable effect", "statement": "The vertical MDE line stands at the minimum detectable effect and the marker is the point of the plotted curve on that line; it is absent exactly if the line is outside the range of plotted effects.", "quantifier": "all curves, MDEs and sources (data frame, simulation results, explicit lists)", "why_tests_cant": "Markers are not inspected by tests.", "anchors": ["diff_diff/visualization.py:plot_power_curve"]}
{"id": "C93", "title": "The pre-trends power plot shows the curve with its own target power", "statement": "Plotting a PreTrendsPowerCurve marks the curve's own target power and the power at the minimum detectable violation; plotting a single result shows its power.", "quantifier": "all curves, target powers and single results", "why_tests_cant": "Tests use the default target power only.", "anchors": ["diff_diff/visualization.py:plot_pretrends_power"]}
{"id": "C94", "title": "Decomposition and group plots show every comparison and every group-time effect once", "statement": "Each two-by-two comparison of a Bacon decomposition is one scatter point of its type's colour, the bars add up to the total weight, and each group line consists of exactly the group-time effects of that cohort in time order with bars of the normal critical value times the standard error.", "quantifier": "all decompositions and all sets of group-time effects", "why_tests_cant": "Completeness over all results.", "anchors": ["diff_diff/visualization.py:_plot_bacon_scatter", "diff_diff/visualization.py:_plot_bacon_bar", "diff_diff/visualization.py:plot_group_effects"]}
{"id": "C95", "title": "A downloaded data set is served unchanged from the cache", "statement": "After a completed download every later plain load of that data set returns the same data, whatever the network does and whatever else is loaded, until a forced download or clear_cache; the cache never contains anything but what the network delivered; loading one data set does not affect another; an unknown name raises ValueError and changes nothing.", "quantifier": "all histories of load and clear calls, all network answers, all parsers", "why_tests_cant": "Quantifies over all call histories and network failures.", "anchors": ["diff_diff/datasets.py:_download_with_cache", "diff_diff/datasets.py:load_dataset", "diff_diff/datasets.py:clear_cache"]}
{"id": "C96", "title": "A load returns the named data set or raises", "statement": "load_dataset returns the content of the source (or a complete cached copy of it) or raises an exception; with force_download=True it returns the current content of the source or raises; an interrupted download leaves no file that later loads would serve.", "quantifier": "all cache states, network answers and interruption points", "why_tests_cant": "Needs a network failure or a crash at a chosen point.", "anchors": ["diff_diff/datasets.py:_download_with_cache", "diff_diff/datasets.py:load_card_krueger", "diff_diff/datasets.py:load_castle_doctrine", "diff_diff/datasets.py:load_divorce_laws", "diff_diff/datasets.py:load_mpdta"]}
{"id": "C97", "title": "The constructed data sets are balanced panels with consistent labels and the stated effects", "statement": "The constructed panels have one row per unit and year of the documented window; the adoption year is constant within units; the treatment indicator is 1 exactly from the adoption year on; every unit that is ever treated is observed before treatment; without noise the effects are those of the source comments (8 percent of the base rate; -0.04, -0.03, -0.025 with slope 0.01; 0.59 + 2.16 employees).", "quantifier": "all draws of the random generator and all rounding functions", "why_tests_cant": "One seed is fixed in the code; the claim is about the construction.", "anchors": ["diff_diff/datasets.py:_construct_castle_doctrine_data", "diff_diff/datasets.py:_construct_divorce_laws_data", "diff_diff/datasets.py:_construct_mpdta_data", "diff_diff/datasets.py:_construct_card_krueger_data"]}
{"id": "C98", "title": "The derived adoption year of the divorce data agrees with the law indicator", "statement": "In a downloaded file the law is in effect in a row exactly if the derived first_treat is positive and not after the row's year; first_treat is 0 exactly for states without the law.", "quantifier": "all files with a 0/1 indicator", "why_tests_cant": "The tests only see the constructed data, which carries first_treat already.", "anchors": ["diff_diff/datasets.py:load_divorce_laws"]}
{"id": "C99", "title": "solve_ols gives the same answer with and without the compiled extension", "statement": "For every design, outcome, clustering and rank_deficient_action the coefficients, residuals, fitted values, covariance matrix and the exception raised do not depend on whether the Rust backend is installed, with skip_rank_check on or off.", "quantifier": "all designs, all singular value decompositions the libraries may return, all rank decisions", "why_tests_cant": "The test suite runs with one backend at a time and compares a few well-conditioned designs.", "anchors": ["diff_diff/linalg.py:solve_ols", "diff_diff/linalg.py:_solve_ols_rust", "diff_diff/linalg.py:_solve_ols_numpy", "rust/src/linalg.rs:solve_ols", "rust/src/linalg.rs:compute_robust_vcov_internal"]}
{"id": "C100", "title": "If the rank test finds no dependent column, the coefficients are least squares", "statement": "When _detect_rank_deficiency reports full rank, the coefficients returned by either backend solve the normal equations; when singular values are cut, the answer is the minimum-norm solution and does not depend on the choice of singular vectors.", "quantifier": "all designs and outcomes, all QR and singular value decompositions", "why_tests_cant": "Needs a design whose QR ratio and singular value ratio lie on different sides of 1e-7.", "anchors": ["diff_diff/linalg.py:_detect_rank_deficiency", "diff_diff/linalg.py:_solve_ols_numpy", "rust/src/linalg.rs:solve_ols"]}
{"id": "C101", "title": "TROP's tuning and bootstrap do not depend on whether the compiled extension is installed", "statement": "The unit distances, observation weights, leave-one-out pseudo-effects, tuning score and bootstrap standard error of the two-step method are the same with the compiled and with the Python code.", "quantifier": "all panels, tuning values and iteration limits", "why_tests_cant": "Needs both implementations side by side on the same panel; equality over all panels is not testable.", "anchors": ["rust/src/trop.rs:compute_weight_matrix", "rust/src/trop.rs:estimate_model", "rust/src/trop.rs:loocv_grid_search", "diff_diff/trop.py:_estimate_model", "diff_diff/trop.py:_compute_observation_weights"]}
{"id": "C102", "title": "The compiled TROP weights are a probability distribution and only their ratio to the penalty matters", "statement": "The weights of compute_weight_matrix are nonnegative, at most one and sum to one; multiplying all weights and the nuclear-norm penalty by a positive constant leaves the iterates of estimate_model unchanged.", "quantifier": "all panels, target cells, tuning values, numbers of iterations", "why_tests_cant": "Universal over panels and constants.", "anchors": ["rust/src/trop.rs:compute_weight_matrix", "rust/src/trop.rs:estimate_model"]}
{"id": "C103", "title": "Treated outcomes never enter the compiled fits", "statement": "Adding any effects to treated outcomes leaves the compiled leave-one-out fits and the tuned penalties unchanged, shifts every compiled bootstrap replicate by a constant effect, and leaves the reported standard error unchanged.", "quantifier": "all panels, effects, tuning grids, bootstrap draws", "why_tests_cant": "Universal over panels and effects.", "anchors": ["rust/src/trop.rs:estimate_model", "rust/src/trop.rs:loocv_grid_search", "rust/src/trop.rs:bootstrap_trop_variance", "diff_diff/trop.py:_bootstrap_variance"]}
{"id": "C104", "title": "The compiled tuning search reports penalties from the grids and their own score", "statement": "The penalties returned with the compiled search are members of the user's grids (infinities kept), and the reported score is the leave-one-out score of those penalties after the documented conversion of infinities.", "quantifier": "all panels, nonempty grids, subsamples of control cells", "why_tests_cant": "Universal over panels and grids.", "anchors": ["rust/src/trop.rs:loocv_grid_search", "diff_diff/trop.py:fit"]}
{"id": "C105", "title": "The compiled joint fit returns the weighted least-squares effect", "statement": "For every panel and penalties that switch the low-rank part off, the treatment effect computed by the compiled solver (used in the tuning score and in every bootstrap replicate) equals the weighted least-squares effect that the Python solver computes.", "quantifier": "all panels, weights, tuning values", "why_tests_cant": "The tests compare the two backends on a few well-conditioned panels with a loose tolerance; slow convergence of block coordinate descent depends on the weights.", "anchors": ["rust/src/trop.rs:solve_joint_no_lowrank", "diff_diff/trop.py:_solve_joint_no_lowrank"]}
{"id": "C106", "title": "The compiled joint solver never increases the weighted sum of squares", "statement": "Each sweep of the compiled solver leaves the weighted sum of squared residuals no larger; the returned coefficients fit at least as well as the best constant.", "quantifier": "all panels, weights, starting points", "why_tests_cant": "Universal over panels and iterates.", "anchors": ["rust/src/trop.rs:solve_joint_no_lowrank"]}
{"id": "C107", "title": "The compiled joint effect does not depend on the units of the outcome", "statement": "Adding a constant to all outcomes leaves the compiled effect unchanged, and multiplying all outcomes by a constant multiplies it by that constant.", "quantifier": "all panels, weights, constants", "why_tests_cant": "Needs an absolute tolerance to be hit by small outcomes.", "anchors": ["rust/src/trop.rs:solve_joint_no_lowrank"]}
{"id": "C108", "title": "The compiled joint weights equal the Python weights", "statement": "compute_joint_weights and _compute_joint_weights give the same weight for every cell; a unit without usable pre-period outcomes has weight 0.", "quantifier": "all panels, tuning values, patterns of missing outcomes", "why_tests_cant": "Needs a unit without pre-period outcomes together with lambda_unit = 0, where 0 times infinity is NaN.", "anchors": ["rust/src/trop.rs:compute_joint_weights", "rust/src/trop.rs:bootstrap_trop_variance_joint", "diff_diff/trop.py:_compute_joint_weights"]}
{"id": "C109", "title": "The compiled joint search returns the best combination of the grids", "statement": "When some combination has a finite score, the search returns a combination from the user's grids with its own score, and no combination has a smaller one; otherwise the Python search runs. NaN scores are never selected.", "quantifier": "all panels, grids, subsamples of control cells", "why_tests_cant": "Universal over panels and grids.", "anchors": ["rust/src/trop.rs:loocv_grid_search_joint", "rust/src/trop.rs:loocv_score_joint", "diff_diff/trop.py:_fit_joint"]}
{"id": "C110", "title": "absorb= and fixed_effects= give the same estimate", "statement": "For every data set and grouping column g, DifferenceInDifferences.fit(absorb=[g]) reports the same ATT as fit(fixed_effects=[g]) (the within transformation is documented as a cheaper way to obtain the same fixed effects).", "quantifier": "all data sets with the four cells, all groupings", "why_tests_cant": "The tests fit both on one balanced panel and only check that the estimate is near the true effect; a difference needs a group whose rows are unevenly split between the periods.", "anchors": ["diff_diff/estimators.py:DifferenceInDifferences.fit", "diff_diff/utils.py:demean_by_group"]}
{"id": "C111", "title": "absorb= standard errors account for the absorbed effects", "statement": "The standard error reported with absorb=[g] equals the one reported with fixed_effects=[g] whenever the estimates and residuals are the same.", "quantifier": "all balanced panels nested in the treatment arms, both robust and clustered", "why_tests_cant": "No test compares the two standard errors; both look plausible.", "anchors": ["diff_diff/estimators.py:DifferenceInDifferences.fit", "diff_diff/linalg.py:LinearRegression.fit", "diff_diff/linalg.py:_compute_robust_vcov_numpy"]}
{"id": "C112", "title": "The clustered standard error of the two-by-two design", "statement": "With cluster=c, the standard error is the square root of G/(G-1) (n-1)/(n-4) times the sum over clusters of squared signed deviations from the cell means; it is zero only if the four cell means fit every outcome exactly.", "quantifier": "all data sets with the four cells, all cluster columns with at least two values", "why_tests_cant": "Needs clusters made of whole cells (one treated and one control state); rounding turns the exact zero into 1e-17 and the test would only see a very small p-value.", "anchors": ["diff_diff/estimators.py:DifferenceInDifferences.fit", "diff_diff/linalg.py:_compute_robust_vcov_numpy", "diff_diff/linalg.py:LinearRegression.get_inference"]}
{"id": "C113", "title": "The effect depends on the covariates only through the space they span", "statement": "Replacing the covariates or dummies by others that span the same space together with the intercept and the main effects (other units of measurement, another base category of a fixed effect, sums and differences) changes neither the estimate nor its standard error, t, p, interval, R-squared or residuals, as long as the interaction is not itself in that space; the estimate is the coefficient on the partialled-out interaction. The same holds for TwoWayFixedEffects, where a balanced panel with an untreated unit always identifies the effect.", "quantifier": "all data, all covariate sets and dummies, every variance type and cluster column, collinear covariates included", "why_tests_cant": "Tests fix one set of covariates; with collinear ones the dropped columns, the number of parameters and the degrees of freedom must all agree, which no single data set shows.", "anchors": ["diff_diff/estimators.py:DifferenceInDifferences.fit", "diff_diff/twfe.py:TwoWayFixedEffects.fit", "diff_diff/linalg.py:solve_ols", "diff_diff/linalg.py:LinearRegression.fit"]}
{"id": "C114", "title": "CallawaySantAnna ignores unit and period effects, scales with the outcome and ignores row order", "statement": "If every observed outcome is replaced by c y + alpha_unit + lambda_period with c > 0, the same calls succeed with the same cells, every ATT(g,t), aggregate, standard error, influence value and confidence limit (analytic and bootstrap, for fixed weight draws) is multiplied by c, and every t statistic and p-value is unchanged; with c = 1 the whole report is unchanged. Permuting the rows leaves the result identical as long as first_treat is constant within units.", "quantifier": "all panels (unbalanced, missing outcomes), all estimation methods, covariates, base periods, control groups, anticipation values, aggregations, balance_e and weight draws", "why_tests_cant": "Tests compare point estimates on one simulated panel; the claim covers every reported number, including the bootstrap and NaN results of rank-deficient covariate sets.", "anchors": ["diff_diff/staggered.py:CallawaySantAnna.fit", "diff_diff/staggered.py:CallawaySantAnna._compute_att_gt_fast", "diff_diff/staggered_aggregation.py", "diff_diff/staggered_bootstrap.py"]}
{"id": "C115", "title": "SyntheticDiD ignores period effects, unit effects and the level and units of the outcome", "statement": "Adding to every outcome a term that depends only on the period, or one that depends only on the unit, or a constant, leaves the SyntheticDiD estimate unchanged, and multiplying the outcome by c > 0 multiplies the estimate by c.", "quantifier": "all complete panels, ridge penalties, placebo permutations, bootstrap draws, iteration counts and both weight backends", "why_tests_cant": "Tests fix one simulated panel and one backend; a violation shows only when two fits of transformed data are compared, and the size depends on the step size of the weight iteration.", "anchors": ["diff_diff/synthetic_did.py:SyntheticDiD.fit", "diff_diff/utils.py:compute_synthetic_weights", "diff_diff/utils.py:_compute_synthetic_weights_numpy", "diff_diff/utils.py:compute_time_weights", "rust/src/weights.rs:compute_synthetic_weights_internal"]}
{"id": "C116", "title": "Covariates in SyntheticDiD adjust the outcome without distorting the effect", "statement": "With covariates, the effect tau of additive data a_unit + b_period + x'gamma + tau*treated*post is still recovered by the SyntheticDiD fit, and a covariate that carries no information (for example a column of zeros) leaves the estimate unchanged.", "quantifier": "all complete panels, outcomes, covariate lists, weights and draws", "why_tests_cant": "The covariate step is a regression on all rows, including the treated ones after treatment; a test on one data set sees a plausible number. The exact loss needs algebra over all least-squares solutions.", "anchors": ["diff_diff/synthetic_did.py:SyntheticDiD._residualize_covariates", "diff_diff/synthetic_did.py:SyntheticDiD.fit"]}
{"id": "C117", "title": "What a SyntheticDiD result reports", "statement": "In every successful fit the unit weights are keyed by exactly the control units and the time weights by exactly the pre-periods, both are nonnegative and sum to one, pre- and post-periods partition the observed periods, the reported counts are those of the data, the pre-treatment RMSE is zero exactly when the weighted controls match the treated mean in every pre-period, additive data return the mean effect with standard error 0, and row order does not matter when treatment is constant within units.", "quantifier": "all panels, configurations, inference methods, draws and permutations", "why_tests_cant": "Tests check sums of weights and lengths on a few panels; they do not cover all panels, draws and row orders.", "anchors": ["diff_diff/synthetic_did.py:SyntheticDiD.fit", "diff_diff/synthetic_did.py:SyntheticDiD._bootstrap_se", "diff_diff/synthetic_did.py:SyntheticDiD._placebo_variance_se"]}
{"id": "C118", "title": "TROP cross-validation predicts a left-out cell without its own outcome", "statement": "In the leave-one-out score that selects the penalties, the prediction of a left-out control cell does not depend on that cell's outcome: the pseudo-effect is the outcome minus a number that is the same for every value of the outcome.", "quantifier": "all panels (including missing outcomes), cells, penalties, iteration counts and decomposition routines; two-step and joint method, Python and compiled", "why_tests_cant": "A leak of the left-out outcome into weights or fit changes the score slightly and still gives a plausible choice of penalties; only a comparison of fits over all values of one cell shows it.", "anchors": ["diff_diff/trop.py:TROP._estimate_model", "diff_diff/trop.py:TROP._compute_observation_weights", "diff_diff/trop.py:TROP._loocv_score_joint", "diff_diff/trop.py:TROP._compute_joint_weights", "rust/src/trop.rs:loocv_score_for_params", "rust/src/trop.rs:loocv_score_joint"]}
{"id": "C119", "title": "Regression DiD ignores everything the design already contains", "statement": "DifferenceInDifferences and MultiPeriodDiD report the same effects, standard errors, t statistics, p-values and intervals when any combination of intercept, group and period main effects, covariates and dummies is added to the outcome, and rescale them (|s| for standard errors, sign flip and swapped interval for negative s) when the outcome is multiplied by s. Without covariates this includes an arbitrary group effect and an arbitrary effect of every period.", "quantifier": "all data, covariates, dummies, variance types and clusterings in which the interaction of interest is not itself a combination of the other regressors and the classical variance has at least one degree of freedom", "why_tests_cant": "Tests shift one data set by a constant; the design-wide statement for every period effect, every covariate combination and every covariance type needs the geometry of least squares.", "anchors": ["diff_diff/estimators.py:DifferenceInDifferences.fit", "diff_diff/estimators.py:MultiPeriodDiD.fit", "diff_diff/linalg.py:solve_ols", "diff_diff/linalg.py:compute_robust_vcov"]}
{"id": "C120", "title": "TripleDifference ignores two-way effects, rescales and does not depend on row order", "statement": "Adding to the outcome any function of group and partition, of group and time, and of partition and time leaves the triple-difference estimate and its inference unchanged; multiplying the outcome by s multiplies estimate and interval by s and the standard error by |s|; permuting the rows changes nothing.", "quantifier": "all three estimation methods, all valid data, covariates, propensity models and trimming thresholds in (0,1)", "why_tests_cant": "Two-way terms must cancel for every data set and every fitted propensity; tests use balanced designs, where a method that does not cancel them looks fine.", "anchors": ["diff_diff/triple_diff.py:TripleDifference._regression_adjustment", "diff_diff/triple_diff.py:TripleDifference._ipw_estimation", "diff_diff/triple_diff.py:TripleDifference._doubly_robust", "diff_diff/triple_diff.py:TripleDifference._compute_ipw_se"]}
{"id": "C121", "title": "SunAbraham ignores unit and period effects and rescales with the outcome", "statement": "SunAbraham's within transformation is meant to absorb unit and time fixed effects: replacing the outcome y by s*y + a(unit) + b(period) multiplies every cohort effect, event-study effect and the overall effect by s, every standard error by |s|, leaves weights and p-values unchanged, and flips t statistics and intervals only when s < 0.", "quantifier": "all panels, cohorts, covariates, clusterings, s <> 0 and functions a and b", "why_tests_cant": "Tests use complete simulated panels; on an incomplete panel one pass of double demeaning leaves part of the unit effects in the outcome, and the estimate moves.", "anchors": ["diff_diff/sun_abraham.py:SunAbraham.fit", "diff_diff/sun_abraham.py:SunAbraham._within_transform", "diff_diff/sun_abraham.py:SunAbraham._fit_saturated_regression", "diff_diff/sun_abraham.py:SunAbraham._compute_overall_att"]}
{"id": "C122", "title": "Exported dictionaries and tables carry the reported numbers", "statement": "coefficients maps the name of every regressor to its coefficient; to_dict and to_dataframe list every reported effect, standard error, p-value and interval bound exactly once under its own key (no period overwrites another period or a summary entry), tables are sorted by period or group and complete, an aggregation that was not computed raises ValueError, the weight table starts with the largest weight, and every row of the sensitivity table is the HonestDiD fit at that M with the same significance verdict.", "quantifier": "all results, all integer periods including negative ones, all regressor names, all grids of M", "why_tests_cant": "Key collisions only appear for particular column names and period labels, and a swapped bound or a lost row in an export is not visible in a test that looks at the result object.", "anchors": ["diff_diff/results.py:DiDResults.to_dict", "diff_diff/results.py:MultiPeriodDiDResults.to_dict", "diff_diff/results.py:MultiPeriodDiDResults.to_dataframe", "diff_diff/results.py:SyntheticDiDResults.get_unit_weights_df", "diff_diff/staggered_results.py:CallawaySantAnnaResults.to_dataframe", "diff_diff/sun_abraham.py:SunAbrahamResults.to_dataframe", "diff_diff/honest_did.py:SensitivityResults.to_dataframe", "diff_diff/estimators.py:MultiPeriodDiD.fit"]}
{"id": "C123", "title": "The Goodman-Bacon decomposition ignores unit and period effects, row order and unit labels", "statement": "The TWFE coefficient and every 2x2 estimate of BaconDecomposition are difference-in-differences: replacing y by s*y + a(unit) + b(period) multiplies the coefficient, every 2x2 estimate and every type average by s and the decomposition error by |s|, and leaves the comparisons, weights and counts unchanged. Reordering the rows or renaming the units changes nothing that is reported.", "quantifier": "all panels, cohort assignments, outcomes, both weighting methods, all s, a, b, permutations and injective relabellings", "why_tests_cant": "Tests compare one simulated balanced panel with a tolerance; whether an incomplete panel or a cohort column that varies within a unit breaks an invariance needs a universal statement and a counterexample.", "anchors": ["diff_diff/bacon.py:BaconDecomposition.fit", "diff_diff/bacon.py:BaconDecomposition._compute_twfe", "diff_diff/bacon.py:BaconDecomposition._compute_treated_vs_never", "diff_diff/bacon.py:BaconDecomposition._compute_timing_comparison", "diff_diff/bacon.py:BaconDecomposition._recompute_exact_weights"]}
{"id": "C124", "title": "HonestDiD conclusions do not depend on the unit of the outcome", "statement": "Multiplying the outcome by s > 0 (effects, standard errors and pre-period coefficients by s, covariances by s^2) multiplies every bound, interval, estimate and standard error of HonestDiD by s and changes no verdict, provided M is rescaled when it carries the unit of the outcome: relative-magnitude analyses at the same Mbar, smoothness analyses at s*M. The breakdown value is unchanged (relative magnitudes) or multiplied by s (smoothness); smoothness bounds are the estimate plus or minus a fixed multiple of M.", "quantifier": "all results objects, weights, M, grids, alpha and s > 0, including NaN and infinite coefficients", "why_tests_cant": "Tests run one unit of measurement; that a search range fixed at [0, 10] or a default grid in absolute units changes the conclusion in another unit needs the equivariance statement to be visible.", "anchors": ["diff_diff/honest_did.py:HonestDiD.fit", "diff_diff/honest_did.py:HonestDiD.breakdown_value", "diff_diff/honest_did.py:HonestDiD.sensitivity_analysis", "diff_diff/honest_did.py:_solve_bounds_lp", "diff_diff/honest_did.py:_compute_flci", "diff_diff/honest_did.py:HonestDiD._estimate_max_pre_violation"]}
{"id": "C125", "title": "Two-way fixed effects estimates do not depend on labels, row order or absorbed effects", "statement": "TwoWayFixedEffects.fit reacts to the data only through what the model is about: adding unit effects, period effects or multiples of the covariates to the outcome changes nothing, multiplying the outcome by s multiplies the estimate, standard error and interval by s and keeps t and p, and reordering the rows, renaming the units or renumbering the periods changes no reported number. decompose() decomposes the estimate that fit() reports.", "quantifier": "all panels, covariate lists, cluster columns, rank_deficient_action values, s <> 0, effects, row orders, injective unit names and period shifts", "why_tests_cant": "Tests use one labelling (0/1 periods); that the coefficient depends on what the periods are called needs the statement over relabellings to be visible.", "anchors": ["diff_diff/twfe.py:TwoWayFixedEffects.fit", "diff_diff/twfe.py:TwoWayFixedEffects._within_transform", "diff_diff/twfe.py:TwoWayFixedEffects.decompose", "diff_diff/bacon.py:BaconDecomposition._compute_twfe", "docs/quickstart.rst", "README.md"]}
{"id": "C126", "title": "Printed summaries agree with the results they print", "statement": "The text of summary() is a faithful reading of the result: the contributions listed by the Goodman-Bacon summary add up to its Total line and the forbidden-comparison warning appears exactly when more than 1% of the weight is on such comparisons; the placebo summary's sentence about the p-value is true of the p-value; the synthetic-DiD summary lists the largest unit weights and counts the non-trivial ones; the sensitivity summary claims 'always significant' or 'robust up to M' only when the tested intervals say so.", "quantifier": "all balanced panels and outcomes (Bacon), all placebo tests, data, alpha and oracles, all unit weight dictionaries and admissible sort results, all HonestDiD inputs and grids", "why_tests_cant": "Tests check that summary() contains a heading; whether the sentence is true for every alpha, every ordering of weights and every breakdown outcome is not checked by substring tests.", "anchors": ["diff_diff/bacon.py:BaconDecompositionResults.summary", "diff_diff/diagnostics.py:PlaceboTestResults.summary", "diff_diff/results.py:SyntheticDiDResults.summary", "diff_diff/honest_did.py:SensitivityResults.summary", "diff_diff/honest_did.py:HonestDiD._find_breakdown"]}
{"id": "C127", "title": "Wild cluster bootstrap: unit of the outcome, other regressors, row order, restated hypotheses", "statement": "With the same bootstrap draws the wild cluster bootstrap does not depend on how the problem is written: multiplying the outcome and the null by s and adding any combination of the other regressors leaves the p-value alone, multiplies the replicates and the interval by s (ends swapped when s is negative) and the standard error by |s|; reordering the rows changes nothing; testing 'the coefficient is null + d' on the outcome plus d times the regressor is the same test as 'the coefficient is null' on the outcome.", "quantifier": "all designs, outcomes, clusterings, draws, nulls and levels for which the bootstrap runs, all s, d and combinations of the other regressors; all admissible qr/lstsq/inverse oracles", "why_tests_cant": "Monte Carlo tests fix one unit and null 0.0; the p-value for a non-zero null is never compared with the equivalent shifted problem.", "anchors": ["diff_diff/utils.py:wild_bootstrap_se"]}
{"id": "C128", "title": "HonestDiD and the sign of the outcome", "statement": "Negating the outcome mirrors the sensitivity analysis: for every method, the bounds and the robust interval are negated with their ends exchanged, the estimate is negated, the standard error, M, the breakdown values and every significance flag are unchanged, and the printed conclusion changes from 'effect is positive' to 'effect is negative' and back; the order in which the event-study dictionary lists its entries does not matter.", "quantifier": "all results objects (MultiPeriodDiD and CallawaySantAnna), methods, weights, M, levels, grids and admissible LP solvers; all permutations of the dictionary with finite pre-period effects", "why_tests_cant": "Tests use effects of one sign; an implementation forgetting an absolute value or treating the two ends differently passes them.", "anchors": ["diff_diff/honest_did.py:HonestDiD.fit", "diff_diff/honest_did.py:HonestDiD.sensitivity_analysis", "diff_diff/honest_did.py:HonestDiD.breakdown_value", "diff_diff/honest_did.py:HonestDiDResults.summary", "diff_diff/honest_did.py:HonestDiD._estimate_max_pre_violation"]}
{"id": "C129", "title": "The LinearRegression helper returns what its documentation says", "statement": "Accessors raise ValueError before fit; a failed fit leaves the previous results untouched and a successful one does not depend on them; cluster_ids passed to fit override those of the object; indices address columns as numpy does; get_inference_batch and get_all_inference agree with get_inference entry by entry; predictions on the training rows are the fitted values, and on new rows obeying the same linear relations they are those of every least squares solution; residuals, degrees of freedom and both R-squared depend only on the column space (so a redundant intercept is harmless); df=None passed explicitly uses the normal distribution.", "quantifier": "all objects, fits, designs of any rank, indices, index lists, new rows and admissible solvers", "why_tests_cant": "Tests fit well-conditioned designs once and read two coefficients.", "anchors": ["diff_diff/linalg.py:LinearRegression.fit", "diff_diff/linalg.py:LinearRegression.get_inference", "diff_diff/linalg.py:LinearRegression.get_inference_batch", "diff_diff/linalg.py:LinearRegression.get_all_inference", "diff_diff/linalg.py:LinearRegression.predict", "diff_diff/linalg.py:LinearRegression.r_squared"]}
{"id": "C130", "title": "Event-study estimators do not depend on the order of the rows or on unit names", "statement": "Permuting the rows of the data leaves every field of the SunAbraham result (effects, weights, standard errors, p-values, intervals, overall ATT, counts, cohort effects) and every field of the MultiPeriodDiD result (including the covariance matrix and the residuals) unchanged, and a permutation turns an error into the same error, whenever the design has full column rank and first_treat is an attribute of the unit. SunAbraham's result is unchanged when units are renamed by any injection, whatever the rank. If first_treat varies within a unit, SunAbraham's answer does depend on the row order.", "quantifier": "all data sets, permutations of the rows, injective renamings of units, covariates, absorbed columns, clusterings, control groups, numerical back ends meeting the solver specification", "why_tests_cant": "A test permutes a few fixed data sets; the claim is about every data set and every permutation, and the failing case (row-wise coding of first_treat) is silent.", "anchors": ["diff_diff/sun_abraham.py:SunAbraham.fit", "diff_diff/sun_abraham.py:SunAbraham._fit_saturated_regression", "diff_diff/sun_abraham.py:SunAbraham._compute_iw_effects", "diff_diff/estimators.py:MultiPeriodDiD.fit", "diff_diff/linalg.py:solve_ols"]}
{"id": "C131", "title": "Repeating the data set changes the standard errors by a known factor and nothing else", "statement": "Fitting on the data set repeated k times (every row copied exactly) returns the same coefficients, residuals, fitted values and R-squared. The covariance matrix is multiplied by (n-K)/(kn-K) without clusters (HC1 or classical), which is at most 1/k, and by (n-K)/(kn-K)*(kn-1)/(n-1) with the same cluster ids, which lies between (n-K)/(n-1) and 1 for every k. DifferenceInDifferences and TwoWayFixedEffects inherit this, the Goodman-Bacon decomposition is unchanged, and CallawaySantAnna, SyntheticDiD and TROP refuse the repeated data.", "quantifier": "all data sets, all designs of full column rank with more rows than columns, all numbers of copies, with and without clusters, robust or classical, with covariates, dummies and absorbed effects", "why_tests_cant": "tests use one data set and one number of copies; the exact factor and the bounds hold for all of them", "anchors": ["diff_diff/linalg.py:_compute_robust_vcov_numpy", "diff_diff/linalg.py:LinearRegression.fit", "diff_diff/estimators.py:DifferenceInDifferences.fit", "diff_diff/twfe.py:TwoWayFixedEffects.fit", "diff_diff/bacon.py:BaconDecomposition.fit", "diff_diff/staggered.py:CallawaySantAnna.fit", "diff_diff/synthetic_did.py:SyntheticDiD.fit", "diff_diff/trop.py:TROP.fit"]}
{"id": "C132", "title": "One treatment date on a balanced panel: which estimators report the same number", "statement": "On a balanced panel without covariates in which every unit is either never treated or first treated in period k: DifferenceInDifferences (post = periods from k on), the average effect of MultiPeriodDiD over the same periods, and the two-way fixed effects coefficient of BaconDecomposition are one and the same number, the difference in differences of the four pooled means, and Bacon's single comparison has weight 1 and decomposition error 0. CallawaySantAnna (never-treated controls, no anticipation) and SunAbraham report the difference in differences computed on the rows from period k-1 on only: the earlier periods do not enter. If period k-1 is not in the data CallawaySantAnna reports NaN while the first three still report a number. TwoWayFixedEffects.fit on periods coded 0 and 1 reports the same difference in differences multiplied by (1-p)/(2-p), p being the share of treated units.", "quantifier": "all balanced panels (any number of units, periods and rows per cell for the first three; one row per unit and period for the staggered estimators), all outcomes, all treatment dates, all solver outputs meeting their specification, all variance options", "why_tests_cant": "Tests compare estimators on simulated data to a tolerance that hides the different baselines; that three regressions are algebraically equal to one formula for every balanced panel, and that two others use a strict subset of the rows, needs the normal equations.", "anchors": ["diff_diff/estimators.py:DifferenceInDifferences.fit", "diff_diff/estimators.py:MultiPeriodDiD.fit", "diff_diff/bacon.py:BaconDecomposition.fit", "diff_diff/staggered.py:CallawaySantAnna.fit", "diff_diff/sun_abraham.py:SunAbraham.fit", "diff_diff/twfe.py:TwoWayFixedEffects.fit"]}
{"id": "C133", "title": "Moving the origin of the calendar changes only the labels", "statement": "If d is added to every period and to every treatment date (0 still meaning never treated), CallawaySantAnna (with covariates, any method, aggregation and bootstrap draws), SunAbraham (covariates, clusters) and BaconDecomposition return the same result with the dates moved by d, or the same error. The code meets this only when every treatment date is positive on both calendars: a date that lands on 0 is read as never treated, and negative dates are dropped without a message.", "quantifier": "all data sets, shifts d, configurations, covariates, aggregations, bootstrap weights and numerical back ends", "why_tests_cant": "Tests use calendar years or small positive periods; neither reveals that a treatment date of 0 or below (event-time coding) silently turns treated units into controls.", "anchors": ["diff_diff/staggered.py:CallawaySantAnna.fit", "diff_diff/staggered.py:CallawaySantAnna._compute_att_gt_fast", "diff_diff/staggered_bootstrap.py:CallawaySantAnnaBootstrapMixin._run_multiplier_bootstrap", "diff_diff/sun_abraham.py:SunAbraham.fit", "diff_diff/bacon.py:BaconDecomposition.fit"]}
{"id": "C134", "title": "Renaming the periods in an order-preserving way changes only the labels", "statement": "If every period and treatment date is replaced by its image under an increasing function (so only the spacing changes), an estimator that uses periods as an ordered set returns the same result with the labels replaced. MultiPeriodDiD and BaconDecomposition do. CallawaySantAnna and SunAbraham do not: they look for the base period exactly one unit of time (plus the anticipation) before treatment. On data with gaps between the periods CallawaySantAnna raises ValueError, and SunAbraham reports undefined effects with p value 1.", "quantifier": "all data sets, increasing functions, post periods, references, covariates, absorbed columns; for the refutations all data sets without consecutive periods, and all balanced panels in which some cohort is never observed at the reference", "why_tests_cant": "Tests use consecutive periods; biennial surveys or census years are never tried.", "anchors": ["diff_diff/estimators.py:MultiPeriodDiD.fit", "diff_diff/bacon.py:BaconDecomposition.fit", "diff_diff/staggered.py:CallawaySantAnna._compute_att_gt_fast", "diff_diff/sun_abraham.py:SunAbraham.fit"]}
{"id": "C135", "title": "Listing a post period twice", "statement": "MultiPeriodDiD reports one effect per listed post period, whatever the list; repeating a period in post_periods should change nothing but the weight of that period in the average, or be refused. The code builds one interaction column per listed entry and reads every entry of a period at its last column: when the pivoted QR drops that copy the effect of an identified period, the average and its standard error become undefined; with rank_deficient_action='error' the list is refused; otherwise the average counts the period as often as it is listed.", "quantifier": "all data sets, lists of post periods, references, covariates, fixed effects, absorbed columns and numerical back ends", "why_tests_cant": "Tests never pass a list with a repetition, and the outcome depends on which of two equal columns LAPACK pivots on.", "anchors": ["diff_diff/estimators.py:MultiPeriodDiD.fit"]}
{"id": "C136", "title": "SyntheticDiD on a panel with gaps", "statement": "SyntheticDiD.fit has no balance check. When a unit has no usable outcome in one of the periods, the estimate should be refused or reported as undefined together with undefined inference. The code reports NaN for the estimate and the interval, but the test fields are either t = 0 and p = 1 or, when the standard error is positive, the smallest possible p-value 1/(B+1), so an undefined estimate can be reported as significant. The unit weights silently become equal, or a LinAlgError escapes, when the gap is before treatment.", "quantifier": "all data sets, units, periods, covariates, post-period lists, variance methods, bootstrap draws and placebo permutations, both weight backends", "why_tests_cant": "Every test fixture is a balanced panel, so a gap, which turns comparisons with NaN into False, is never exercised.", "anchors": ["diff_diff/synthetic_did.py:SyntheticDiD.fit", "diff_diff/synthetic_did.py:_create_outcome_matrices", "diff_diff/synthetic_did.py:_bootstrap_se", "diff_diff/synthetic_did.py:_placebo_variance_se", "diff_diff/utils.py:compute_synthetic_weights", "diff_diff/utils.py:compute_time_weights", "diff_diff/utils.py:compute_sdid_estimator", "rust/src/weights.rs:project_simplex_internal"]}
{"id": "C137", "title": "Roles of the indicators", "statement": "A difference-in-differences does not distinguish its two indicators: exchanging the treatment and the time column leaves the estimate, its standard error, p-value and interval unchanged. Replacing one indicator by its complement (counting the other group as treated, or running time backwards) gives the opposite estimate with the same standard error and p-value and the mirrored interval. The same holds for the three indicators of a triple difference and, for the treatment indicator, for every period effect of MultiPeriodDiD.", "quantifier": "all data sets, outcomes, covariates, fixed effects, absorbed columns, clusterings, solver actions and estimation methods for which the interaction is identified", "why_tests_cant": "Tests fit one coding of the data; the symmetry relates two fits for every data set and every configuration.", "anchors": ["diff_diff/estimators.py:DifferenceInDifferences.fit", "diff_diff/estimators.py:MultiPeriodDiD.fit", "diff_diff/triple_diff.py:TripleDifference.fit", "diff_diff/triple_diff.py:_regression_adjustment", "diff_diff/triple_diff.py:_ipw_estimation", "diff_diff/triple_diff.py:_compute_ipw_se", "diff_diff/triple_diff.py:_doubly_robust", "diff_diff/linalg.py:LinearRegression.fit"]}
{"id": "C138", "title": "The sensitivity plot shows the honest intervals and separates them at the breakdown value", "statement": "plot_sensitivity and SensitivityResults.plot draw the same picture: at every tested M the identified set and the robust interval HonestDiD.fit gives for that M, a horizontal line at the original estimate, and a vertical line exactly when some tested interval contains zero. Tested intervals to the left of the line exclude zero and those on or to the right of it contain zero.", "quantifier": "all results accepted by HonestDiD, both restriction methods, all grids of M and all display options", "why_tests_cant": "Tests check that a figure is returned; they do not compare its content with refitted intervals for every grid.", "anchors": ["diff_diff/visualization.py:plot_sensitivity", "diff_diff/honest_did.py:SensitivityResults.plot", "diff_diff/honest_did.py:HonestDiD.sensitivity_analysis", "diff_diff/honest_did.py:HonestDiD._find_breakdown"]}
{"id": "C139", "title": "The synthetic weights in the control ranking are shares that reflect the match", "statement": "The synthetic_weight column of rank_control_units gives each listed control its synthetic-control share: non-negative numbers that sum to one over all candidates, larger for better matches; computing it never changes the rest of the table or makes a panel that can be ranked fail, including unbalanced panels.", "quantifier": "all panels, treatment definitions, pre-periods, exclusion and requirement lists, covariates, penalties and both backends", "why_tests_cant": "The tests rank balanced simulated panels and look at whether the column exists; they do not remove observations and compare weights.", "anchors": ["diff_diff/prep.py:rank_control_units", "diff_diff/utils.py:compute_synthetic_weights"]}
{"id": "C140", "title": "The staggered estimators report how many units are treated and how many never are", "statement": "n_control_units and n_treated_units of CallawaySantAnna and SunAbraham count the units that are never treated and those that are, so that with a cohort recorded for every unit they add up to the number of units; BaconDecomposition's n_never_treated counts the same never-treated units; without a never-treated unit CallawaySantAnna and SunAbraham refuse the data.", "quantifier": "all panels (rows in any order, duplicates and missing cohorts included), all configurations and all numerical backends", "why_tests_cant": "The tests check the counts on one or two balanced simulated panels whose never-treated units are coded 0 in every row.", "anchors": ["diff_diff/staggered.py:CallawaySantAnna.fit", "diff_diff/sun_abraham.py:SunAbraham.fit", "diff_diff/bacon.py:BaconDecomposition.fit"]}
{"id": "C141", "title": "Units treated in every period do not influence the staggered estimators", "statement": "A unit whose treatment starts no later than the first period of the data has no untreated outcome, so it identifies nothing and is no valid control. CallawaySantAnna ignores it: dropping all such units changes no group-time effect, aggregate, standard error, interval or bootstrap statistic, only the list of groups and the counts of treated units and rows. SunAbraham should ignore it too.", "quantifier": "all panels without duplicate rows whose treatment dates are attributes of the unit, every outcome and missing pattern, control group, method, base period, aggregation and non-negative anticipation, without covariates; for SunAbraham balanced panels of at most 21 periods", "why_tests_cant": "The simulated panels of the tests start before the first treatment date; a test would also have to vary the outcomes of the irrelevant units.", "anchors": ["diff_diff/staggered.py:CallawaySantAnna._compute_att_gt_fast", "diff_diff/staggered_aggregation.py", "diff_diff/sun_abraham.py:SunAbraham._fit_saturated_regression"]}
{"id": "C142", "title": "The propensity diagnostics of the triple difference describe the trimmed scores", "statement": "TripleDifference reports propensity score statistics exactly for the weighting methods (ipw, dr) with covariates. They summarise the scores that enter the weights: for a trimming value of at most one half, both means lie between the trimming value and one minus it and both standard deviations are at most one half minus it; a failed logistic fit gives the clipped sample share with zero spread; at a stationary point of the likelihood that the trimming leaves alone, the mean score is the share of treated (eligible) rows.", "quantifier": "all data, methods, trimming values, covariate lists and outcomes of the optimiser", "why_tests_cant": "Tests look at the statistics of a few well-behaved logistic fits; failing fits and out-of-range trimming values are not exercised.", "anchors": ["diff_diff/triple_diff.py:TripleDifference._ipw_estimation", "diff_diff/triple_diff.py:TripleDifference._doubly_robust", "diff_diff/triple_diff.py:_logistic_regression"]}
{"id": "C143", "title": "The gradient of the logistic regressions is the derivative of their objective", "statement": "The gradient that _logistic_regression hands to the optimiser is, in every coefficient, the derivative of the negative log-likelihood that it minimises.", "quantifier": "all rows, covariate lists, outcomes (0/1 or not), coefficient vectors and coefficients", "why_tests_cant": "A numerical gradient check samples a few coefficient vectors near zero and never reaches the cut-off of the linear predictor.", "anchors": ["diff_diff/triple_diff.py:_logistic_regression", "diff_diff/staggered.py:_logistic_regression"]}
