# Formal model of igerber/diff-diff — design

Source: `/repo` (Python package `diff_diff`, plus `rust/src` accelerators), read as text.
Development: `/verif/rocq/theories` (Coq 8.16.1, logical name `Verif`).

## 1. How the code is modelled

* **Shallow models.** Each modelled Python function is one Gallina function, branch by branch, with
  exceptions as values (`Err e`) and the file/lines cited in a comment above it.
* **Numbers.** Quantities that Python keeps in float64 are modelled by Coq's `R` (exact arithmetic).
  Where the behaviour of NaN or infinities is part of the claim, the type `fl` (`Fin r | NaN | PInf |
  NInf`) with numpy's comparison and arithmetic rules is used. Rounding error is *not* modelled.
  Counts, periods, cohorts, labels, column names are `nat`, `Z`, `string`; these parts are executable.
* **Linear algebra.** A design matrix is a list of columns, a column is a function of the row, and
  rows range over an arbitrary finite list. `scipy.linalg.lstsq`, `numpy.linalg.solve` and pivoted QR
  are oracles: a theorem assumes only "the returned vector solves the normal equations", "B is an
  inverse of X'X", "the dropped columns lie in the span of the kept ones". Instances are constructed in
  Coq (Gram-Schmidt) so that the assumptions are known to be satisfiable.
* **Distributions.** `scipy.stats` survival/quantile functions are section variables with the few
  facts used (strict monotonicity, sf(ppf)=1-p, symmetry) as hypotheses; an instance is given.
* **Randomness.** A random draw is an argument (the draw vector); statements quantify over all draws,
  or sum over the support of the distribution.
* **pandas.** A data frame is a list of records; `groupby`, `unique`, `isin`, `merge`, `pivot` are list
  functions.

Files: `X_model.v` definitions only; `X_proofs.v` lemmas; `X_spec.v` (where useful) independent
specifications; `Properties_X.v` only `Theorem … exact … Print Assumptions`.

## 2. Properties: model and proof plan

Where the faithful model violates the English property, the plan says *refuted*: a `_refuted` theorem
exhibits the witness and the strongest true part is proved beside it.

| id | modelled | proof |
|----|----------|-------|
| C01 | column list [1,d,t,dt] over rows, normal equations | algebra on cell sums; any LS solution |
| C02 | as C01 | corollaries of C01 |
| C03 | vcov as sums over rows/clusters | permutation of sums; relabelling of group-by |
| C04 | get_inference over `fl` with abstract sf/ppf | monotonicity |
| C05 | _solve_ols_numpy with oracle dropped set | list lemmas + projection uniqueness |
| C06 | sandwich with inverse oracle | sum of squares |
| C07 | solve_ols error branches | refuted at n = k |
| C08 | estimator object as state machine | refuted by a two-step history; invariant for the corrected reading |
| C09 | _parse_formula on strings | round trip by induction; covariates argument dropped: refuted |
| C10 | parameter stores as finite maps | round trip; atomicity refuted |
| C11 | compute_r_squared | Pythagoras |
| C12 | within_transform | finite-sum algebra on balanced panels; unbalanced refuted |
| C13 | MultiPeriodDiD design | normal equations |
| C14 | TWFE fit | refuted (regressor is not demeaned), exact attenuation factor proved |
| C15 | weight tables | sqrt algebra |
| C16 | wild_bootstrap_se | linearity of LS; null not imposed: refuted for every design |
| C17 | control/base selection | case analysis; not_yet_treated with anticipation or universal base refuted |
| C18 | CS on additive outcomes | sums |
| C19 | the three estimators, no covariates | algebra |
| C20 | aggregation | convexity |
| C21 | balance_e | refuted, weaker statement proved |
| C22 | group selection | refuted for CS/SA, proved for Bacon |
| C23 | bootstrap statistics over `fl` | counting |
| C24 | SA aggregation | convexity |
| C25 | SA sample filter | refuted |
| C26 | weights | via C27 |
| C27 | Duchi projection | variational inequality / KKT |
| C28 | SDID estimator | linearity |
| C29 | SDID inference | algebra; p/CI agreement refuted |
| C30 | DDD | saturated regression; dr refuted, proved under equal shares |
| C31 | DDD dr | refuted: outcome model cancels |
| C32 | DDD data flow | refuted |
| C33 | Bacon comparisons and normalisation | sums |
| C34 | Bacon identity | refuted with concrete panel; single-cohort case proved |
| C35 | RM bounds | sharpness for l >= 0, sum 1; refuted for general l |
| C36 | SD constraints | refuted: affine deviations are feasible for every M |
| C37 | sigma_post selection | refuted |
| C38 | bisection / grid scan | loop invariant; None and first-grid-point cases refuted |
| C39 | is_significant of each class | proved for p-value classes; refuted for HonestDiD |
| C40 | power/MDV with abstract ncx2 | monotone oracle |
| C41 | PowerAnalysis | monotone cdf oracle; 'less' and panel formula refuted |
| C42 | simulate_power result extraction | refuted for CallawaySantAnna |
| C43 | balance_panel | list lemmas |
| C44 | prep helpers | list lemmas |
| C45 | rank_control_units selection | sorting lemmas |
| C46 | permutation p-value | counting; exactness refuted |
| C47 | placebo_group_test sample | refuted |
| C48 | both validators | refuted |
| C49 | stars, summary | case analysis; summary(alpha) refuted |
| C50 | TOST | monotone oracle |
| C51 | did_fit with an empty cell | rank argument; refuted for the control/pre cell |
| C52 | numpy and Rust projected gradient | induction on the iteration; step size refuted |
| C53 | staggered check of TWFE | list lemmas |
| C54 | check_parallel_trends | closed form of the slope; exact lines refuted |
| C55 | permutation distribution | counting; p = 0 refuted |
| C56 | multiplier bootstrap | variance of weighted sums; overall ATT refuted |
| C57 | est_reg / est_ipw / est_dr | normal equations of the nuisance fits |
| C58 | CS option flow | functional independence of unused arguments |
| C59, C60, C64, C81 | inference blocks | case analysis over `fl` |
| C61 | SA and CS on the same panel | saturated cells |
| C62 | SA bootstrap resampling | iloc semantics; refuted for other indices |
| C63, C65 | DDD with covariates, DDD variances | Frisch-Waugh, closed forms |
| C66-C68 | diagnostics.py | list lemmas, oracle fit |
| C69-C72 | prep_dgp.py, _backend.py | sums over the generated grid |
| C73-C80 | TROP two-step | loop invariants, SVD oracle, contraction of alternating means |
| C82-C89 | TROP joint | minimum-norm weighted least squares, block normal equations |
| C90-C94 | plots: what is handed to matplotlib | list lemmas over the result objects; case analysis over `fl` |
| C95, C96 | cache state machine | induction over histories of calls |
| C97, C98 | constructed panels, derived columns | grid lemmas; finite tables by computation |
| C99, C100 | truncated-SVD least squares, rank tolerances, routing | coordinates along singular vectors; uniqueness of the spectral part; explicit 3x2 design for the gap |
| C101-C104 | compiled TROP two-step code | weights proportional to the Python weights; induction over iterations; concrete panels for the differences |
| C105-C109 | compiled joint TROP code | weighted means minimise; fixed points satisfy the normal equations; slow coordinates of the 2 x 2 sweep bound 50 iterations |
| C110-C112 | DifferenceInDifferences with absorb, fixed effects, clusters | a vector of the column space dual to the interaction (Linalg_dual); group-constant columns have zero double difference on balanced panels; one-dimensional kernel of the dummy design |
| C113 | covariate spans | dimension lemma (Linalg_rank: independent columns inside a span of k columns number at most k), one dual vector shared by both designs (Linalg_span), Frisch-Waugh-Lovell |
| C114 | CallawaySantAnna equivariance | algebra of multiplication by c on floats (Scale_flt), cell estimators (Staggered_scale), relation carried through aggregation and bootstrap (Staggered_equiv), row permutations (Staggered_rows) |
| C115 | SyntheticDiD invariances | the compiled gradient step depends on the data only through differences that period effects cancel in (Sdid_proofs); two-control case solved in closed form as a scalar recursion, bounded for every iteration count (Sdid_ex) |
| C116 | SyntheticDiD covariates | contrast functional of the estimator is linear and kills additive terms; residualisation is a projection on the dummy and covariate span (Sdid_covs), 2x2 and 6-row cases (Sdid_covex) |
| C117 | SyntheticDiD report | unfolding of the fit (sd_fit_ok), simplex lemmas, permutation lemmas for pivot cells (Sdid_thms, Sdid_rows) |
| C118 | TROP leave-one-out honesty | congruence of the iterations in cells with zero weight, distances exclude the target period (Trop_loo); joint counterexample solved from the normal equations |
| C119 | design terms drop out of DiD and MultiPeriodDiD | dual vector of the interaction is orthogonal to all other columns; residuals scale (Reg_equiv, Reg_effects) |
| C120 | TripleDifference equivariance | two-way terms lie in the span of the other seven columns; self-normalised ipw weights; dr estimate linear in the outcome (Triple_equiv) |
| C121 | SunAbraham equivariance | the demeaned outcome scales, so all least-squares coefficients, covariances and weighted sums do (Sun_equiv, Sun_eqex) |
| C122 | exported dictionaries and tables | dictionaries as insertion-ordered lists with overwriting; decimal notation is injective (Export_model, Export_proofs) |
| C123 | Bacon decomposition invariances | estimates are linear in y and additive effects cancel (Bacon_equiv); permutation and relabelling lemmas (Bacon_rows); counterexamples (Bacon_eqex) |
| C124 | HonestDiD and the unit of the outcome | scaling commutes with extraction, linear programs and intervals (Honest_scale); linear smoothness profile (Honest_smooth); two-unit example (Honest_scex) |
| C125 | TWFE: labels, row order, absorbed effects, decompose | dual vectors of the fitted design (Twfe_equiv); relabelled group means, quadratic law in the label shift, variance decomposition against decompose (Twfe_labels) |
| C126 | Printed summaries | Summary_model: the computed lines of four summary methods; contribution sums by type split (Bacon), order statistics of a sorted list (SDID), exact truth condition of the placebo sentence |
| C127 | Wild bootstrap equivariance | Boot_equiv: replicate-by-replicate correspondence of least squares fits and cluster variances, percentile of the reflected sample, exact p-value law for a moved null |
| C128 | HonestDiD sign symmetry | Honest_flip: the second-difference constraint set is symmetric, so both linear programs have the same value; max/min of the combined method are exchanged |
| C05, C60, C62 | all-zero designs | solve_ols raises IndexError when no column is kept; within-transformed dummies of a one-cohort draw vanish identically (Sun_inf within_dd), so a single such bootstrap draw aborts SunAbraham |
| C129 | LinearRegression object | Linreg_model: state option, numpy indexing, dict comprehension; column-space argument via Linalg_span and rank uniqueness |
| C130 | Row order and unit names of SunAbraham and MultiPeriodDiD | Sun_rows: solver on permuted rows by uniqueness of least squares and of the inverse; congruence of the weights, effects and covariance sums |
| C131 | the data set repeated k times: factor of the covariance, unchanged estimates, refusals | Rep_proofs.v, Rep_thms.v, Rep_ex.v, Properties_Rep.v |
| C132 | one treatment date, balanced panel: DiD = MultiPeriodDiD average = Bacon TWFE; CS = SunAbraham = DiD from k-1 on; TWFE.fit attenuated | One_proofs.v, One_thms.v, One_cs.v, One_twfe.v, One_ex.v, Properties_One.v |
| C133 | Shift_proofs, Shift_sun, Shift_bacon, Shift_ex | moving the calendar by d moves only the labels of CallawaySantAnna, SunAbraham and Bacon, as long as treatment dates stay positive; dates of 0 or below are silently misread (refuted) |
| C134 | Mono_proofs, Mono_bacon, Mono_ex | order-preserving renaming of the periods: invariance of MultiPeriodDiD and Bacon; CallawaySantAnna and SunAbraham need unit-spaced periods (refuted) |
| C135 | Listed_model, Listed_proofs, Listed_ex | MultiPeriodDiD with a post period listed twice: dictionaries read the last copy; equality with the plain model without repetitions; lost effects (refuted) |
| C136 | Gap_model, Gap_proofs, Gap_thms, Gap_fit | SyntheticDiD with missing (unit, period) cells: float-valued copy of the fit; undefined estimate with t = 0, p = 1 or p = 1/(B+1) (refuted) |
| C137 | Swap_proofs, Swap_triple, Swap_ex | exchanging or complementing the indicators of DifferenceInDifferences and TripleDifference; ipw standard error refuted |
| C138 | Sensplot_model, Sensplot_thms | numbers drawn by plot_sensitivity and SensitivityResults.plot; position of the breakdown line; unsorted and empty grids refuted |
| C139 | Rankw_model, Rankw_thms | synthetic_weight column of rank_control_units; shares on complete pre-periods; equal weights or LinAlgError on unbalanced panels (refuted) |
| C140 | Counts_thms | n_control_units, n_treated_units, n_never_treated of the staggered estimators; infinity counted twice (refuted); missing first cohort (refuted) |
| C141 | Early_thms, Early_ex | units treated in every period: ignored by CallawaySantAnna (every field), lose an effect in SunAbraham (refuted) |
| C142 | PScore_model, PScore_thms | propensity statistics of TripleDifference: when reported, their range, failed fits, crossed trimming, balance |
| C143 | Logit_model, Logit_thms | gradient of the logistic regressions: the derivative of the objective inside the cut-off, wrong beyond it (refuted) |

## 3. Where the code departs from the property

For every property that is not proved as stated: what is proved, what is false of the code, and the
theorem holding the witness. (Generated from the manifest notes.)

* **C05** Rank-deficient designs: dropped coefficients are NaN, the rest are the reduced fit. QR rank decision is an oracle (exact rank). One rank-deficient case has no answer: if every column vanishes on the rows, all columns are dropped, the kept index is an empty float64 array and indexing with it raises IndexError (linalg.py:676-677) instead of returning NaN coefficients. C05_returns_exactly gives the exact condition under which the solver returns. (`C05_zero_design_refuted`)
* **C07** Any design accepted by solve_ols gets a variance. The English claim is false of the code: with n equal to the number of parameters every check passes and the variance raises ZeroDivisionError. True part: n > 4 and at least two clusters. (`C07_accepted_design_has_variance_refuted`)
* **C08** The reported inference method is the one used. False of the code in one direction: the label is stale after any earlier bootstrap fit on the object. The exact condition under which the label says wild_bootstrap is proved for all histories. (`C08_stale_label_refuted`)
* **C09** The formula interface means the same as the explicit interface. Parser round trip proved for all names and blanks; false of the code that the covariates argument is used together with a formula, and a second interaction silently replaces the first. (`C09_covariates_argument_refuted`, `C09_second_interaction_refuted`)
* **C10** get_params and set_params are inverse and atomic. Round trip and single-assignment laws proved; atomicity, rejection of unknown names and 'as if constructed' are false of the code in the listed cases. (`C10_atomicity_refuted`, `C10_non_parameter_accepted_refuted`, `C10_cs_weights_refuted`, `C10_cs_unvalidated_refuted`, `C10_honest_keeps_invalid_refuted`, `C10_bacon_unknown_refuted`)
* **C12** Two-way within transformation removes additive unit and time effects. Proved for balanced panels (any multiplicity per cell), with the equivalence to unit and period dummies; false of the code on unbalanced panels. (`C12_unbalanced_refuted`)
* **C14** TWFE recovers a constant treatment effect. False of the code: only the outcome is demeaned, so the estimate is tau(1-p)/(2-p). Exact attenuation proved. (`C14_recovers_tau_refuted`, `C14_concrete_refuted`)
* **C16** The wild bootstrap imposes the null hypothesis. The claim that the null is imposed is false of the code: the replicates are centred at the unrestricted estimate minus the null. The p-value bounds hold. (`C16_null_imposed_refuted`)
* **C17** Callaway-Sant'Anna never uses already-treated units as controls. False of the code in two ways: not_yet_treated ignores the anticipation window, and universal base periods use controls already treated at the base period. Proved: exact cohorts of treated and control units, exact base period, and cleanness in the remaining configurations. (`C17_anticipation_refuted`, `C17_universal_base_refuted`)
* **C18** Callaway-Sant'Anna recovers the true effects under exact parallel trends. Exact recovery for all configurations but not_yet_treated with universal base and t before the base period, where it is false of the code. Unbalanced panels, missing outcomes and covariates allowed. (`C18_universal_base_refuted`)
* **C21** balance_e gives a fixed composition of groups. False of the code: only groups without a cell at event time balance_e are removed. Proved: exactly which cells are kept. (`C21_refuted`)
* **C22** The two codings of never-treated are interchangeable. True for Bacon. In CallawaySantAnna and SunAbraham all estimates of the finite groups and the overall results agree, but inf units are listed as a treated group and counted as treated units, so the full statement is false of the code. (`C22_cs_refuted`, `C22_sa_refuted`)
* **C25** control_group selects the comparison group in SunAbraham. False of the code: with validly coded cohorts control_group has no effect at all, and never-treated units are required in both settings. Nothing of the positive statement is true beyond that. (`C25_control_group_refuted`, `C25_never_treated_required_refuted`)
* **C29** Synthetic DiD placebo variance and p-value. The p-value/interval agreement is false of the code (bootstrap draws are not recentred; zero spread gives p = 1 with a degenerate interval). The other parts are proved. (`C29_p_and_interval_agree_refuted`)
* **C30** Triple difference equals the difference of two difference-in-differences. True for reg and ipw, and the rejection clause for all methods. False for dr: each cell mean is multiplied by its relative share of the period (C30_dr_formula), so it is the triple difference only when all four groups have the same share of post rows; C30_dr_refuted: constant outcome c in nine rows gives -27c/40. (`C30_dr_refuted`)
* **C31** The doubly robust triple difference uses the outcome model. False of the code: the fitted outcomes cancel exactly, the estimate is not invariant to a constant (C31_shift_partial gives the exact change), and with rank_deficient_action='error' the outcome models never use the covariates. What the outcome regressions are used for is the R-squared only: C31_outcome_regressions characterises them (least squares on the covariates within each of the eight cells, the cell mean when the cell is too small or under action 'error', the outcome itself in a one-row cell) and C31_r_squared shows the reported number is theirs and lies in [0, 1]. (`C31_outcome_model_refuted`, `C31_shift_refuted`, `C31_error_action_refuted`)
* **C32** cluster= changes the standard errors of TripleDifference. False of the code: the cluster column only changes the reported number of clusters; with ipw and dr the robust flag has no effect either. (`C32_cluster_refuted`, `C32_robust_refuted`)
* **C34** Goodman-Bacon decomposition identity. False of the code: a four-unit, three-period panel has error 1/14 with either weighting. Proved instead: the comparisons with the Goodman-Bacon weights average to the two-way coefficient (any balanced panel), how the code's weights differ, and the identity for one treated cohort or a constant effect. (`C34_identity_refuted`)
* **C35** Relative-magnitudes bounds are the sharp identified set. Refuted as stated for arbitrary weight vectors: the bound ignores the l1 norm of l, and it is sharp exactly when the norm is 1 or Mbar*max = 0 (C35_sharp_iff_unit_norm); in particular for the default equal weights. Nesting and collapse at 0 hold in general. A negative override passed to fit is not validated and inverts the bounds. (`C35_sharp_refuted`, `C35_negative_override_refuted`)
* **C36** Smoothness bounds are informative. Refuted as stated: the constraint set does not pin delta down in the pre-periods, so for every weight vector that does not annihilate constants and linear trends (in particular the default) the set is (-inf, inf) for every M. For annihilating weights it is bounded, sharp, and collapses to the estimate at M = 0. (`C36_bounded_refuted`)
* **C37** HonestDiD uses the variance of the post-period effects. Refuted: the leading block of the coefficient covariance (constant, treatment, period dummies) is used. With two periods and HC1 the standard error used is that of the control pre-period mean. (`C37_avg_se_refuted`)
* **C38** Breakdown value brackets the sign change. Bracketing, termination for tol > 0 and the closed form are proved. Refuted parts: None only means significant up to M = 10; the default grid can report None where breakdown_value is finite; a grid starting above the breakdown point reports 0; tol <= 0 does not terminate. __repr__ shows None for a breakdown value of 0 (honest_did.py:380). (`C38_none_refuted`, `C38_agreement_refuted`, `C38_grid_zero_refuted`, `C38_all_tolerances_refuted`, `C38_repr_zero_refuted`)
* **C39** An undefined interval is not significant. Holds for every class whose significance compares a p-value with alpha. Refuted for HonestDiDResults: a NaN interval is reported significant with a star and the verdict negative. (`C39_nan_interval_refuted`)
* **C40** Pre-trends power: MDV attains the target power. At the minimum detectable violation the power equals the target, power is strictly increasing in |M| and equal to alpha at zero; the refitted and the stored power_at agree for the built-in patterns; the power curve and the sensitivity verdict are characterised; the effects, standard errors and covariances read from event studies and MultiPeriodDiD are the right ones. Refuted: custom patterns make the results' power_at use equal weights; the default analysis of a MultiPeriodDiD result always raises ValueError, and so does any analysis when the treatment column is not called 'treated'; an attainable target above the power at noncentrality 512 is reported as infinite; a target below alpha is not attained; the automatic curve stops at 100; a missing variance is reported as power = alpha. The statements rest on oracles for the noncentral chi-square, brentq and the matrix inverse, each with an instance.  A repeated coefficient name keeps its last value, and every later name is then read from the wrong row of the covariance matrix. C40_unsupported: any other result object raises TypeError. (`C40_mdv_inf_refuted`, `C40_curve_misses_target_refuted`, `C40_custom_power_at_refuted`, `C40_multi_period_default_refuted`, `C40_multi_period_name_refuted`, `C40_repeated_name_position_refuted`)
* **C41** Analytical power, MDE and sample size are mutually consistent. For two-sided and greater alternatives the power at the minimum detectable effect is at least the target (equal for the one-sided test); power is strictly increasing in the effect and in either group size and decreasing in the noise; the required sample is monotone; in the basic two-period design with an even required total the MDE of the returned sample is at most the effect and the total is minimal among balanced designs; the curves and the convenience wrappers are characterised. Refuted: alternative='less' yields a positive MDE whose power is below alpha and an automatic curve that never exceeds alpha; an odd required total can give an MDE above the effect; panel designs double the required total; the variance jumps between two and three periods; an impossible correlation gives NaN power with a required total of 4. The normal distribution is an oracle with an instance. C41_cap gives the cap for a zero effect as a number. (`C41_mde_less_refuted`, `C41_bad_correlation_refuted`, `C41_sample_size_refuted`, `C41_panel_overstated_refuted`, `C41_curve_less_refuted`, `C41_design_jump_refuted`)
* **C42** simulate_power works for the supported estimators. For every generator, fit and seed sequence: the reported power is the share of successful replications with p < alpha, lies in [0,1] and in its own interval; coverage likewise; the reported effect is one of the effects. Refuted for CallawaySantAnna: results that expose only overall_* attributes are never read, so simulate_power always raises RuntimeError. The reported rmse is sqrt(bias^2 + var) with the n-1 variance, so it is strictly above the root of the mean squared error whenever the estimates vary (C42_rmse), and it is NaN when a single replication succeeds. (`C42_overall_refuted`)
* **C45** rank_control_units ranks eligible controls and keeps the required ones. Proved: sorted with NaN last, one row per unit, no treated or excluded unit, every required candidate, the announced number of rows (counting required candidates), nothing better left out, scores in [0,1] for complete finite pre-period data, the closest candidate scores 1. Refuted: a required unit that is treated or unobserved before treatment silently does not appear; an undefined distance of the first candidate makes every score NaN, while the same value in second place does not; the suggested trend is fitted on row order rather than time. sort_values and nlargest are oracles with instances; the synthetic_weight column is C139. C45_defined says exactly when a ranking is returned (weights, one source of treated units, no duplicate rows in the pre-periods, an eligible control and a treated unit observed there, and with covariates every treated unit), C45_exception which exception is raised otherwise (KeyError only for a treated unit without pre-period rows when covariates are given), C45_treated_units who counts as treated and C45_default_pre_periods which periods are compared by default. (`C45_nan_first_refuted`, `C45_required_refuted`, `C45_nan_order_refuted`, `C45_slope_order_refuted`)
* **C46** The permutation test is valid at any sample size. Proved: p in [1/(m+1), 1], monotone in |estimate|; with the observed and the n permuted assignments independent and uniform over any finite set, the rejection probability is at most ceil(n alpha)/(n+1), hence below alpha + 1/(n+1), and at most alpha when n alpha or (n+1) alpha is an integer. Refuted as stated: with 20 equally likely assignments, distinct estimates, alpha = 1/20 and 21 permutations it exceeds alpha; an undefined original estimate receives the smallest possible p-value. (`C46_nan_original_refuted`, `C46_level_refuted`)
* **C47** placebo_group_test uses only never-treated units. Refuted: the function receives no treatment column and estimates on all rows, so truly treated units serve as controls (C47_never_treated_refuted: placebo effect -10/3 although all never-treated outcomes are constant). C47_estimate_uses_all_rows states exactly what is computed. (`C47_never_treated_refuted`)
* **C48** Data accepted by validate_did_data can be fitted. validate_did_data is characterised exactly (C48_iff). Refuted as stated: periods other than 0/1, infinite outcomes and the four-row docstring example are valid but fit raises. True when periods are 0/1, outcomes finite and there are more than four rows (C48_fit_partial); C48_checks: with 0/1 periods all missing-value and two-value checks of fit pass. (`C48_time_refuted`, `C48_four_rows_refuted`, `C48_infinite_refuted`)
* **C49** Significance stars and is_significant agree. Stars and is_significant agree at the default level. False of the code: summary(alpha) relabels the stored interval; PeriodEffect hard-codes 0.05. (`C49_summary_interval_refuted`, `C49_zero_level_refuted`, `C49_fractional_label_refuted`, `C49_period_effect_alpha_refuted`)
* **C51** An unidentified ATT is reported as NaN. False of the code when the missing cell is control/pre and the rank check drops another column than the interaction. (`C51_unidentified_att_is_nan_refuted`)
* **C52** Rust and NumPy synthetic-control weights agree. False of the code in general: Rust uses the constant step 0.1, and C52_backends_agree_refuted is a problem on which it ends at the wrong weights for every even iteration count. What is proved: with equal steps the iterates agree and a fixed point is a minimiser; after K iterations NumPy is within max(1/K, 4e-8)(||H||+1e-10) of the minimum, and so is Rust (with 10) whenever the curvature of H = Y'Y + lambda I is at most 10; then, for lambda > 0, the reported weights of the two backends differ per unit by at most sqrt(2 max(1/K, 4e-8)(||H||+1e-10+10)/lambda) + 2 n min_weight. (`C52_backends_agree_refuted`)
* **C54** Parallel-trends slope test. False of the code in one part: exactly linear trends give zero standard error and no verdict, however different the slopes. (`C54_exact_trends_no_verdict_refuted`)
* **C55** Distributional parallel-trends test. False of the code in one part: the observed assignment is not counted, so p = 0 is possible. Which changes are compared is stated without sorting: each row minus the same unit's previous observed period, filed by group. (`C55_p_zero_refuted`)
* **C56** Multiplier bootstrap variance equals the analytic variance. False of the code for the overall ATT with heterogeneous effects (the bootstrap omits the weight influence function) and, by (n-1)/n factors, for single cells; true for event-study and group effects. (`C56_overall_refuted`)
* **C58** CallawaySantAnna options that matter. The base_period half is proved; the cluster half is false of the code: the argument is never read. (`C58_cluster_refuted`)
* **C59** CallawaySantAnna inference is coherent. False for a zero standard error: t and p are NaN but the interval is the point estimate. (`C59_zero_se_refuted`)
* **C60** Sun-Abraham inference is coherent. Standard errors and coherence proved for full-rank designs; the last clause is false: NaN effects get t = 0 and p = 1, and no post-treatment effect at all is reported as ATT 0, SE 0, p = 1. A design absorbed by the unit and period effects raises IndexError from the solver. (`C60_undefined_p_one_refuted`, `C60_no_post_zero_refuted`, `C60_absorbed_design_refuted`)
* **C62** The Sun-Abraham bootstrap resamples units. True for a default RangeIndex and successful finite replicates. False otherwise: index labels are used as positions (wrong rows, or IndexError), failed replicates are replaced by the point estimate, and a NaN replicate leaves a p value without a standard error. A draw whose units all belong to one cohort has an all-zero within-transformed design; the solver's IndexError is not among the caught exceptions (sun_abraham.py:1087) and aborts the fit. (`C62_failed_replicates_refuted`, `C62_index_labels_refuted`, `C62_nan_replicate_refuted`, `C62_one_cohort_draw_refuted`)
* **C64** Triple difference inference is coherent. Coherent when the standard error is positive. False otherwise: se = 0 or NaN is reported with t = 0, p = 1 (also for a NaN ATT); with eight rows robust reg raises ZeroDivisionError and dr reports se = 0. (`C64_zero_se_refuted`, `C64_undefined_refuted`, `C64_eight_rows_refuted`, `C64_dr_p_one_refuted`)
* **C65** Standard errors of the triple difference do not depend on the level of the outcome. True for robust reg without covariates and for dr; false for ipw: a constant outcome c gives a standard error proportional to |c|. C65_ipw_se gives the ipw standard error in closed form. (`C65_ipw_se_shift_refuted`)
* **C67** The leave-one-out test drops each treated unit once and summarises the estimates. One re-estimation per treated unit and the averaging identity are proved. Refuted: when all leave-one-out estimates coincide (standard error 0) the p-value is 1 and the effect is reported as not significant, however large. (`C67_identical_refuted`, `C67_case_refuted`)
* **C68** The placebo battery runs all tests and reports them with the right meaning. Keys and dispatch are proved. Refuted: the period column is handed to estimators that need a 0/1 indicator, so whenever a fake-timing test of the battery succeeds its permutation and leave-one-out entries are errors; and the printed verdict calls a significant permutation result (an original estimate more extreme than the permuted ones) a violation of parallel trends. (`C68_multi_period_refuted`, `C68_battery_refuted`, `C68_permutation_interpretation_refuted`, `C68_battery_case_refuted`)
* **C69** Generated data sets are balanced panels labelled with the design that was asked for. Proved for all generators. Refuted: the default cohorts of generate_staggered_data are rejected by its own check for n_periods <= 2 (C69_staggered_default_refuted); they are accepted from 3 periods on. int(n*fraction) is over exact reals. (`C69_staggered_default_refuted`)
* **C71** The true_effect column is the estimand of the 2x2 estimator. Refuted: the violation continues after treatment, so the estimate is effect + violation*T/2 (C71_panel_bias); with factors it is effect + strength * sum over factors of (shift + treated-control gap of loadings) * post-pre gap of the factor (C71_factor_bias). (`C71_panel_refuted`, `C71_factor_refuted`)
* **C72** The backend switch is respected. Refuted last clause: any other value behaves like auto. (`C72_unknown_refuted`)
* **C74** TROP recovers the effect under parallel trends. Proved for a nuclear-norm penalty that switches the low-rank part off (off: penalty at least the Frobenius bound of the period spread): the error is at most max((1-d)^k (hi-lo), 2 tol/d), d the weighted share of never-treated fully observed units; rows version from the data frame. Missing: penalties between 0 and that bound. Refuted for lambda_nn = 0, which is in the default grid: the low-rank part absorbs all residuals after one demeaning pass, the bias is C74_zero_penalty_bias, and C74_zero_penalty_refuted is a panel with exact parallel trends, effect 3 and estimate 7/2. (`C74_zero_penalty_refuted`)
* **C75** TROP does not depend on unit levels or on the order of the rows. Row order: proved for fit. Unit levels: proved for every cell effect (and left-out cell) unless the iteration stops in the first round. Refuted there (C75_unit_levels_refuted): the stopping rule compares the first iterate with zero starting values, so a panel whose outcomes lie below the tolerance is accepted after one demeaning pass (effect -d/2), while the same panel with 1 added to every outcome gets a second pass (effect -7d/8). (`C75_unit_levels_refuted`)
* **C77** TROP observation weights. Proved for the point estimate and the distances; a bootstrap sample contains the drawn units with multiplicity. Refuted last clause: replicates use the weights of the original columns (C77_bootstrap_weights_refuted: 5 instead of 5/3). (`C77_bootstrap_weights_refuted`)
* **C78** The low-rank step solves the stated penalised problem and the iterations never increase it. Proximal step optimal up to len * 1e-20/2 (the cut-off of tiny singular values); descent proved for half the weighted squares plus Wmax*lambda*nuclear norm, up to the same slack, given a decomposition that does not fail. Refuted: the documented objective has no factor 1/2 and no Wmax (C78_documented_objective_refuted). (`C78_documented_objective_refuted`)
* **C79** TROP selects the penalties that minimise the leave-one-out score. In the grid, never worse than the start of the refinement, last coordinate optimal given the others. Refuted: a corner optimum is missed; with lambda_time = inf the search and the estimate convert the value to 0 but the reported score does not, so it is the sum of squared outcomes of the scored cells whatever the fit. C79_stopping gives the whole search: three one-dimensional starts, then rounds (unit, time, nuclear norm, each the first best of its grid) until two successive scores differ by less than 1e-6, ten rounds at most. (`C79_optimal_refuted`, `C79_infinite_time_refuted`)
* **C81** TROP inference is coherent. Proved: interval contains the estimate, test iff t quantile, interval iff normal quantile. Refuted: the two use different distributions, so the interval can exclude 0 with p > alpha. With one treated unit the jackknife standard error is 0 and the inference NaN. (`C81_agreement_refuted`)
* **C84** Without the low-rank part joint TROP is a weighted difference in differences, and its cell effects are the effects of the cells. First two clauses proved. Refuted last clause: every treated cell is reported with the pooled estimate (effects 2 and 6 are both reported as 4). (`C84_cell_effects_refuted`)
* **C85** Joint TROP is invariant to unit and period effects. Period effects: proved for the whole result. Unit effects: proved for the point estimate with lambda_unit = 0. Refuted for lambda_unit > 0: unit distances compare outcome levels, so adding 1 to one control unit moves the estimate. (`C85_unit_effects_refuted`)
* **C87** Joint TROP accepts exactly the panels with simultaneous adoption. Characterised in terms of the first observed treated period of each unit; on complete panels this is the property. Refuted with missing rows: a treated unit without its adoption-period row is taken for a late adopter and the panel rejected (C87_simultaneous_refuted). (`C87_simultaneous_refuted`)
* **C88** Joint TROP reports undefined results as undefined. Proved: left-out unit. Refuted: with no treated outcome observed the estimate is 0; one treated unit gives standard error 0 with NaN inference; max_iter = 0 raises UnboundLocalError. (`C88_missing_refuted`)
* **C89** Joint time weights are centred on the treated block. Refuted: the centre is the mean of the treated periods plus 1/2, so the last treated period weighs more than the first. (`C89_centre_refuted`, `C89_asymmetric_refuted`)
* **C90** The event-study plot shows the reported effects and intervals. Proved: effects, standard errors, normalisation, shading, marker, and the interval for results whose intervals are normal. Refuted: MultiPeriodDiD reports t intervals but normal ones are drawn, so the plot can exclude 0 where the result does not reject; after normalisation the bars keep the standard error of the un-normalised effect; two data frame rows of one period are both drawn at the last effect; the interval columns a data frame may carry are ignored. (`C90_t_interval_refuted`, `C90_normalised_width_refuted`, `C90_repeated_rows_refuted`)
* **C91** The honest event-study plot can be drawn for every fitted result and shows period-specific robust intervals. Refuted: event_study_bounds is never set, so one scalar interval is drawn for all periods, and the drawing raises ValueError exactly when some effect lies outside that interval (C91_fails_iff), as for a significant result with a reference effect of 0. (`C91_case_refuted`)
* **C92** The power-curve marker lies on the plotted curve at the minimum detectable effect. Proved for increasing effect sizes. Refuted: for decreasing sizes np.interp puts the marker off the curve; for simulation results the line labelled MDE is the true effect, whose power can be 0.05. (`C92_simulation_mde_refuted`, `C92_decreasing_refuted`)
* **C93** The pre-trends power plot shows the curve with its own target power. Proved: marker; target None uses the curve's target. Refuted: the default argument 0.80 hides the curve's own target; a single result is drawn without any power. (`C93_target_refuted`)
* **C96** A load returns the named data set or raises. The exact outcome of every failure is characterised. Refuted: after an HTTPError/URLError without a cached copy the loaders return synthetic data with no warning (and call np.random.seed, which resets the caller's generator; not modelled); a forced download that fails returns the old copy; write_text is not atomic, so an interrupted write is served by all later plain loads. A time-out while reading is neither replaced by the cached copy nor by the fallback. (`C96_offline_refuted`, `C96_forced_refuted`, `C96_interrupted_refuted`)
* **C97** The constructed data sets are balanced panels with consistent labels and the stated effects. Proved for all draws. Refuted clause: in the divorce data Delaware (1968) is treated in every year. Castle cohorts are 2005-2010 or never (adoptions in 2011 are recoded to never). (`C97_divorce_always_refuted`)
* **C98** The derived adoption year of the divorce data agrees with the law indicator. Proved if the indicator never switches off within a state. Refuted otherwise: after a repeal first_treat still says treated. (`C98_repealed_refuted`)
* **C99** solve_ols gives the same answer with and without the compiled extension. C99_backends: equality for skip_rank_check=False, all designs with at least one column. Refuted for skip_rank_check=True: with dependent columns the compiled path returns finite coefficients and a NaN covariance without warning where NumPy raises ValueError; with as many columns as rows it returns a NaN covariance where NumPy raises ZeroDivisionError (in exact arithmetic; with rounded residuals the compiled result can be inf). (`C99_skip_dependent_refuted`, `C99_skip_square_refuted`)
* **C100** If the rank test finds no dependent column, the coefficients are least squares. Proved: exact gradient at the answer (the cut components), minimum-norm least squares when only zero singular values are cut, minimum-norm solution of the truncated design in general, independence of the decomposition. Refuted (C100_tolerance_refuted): the QR test compares |R_ii| with 1e-7 |R_11|, the solver cuts singular values below 1e-7 s_max; between the two, independent columns and noise-free y = X(1,1) give (0.84, 1.12) with no warning. The other theorems of this development assume lstsq solves the normal equations (lstsq_ok): that is what C100_minimum_norm proves of gelsd for designs outside the gap. (`C100_tolerance_refuted`)
* **C101** TROP's tuning and bootstrap do not depend on whether the compiled extension is installed. Proved: equal distances, proportional weights, equal pseudo-effects when no unit is treated in the target period and the penalty is large enough to switch the low-rank part off. Refuted: a unit treated in the target period has Python weight 0 but positive compiled weight; with the same penalty the compiled fit (threshold lambda/w_max on normalised weights) gives 7/2 where Python gives 11/4; on a constant panel with lambda_time grid [inf] the same penalties are reported with score 125 (Python) and 0 (compiled); no replicate gives SE 0 in Python and NaN in the compiled code. (`C101_treated_weight_refuted`, `C101_score_refuted`, `C101_fit_rust_refuted`, `C101_undefined_se_refuted`)
* **C105** The compiled joint fit returns the weighted least-squares effect. C105_settled_partial: at a point a sweep leaves unchanged, the compiled fit equals the Python fit (and the effect, when identified), for panels whose gating weight sums are 0 or above 1e-10; both backends fail on the same panels. Refuted: with lambda_time = 5 (in the default grid) on a 2 x 2 panel the 50 sweeps end with at most half of the effect, for every effect size (C105_cap_refuted; Python returns all of it); treated units 5 away from their average with lambda_unit = 5 carry less than 1e-10 weight and the effect stays at its start value 0 (C105_light_refuted); an effect of 1e-9 is returned as 3/8 of it by the absolute stopping rule (C105_tiny_refuted). These values enter the tuning score and the bootstrap standard error, not the point estimate. (`C105_cap_refuted`, `C105_light_refuted`, `C105_tiny_refuted`)
* **C107** The compiled joint effect does not depend on the units of the outcome. Level shifts and sign changes proved for the whole solver, scaling for one sweep. Scaling of the whole solver is refuted (C107_scale_refuted): the stopping rule compares changes with 1e-8 in outcome units. (`C107_scale_refuted`)
* **C108** The compiled joint weights equal the Python weights. C108_weights: equal weights for units with usable pre-period outcomes or lambda_unit <> 0. Refuted: lambda_unit = 0 gives exp(-0 * inf) = NaN where the Python weight is 0; a bootstrap replicate containing such a unit then has effect 0 (unit treated) or NaN (control) where Python finds the effect, and one NaN replicate makes the standard error NaN. (`C108_nan_weights_refuted`, `C108_nan_fit_refuted`)
* **C110** absorb= and fixed_effects= give the same estimate. C110_att: the exact value under absorb=[g] is the double difference of the outcome minus the double difference of its group means (only outcome and covariates are demeaned, the indicators stay raw). C110_balanced: on panels where each group lies in one arm and has the same numbers of pre and post rows, absorb, fixed_effects and neither all give the plain double difference. Refuted otherwise (C110_unbalanced_refuted): a noise-free panel with effect 4 and one treated unit seen only after gives 3 under absorb and 4 under fixed_effects. (`C110_unbalanced_refuted`)
* **C111** absorb= standard errors account for the absorbed effects. On balanced panels estimates and residuals agree, and the squared standard errors are in the ratio (n - 4) : (n - N - 2) for N groups (C111_ratio): the sandwich counts four parameters and ignores the absorbed ones (df_adjustment only enters the t distribution). With two rows per group the absorb standard error is too small by the factor sqrt 2 (C111_two_rows_refuted, concrete in C111_case). (`C111_two_rows_refuted`)
* **C112** The clustered standard error of the two-by-two design. C112_closed_form proves the formula. The second clause is refuted (C112_cells_refuted): if the cluster column is a function of arm and period (clustering by state with one treated and one control state), every cluster score sums to zero, and the fit reports SE 0, p-value 0, an interval of one point and significance at every level, for any data with a non-zero estimate; the check is only that there are two clusters. (`C112_cells_refuted`)
* **C115** SyntheticDiD ignores period effects, unit effects and the level and units of the outcome. Refuted as stated. Holds: with the compiled weight backend every field of the result ignores period effects (C115_fit_period_effects with C115_compiled_iteration_ignores_period_effects); the NumPy iteration does so only when its step size, taken from the spectral norm of the level data, is the same (C115_numpy_same_norm), although the objective it minimises is unchanged (C115_objective). Fails: unit effects change the estimate on both backends whatever the number of iterations (C115_unit_effects_refuted: from at most -4.35 to at least -1.65), because the weights match levels without an intercept; adding 10000 to every outcome changes the NumPy estimate from at most -7 to at least -5.1 (C115_level_refuted); multiplying by 1/10000 does not scale the compiled estimate (C115_scale_refuted), because the step size 0.1 is fixed, so on small outcomes the first step is below the tolerance and the weights stay near uniform. (`C115_unit_effects_refuted`, `C115_level_refuted`, `C115_scale_refuted`)
* **C116** Covariates in SyntheticDiD adjust the outcome without distorting the effect. Refuted as stated. The residualising regression has unit and period dummies and the covariates but no treatment term, so part of the effect is absorbed: C116_bias gives the exact loss for additive data, tau * (1 - sum delta_k contrast(x_k)) with delta the coefficients of the treatment indicator on the same design, and C116_saturated shows an estimate of 0 whenever the design spans the outcome. C116_two_by_two_refuted: with one control, one treated unit and two periods, every covariate with a nonzero double difference turns every effect into 0. C116_zero_covariate_refuted: a column of zeros changes the estimate (at most -4.35 to at least -2.25), because residualising also removes the unit effects that the weights match on. (`C116_two_by_two_refuted`, `C116_zero_covariate_refuted`)
* **C118** TROP cross-validation predicts a left-out cell without its own outcome. Proved for the two-step method, Python and compiled, without restriction. Refuted for method='joint': the unit weights are computed once from all pre-period outcomes, including the left-out one. C118_joint_refuted gives a 3x3 panel on which the prediction of a left-out pre-period outcome of a control unit is 2/5 when the outcome is 0 and larger for every other value (C118_joint_value: (4 + 2w)/(7w + 8) with w = exp(-lambda_unit |v|/sqrt 2)). C118_joint_partial: the joint method is honest when lambda_unit = 0 or the cell lies in the treated periods; for fixed weights it always is. (`C118_joint_refuted`)
* **C120** TripleDifference ignores two-way effects, rescales and does not depend on row order. Two-way effects: method 'reg' ignores them (and any covariate combination) in all reported numbers. 'ipw' ignores them in the estimate, for every propensity model, but not in the standard error. 'dr': C120_dr_terms shows the estimate moves by exactly the dr estimate of the added term, and the standard error never moves; the term drops out when all four group-partition cells have the same share of post rows. C120_level_refuted: adding the constant 1 changes the ipw standard error on 8 rows and the dr estimate on 9 rows. Rescaling and row order hold for all three methods (reg: triple interaction identified; ipw and dr: the logistic fit must not depend on row order). (`C120_level_refuted`)
* **C121** SunAbraham ignores unit and period effects and rescales with the outcome. Proved in full when the estimation sample is balanced, with covariates, any clustering and rank-deficient designs; on any panel for s*y + c with a constant c. C121_unit_effects_incomplete_refuted: with five rows (one unit seen only once) adding 1 to that never-treated unit's outcome changes the overall effect by -1/9, for every outcome; C121_incomplete_panel_value gives the value. (`C121_unit_effects_incomplete_refuted`)
* **C122** Exported dictionaries and tables carry the reported numbers. Exports hold for integer period labels. The coefficients dictionary is right exactly when the regressor names are distinct (C122_coefficient_names, C122_coefficient_keys; for MultiPeriodDiD without covariates they are); with a repeated name the last coefficient wins (C122_coefficient_last). Refuted: a fixed-effects column called 'period' gives its dummies the names of the period dummies, and the treatment column listed as a covariate replaces the treatment coefficient; nothing is reported. (`C122_period_names_refuted`, `C122_covariate_names_refuted`)
* **C123** The Goodman-Bacon decomposition ignores unit and period effects, row order and unit labels. Proved in full on balanced panels with one cohort per unit; s*y + k with a constant k and unit relabelling on any panel; row order on any panel with one cohort per unit. C123_unit_effects_unbalanced_refuted: with five rows (the code only warns) adding 1 to a never-treated unit seen once moves the 2x2 estimate by 1/2 for every outcome. C123_varying_cohort_order_refuted: if first_treat varies within a unit the reported number of never-treated units depends on the row order (groupby 'first', bacon.py:467-470); the code does not check for this. (`C123_unit_effects_unbalanced_refuted`, `C123_varying_cohort_order_refuted`)
* **C124** HonestDiD conclusions do not depend on the unit of the outcome. Proved for relative magnitudes (fit, sensitivity, breakdown) and for smoothness fits and grids; C124_smoothness_linear and C124_smoothness_breakdown_partial give the exact smoothness profile theta +/- w*M and the exact breakdown (|theta| - z*se)/w where the search range [0,10] allows. Refuted: C124_breakdown_unit_refuted (breakdown 5 becomes None = robust when the outcome is expressed in a unit ten times smaller, because breakdown_value searches M in [0,10] in absolute units, honest_did.py:1381-1425); C124_default_grid_unit_refuted (the default smoothness grid 0..1 is absolute); C124_combined_unit_refuted (one M is used both as an absolute and as a relative bound; with the default weights the smoothness part is uninformative and combined scales, C124_combined_default). (`C124_breakdown_unit_refuted`, `C124_default_grid_unit_refuted`, `C124_combined_unit_refuted`)
* **C125** Two-way fixed effects estimates do not depend on labels, row order or absorbed effects. Proved: unit, period and covariate terms plus rescaling on balanced panels with any covariates (C125_unit_and_period_effects), constant and covariate terms on any panel (C125_affine), row order (C125_row_order, both fits succeed), unit names (C125_unit_names, including the error outcome). Refuted: C125_period_labels_refuted (calling the two periods 2014/2015 instead of 0/1 changes the estimate from 1 to 3/16232843 because the regressor is treated*time, twfe.py:104-106; the documentation passes time='period' or 'year'), with the exact law C125_period_labels_law; C125_unbalanced_effects_refuted (a pure unit effect yields -2/9 on an unbalanced panel, because the one-pass within transform does not absorb it); C125_decompose_refuted (fit reports 1, decompose decomposes 3), with C125_fit_vs_decompose giving the exact factor and C125_fit_below_decompose showing it is always strictly below 1 when a unit is never treated. (`C125_period_labels_refuted`, `C125_unbalanced_effects_refuted`, `C125_decompose_refuted`)
* **C126** Printed summaries agree with the results they print. Proved: Bacon contributions and weights add up to the Total line and the warning law (C126_bacon_lines_add_up, C126_bacon_warning); SDID top-five list and count (C126_top_weights); 'always significant' iff every tabulated interval excludes zero (C126_sensitivity_always); the placebo sentence is true exactly when p < alpha and p < 0.05 agree (C126_placebo_text_law), hence always at alpha = 0.05 with a finite p. Refuted: C126_placebo_text_refuted (alpha = 0.1, p = 1/16, printed as 'p < 0.05': the threshold is hard-coded in diagnostics.py:145-155); C126_placebo_text_nan_refuted (a NaN p-value is printed as 'p >= 0.05'); C126_robust_up_to_refuted (breakdown 0.0 is printed as 'robust to violations up to M = 0.0000' although the interval at M = 0 contains zero). Column widths and digit rounding are not modelled. (`C126_placebo_text_nan_refuted`, `C126_placebo_text_refuted`, `C126_robust_up_to_refuted`)
* **C127** Wild cluster bootstrap: unit of the outcome, other regressors, row order, restated hypotheses. Proved: unit of the outcome and other regressors (C127_affine), row order (C127_row_order), reflection of interpolated percentiles (C127_percentile_reflection). Refuted: restated hypotheses (C127_same_hypothesis_refuted): on a 2x2 design with all draws equal to one, 'effect = 0' on y has p = 1 while 'effect = 4' on y + 4*D*post has p = 1/(B+1), with the same t statistic and the same replicates. Cause: replicates are generated from the outcome with the null effect removed (utils.py:447-475), so they are centred at the estimate minus the null, but their t statistics again subtract the null. C127_same_hypothesis_law says exactly what differs. (`C127_same_hypothesis_refuted`)
* **C128** HonestDiD and the sign of the outcome. Proved for all three methods, the breakdown value, the sensitivity grid, the flags and (for a non-empty non-NaN interval) the printed conclusion; dictionary order irrelevant. Refuted only for the printed conclusion of a NaN interval: C128_nan_verdict_refuted (a missing effect is announced as negative with either sign of the outcome, honest_did.py:305-313). (`C128_nan_verdict_refuted`)
* **C129** The LinearRegression helper returns what its documentation says. Everything but the last clause proved. The documented 'df: set to None explicitly to use normal distribution' (linalg.py:1271) is false: None falls back to the fitted degrees of freedom (C129_df_default, C129_df_none_refuted); the normal distribution is used exactly when the degrees of freedom are not positive (C129_df_normal). (`C129_df_none_refuted`)
* **C133** Moving the origin of the calendar changes only the labels. Refuted as stated for arbitrary shifts: C133_zero_date_refuted is a 3-unit panel whose ATT moves from 19/2 to -1 when the calendar moves by -2, because the cohort that lands on 0 becomes a control. C133_lost_dates_*_refuted: with every date at or below zero CallawaySantAnna and SunAbraham raise ValueError, Bacon returns no comparisons with the whole coefficient as error. The strongest true part is proved in full (every field, errors included): C133_callaway, C133_sun_abraham, C133_bacon under origin_ok (positive dates on both calendars); C133_case shows a shift by 2000 that satisfies it. (`C133_lost_dates_callaway_refuted`, `C133_lost_dates_sun_refuted`, `C133_lost_dates_bacon_refuted`, `C133_zero_date_refuted`)
* **C134** Renaming the periods in an order-preserving way changes only the labels. Refuted for two of the four estimators. C134_multi_period and C134_bacon prove it for the other two (every field and error; the end of an earlier-versus-later window in Bacon is reported as l - 1 whether or not that is a period). C134_callaway_gaps_refuted: no consecutive periods and no observed g - 1 - anticipation gives ValueError for every configuration; C134_callaway_doubled_refuted: doubling all dates of any data set makes it fail. C134_sun_gap_refuted: on a balanced panel without covariates a cohort never observed at the reference makes the saturated design singular, so some effect is NaN with p value 1. C134_case shows all four on one panel: 10 and 10 unchanged, 17/2 lost. (`C134_callaway_gaps_refuted`, `C134_callaway_doubled_refuted`, `C134_sun_gap_refuted`)
* **C135** Listing a post period twice. Refuted as a guarantee: C135_repeated_refuted is a 12-row panel on which [1, 2] gives two finite effects and their mean, while [1, 2, 2] gives an undefined effect and average under a valid QR (qr_last, shown to satisfy qr_ok). What is proved: C135_listed_once (without repetition the dictionary-based code equals mp_fit, errors included, so all other MultiPeriodDiD theorems apply), C135_effects (each period reported once, read at its last column; the average weights periods by their multiplicity and is undefined as soon as one effect is), C135_one_copy_undefined and C135_error_action. (`C135_repeated_refuted`)
* **C136** SyntheticDiD on a panel with gaps. Refuted as a guarantee: C136_significant_refuted is an 8-row panel whose treated unit has no row in the last period; with 20 placebo replications the fit reports att NaN, p = 1/21 and is_significant True, for every backend. What is proved: C136_undefined (any gap gives att and interval NaN; exact t and p in both branches), C136_pre_gap and C136_bootstrap_gap (when t = 0, p = 1), C136_treated_post_gap (a gap of treated units after treatment leaves weights, placebo draws and standard error as for any completion, and gives p = 1/(B+1)), C136_unit_weights (equal weights, or LinAlgError with numpy), C136_complete (on a complete panel this model is sd_fit, errors included). Whether numpy's SVD raises on NaN depends on LAPACK and is a parameter. (`C136_significant_refuted`)
* **C137** Roles of the indicators. Holds for DifferenceInDifferences in full (C137_did_*) and for TripleDifference with method reg in full (any two indicators exchanged, any one complemented; C137_reg_*). Methods ipw and dr: exchanging group and partition changes nothing (C137_weighting_exchange, covariates included); dr is reversed exactly by reversing the periods (covariates included) and, without covariates and without clipping, by complementing group or partition; the estimate of ipw is reversed in the same cases. Refuted for the ipw standard error: C137_ipw_error_refuted is an 8-row data set where it is 0.5, but 1.18 with the periods reversed and 0.91 with the group complemented, because _compute_ipw_se subtracts the estimate only in the treated-eligible cell, in both periods. Not covered: ipw and dr with covariates under complements of group or partition, where the reweighting target changes. MultiPeriodDiD: counting the other group as treated negates every period effect and the average (C137_multi_treated_complement). (`C137_ipw_error_refuted`)
* **C138** The sensitivity plot shows the honest intervals and separates them at the breakdown value. Content of the plot and agreement of the two functions hold for every non-empty grid (C138_shows_the_fits, C138_both_functions_agree). For increasing non-negative grids the line is absent exactly when no tested interval contains zero, everything left of it excludes zero and the first tested point from it on contains zero (C138_line_position, any method); everything to its right contains zero whenever the intervals are monotone in M (C138_line_separates), which holds for relative magnitudes (C138_line_separates_relative). Refuted for unsorted grids: [5, 1] draws the line at 0 although the interval at 1 excludes zero (C138_unsorted_refuted). Refuted for an empty grid: sensitivity_analysis succeeds and reports no breakdown, both plots raise IndexError (C138_empty_grid). (`C138_unsorted_refuted`)
* **C139** The synthetic weights in the control ranking are shares that reflect the match. The column does not change the table (C139_same_table). With a finite outcome for every unit in every pre-period a ranking comes back whenever the table does, and the weights are non-negative and sum to one (C139_shares), each being the optimiser's weight for that unit's own column (C139_own_column; the closeness of these weights to the optimum is C52). Refuted on unbalanced panels: one candidate without an outcome in one pre-period (or a period without treated outcomes) turns every weight into 1/n, or raises LinAlgError with the NumPy backend when its SVD refuses NaN (C139_hole_equal_weights); C139_match_refuted has a control that repeats the treated unit and one 100 away with a missing row, both with weight 1/2. The optimiser is the oracle of C136 (be_simplex, instances C136_backends). (`C139_match_refuted`)
* **C140** The staggered estimators report how many units are treated and how many never are. Proved: exactly what the numbers count (C140_cs_counts, C140_sa_counts, C140_bacon_counts: never-treated units are those whose first row is coded 0 or infinity, for Bacon those whose first recorded cohort is; treated units those whose first recorded cohort exceeds 0), ValueError without never-treated rows (C140_cs_no_never, C140_sa_no_never), the sum over units when cohorts are finite and fixed (C140_cs_partition, C140_sa_partition) and agreement of the never-treated counts on fixed cohorts (C140_same_never_count). Refuted otherwise: every unit coded infinity is counted both as treated and as never treated, so the two numbers exceed the number of units by the number of such units (C140_cs_infinite_refuted, C140_sa_infinite_refuted); a never-treated unit whose first row lacks a cohort is missed by CallawaySantAnna, which then refuses the data, while Bacon counts it (C140_late_cohort_refuted). (`C140_cs_infinite_refuted`, `C140_sa_infinite_refuted`, `C140_late_cohort_refuted`)
* **C141** Units treated in every period do not influence the staggered estimators. C141_callaway proves the CallawaySantAnna half for every reported field, errors included (bootstrap weights per unit held fixed; every period must still be observed after dropping the units; with covariates not stated, because the logit and least-squares oracles then see different columns). Refuted for SunAbraham: C141_sun_refuted: one such cohort makes the saturated design singular on any balanced panel (its event dummies add up to its unit effects), so whatever column the QR drops some event-study effect is NaN with t = 0 and p = 1, and the overall ATT too when that event time is not negative. C141_case adds such a unit, with arbitrary outcomes, to the panel of C132: CallawaySantAnna still reports 17/2, SunAbraham goes from 17/2 to an undefined effect. (`C141_sun_refuted`)
* **C143** The gradient of the logistic regressions is the derivative of their objective. C143_gradient_partial proves it wherever every linear predictor is strictly between -500 and 500. False beyond: C143_cutoff_refuted: once a predictor passes the cut-off the objective is flat in that row, but the gradient still contains the row; with one untreated row at predictor 600 the derivative is 0 and the gradient exceeds 1/2. Exact real arithmetic; np.exp and np.log are exp and ln. (`C143_cutoff_refuted`)

## 4. What is modelled

| source | model | left out |
|--------|-------|----------|
| linalg.py | Linalg_model: solve_ols (rank handling, all variance types), r_squared, LinearRegression.get_inference, predict | conditioning and the numeric rank tolerance: rank is exact; the NaN-filled expansion is kept |
| estimators.py DifferenceInDifferences | Did_model, Boot_model, Estim_model (formula parser, parameters, state) | summary formatting |
| estimators.py MultiPeriodDiD | Multi_model | formatting |
| twfe.py | Twfe_model | decompose() (calls bacon.py) |
| utils.py | Did_model (demeaning), Boot_model (wild bootstrap), Trends_model (trend checks, TOST), Synth_model (weights, placebo), Stats_model (percentile, std) | warnings |
| staggered*.py | Staggered_model: group-time estimates (reg/ipw/dr, covariates), aggregation, influence functions, multiplier bootstrap | to_dataframe, plotting; logistic regression is an oracle |
| sun_abraham.py | Sun_model | warnings |
| synthetic_did.py | Synth_model: estimate, inference, placebo and bootstrap | the column bookkeeping of fit beyond period/unit selection |
| triple_diff.py | Triple_model | summary; logistic regression is an oracle |
| bacon.py | Bacon_model | summary |
| honest_did.py | Honest_model, Lp | plotting; DeltaSD/DeltaRM/DeltaSDRM (never read) |
| pretrends.py | Pretrends_model | plotting |
| power.py | Power_model | progress callbacks, to_dataframe |
| prep.py | Prep_model, Rankw_model | date columns; rounding of the summary table |
| prep_dgp.py, _backend.py | Dgp_model | float truncation in int(n * fraction) |
| diagnostics.py | Diag_model | formatting other than the printed verdict |
| results.py, staggered_results.py | Results_model (significance, stars, summary level) | text layout |
| trop.py | Trop_model (two-step), Trop_joint (joint), Estim_model conventions | seed=None redraws; infinite outcomes; bootstrap samples in which a period disappears |
| rust/src/linalg.rs | Rust_ols: truncated-SVD solver, covariance, error routing | the LU residual check of invert_symmetric (an oracle that returns an inverse or fails) |
| rust/src/trop.rs | Trop_rust: two-step weights, fits, tuning, bootstrap; Trop_rjoint: the same for the joint method | NaN weights together with lambda_nn = 0; the random generator |
| rust/src/bootstrap.rs, weights.rs | Boot_model, Synth_model | the random generator |
| visualization.py | Vis_model: the numbers handed to matplotlib by plot_event_study, plot_group_effects, plot_honest_event_study, plot_power_curve, plot_pretrends_power, plot_bacon; Sensplot_model: plot_sensitivity and SensitivityResults.plot | colours, labels, layout |
| datasets.py | Data_model: cache, loaders, fallback data (draws are arguments), derived columns of the divorce file | urllib, CSV parsing (arbitrary function), the global seed, wage/population/income/suicide columns |

IEEE rounding, overflow and underflow are not modelled: a float64 is a real number, NaN or an infinity.
Warnings and printed text are not modelled unless a property is about them. Column-existence checks are
the typing of the model's arguments except in Prep_model.

## 5. Trusted base

* Coq 8.16.1's kernel (checked again with coqchk).
* The axioms `Print Assumptions` lists. Every theorem of the Properties files prints its own list; the
  union is: `ClassicalDedekindReals.sig_forall_dec`, `ClassicalDedekindReals.sig_not_dec` (construction of
  the reals), `FunctionalExtensionality.functional_extensionality_dep`, and where classical reasoning on
  the reals is used `Classical_Prop.classic`. No axiom is declared in this development, and theorems about
  executable parts (parsers, labels, counting) are closed under the global context.
* The reading of the Python (and Rust) source into the model: each definition cites the lines it models.
* Hypotheses about external routines. They are premises of the theorems, never axioms, and each has an
  instance built in Coq so that it is known to be satisfiable:

| routine | hypothesis | instance |
|---------|------------|----------|
| lstsq / solve / QR | `lstsq_ok`, `inv_ok`, `qr_ok`: normal equations, inverse, dropped columns in the span of the kept | `gs`, `gs_inv`, `gs_dropped` |
| minimum-norm lstsq | `mn_ok` | `mn_solve` |
| scipy.stats t, norm | `dist_ok`, `t_ok`, `norm_ok`: monotone, symmetric, quantile inverse | `toy_*`, `heavy_*` |
| scipy.stats ncx2, chi2 | `ncx2_ok` | `toy_ncx2_ok` |
| brentq | `brentq_ok` | `sup_brentq_ok` |
| linprog | `lp_ok` | `fm_lp_ok` (Fourier-Motzkin) |
| inv/pinv of small matrices | `minv_ok` | `gs_minv_ok` |
| LogisticRegression | arbitrary function (no hypothesis), or first-order conditions where stated | stated beside the theorem |
| np.linalg.norm(H, 2) (spectral norm) | `norm2_ok`, `nrm_ext` (Sdid_model.v, Sdid_ex.v) | `htrace` |
| np.interp | `interp_ok` (Vis_power.v) | `lin_interp` |
| SVD | `svd_ok`, `svd_len`, `soft_local`; `is_svd` (thin SVD of a design) | `svd_row`, `svd_top`, `svd_two`; `t_svd`, `z_svd`, `q_svd` |
| sort_values, nlargest | `dsort_ok`, `nlargest_ok` | insertion sort |
| rng.choice | `choice_ok`, `sub_ok` | `xchoice_ok`, `sub_first_ok` |
| random draws | arguments of the functions | any list |

## 6. Later additions

