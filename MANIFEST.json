{
 "claims": [
  {
   "property": "C01",
   "status": "proved",
   "theorems": [
    "C01_att_is_difference_of_cell_means",
    "C01_with_covariates",
    "C01_hc1_se",
    "C01_classical_se"
   ],
   "note": "For any number of rows and any cell sizes; also with covariates and the closed-form HC1 standard error."
  },
  {
   "property": "C02",
   "status": "proved",
   "theorems": [
    "C02_saturated_shift",
    "C02_affine_equivariance"
   ],
   "note": "Also standard error, t, p, interval and R-squared, with covariates."
  },
  {
   "property": "C03",
   "status": "proved",
   "theorems": [
    "C03_vcov_row_order",
    "C03_vcov_cluster_labels",
    "C03_row_order",
    "C03_cluster_labels"
   ],
   "note": "Row order at fit level for full-rank designs; variance level without that restriction."
  },
  {
   "property": "C04",
   "status": "proved",
   "theorems": [
    "C04_inference_coherent",
    "C04_nan_propagates",
    "C04_zero_se",
    "C04_did_result_coherent"
   ],
   "note": "For any reference distribution satisfying dist_ok."
  },
  {
   "property": "C05",
   "status": "partial",
   "theorems": [
    "C05_fit_is_projection",
    "C05_nan_exactly_at_dropped",
    "C05_predict_is_fitted",
    "C05_error_action",
    "C05_warns_iff",
    "C05_warn_and_silent_agree",
    "C05_full_rank_unique",
    "C05_degrees_of_freedom",
    "C05_returns_exactly",
    "C05_zero_design_refuted"
   ],
   "note": "QR rank decision is an oracle (exact rank). One rank-deficient case has no answer: if every column vanishes on the rows, all columns are dropped, the kept index is an empty float64 array and indexing with it raises IndexError (linalg.py:676-677) instead of returning NaN coefficients. C05_returns_exactly gives the exact condition under which the solver returns."
  },
  {
   "property": "C06",
   "status": "proved",
   "theorems": [
    "C06_symmetric",
    "C06_positive_semidefinite",
    "C06_one_cluster_per_row_is_hc1",
    "C06_one_cluster_per_row_defined"
   ],
   "note": ""
  },
  {
   "property": "C07",
   "status": "partial",
   "theorems": [
    "C07_accepted_design_has_variance_refuted",
    "C07_n_equals_k_raises",
    "C07_variance_exists_partial"
   ],
   "note": "The English claim is false of the code: with n equal to the number of parameters every check passes and the variance raises ZeroDivisionError. True part: n > 4 and at least two clusters."
  },
  {
   "property": "C08",
   "status": "partial",
   "theorems": [
    "C08_label_exact",
    "C08_first_fit",
    "C08_bootstrap_fit_labelled",
    "C08_stale_label_refuted"
   ],
   "note": "False of the code in one direction: the label is stale after any earlier bootstrap fit on the object. The exact condition under which the label says wild_bootstrap is proved for all histories."
  },
  {
   "property": "C09",
   "status": "partial",
   "theorems": [
    "C09_product_formula",
    "C09_interaction_formula",
    "C09_only_existing_columns",
    "C09_errors",
    "C09_explicit",
    "C09_covariates_argument_refuted",
    "C09_second_interaction_refuted"
   ],
   "note": "Parser round trip proved for all names and blanks; false of the code that the covariates argument is used together with a formula, and a second interaction silently replaces the first."
  },
  {
   "property": "C10",
   "status": "partial",
   "theorems": [
    "C10_set_get_identity",
    "C10_get_reads_attributes",
    "C10_set_one",
    "C10_set_many",
    "C10_unknown_raises",
    "C10_set_is_construct",
    "C10_pretrends_roundtrip",
    "C10_bacon_atomic",
    "C10_cs_constructor_validates",
    "C10_atomicity_refuted",
    "C10_non_parameter_accepted_refuted",
    "C10_cs_weights_refuted",
    "C10_cs_unvalidated_refuted",
    "C10_honest_keeps_invalid_refuted",
    "C10_bacon_unknown_refuted",
    "C10_pretrends_keys",
    "C10_cs_set_one"
   ],
   "note": "Round trip and single-assignment laws proved; atomicity, rejection of unknown names and 'as if constructed' are false of the code in the listed cases."
  },
  {
   "property": "C11",
   "status": "proved",
   "theorems": [
    "C11_between_0_and_1",
    "C11_more_columns_never_lower",
    "C11_affine_invariant",
    "C11_adjusted_not_above"
   ],
   "note": ""
  },
  {
   "property": "C12",
   "status": "partial",
   "theorems": [
    "C12_oneway",
    "C12_additive_effects_vanish",
    "C12_unit_means_zero",
    "C12_period_means_zero",
    "C12_idempotent",
    "C12_frisch_waugh",
    "C12_frisch_waugh_exists",
    "C12_unbalanced_refuted"
   ],
   "note": "Proved for balanced panels (any multiplicity per cell), with the equivalence to unit and period dummies; false of the code on unbalanced panels."
  },
  {
   "property": "C13",
   "status": "proved",
   "theorems": [
    "C13_period_effects",
    "C13_one_pre_period",
    "C13_reference_irrelevant",
    "C13_average",
    "C13_average_se",
    "C13_no_treated_rows",
    "C13_exact_recovery",
    "C13_periods",
    "C13_fit_defined",
    "C13_data_periods",
    "C13_counts",
    "C13_degrees_of_freedom",
    "C13_period_inference",
    "C13_average_inference",
    "C13_classical_variance",
    "C13_any_reference"
   ],
   "note": "Closed form for any number of pre-periods; any reference period, even a post one. 'identified' = distinct post periods, non-empty post cells, treatment varying within some pre-period. The delta-method statement covers the sandwich variances (robust or clustered). C13_any_reference: any period of the data may be named as reference and every period effect, standard error, p-value, interval and average stays, with covariates, absorbed columns and clusters."
  },
  {
   "property": "C14",
   "status": "partial",
   "theorems": [
    "C14_att_is_slope_on_raw_interaction",
    "C14_unit_and_period_effects_irrelevant",
    "C14_attenuation",
    "C14_recovers_tau_refuted",
    "C14_defined",
    "C14_concrete_refuted",
    "C14_counts",
    "C14_degrees_of_freedom"
   ],
   "note": "False of the code: only the outcome is demeaned, so the estimate is tau(1-p)/(2-p). Exact attenuation proved."
  },
  {
   "property": "C15",
   "status": "proved",
   "theorems": [
    "C15_moments",
    "C15_sum_of_weighted_clusters",
    "C15_backends_same_law"
   ],
   "note": "Exact moments of the laws sampled, and mean/variance of any weighted sum over independent clusters; NumPy and Rust tables give the same law."
  },
  {
   "property": "C16",
   "status": "partial",
   "theorems": [
    "C16_null_imposed_refuted",
    "C16_replicates_centre",
    "C16_p_value_exact",
    "C16_interval_depends_on_null",
    "C16_p_value_bounds",
    "C16_interval_ordered",
    "C16_defined",
    "C16_rank_deficient_always_raises"
   ],
   "note": "The claim that the null is imposed is false of the code: the replicates are centred at the unrestricted estimate minus the null. The p-value bounds hold."
  },
  {
   "property": "C17",
   "status": "partial",
   "theorems": [
    "C17_controls",
    "C17_treated",
    "C17_base_period",
    "C17_clean_controls_partial",
    "C17_anticipation_refuted",
    "C17_universal_base_refuted"
   ],
   "note": "False of the code in two ways: not_yet_treated ignores the anticipation window, and universal base periods use controls already treated at the base period. Proved: exact cohorts of treated and control units, exact base period, and cleanness in the remaining configurations."
  },
  {
   "property": "C18",
   "status": "partial",
   "theorems": [
    "C18_exact_recovery",
    "C18_overall",
    "C18_defined",
    "C18_universal_base_refuted",
    "C18_valid_periods"
   ],
   "note": "Exact recovery for all configurations but not_yet_treated with universal base and t before the base period, where it is false of the code. Unbalanced panels, missing outcomes and covariates allowed."
  },
  {
   "property": "C19",
   "status": "proved",
   "theorems": [
    "C19_methods_agree",
    "C19_influence_sums_to_zero",
    "C19_standard_errors"
   ],
   "note": "Influence functions sum to zero with covariates too. The standard errors differ: ipw divides the control variance by the number of treated units (exact formula proved)."
  },
  {
   "property": "C20",
   "status": "proved",
   "theorems": [
    "C20_overall",
    "C20_event_study",
    "C20_by_group",
    "C20_between"
   ],
   "note": "Also gives the exact weights."
  },
  {
   "property": "C21",
   "status": "partial",
   "theorems": [
    "C21_groups_have_anchor_partial",
    "C21_refuted"
   ],
   "note": "False of the code: only groups without a cell at event time balance_e are removed. Proved: exactly which cells are kept."
  },
  {
   "property": "C22",
   "status": "partial",
   "theorems": [
    "C22_bacon_codings_agree",
    "C22_cs_estimates_agree_partial",
    "C22_cs_refuted",
    "C22_sa_estimates_agree_partial",
    "C22_sa_refuted"
   ],
   "note": "True for Bacon. In CallawaySantAnna and SunAbraham all estimates of the finite groups and the overall results agree, but inf units are listed as a treated group and counted as treated units, so the full statement is false of the code."
  },
  {
   "property": "C23",
   "status": "proved",
   "theorems": [
    "C23_statistics",
    "C23_pvalue",
    "C23_same_weights"
   ],
   "note": ""
  },
  {
   "property": "C24",
   "status": "proved",
   "theorems": [
    "C24_cohort_shares",
    "C24_overall",
    "C24_exact",
    "C24_full_rank"
   ],
   "note": "Exact recovery on balanced panels for designs of full rank; C24_full_rank gives the rank without covariates."
  },
  {
   "property": "C25",
   "status": "partial",
   "theorems": [
    "C25_control_group_refuted",
    "C25_never_treated_required_refuted"
   ],
   "note": "False of the code: with validly coded cohorts control_group has no effect at all, and never-treated units are required in both settings. Nothing of the positive statement is true beyond that."
  },
  {
   "property": "C26",
   "status": "proved",
   "theorems": [
    "C26_unit_weights",
    "C26_time_weights"
   ],
   "note": "Every iteration count, every step, both backends."
  },
  {
   "property": "C27",
   "status": "proved",
   "theorems": [
    "C27_in_simplex",
    "C27_nearest",
    "C27_unique",
    "C27_idempotent",
    "C27_order_preserving",
    "C27_backends_agree"
   ],
   "note": ""
  },
  {
   "property": "C28",
   "status": "proved",
   "theorems": [
    "C28_linear",
    "C28_exact",
    "C28_invariant",
    "C28_shift_post",
    "C28_uniform_is_did",
    "C28_periods"
   ],
   "note": "For all weights summing to one; effects may vary over post periods."
  },
  {
   "property": "C29",
   "status": "partial",
   "theorems": [
    "C29_placebo_se_is_population_sd",
    "C29_parallel_controls_zero_placebo",
    "C29_p_value_bounds",
    "C29_p_and_interval_agree_refuted",
    "C29_zero_spread_p_is_one"
   ],
   "note": "The p-value/interval agreement is false of the code (bootstrap draws are not recentred; zero spread gives p = 1 with a degenerate interval). The other parts are proved."
  },
  {
   "property": "C30",
   "status": "partial",
   "theorems": [
    "C30_reg",
    "C30_ipw",
    "C30_dr_partial",
    "C30_dr_formula",
    "C30_dr_refuted",
    "C30_missing_cell",
    "C30_validation",
    "C30_valid_fits",
    "C30_counts"
   ],
   "note": "True for reg and ipw, and the rejection clause for all methods. False for dr: each cell mean is multiplied by its relative share of the period (C30_dr_formula), so it is the triple difference only when all four groups have the same share of post rows; C30_dr_refuted: constant outcome c in nine rows gives -27c/40."
  },
  {
   "property": "C31",
   "status": "partial",
   "theorems": [
    "C31_outcome_model_refuted",
    "C31_shift_partial",
    "C31_shift_refuted",
    "C31_error_action_refuted",
    "C31_outcome_regressions",
    "C31_r_squared"
   ],
   "note": "False of the code: the fitted outcomes cancel exactly, the estimate is not invariant to a constant (C31_shift_partial gives the exact change), and with rank_deficient_action='error' the outcome models never use the covariates. What the outcome regressions are used for is the R-squared only: C31_outcome_regressions characterises them (least squares on the covariates within each of the eight cells, the cell mean when the cell is too small or under action 'error', the outcome itself in a one-row cell) and C31_r_squared shows the reported number is theirs and lies in [0, 1]."
  },
  {
   "property": "C32",
   "status": "partial",
   "theorems": [
    "C32_cluster_refuted",
    "C32_n_clusters_partial",
    "C32_robust_refuted"
   ],
   "note": "False of the code: the cluster column only changes the reported number of clusters; with ipw and dr the robust flag has no effect either."
  },
  {
   "property": "C33",
   "status": "proved",
   "theorems": [
    "C33_weights_are_a_distribution",
    "C33_windows",
    "C33_estimate_is_2x2",
    "C33_types_add_up"
   ],
   "note": "Weights and windows: any panel, both weightings. Type averages: balanced panels."
  },
  {
   "property": "C34",
   "status": "partial",
   "theorems": [
    "C34_comparisons_complete",
    "C34_twfe_is_two_way",
    "C34_exact_weights",
    "C34_approximate_weights",
    "C34_identity_refuted",
    "C34_one_cohort_partial",
    "C34_constant_effect_partial"
   ],
   "note": "False of the code: a four-unit, three-period panel has error 1/14 with either weighting. Proved instead: the comparisons with the Goodman-Bacon weights average to the two-way coefficient (any balanced panel), how the code's weights differ, and the identity for one treated cohort or a constant effect."
  },
  {
   "property": "C35",
   "status": "partial",
   "theorems": [
    "C35_bounds_and_interval",
    "C35_sharp_for_default_weights",
    "C35_sharp_iff_unit_norm",
    "C35_nested_and_collapse",
    "C35_box_program",
    "C35_pre_violation_is_the_maximum",
    "C35_estimate_and_variance",
    "C35_defined",
    "C35_no_post_effects",
    "C35_sharp_refuted",
    "C35_negative_override_refuted"
   ],
   "note": "Refuted as stated for arbitrary weight vectors: the bound ignores the l1 norm of l, and it is sharp exactly when the norm is 1 or Mbar*max = 0 (C35_sharp_iff_unit_norm); in particular for the default equal weights. Nesting and collapse at 0 hold in general. A negative override passed to fit is not validated and inverts the bounds."
  },
  {
   "property": "C36",
   "status": "partial",
   "theorems": [
    "C36_exact",
    "C36_default_breakdown_is_zero",
    "C36_combined_is_relative_magnitude",
    "C36_bounded_refuted",
    "C36_solver_exists",
    "C36_solver_answers",
    "C36_convenience_function"
   ],
   "note": "Refuted as stated: the constraint set does not pin delta down in the pre-periods, so for every weight vector that does not annihilate constants and linear trends (in particular the default) the set is (-inf, inf) for every M. For annihilating weights it is bounded, sharp, and collapses to the estimate at M = 0."
  },
  {
   "property": "C37",
   "status": "partial",
   "theorems": [
    "C37_leading_block",
    "C37_standard_error",
    "C37_effects_used",
    "C37_two_periods",
    "C37_avg_se_refuted"
   ],
   "note": "Refuted: the leading block of the coefficient covariance (constant, treatment, period dummies) is used. With two periods and HC1 the standard error used is that of the control pre-period mean."
  },
  {
   "property": "C38",
   "status": "partial",
   "theorems": [
    "C38_brackets",
    "C38_terminates",
    "C38_relative_magnitude_value",
    "C38_sensitivity_analysis",
    "C38_none_refuted",
    "C38_agreement_refuted",
    "C38_grid_zero_refuted",
    "C38_all_tolerances_refuted",
    "C38_repr_zero_refuted"
   ],
   "note": "Bracketing, termination for tol > 0 and the closed form are proved. Refuted parts: None only means significant up to M = 10; the default grid can report None where breakdown_value is finite; a grid starting above the breakdown point reports 0; tol <= 0 does not terminate. __repr__ shows None for a breakdown value of 0 (honest_did.py:380)."
  },
  {
   "property": "C39",
   "status": "partial",
   "theorems": [
    "C39_p_value_classes",
    "C39_relative_magnitude_nan",
    "C39_otherwise_excludes_zero",
    "C39_always_when_nan",
    "C39_nan_interval_refuted"
   ],
   "note": "Holds for every class whose significance compares a p-value with alpha. Refuted for HonestDiDResults: a NaN interval is reported significant with a star and the verdict negative."
  },
  {
   "property": "C40",
   "status": "partial",
   "theorems": [
    "C40_power_zero",
    "C40_power_even",
    "C40_power_increasing",
    "C40_power_range",
    "C40_power_reaches",
    "C40_mdv_attains",
    "C40_mdv_finite_iff",
    "C40_mdv_inf_refuted",
    "C40_target_below_size",
    "C40_zero_weights",
    "C40_units",
    "C40_fit_default",
    "C40_fit_statistics",
    "C40_power_at_agrees",
    "C40_curve_points",
    "C40_curve_misses_target_refuted",
    "C40_curve_reaches_target",
    "C40_curve_monotone",
    "C40_missing_variance",
    "C40_sensitivity_verdict",
    "C40_custom_power_at_refuted",
    "C40_init",
    "C40_patterns",
    "C40_weights_unit",
    "C40_linear_one_period",
    "C40_event_study",
    "C40_event_study_fails",
    "C40_multi_period_default_refuted",
    "C40_multi_period_name_refuted",
    "C40_multi_period_explicit",
    "C40_mdv_case",
    "C40_custom_case",
    "C40_multi_period_case",
    "C40_power_adequate",
    "C40_repeated_name_value",
    "C40_repeated_name_position_refuted",
    "C40_reported_periods",
    "C40_reported_periods_case",
    "C40_largest_se",
    "C40_grid_points",
    "C40_class_power_at",
    "C40_unsupported"
   ],
   "note": "At the minimum detectable violation the power equals the target, power is strictly increasing in |M| and equal to alpha at zero; the refitted and the stored power_at agree for the built-in patterns; the power curve and the sensitivity verdict are characterised; the effects, standard errors and covariances read from event studies and MultiPeriodDiD are the right ones. Refuted: custom patterns make the results' power_at use equal weights; the default analysis of a MultiPeriodDiD result always raises ValueError, and so does any analysis when the treatment column is not called 'treated'; an attainable target above the power at noncentrality 512 is reported as infinite; a target below alpha is not attained; the automatic curve stops at 100; a missing variance is reported as power = alpha. The statements rest on oracles for the noncentral chi-square, brentq and the matrix inverse, each with an instance.  A repeated coefficient name keeps its last value, and every later name is then read from the wrong row of the covariance matrix. C40_unsupported: any other result object raises TypeError."
  },
  {
   "property": "C41",
   "status": "partial",
   "theorems": [
    "C41_power_value",
    "C41_mde_power",
    "C41_mde_less_refuted",
    "C41_in_effect",
    "C41_in_sample",
    "C41_in_noise",
    "C41_noiseless",
    "C41_bad_correlation_refuted",
    "C41_required_value",
    "C41_required_zero",
    "C41_required_monotone",
    "C41_sample_size_bound",
    "C41_sample_size_balanced",
    "C41_sample_size_refuted",
    "C41_panel_overstated_refuted",
    "C41_basic_minimal",
    "C41_curve_values",
    "C41_curve_spans",
    "C41_curve_less_refuted",
    "C41_size_curve_monotone",
    "C41_wrappers",
    "C41_wrapper_size",
    "C41_init",
    "C41_variance_basic",
    "C41_variance_zero",
    "C41_variance_split",
    "C41_design_jump_refuted",
    "C41_case",
    "C41_cap"
   ],
   "note": "For two-sided and greater alternatives the power at the minimum detectable effect is at least the target (equal for the one-sided test); power is strictly increasing in the effect and in either group size and decreasing in the noise; the required sample is monotone; in the basic two-period design with an even required total the MDE of the returned sample is at most the effect and the total is minimal among balanced designs; the curves and the convenience wrappers are characterised. Refuted: alternative='less' yields a positive MDE whose power is below alpha and an automatic curve that never exceeds alpha; an odd required total can give an MDE above the effect; panel designs double the required total; the variance jumps between two and three periods; an impossible correlation gives NaN power with a required total of 4. The normal distribution is an oracle with an instance. C41_cap gives the cap for a zero effect as a number."
  },
  {
   "property": "C42",
   "status": "partial",
   "theorems": [
    "C42_share",
    "C42_all_fail",
    "C42_overall_refuted",
    "C42_none",
    "C42_no_effects",
    "C42_extract_known",
    "C42_primary_choice",
    "C42_rejected_monotone",
    "C42_case",
    "C42_rmse",
    "C42_rmse_one_replication",
    "C42_rmse_case"
   ],
   "note": "For every generator, fit and seed sequence: the reported power is the share of successful replications with p < alpha, lies in [0,1] and in its own interval; coverage likewise; the reported effect is one of the effects. Refuted for CallawaySantAnna: results that expose only overall_* attributes are never read, so simulate_power always raises RuntimeError. The reported rmse is sqrt(bias^2 + var) with the n-1 variance, so it is strictly above the root of the mean squared error whenever the estimates vary (C42_rmse), and it is NaN when a single replication succeeds."
  },
  {
   "property": "C43",
   "status": "proved",
   "theorems": [
    "C43_inner_rows",
    "C43_inner_balanced",
    "C43_inner_one_row",
    "C43_outer_rows",
    "C43_outer_grid",
    "C43_outer_cells_kept",
    "C43_carry_value",
    "C43_carry_spec",
    "C43_carry_forward",
    "C43_methods",
    "C43_fill_panel",
    "C43_carry_panel",
    "C43_case"
   ],
   "note": "Filling with a value concerns numeric columns, as in the code. Without a value, an entry stays missing exactly when its unit has no observation in that column, and otherwise is carried forward."
  },
  {
   "property": "C44",
   "status": "proved",
   "theorems": [
    "C44_treatment_by_values",
    "C44_treatment_by_threshold",
    "C44_threshold_type_error",
    "C44_treatment_errors",
    "C44_post_by_periods",
    "C44_post_by_start",
    "C44_post_errors",
    "C44_post_agree",
    "C44_event_time",
    "C44_event_time_errors",
    "C44_wide_shape",
    "C44_wide_cells",
    "C44_wide_keys_unique",
    "C44_wide_errors",
    "C44_wide_clash",
    "C44_wide_case",
    "C44_indicator_case",
    "C44_summary_did",
    "C44_summary_att",
    "C44_summary_lines",
    "C44_summary_label",
    "C44_summary_label_refuted",
    "C44_cohorts"
   ],
   "note": "Also covers summarize_did_data (its DiD row is the difference in differences of the cell means) and aggregate_to_cohorts. C44_summary_label_refuted: rows with a treatment level other than 0 and 1 are labelled Control but do not enter the DiD row. wide_to_long refuses name clashes (C44_wide_clash)."
  },
  {
   "property": "C45",
   "status": "partial",
   "theorems": [
    "C45_table",
    "C45_top",
    "C45_scores",
    "C45_rmse",
    "C45_best",
    "C45_required_missing",
    "C45_nan_first_refuted",
    "C45_suggest",
    "C45_required_refuted",
    "C45_nan_order_refuted",
    "C45_slope_order_refuted",
    "C45_complete_case",
    "C45_case",
    "C45_sort_oracle",
    "C45_nlargest_oracle",
    "C45_treated_units",
    "C45_defined",
    "C45_exception",
    "C45_default_pre_periods",
    "C45_defined_case"
   ],
   "note": "Proved: sorted with NaN last, one row per unit, no treated or excluded unit, every required candidate, the announced number of rows (counting required candidates), nothing better left out, scores in [0,1] for complete finite pre-period data, the closest candidate scores 1. Refuted: a required unit that is treated or unobserved before treatment silently does not appear; an undefined distance of the first candidate makes every score NaN, while the same value in second place does not; the suggested trend is fitted on row order rather than time. sort_values and nlargest are oracles with instances; the synthetic_weight column is C139. C45_defined says exactly when a ranking is returned (weights, one source of treated units, no duplicate rows in the pre-periods, an eligible control and a treated unit observed there, and with covariates every treated unit), C45_exception which exception is raised otherwise (KeyError only for a treated unit without pre-period rows when covariates are given), C45_treated_units who counts as treated and C45_default_pre_periods which periods are compared by default."
  },
  {
   "property": "C46",
   "status": "partial",
   "theorems": [
    "C46_result_partial",
    "C46_entries",
    "C46_assignment",
    "C46_p_bounds",
    "C46_p_monotone",
    "C46_p_sign",
    "C46_verdict",
    "C46_interval",
    "C46_zero_permutations",
    "C46_time_varying",
    "C46_nan_original_refuted",
    "C46_level_bound",
    "C46_level_excess",
    "C46_level_partial",
    "C46_level_zero",
    "C46_level_refuted",
    "C46_case",
    "C46_choice_oracle",
    "C46_unit_first",
    "C46_n_treated",
    "C46_failed_refits",
    "C46_stopping_refits",
    "C46_reported_statistic"
   ],
   "note": "Proved: p in [1/(m+1), 1], monotone in |estimate|; with the observed and the n permuted assignments independent and uniform over any finite set, the rejection probability is at most ceil(n alpha)/(n+1), hence below alpha + 1/(n+1), and at most alpha when n alpha or (n+1) alpha is an integer. Refuted as stated: with 20 equally likely assignments, distinct estimates, alpha = 1/20 and 21 permutations it exceeds alpha; an undefined original estimate receives the smallest possible p-value."
  },
  {
   "property": "C47",
   "status": "partial",
   "theorems": [
    "C47_estimate_uses_all_rows",
    "C47_errors",
    "C47_never_treated_refuted"
   ],
   "note": "Refuted: the function receives no treatment column and estimates on all rows, so truly treated units serve as controls (C47_never_treated_refuted: placebo effect -10/3 although all never-treated outcomes are constant). C47_estimate_uses_all_rows states exactly what is computed."
  },
  {
   "property": "C48",
   "status": "partial",
   "theorems": [
    "C48_iff",
    "C48_raise",
    "C48_summary",
    "C48_fit_partial",
    "C48_checks",
    "C48_time_refuted",
    "C48_four_rows_refuted",
    "C48_infinite_refuted",
    "C48_case",
    "C48_four_rows_case",
    "C48_time_case",
    "C48_infinite_case"
   ],
   "note": "validate_did_data is characterised exactly (C48_iff). Refuted as stated: periods other than 0/1, infinite outcomes and the four-row docstring example are valid but fit raises. True when periods are 0/1, outcomes finite and there are more than four rows (C48_fit_partial); C48_checks: with 0/1 periods all missing-value and two-value checks of fit pass."
  },
  {
   "property": "C49",
   "status": "partial",
   "theorems": [
    "C49_thresholds",
    "C49_monotone",
    "C49_significant_iff_star",
    "C49_nan",
    "C49_default_label",
    "C49_summary_only_relabels",
    "C49_summary_interval_refuted",
    "C49_zero_level_refuted",
    "C49_fractional_label_refuted",
    "C49_period_effect_alpha_refuted",
    "C49_get_effect",
    "C49_get_effect_missing",
    "C49_inference_stars",
    "C49_table_significance",
    "C49_table_level"
   ],
   "note": "Stars and is_significant agree at the default level. False of the code: summary(alpha) relabels the stored interval; PeriodEffect hard-codes 0.05."
  },
  {
   "property": "C50",
   "status": "proved",
   "theorems": [
    "C50_verdict_defined",
    "C50_interval_inside_margins",
    "C50_reported_statistics",
    "C50_margin_monotone",
    "C50_margin_positive",
    "C50_groups_symmetric",
    "C50_unit_of_measurement",
    "C50_welch_bounds"
   ],
   "note": "For any Student-t family with the stated symmetry and monotonicity."
  },
  {
   "property": "C51",
   "status": "partial",
   "theorems": [
    "C51_no_treated_post_is_nan",
    "C51_no_control_pre",
    "C51_unidentified_att_is_nan_refuted"
   ],
   "note": "False of the code when the missing cell is control/pre and the rank check drops another column than the interaction."
  },
  {
   "property": "C52",
   "status": "partial",
   "theorems": [
    "C52_same_step_size_same_iterate",
    "C52_fixed_point_is_optimal",
    "C52_backends_agree_refuted",
    "C52_numpy_contracts",
    "C52_numpy_near_optimal",
    "C52_rust_near_optimal",
    "C52_backends_close"
   ],
   "note": "False of the code in general: Rust uses the constant step 0.1, and C52_backends_agree_refuted is a problem on which it ends at the wrong weights for every even iteration count. What is proved: with equal steps the iterates agree and a fixed point is a minimiser; after K iterations NumPy is within max(1/K, 4e-8)(||H||+1e-10) of the minimum, and so is Rust (with 10) whenever the curvature of H = Y'Y + lambda I is at most 10; then, for lambda > 0, the reported weights of the two backends differ per unit by at most sqrt(2 max(1/K, 4e-8)(||H||+1e-10+10)/lambda) + 2 n min_weight."
  },
  {
   "property": "C53",
   "status": "proved",
   "theorems": [
    "C53_warns_exactly_when_staggered",
    "C53_group_indicator",
    "C53_coding_case"
   ],
   "note": "The check reads the treatment column as a status. Coded as a time-constant group indicator, which is what fit itself multiplies by the time column, it never warns on a balanced panel (C53_group_indicator)."
  },
  {
   "property": "C54",
   "status": "partial",
   "theorems": [
    "C54_slope_is_least_squares",
    "C54_trend",
    "C54_levels_and_common_trend_irrelevant",
    "C54_exact_trends_no_verdict_refuted",
    "C54_verdict"
   ],
   "note": "False of the code in one part: exactly linear trends give zero standard error and no verdict, however different the slopes."
  },
  {
   "property": "C55",
   "status": "partial",
   "theorems": [
    "C55_unit_effects_differenced",
    "C55_group_levels_differenced",
    "C55_p_value",
    "C55_p_positive_with_identity",
    "C55_p_zero_refuted",
    "C55_unit_changes",
    "C55_period_mean_changes",
    "C55_robust_mean_difference",
    "C55_robust_mean_difference_periods",
    "C55_equivalence_mean_difference"
   ],
   "note": "False of the code in one part: the observed assignment is not counted, so p = 0 is possible. Which changes are compared is stated without sorting: each row minus the same unit's previous observed period, filed by group."
  },
  {
   "property": "C56",
   "status": "partial",
   "theorems": [
    "C56_event_study",
    "C56_group",
    "C56_overall_partial",
    "C56_overall_refuted",
    "C56_single_cell"
   ],
   "note": "False of the code for the overall ATT with heterogeneous effects (the bootstrap omits the weight influence function) and, by (n-1)/n factors, for single cells; true for event-study and group effects."
  },
  {
   "property": "C57",
   "status": "proved",
   "theorems": [
    "C57_outcome_model",
    "C57_balancing_weights",
    "C57_affine",
    "C57_base_period_covariates",
    "C57_missing_covariate",
    "C57_adjusted_defined",
    "C57_fit_case"
   ],
   "note": "At the level of the reported cells: the covariates are those of the cell's base period; one missing value in the cell switches the adjustment off."
  },
  {
   "property": "C58",
   "status": "partial",
   "theorems": [
    "C58_base_mode",
    "C58_cluster_refuted"
   ],
   "note": "The base_period half is proved; the cluster half is false of the code: the argument is never read."
  },
  {
   "property": "C59",
   "status": "partial",
   "theorems": [
    "C59_coherent",
    "C59_nan",
    "C59_zero_se_refuted",
    "C59_reference_period",
    "C59_bootstrap_reported"
   ],
   "note": "False for a zero standard error: t and p are NaN but the interval is the point estimate."
  },
  {
   "property": "C60",
   "status": "partial",
   "theorems": [
    "C60_standard_errors",
    "C60_coherent",
    "C60_reported",
    "C60_rank_deficient",
    "C60_no_post_effects",
    "C60_fit_succeeds",
    "C60_undefined_p_one_refuted",
    "C60_no_post_zero_refuted",
    "C60_cohort_weight",
    "C60_absorbed_design_refuted"
   ],
   "note": "Standard errors and coherence proved for full-rank designs; the last clause is false: NaN effects get t = 0 and p = 1, and no post-treatment effect at all is reported as ATT 0, SE 0, p = 1. A design absorbed by the unit and period effects raises IndexError from the solver."
  },
  {
   "property": "C61",
   "status": "proved",
   "theorems": [
    "C61_two_estimators_agree",
    "C61_is_did"
   ],
   "note": "Relative times within the code's [-20, 20] window; the overall ATTs agree for anticipation = 0."
  },
  {
   "property": "C62",
   "status": "partial",
   "theorems": [
    "C62_bootstrap",
    "C62_resample_partial",
    "C62_index_error_escapes",
    "C62_failed_replicates_refuted",
    "C62_index_labels_refuted",
    "C62_index_error",
    "C62_pvalue",
    "C62_nan_replicate_refuted",
    "C62_event_study_distribution",
    "C62_one_cohort_draw_refuted",
    "C62_one_cohort_draw_case",
    "C62_interval_order_statistics",
    "C62_bootstrap_se",
    "C62_interval_case"
   ],
   "note": "True for a default RangeIndex and successful finite replicates. False otherwise: index labels are used as positions (wrong rows, or IndexError), failed replicates are replaced by the point estimate, and a NaN replicate leaves a p value without a standard error. A draw whose units all belong to one cohort has an all-zero within-transformed design; the solver's IndexError is not among the caught exceptions (sun_abraham.py:1087) and aborts the fit."
  },
  {
   "property": "C63",
   "status": "proved",
   "theorems": [
    "C63_adjusted",
    "C63_exact",
    "C63_hc1",
    "C63_dr_se"
   ],
   "note": ""
  },
  {
   "property": "C64",
   "status": "partial",
   "theorems": [
    "C64_coherent_partial",
    "C64_zero_se_refuted",
    "C64_undefined_refuted",
    "C64_eight_rows_refuted",
    "C64_dr_p_one_refuted",
    "C64_cell_means",
    "C64_constructor"
   ],
   "note": "Coherent when the standard error is positive. False otherwise: se = 0 or NaN is reported with t = 0, p = 1 (also for a NaN ATT); with eight rows robust reg raises ZeroDivisionError and dr reports se = 0."
  },
  {
   "property": "C65",
   "status": "partial",
   "theorems": [
    "C65_reg_dr_partial",
    "C65_ipw_se_shift_refuted",
    "C65_ipw_se"
   ],
   "note": "True for robust reg without covariates and for dr; false for ipw: a constant outcome c gives a standard error proportional to |c|. C65_ipw_se gives the ipw standard error in closed form."
  },
  {
   "property": "C66",
   "status": "proved",
   "theorems": [
    "C66_only_pre_rows",
    "C66_estimate",
    "C66_zero_iff_parallel",
    "C66_errors",
    "C66_default_post",
    "C66_interpretation",
    "C66_case"
   ],
   "note": ""
  },
  {
   "property": "C67",
   "status": "partial",
   "theorems": [
    "C67_result",
    "C67_units",
    "C67_single_unit",
    "C67_average_partial",
    "C67_identical_refuted",
    "C67_case_refuted",
    "C67_failed_refits",
    "C67_stopping_refits",
    "C67_printed_mean"
   ],
   "note": "One re-estimation per treated unit and the averaging identity are proved. Refuted: when all leave-one-out estimates coincide (standard error 0) the p-value is 1 and the effect is reported as not significant, however large."
  },
  {
   "property": "C68",
   "status": "partial",
   "theorems": [
    "C68_keys",
    "C68_dispatch",
    "C68_multi_period_refuted",
    "C68_battery_refuted",
    "C68_permutation_interpretation_refuted",
    "C68_battery_case_refuted",
    "C68_exported_keys",
    "C68_printed_level"
   ],
   "note": "Keys and dispatch are proved. Refuted: the period column is handed to estimators that need a 0/1 indicator, so whenever a fake-timing test of the battery succeeds its permutation and leave-one-out entries are errors; and the printed verdict calls a significant permutation result (an original estimate more extreme than the permuted ones) a violation of parallel trends."
  },
  {
   "property": "C69",
   "status": "partial",
   "theorems": [
    "C69_did_rows",
    "C69_panel_rows",
    "C69_balanced",
    "C69_staggered_rows",
    "C69_staggered_balanced",
    "C69_ddd_rows",
    "C69_did_ok",
    "C69_panel_ok",
    "C69_panel_errors",
    "C69_event_ok",
    "C69_factor_ok",
    "C69_factor_errors",
    "C69_staggered_errors",
    "C69_staggered_default_ok",
    "C69_staggered_default_refuted"
   ],
   "note": "Proved for all generators. Refuted: the default cohorts of generate_staggered_data are rejected by its own check for n_periods <= 2 (C69_staggered_default_refuted); they are accepted from 3 periods on. int(n*fraction) is over exact reals."
  },
  {
   "property": "C70",
   "status": "proved",
   "theorems": [
    "C70_did",
    "C70_event_study",
    "C70_triple",
    "C70_triple_fits",
    "C70_staggered_cells",
    "C70_staggered_overall",
    "C70_staggered_fits",
    "C70_sun_abraham",
    "C70_staggered_default",
    "C70_did_case",
    "C70_event_case",
    "C70_triple_case",
    "C70_sun_abraham_case"
   ],
   "note": "Noise enters all statements except the staggered ones, which are for noise_sd = 0. The dr method needs pscore_trim <= 1/4 and ipw < 1, otherwise clipping changes the propensity. SunAbraham needs n_periods <= 21 (relative times are limited to +-20)."
  },
  {
   "property": "C71",
   "status": "partial",
   "theorems": [
    "C71_panel_bias",
    "C71_factor_bias",
    "C71_panel_refuted",
    "C71_factor_refuted"
   ],
   "note": "Refuted: the violation continues after treatment, so the estimate is effect + violation*T/2 (C71_panel_bias); with factors it is effect + strength * sum over factors of (shift + treated-control gap of loadings) * post-pre gap of the factor (C71_factor_bias)."
  },
  {
   "property": "C72",
   "status": "partial",
   "theorems": [
    "C72_choice",
    "C72_unknown_refuted"
   ],
   "note": "Refuted last clause: any other value behaves like auto."
  },
  {
   "property": "C73",
   "status": "proved",
   "theorems": [
    "C73_treated_outcomes",
    "C73_constant_effect",
    "C73_case",
    "C73_subsample_case"
   ],
   "note": "Any decomposition routine, any subsample of the cross-validation cells."
  },
  {
   "property": "C74",
   "status": "partial",
   "theorems": [
    "C74_recovery_partial",
    "C74_recovery_rows_partial",
    "C74_zero_penalty_bias",
    "C74_case",
    "C74_zero_penalty_refuted",
    "C74_svd_case"
   ],
   "note": "Proved for a nuclear-norm penalty that switches the low-rank part off (off: penalty at least the Frobenius bound of the period spread): the error is at most max((1-d)^k (hi-lo), 2 tol/d), d the weighted share of never-treated fully observed units; rows version from the data frame. Missing: penalties between 0 and that bound. Refuted for lambda_nn = 0, which is in the default grid: the low-rank part absorbs all residuals after one demeaning pass, the bias is C74_zero_penalty_bias, and C74_zero_penalty_refuted is a panel with exact parallel trends, effect 3 and estimate 7/2."
  },
  {
   "property": "C75",
   "status": "partial",
   "theorems": [
    "C75_unit_levels_partial",
    "C75_unit_levels_case",
    "C75_row_order",
    "C75_unit_levels_refuted"
   ],
   "note": "Row order: proved for fit. Unit levels: proved for every cell effect (and left-out cell) unless the iteration stops in the first round. Refuted there (C75_unit_levels_refuted): the stopping rule compares the first iterate with zero starting values, so a panel whose outcomes lie below the tolerance is accepted after one demeaning pass (effect -d/2), while the same panel with 1 added to every outcome gets a second pass (effect -7d/8)."
  },
  {
   "property": "C76",
   "status": "proved",
   "theorems": [
    "C76_mean_of_cells"
   ],
   "note": ""
  },
  {
   "property": "C77",
   "status": "partial",
   "theorems": [
    "C77_range",
    "C77_shape",
    "C77_distance",
    "C77_bootstrap_sample",
    "C77_bootstrap_weights_refuted"
   ],
   "note": "Proved for the point estimate and the distances; a bootstrap sample contains the drawn units with multiplicity. Refuted last clause: replicates use the weights of the original columns (C77_bootstrap_weights_refuted: 5 instead of 5/3)."
  },
  {
   "property": "C78",
   "status": "partial",
   "theorems": [
    "C78_prox",
    "C78_descent_partial",
    "C78_svd_row",
    "C78_svd_row_len",
    "C78_svd_row_total",
    "C78_documented_objective_refuted",
    "C78_svd_two",
    "C78_svd_two_len",
    "C78_svd_two_total"
   ],
   "note": "Proximal step optimal up to len * 1e-20/2 (the cut-off of tiny singular values); descent proved for half the weighted squares plus Wmax*lambda*nuclear norm, up to the same slack, given a decomposition that does not fail. Refuted: the documented objective has no factor 1/2 and no Wmax (C78_documented_objective_refuted)."
  },
  {
   "property": "C79",
   "status": "partial",
   "theorems": [
    "C79_one_dimension",
    "C79_refinement_partial",
    "C79_in_grid",
    "C79_optimal_refuted",
    "C79_fit_in_grid",
    "C79_infinite_time_refuted",
    "C79_stopping",
    "C79_stopping_case"
   ],
   "note": "In the grid, never worse than the start of the refinement, last coordinate optimal given the others. Refuted: a corner optimum is missed; with lambda_time = inf the search and the estimate convert the value to 0 but the reported score does not, so it is the sum of squared outcomes of the scored cells whatever the fit. C79_stopping gives the whole search: three one-dimensional starts, then rounds (unit, time, nuclear norm, each the first best of its grid) until two successive scores differ by less than 1e-6, ten rounds at most."
  },
  {
   "property": "C80",
   "status": "proved",
   "theorems": [
    "C80_iff",
    "C80_case",
    "C80_refused_paths",
    "C80_missing_row_case"
   ],
   "note": "Missing cells count as untreated for the last three conditions, as in the code. C80_refused_paths states the absorbing check on the rows of the data frame: it fires exactly when some unit has a later row with a smaller recorded treatment; missing rows and missing treatments do not trigger it."
  },
  {
   "property": "C81",
   "status": "partial",
   "theorems": [
    "C81_t_p_ci",
    "C81_heavy_case",
    "C81_agreement_refuted",
    "C81_degenerate",
    "C81_left_out_unit",
    "C81_one_treated_unit"
   ],
   "note": "Proved: interval contains the estimate, test iff t quantile, interval iff normal quantile. Refuted: the two use different distributions, so the interval can exclude 0 with p > alpha. With one treated unit the jackknife standard error is 0 and the inference NaN."
  },
  {
   "property": "C82",
   "status": "proved",
   "theorems": [
    "C82_lstsq_case",
    "C82_svd_local_case",
    "C82_shift",
    "C82_case",
    "C82_case_panel",
    "C82_case_controls"
   ],
   "note": "Oracle hypotheses: minimum-norm least squares (instance mn_solve), subsample without repetition (sub_first). C82_case is a panel on which the fit succeeds. Draws without control units raise in the code."
  },
  {
   "property": "C83",
   "status": "proved",
   "theorems": [
    "C83_recovery",
    "C83_case"
   ],
   "note": ""
  },
  {
   "property": "C84",
   "status": "partial",
   "theorems": [
    "C84_weighted_did",
    "C84_average_partial",
    "C84_cell_effects_refuted"
   ],
   "note": "First two clauses proved. Refuted last clause: every treated cell is reported with the pooled estimate (effects 2 and 6 are both reported as 4)."
  },
  {
   "property": "C85",
   "status": "partial",
   "theorems": [
    "C85_period_effects",
    "C85_unit_effects_partial",
    "C85_unit_effects_refuted"
   ],
   "note": "Period effects: proved for the whole result. Unit effects: proved for the point estimate with lambda_unit = 0. Refuted for lambda_unit > 0: unit distances compare outcome levels, so adding 1 to one control unit moves the estimate."
  },
  {
   "property": "C86",
   "status": "proved",
   "theorems": [
    "C86_grid_minimum",
    "C86_descent_partial",
    "C86_descent",
    "C86_case"
   ],
   "note": "C86_descent is about the documented objective, for every penalty >= 0, given a decomposition that does not fail; the slack (iterations * largest weight * min(T, N) * 1e-20) comes from dropping singular values below 1e-10. C86_descent_partial is the stronger statement for half the squares."
  },
  {
   "property": "C87",
   "status": "partial",
   "theorems": [
    "C87_iff",
    "C87_block",
    "C87_simultaneous_refuted",
    "C87_case"
   ],
   "note": "Characterised in terms of the first observed treated period of each unit; on complete panels this is the property. Refuted with missing rows: a treated unit without its adoption-period row is taken for a late adopter and the panel rejected (C87_simultaneous_refuted)."
  },
  {
   "property": "C88",
   "status": "partial",
   "theorems": [
    "C88_left_out_unit",
    "C88_no_treated_outcome",
    "C88_one_treated_unit",
    "C88_max_iter0",
    "C88_missing_refuted"
   ],
   "note": "Proved: left-out unit. Refuted: with no treated outcome observed the estimate is 0; one treated unit gives standard error 0 with NaN inference; max_iter = 0 raises UnboundLocalError."
  },
  {
   "property": "C89",
   "status": "partial",
   "theorems": [
    "C89_centre_refuted",
    "C89_asymmetric_refuted"
   ],
   "note": "Refuted: the centre is the mean of the treated periods plus 1/2, so the last treated period weighs more than the first."
  },
  {
   "property": "C90",
   "status": "partial",
   "theorems": [
    "C90_points",
    "C90_normalised_points",
    "C90_shading",
    "C90_marker",
    "C90_normal_interval",
    "C90_verdict",
    "C90_period_effects_iff",
    "C90_frame_interval_ignored",
    "C90_t_interval_refuted",
    "C90_normalised_width_refuted",
    "C90_repeated_rows_refuted",
    "C90_case",
    "C90_reference_marker"
   ],
   "note": "Proved: effects, standard errors, normalisation, shading, marker, and the interval for results whose intervals are normal. Refuted: MultiPeriodDiD reports t intervals but normal ones are drawn, so the plot can exclude 0 where the result does not reject; after normalisation the bars keep the standard error of the un-normalised effect; two data frame rows of one period are both drawn at the last effect; the interval columns a data frame may carry are ignored."
  },
  {
   "property": "C91",
   "status": "partial",
   "theorems": [
    "C91_one_interval",
    "C91_fails_iff",
    "C91_case_refuted"
   ],
   "note": "Refuted: event_study_bounds is never set, so one scalar interval is drawn for all periods, and the drawing raises ValueError exactly when some effect lies outside that interval (C91_fails_iff), as for a significant result with a reference effect of 0."
  },
  {
   "property": "C92",
   "status": "partial",
   "theorems": [
    "C92_interp_case",
    "C92_marker",
    "C92_simulation_line",
    "C92_simulation_mde_refuted",
    "C92_decreasing_refuted"
   ],
   "note": "Proved for increasing effect sizes. Refuted: for decreasing sizes np.interp puts the marker off the curve; for simulation results the line labelled MDE is the true effect, whose power can be 0.05."
  },
  {
   "property": "C93",
   "status": "partial",
   "theorems": [
    "C93_marker",
    "C93_target",
    "C93_target_refuted",
    "C93_single"
   ],
   "note": "Proved: marker; target None uses the curve's target. Refuted: the default argument 0.80 hides the curve's own target; a single result is drawn without any power."
  },
  {
   "property": "C94",
   "status": "proved",
   "theorems": [
    "C94_scatter_complete",
    "C94_scatter_once",
    "C94_bars_total",
    "C94_group_lines",
    "C94_groups_shown",
    "C94_group_bar",
    "C94_group_case",
    "C94_plot_kinds",
    "C94_bar_labels"
   ],
   "note": ""
  },
  {
   "property": "C95",
   "status": "proved",
   "theorems": [
    "C95_download_kept",
    "C95_history",
    "C95_cached",
    "C95_origin",
    "C95_other_names",
    "C95_clear",
    "C95_unknown_name"
   ],
   "note": ""
  },
  {
   "property": "C96",
   "status": "partial",
   "theorems": [
    "C96_fallback",
    "C96_other_failure",
    "C96_forced_failure",
    "C96_interrupted",
    "C96_offline_refuted",
    "C96_forced_refuted",
    "C96_interrupted_refuted"
   ],
   "note": "The exact outcome of every failure is characterised. Refuted: after an HTTPError/URLError without a cached copy the loaders return synthetic data with no warning (and call np.random.seed, which resets the caller's generator; not modelled); a forced download that fails returns the old copy; write_text is not atomic, so an interrupted write is served by all later plain loads. A time-out while reading is neither replaced by the cached copy nor by the fallback."
  },
  {
   "property": "C97",
   "status": "partial",
   "theorems": [
    "C97_castle",
    "C97_castle_size",
    "C97_castle_cohorts",
    "C97_castle_effect",
    "C97_divorce",
    "C97_divorce_size",
    "C97_divorce_always_refuted",
    "C97_mpdta",
    "C97_mpdta_effect",
    "C97_card_krueger",
    "C97_card_krueger_did",
    "C97_card_krueger_published",
    "C97_divorce_path",
    "C97_divorce_path_case"
   ],
   "note": "Proved for all draws. Refuted clause: in the divorce data Delaware (1968) is treated in every year. Castle cohorts are 2005-2010 or never (adoptions in 2011 are recoded to never)."
  },
  {
   "property": "C98",
   "status": "partial",
   "theorems": [
    "C98_first_treat",
    "C98_repealed_refuted",
    "C98_case",
    "C98_table"
   ],
   "note": "Proved if the indicator never switches off within a state. Refuted otherwise: after a repeal first_treat still says treated."
  },
  {
   "property": "C99",
   "status": "partial",
   "theorems": [
    "C99_backends",
    "C99_skip_dependent_refuted",
    "C99_skip_square_refuted",
    "C99_case",
    "C99_skip_case"
   ],
   "note": "C99_backends: equality for skip_rank_check=False, all designs with at least one column. Refuted for skip_rank_check=True: with dependent columns the compiled path returns finite coefficients and a NaN covariance without warning where NumPy raises ValueError; with as many columns as rows it returns a NaN covariance where NumPy raises ZeroDivisionError (in exact arithmetic; with rounded residuals the compiled result can be inf)."
  },
  {
   "property": "C100",
   "status": "partial",
   "theorems": [
    "C100_fitted",
    "C100_gradient",
    "C100_minimum_norm",
    "C100_truncated",
    "C100_unique",
    "C100_square",
    "C100_tolerance_refuted",
    "C100_factor_case"
   ],
   "note": "Proved: exact gradient at the answer (the cut components), minimum-norm least squares when only zero singular values are cut, minimum-norm solution of the truncated design in general, independence of the decomposition. Refuted (C100_tolerance_refuted): the QR test compares |R_ii| with 1e-7 |R_11|, the solver cuts singular values below 1e-7 s_max; between the two, independent columns and noise-free y = X(1,1) give (0.84, 1.12) with no warning. The other theorems of this development assume lstsq solves the normal equations (lstsq_ok): that is what C100_minimum_norm proves of gelsd for designs outside the gap."
  },
  {
   "property": "C101",
   "status": "partial",
   "theorems": [
    "C101_distance",
    "C101_distance_obs",
    "C101_weights",
    "C101_fit",
    "C101_treated_weight_refuted",
    "C101_score_refuted",
    "C101_fit_python",
    "C101_fit_rust_refuted",
    "C101_undefined_se_refuted"
   ],
   "note": "Proved: equal distances, proportional weights, equal pseudo-effects when no unit is treated in the target period and the penalty is large enough to switch the low-rank part off. Refuted: a unit treated in the target period has Python weight 0 but positive compiled weight; with the same penalty the compiled fit (threshold lambda/w_max on normalised weights) gives 7/2 where Python gives 11/4; on a constant panel with lambda_time grid [inf] the same penalties are reported with score 125 (Python) and 0 (compiled); no replicate gives SE 0 in Python and NaN in the compiled code."
  },
  {
   "property": "C102",
   "status": "proved",
   "theorems": [
    "C102_total",
    "C102_nonneg",
    "C102_le_one",
    "C102_scale"
   ],
   "note": ""
  },
  {
   "property": "C103",
   "status": "proved",
   "theorems": [
    "C103_fit",
    "C103_tune",
    "C103_replicates",
    "C103_se",
    "C103_dispatch"
   ],
   "note": ""
  },
  {
   "property": "C104",
   "status": "proved",
   "theorems": [
    "C104_tuning"
   ],
   "note": ""
  },
  {
   "property": "C105",
   "status": "partial",
   "theorems": [
    "C105_settled_partial",
    "C105_fails_alike",
    "C105_cap_refuted",
    "C105_light_refuted",
    "C105_tiny_refuted",
    "C105_tiny_exact",
    "C105_case"
   ],
   "note": "C105_settled_partial: at a point a sweep leaves unchanged, the compiled fit equals the Python fit (and the effect, when identified), for panels whose gating weight sums are 0 or above 1e-10; both backends fail on the same panels. Refuted: with lambda_time = 5 (in the default grid) on a 2 x 2 panel the 50 sweeps end with at most half of the effect, for every effect size (C105_cap_refuted; Python returns all of it); treated units 5 away from their average with lambda_unit = 5 carry less than 1e-10 weight and the effect stays at its start value 0 (C105_light_refuted); an effect of 1e-9 is returned as 3/8 of it by the absolute stopping rule (C105_tiny_refuted). These values enter the tuning score and the bootstrap standard error, not the point estimate."
  },
  {
   "property": "C106",
   "status": "proved",
   "theorems": [
    "C106_sweep",
    "C106_solve",
    "C106_constant",
    "C106_case"
   ],
   "note": ""
  },
  {
   "property": "C107",
   "status": "partial",
   "theorems": [
    "C107_level",
    "C107_sign",
    "C107_sweep_scale",
    "C107_scale_refuted",
    "C107_fit_level",
    "C107_boot_level"
   ],
   "note": "Level shifts and sign changes proved for the whole solver, scaling for one sweep. Scaling of the whole solver is refuted (C107_scale_refuted): the stopping rule compares changes with 1e-8 in outcome units."
  },
  {
   "property": "C108",
   "status": "partial",
   "theorems": [
    "C108_weights",
    "C108_nan_weights_refuted",
    "C108_nan_fit_refuted",
    "C108_nan_fit_python",
    "C108_nan_se",
    "C108_boot_identity",
    "C108_boot_case"
   ],
   "note": "C108_weights: equal weights for units with usable pre-period outcomes or lambda_unit <> 0. Refuted: lambda_unit = 0 gives exp(-0 * inf) = NaN where the Python weight is 0; a bootstrap replicate containing such a unit then has effect 0 (unit treated) or NaN (control) where Python finds the effect, and one NaN replicate makes the standard error NaN."
  },
  {
   "property": "C109",
   "status": "proved",
   "theorems": [
    "C109_search",
    "C109_nan_score"
   ],
   "note": ""
  },
  {
   "property": "C110",
   "status": "partial",
   "theorems": [
    "C110_report",
    "C110_att",
    "C110_balanced",
    "C110_unbalanced_refuted"
   ],
   "note": "C110_att: the exact value under absorb=[g] is the double difference of the outcome minus the double difference of its group means (only outcome and covariates are demeaned, the indicators stay raw). C110_balanced: on panels where each group lies in one arm and has the same numbers of pre and post rows, absorb, fixed_effects and neither all give the plain double difference. Refuted otherwise (C110_unbalanced_refuted): a noise-free panel with effect 4 and one treated unit seen only after gives 3 under absorb and 4 under fixed_effects."
  },
  {
   "property": "C111",
   "status": "partial",
   "theorems": [
    "C111_count",
    "C111_ratio",
    "C111_two_rows_refuted",
    "C111_case"
   ],
   "note": "On balanced panels estimates and residuals agree, and the squared standard errors are in the ratio (n - 4) : (n - N - 2) for N groups (C111_ratio): the sandwich counts four parameters and ignores the absorbed ones (df_adjustment only enters the t distribution). With two rows per group the absorb standard error is too small by the factor sqrt 2 (C111_two_rows_refuted, concrete in C111_case)."
  },
  {
   "property": "C112",
   "status": "partial",
   "theorems": [
    "C112_closed_form",
    "C112_cells_refuted",
    "C112_case"
   ],
   "note": "C112_closed_form proves the formula. The second clause is refuted (C112_cells_refuted): if the cluster column is a function of arm and period (clustering by state with one treated and one control state), every cluster score sums to zero, and the fit reports SE 0, p-value 0, an interval of one point and significance at every level, for any data with a non-zero estimate; the check is only that there are two clusters."
  },
  {
   "property": "C113",
   "status": "proved",
   "theorems": [
    "C113_frisch_waugh",
    "C113_same_space",
    "C113_units_of_covariate",
    "C113_base_category",
    "C113_twfe_same_space",
    "C113_twfe_units_of_covariate",
    "C113_twfe_identified",
    "C113_base_category_case",
    "C113_units_case",
    "C113_twfe_units_case"
   ],
   "note": "Absorb-free fits; every variance type; rank-deficient covariates included (the rank is shown to be a function of the space). The identification hypothesis is needed: if the interaction is in the span of the rest, the pivoted QR decides which column to drop (C51)."
  },
  {
   "property": "C114",
   "status": "proved",
   "theorems": [
    "C114_equivariant",
    "C114_shift",
    "C114_row_order",
    "C114_case",
    "C114_row_order_needs_cohort"
   ],
   "note": "Relation result_rel compares every field of the result; error outcomes are equal too. Row order: C114_row_order_needs_cohort shows that the hypothesis on first_treat is needed, since the cohort of a unit is its first non-missing entry. Weight draws are held fixed (the seed)."
  },
  {
   "property": "C115",
   "status": "partial",
   "theorems": [
    "C115_compiled_iteration_ignores_period_effects",
    "C115_numpy_same_norm",
    "C115_objective",
    "C115_fit_period_effects",
    "C115_two_controls",
    "C115_unit_effects_refuted",
    "C115_level_refuted",
    "C115_scale_refuted",
    "C115_norm_instance",
    "C115_period_effects_case"
   ],
   "note": "Refuted as stated. Holds: with the compiled weight backend every field of the result ignores period effects (C115_fit_period_effects with C115_compiled_iteration_ignores_period_effects); the NumPy iteration does so only when its step size, taken from the spectral norm of the level data, is the same (C115_numpy_same_norm), although the objective it minimises is unchanged (C115_objective). Fails: unit effects change the estimate on both backends whatever the number of iterations (C115_unit_effects_refuted: from at most -4.35 to at least -1.65), because the weights match levels without an intercept; adding 10000 to every outcome changes the NumPy estimate from at most -7 to at least -5.1 (C115_level_refuted); multiplying by 1/10000 does not scale the compiled estimate (C115_scale_refuted), because the step size 0.1 is fixed, so on small outcomes the first step is below the tolerance and the weights stay near uniform."
  },
  {
   "property": "C116",
   "status": "partial",
   "theorems": [
    "C116_estimate",
    "C116_bias",
    "C116_saturated",
    "C116_two_by_two_refuted",
    "C116_zero_covariate_refuted"
   ],
   "note": "Refuted as stated. The residualising regression has unit and period dummies and the covariates but no treatment term, so part of the effect is absorbed: C116_bias gives the exact loss for additive data, tau * (1 - sum delta_k contrast(x_k)) with delta the coefficients of the treatment indicator on the same design, and C116_saturated shows an estimate of 0 whenever the design spans the outcome. C116_two_by_two_refuted: with one control, one treated unit and two periods, every covariate with a nonzero double difference turns every effect into 0. C116_zero_covariate_refuted: a column of zeros changes the estimate (at most -4.35 to at least -2.25), because residualising also removes the unit effects that the weights match on."
  },
  {
   "property": "C117",
   "status": "proved",
   "theorems": [
    "C117_report",
    "C117_rmse",
    "C117_exact",
    "C117_row_order",
    "C117_case",
    "C117_exact_case",
    "C117_row_order_needs_constant",
    "C117_init_methods"
   ],
   "note": "The weights are those of a backend that returns points of the simplex (both backends do: rust_simplex, numpy_simplex). C117_exact also records that an exactly recovered effect is reported with t = 0 and p = 1, since a zero standard error is mapped to t = 0. C117_row_order_needs_constant shows the hypothesis on treatment is needed: the treated status of a unit is the first value in row order."
  },
  {
   "property": "C118",
   "status": "partial",
   "theorems": [
    "C118_two_step",
    "C118_two_step_compiled",
    "C118_joint_partial",
    "C118_joint_fixed_weights",
    "C118_joint_compiled_fixed_weights",
    "C118_joint_value",
    "C118_joint_refuted"
   ],
   "note": "Proved for the two-step method, Python and compiled, without restriction. Refuted for method='joint': the unit weights are computed once from all pre-period outcomes, including the left-out one. C118_joint_refuted gives a 3x3 panel on which the prediction of a left-out pre-period outcome of a control unit is 2/5 when the outcome is 0 and larger for every other value (C118_joint_value: (4 + 2w)/(7w + 8) with w = exp(-lambda_unit |v|/sqrt 2)). C118_joint_partial: the joint method is honest when lambda_unit = 0 or the cell lies in the treated periods; for fixed weights it always is."
  },
  {
   "property": "C119",
   "status": "proved",
   "theorems": [
    "C119_did_design_terms",
    "C119_did_group_period_effects",
    "C119_mp_design_terms",
    "C119_mp_group_period_effects"
   ],
   "note": "The term of interest must be identified (not in the span of the other regressors; implied by four non-empty cells, respectively a treated and an untreated row in every post period and the reference); the classical variance needs more rows than reported coefficients."
  },
  {
   "property": "C120",
   "status": "partial",
   "theorems": [
    "C120_ipw_pairwise",
    "C120_ipw_scale",
    "C120_dr_terms",
    "C120_dr_scale",
    "C120_dr_pairwise_balanced_partial",
    "C120_reg_row_order",
    "C120_weighting_row_order",
    "C120_reg_pairwise",
    "C120_level_refuted"
   ],
   "note": "Two-way effects: method 'reg' ignores them (and any covariate combination) in all reported numbers. 'ipw' ignores them in the estimate, for every propensity model, but not in the standard error. 'dr': C120_dr_terms shows the estimate moves by exactly the dr estimate of the added term, and the standard error never moves; the term drops out when all four group-partition cells have the same share of post rows. C120_level_refuted: adding the constant 1 changes the ipw standard error on 8 rows and the dr estimate on 9 rows. Rescaling and row order hold for all three methods (reg: triple interaction identified; ipw and dr: the logistic fit must not depend on row order)."
  },
  {
   "property": "C121",
   "status": "partial",
   "theorems": [
    "C121_unit_period_effects",
    "C121_level_scale",
    "C121_complete_panel_case",
    "C121_incomplete_panel_value",
    "C121_unit_effects_incomplete_refuted"
   ],
   "note": "Proved in full when the estimation sample is balanced, with covariates, any clustering and rank-deficient designs; on any panel for s*y + c with a constant c. C121_unit_effects_incomplete_refuted: with five rows (one unit seen only once) adding 1 to that never-treated unit's outcome changes the overall effect by -1/9, for every outcome; C121_incomplete_panel_value gives the value."
  },
  {
   "property": "C122",
   "status": "partial",
   "theorems": [
    "C122_coefficient_names",
    "C122_coefficient_keys",
    "C122_coefficient_last",
    "C122_multiperiod_coefficient",
    "C122_period_names_refuted",
    "C122_covariate_names_refuted",
    "C122_did_dict",
    "C122_multiperiod_periods",
    "C122_multiperiod_summary",
    "C122_multiperiod_size",
    "C122_cs_cells",
    "C122_cs_event",
    "C122_cs_group",
    "C122_cs_levels",
    "C122_sa_event",
    "C122_sa_cohort",
    "C122_weights_table",
    "C122_weights_sort_exists",
    "C122_sensitivity_rows",
    "C122_did_coefficients",
    "C122_did_coefficients_case",
    "C122_period_table",
    "C122_period_table_case"
   ],
   "note": "Exports hold for integer period labels. The coefficients dictionary is right exactly when the regressor names are distinct (C122_coefficient_names, C122_coefficient_keys; for MultiPeriodDiD without covariates they are); with a repeated name the last coefficient wins (C122_coefficient_last). Refuted: a fixed-effects column called 'period' gives its dummies the names of the period dummies, and the treatment column listed as a covariate replaces the treatment coefficient; nothing is reported."
  },
  {
   "property": "C123",
   "status": "partial",
   "theorems": [
    "C123_level_scale",
    "C123_unit_period_effects",
    "C123_row_order",
    "C123_unit_labels",
    "C123_balanced_case",
    "C123_reversed_case",
    "C123_unit_effects_unbalanced_refuted",
    "C123_varying_cohort_order_refuted"
   ],
   "note": "Proved in full on balanced panels with one cohort per unit; s*y + k with a constant k and unit relabelling on any panel; row order on any panel with one cohort per unit. C123_unit_effects_unbalanced_refuted: with five rows (the code only warns) adding 1 to a never-treated unit seen once moves the 2x2 estimate by 1/2 for every outcome. C123_varying_cohort_order_refuted: if first_treat varies within a unit the reported number of never-treated units depends on the row order (groupby 'first', bacon.py:467-470); the code does not check for this."
  },
  {
   "property": "C124",
   "status": "partial",
   "theorems": [
    "C124_relative_fit",
    "C124_relative_breakdown",
    "C124_relative_sensitivity",
    "C124_smoothness_fit",
    "C124_smoothness_includes",
    "C124_smoothness_grid",
    "C124_conclusion",
    "C124_smoothness_linear",
    "C124_smoothness_breakdown_partial",
    "C124_combined_default",
    "C124_breakdown_unit_refuted",
    "C124_default_grid_unit_refuted",
    "C124_combined_unit_refuted",
    "C124_case"
   ],
   "note": "Proved for relative magnitudes (fit, sensitivity, breakdown) and for smoothness fits and grids; C124_smoothness_linear and C124_smoothness_breakdown_partial give the exact smoothness profile theta +/- w*M and the exact breakdown (|theta| - z*se)/w where the search range [0,10] allows. Refuted: C124_breakdown_unit_refuted (breakdown 5 becomes None = robust when the outcome is expressed in a unit ten times smaller, because breakdown_value searches M in [0,10] in absolute units, honest_did.py:1381-1425); C124_default_grid_unit_refuted (the default smoothness grid 0..1 is absolute); C124_combined_unit_refuted (one M is used both as an absolute and as a relative bound; with the default weights the smoothness part is uninformative and combined scales, C124_combined_default)."
  },
  {
   "property": "C125",
   "status": "partial",
   "theorems": [
    "C125_unit_and_period_effects",
    "C125_affine",
    "C125_row_order",
    "C125_period_labels_law",
    "C125_unit_names",
    "C125_fit_vs_decompose",
    "C125_fit_below_decompose",
    "C125_period_labels_refuted",
    "C125_unbalanced_effects_refuted",
    "C125_decompose_refuted",
    "C125_case"
   ],
   "note": "Proved: unit, period and covariate terms plus rescaling on balanced panels with any covariates (C125_unit_and_period_effects), constant and covariate terms on any panel (C125_affine), row order (C125_row_order, both fits succeed), unit names (C125_unit_names, including the error outcome). Refuted: C125_period_labels_refuted (calling the two periods 2014/2015 instead of 0/1 changes the estimate from 1 to 3/16232843 because the regressor is treated*time, twfe.py:104-106; the documentation passes time='period' or 'year'), with the exact law C125_period_labels_law; C125_unbalanced_effects_refuted (a pure unit effect yields -2/9 on an unbalanced panel, because the one-pass within transform does not absorb it); C125_decompose_refuted (fit reports 1, decompose decomposes 3), with C125_fit_vs_decompose giving the exact factor and C125_fit_below_decompose showing it is always strictly below 1 when a unit is never treated."
  },
  {
   "property": "C126",
   "status": "partial",
   "theorems": [
    "C126_bacon_lines_add_up",
    "C126_bacon_warning",
    "C126_placebo_text_law",
    "C126_placebo_text_default",
    "C126_placebo_text_nan_refuted",
    "C126_top_weights",
    "C126_sensitivity_always",
    "C126_placebo_text_refuted",
    "C126_choice_case",
    "C126_robust_up_to_refuted",
    "C126_bacon_case",
    "C126_top_weights_case"
   ],
   "note": "Proved: Bacon contributions and weights add up to the Total line and the warning law (C126_bacon_lines_add_up, C126_bacon_warning); SDID top-five list and count (C126_top_weights); 'always significant' iff every tabulated interval excludes zero (C126_sensitivity_always); the placebo sentence is true exactly when p < alpha and p < 0.05 agree (C126_placebo_text_law), hence always at alpha = 0.05 with a finite p. Refuted: C126_placebo_text_refuted (alpha = 0.1, p = 1/16, printed as 'p < 0.05': the threshold is hard-coded in diagnostics.py:145-155); C126_placebo_text_nan_refuted (a NaN p-value is printed as 'p >= 0.05'); C126_robust_up_to_refuted (breakdown 0.0 is printed as 'robust to violations up to M = 0.0000' although the interval at M = 0 contains zero). Column widths and digit rounding are not modelled."
  },
  {
   "property": "C127",
   "status": "partial",
   "theorems": [
    "C127_percentile_reflection",
    "C127_affine",
    "C127_row_order",
    "C127_same_hypothesis_law",
    "C127_same_hypothesis_refuted",
    "C127_case"
   ],
   "note": "Proved: unit of the outcome and other regressors (C127_affine), row order (C127_row_order), reflection of interpolated percentiles (C127_percentile_reflection). Refuted: restated hypotheses (C127_same_hypothesis_refuted): on a 2x2 design with all draws equal to one, 'effect = 0' on y has p = 1 while 'effect = 4' on y + 4*D*post has p = 1/(B+1), with the same t statistic and the same replicates. Cause: replicates are generated from the outcome with the null effect removed (utils.py:447-475), so they are centred at the estimate minus the null, but their t statistics again subtract the null. C127_same_hypothesis_law says exactly what differs."
  },
  {
   "property": "C128",
   "status": "partial",
   "theorems": [
    "C128_fit",
    "C128_breakdown",
    "C128_sensitivity",
    "C128_conclusion",
    "C128_pre_violation",
    "C128_dict_order",
    "C128_case",
    "C128_nan_verdict_refuted"
   ],
   "note": "Proved for all three methods, the breakdown value, the sensitivity grid, the flags and (for a non-empty non-NaN interval) the printed conclusion; dictionary order irrelevant. Refuted only for the printed conclusion of a NaN interval: C128_nan_verdict_refuted (a missing effect is announced as negative with either sign of the outcome, honest_did.py:305-313)."
  },
  {
   "property": "C129",
   "status": "partial",
   "theorems": [
    "C129_unfitted",
    "C129_failed_fit_keeps_state",
    "C129_refit",
    "C129_fit_returns",
    "C129_cluster_argument",
    "C129_column_space",
    "C129_intercept_redundant",
    "C129_index_range",
    "C129_index_error",
    "C129_negative_index",
    "C129_accessors",
    "C129_all",
    "C129_batch_ok",
    "C129_batch_error",
    "C129_batch_entries",
    "C129_predict_training",
    "C129_predict_new",
    "C129_df_default",
    "C129_df_normal",
    "C129_case",
    "C129_redundant_case",
    "C129_df_none_refuted",
    "C129_predict_columns"
   ],
   "note": "Everything but the last clause proved. The documented 'df: set to None explicitly to use normal distribution' (linalg.py:1271) is false: None falls back to the fitted degrees of freedom (C129_df_default, C129_df_none_refuted); the normal distribution is used exactly when the degrees of freedom are not positive (C129_df_normal)."
  },
  {
   "property": "C130",
   "status": "proved",
   "theorems": [
    "C130_regression",
    "C130_sun_unit_labels",
    "C130_sun_row_order",
    "C130_sun_balanced",
    "C130_multi_row_order",
    "C130_multi_identified",
    "C130_sun_case",
    "C130_sun_varying_cohort_refuted",
    "C130_multi_case"
   ],
   "note": "C130_sun_row_order and C130_multi_row_order state the full result; full rank is a hypothesis because a rank-deficient fit depends on which columns the pivoted QR keeps, which is outside the model; C130_sun_balanced and C130_multi_identified derive it from the data. C130_sun_varying_cohort_refuted: with first_treat coded row by row, one order of four rows reports no event-study effect and ATT 0 (0 treated, 2 control units), the other order reports the two-by-two difference (1 treated, 1 control); the code does not check that first_treat is constant within units (sun_abraham.py:498-505, 836)."
  },
  {
   "property": "C131",
   "status": "proved",
   "theorems": [
    "C131_regression",
    "C131_did",
    "C131_twfe",
    "C131_independent_shrinks",
    "C131_clustered_stays",
    "C131_bacon",
    "C131_callaway_refuses",
    "C131_synthetic_refuses",
    "C131_trop_refuses",
    "C131_case",
    "C131_multi",
    "C131_multi_case",
    "C131_sun",
    "C131_sun_factor",
    "C131_sun_case"
   ],
   "note": "Accidental duplication of rows is silent in the regression estimators: without cluster= the standard errors shrink at least by sqrt k, with the original cluster ids they stay within sqrt((n-K)/(n-1)) and 1. The estimators that pivot the data raise ValueError. Full column rank and n > K are assumed (n = K raises ZeroDivisionError on the original data and not on the copies).. C131_multi states the same for MultiPeriodDiD (every period effect, the average, their standard errors) and C131_sun for SunAbraham without bootstrap (cohort, event-study and overall effects and standard errors)."
  },
  {
   "property": "C132",
   "status": "proved",
   "theorems": [
    "C132_average_of_periods",
    "C132_did",
    "C132_bacon",
    "C132_callaway",
    "C132_callaway_no_baseline",
    "C132_sun_abraham",
    "C132_twfe_attenuated",
    "C132_case"
   ],
   "note": "The equalities link five separately modelled estimators. C132_case is a 3-unit, 4-period panel on which DiD, MultiPeriodDiD and Bacon report 10 and CallawaySantAnna and SunAbraham 17/2. C132_twfe_attenuated is the general form of the attenuation recorded in C14: it holds for every outcome, not only for additive data."
  },
  {
   "property": "C133",
   "status": "partial",
   "theorems": [
    "C133_callaway",
    "C133_sun_abraham",
    "C133_bacon",
    "C133_lost_dates_callaway_refuted",
    "C133_lost_dates_sun_refuted",
    "C133_lost_dates_bacon_refuted",
    "C133_zero_date_refuted",
    "C133_case"
   ],
   "note": "Refuted as stated for arbitrary shifts: C133_zero_date_refuted is a 3-unit panel whose ATT moves from 19/2 to -1 when the calendar moves by -2, because the cohort that lands on 0 becomes a control. C133_lost_dates_*_refuted: with every date at or below zero CallawaySantAnna and SunAbraham raise ValueError, Bacon returns no comparisons with the whole coefficient as error. The strongest true part is proved in full (every field, errors included): C133_callaway, C133_sun_abraham, C133_bacon under origin_ok (positive dates on both calendars); C133_case shows a shift by 2000 that satisfies it."
  },
  {
   "property": "C134",
   "status": "partial",
   "theorems": [
    "C134_multi_period",
    "C134_bacon",
    "C134_callaway_gaps_refuted",
    "C134_callaway_doubled_refuted",
    "C134_sun_gap_refuted",
    "C134_case"
   ],
   "note": "Refuted for two of the four estimators. C134_multi_period and C134_bacon prove it for the other two (every field and error; the end of an earlier-versus-later window in Bacon is reported as l - 1 whether or not that is a period). C134_callaway_gaps_refuted: no consecutive periods and no observed g - 1 - anticipation gives ValueError for every configuration; C134_callaway_doubled_refuted: doubling all dates of any data set makes it fail. C134_sun_gap_refuted: on a balanced panel without covariates a cohort never observed at the reference makes the saturated design singular, so some effect is NaN with p value 1. C134_case shows all four on one panel: 10 and 10 unchanged, 17/2 lost."
  },
  {
   "property": "C135",
   "status": "partial",
   "theorems": [
    "C135_listed_once",
    "C135_effects",
    "C135_one_copy_undefined",
    "C135_error_action",
    "C135_qr_oracle",
    "C135_repeated_refuted"
   ],
   "note": "Refuted as a guarantee: C135_repeated_refuted is a 12-row panel on which [1, 2] gives two finite effects and their mean, while [1, 2, 2] gives an undefined effect and average under a valid QR (qr_last, shown to satisfy qr_ok). What is proved: C135_listed_once (without repetition the dictionary-based code equals mp_fit, errors included, so all other MultiPeriodDiD theorems apply), C135_effects (each period reported once, read at its last column; the average weights periods by their multiplicity and is undefined as soon as one effect is), C135_one_copy_undefined and C135_error_action."
  },
  {
   "property": "C136",
   "status": "partial",
   "theorems": [
    "C136_unit_weights",
    "C136_treated_post_gap",
    "C136_undefined",
    "C136_pre_gap",
    "C136_bootstrap_gap",
    "C136_complete",
    "C136_significant_refuted",
    "C136_gap_hole",
    "C136_backends"
   ],
   "note": "Refuted as a guarantee: C136_significant_refuted is an 8-row panel whose treated unit has no row in the last period; with 20 placebo replications the fit reports att NaN, p = 1/21 and is_significant True, for every backend. What is proved: C136_undefined (any gap gives att and interval NaN; exact t and p in both branches), C136_pre_gap and C136_bootstrap_gap (when t = 0, p = 1), C136_treated_post_gap (a gap of treated units after treatment leaves weights, placebo draws and standard error as for any completion, and gives p = 1/(B+1)), C136_unit_weights (equal weights, or LinAlgError with numpy), C136_complete (on a complete panel this model is sd_fit, errors included). Whether numpy's SVD raises on NaN depends on LAPACK and is a parameter."
  },
  {
   "property": "C137",
   "status": "partial",
   "theorems": [
    "C137_did_exchange",
    "C137_did_treated_complement",
    "C137_did_time_complement",
    "C137_did_case",
    "C137_weighting_exchange",
    "C137_dr_reversed",
    "C137_ipw_reversed_estimate",
    "C137_dr_group_complement",
    "C137_dr_partition_complement",
    "C137_ipw_group_complement_estimate",
    "C137_ipw_partition_complement_estimate",
    "C137_reg_exchange",
    "C137_reg_complement",
    "C137_ipw_error_refuted",
    "C137_multi_treated_complement",
    "C137_multi_case"
   ],
   "note": "Holds for DifferenceInDifferences in full (C137_did_*) and for TripleDifference with method reg in full (any two indicators exchanged, any one complemented; C137_reg_*). Methods ipw and dr: exchanging group and partition changes nothing (C137_weighting_exchange, covariates included); dr is reversed exactly by reversing the periods (covariates included) and, without covariates and without clipping, by complementing group or partition; the estimate of ipw is reversed in the same cases. Refuted for the ipw standard error: C137_ipw_error_refuted is an 8-row data set where it is 0.5, but 1.18 with the periods reversed and 0.91 with the group complemented, because _compute_ipw_se subtracts the estimate only in the treated-eligible cell, in both periods. Not covered: ipw and dr with covariates under complements of group or partition, where the reweighting target changes. MultiPeriodDiD: counting the other group as treated negates every period effect and the average (C137_multi_treated_complement)."
  },
  {
   "property": "C138",
   "status": "partial",
   "theorems": [
    "C138_shows_the_fits",
    "C138_both_functions_agree",
    "C138_line_position",
    "C138_has_breakdown",
    "C138_line_separates",
    "C138_line_separates_relative",
    "C138_empty_grid",
    "C138_unsorted_refuted",
    "C138_case"
   ],
   "note": "Content of the plot and agreement of the two functions hold for every non-empty grid (C138_shows_the_fits, C138_both_functions_agree). For increasing non-negative grids the line is absent exactly when no tested interval contains zero, everything left of it excludes zero and the first tested point from it on contains zero (C138_line_position, any method); everything to its right contains zero whenever the intervals are monotone in M (C138_line_separates), which holds for relative magnitudes (C138_line_separates_relative). Refuted for unsorted grids: [5, 1] draws the line at 0 although the interval at 1 excludes zero (C138_unsorted_refuted). Refuted for an empty grid: sensitivity_analysis succeeds and reports no breakdown, both plots raise IndexError (C138_empty_grid)."
  },
  {
   "property": "C139",
   "status": "partial",
   "theorems": [
    "C139_same_table",
    "C139_shares",
    "C139_own_column",
    "C139_hole_equal_weights",
    "C139_complete_case",
    "C139_match_refuted"
   ],
   "note": "The column does not change the table (C139_same_table). With a finite outcome for every unit in every pre-period a ranking comes back whenever the table does, and the weights are non-negative and sum to one (C139_shares), each being the optimiser's weight for that unit's own column (C139_own_column; the closeness of these weights to the optimum is C52). Refuted on unbalanced panels: one candidate without an outcome in one pre-period (or a period without treated outcomes) turns every weight into 1/n, or raises LinAlgError with the NumPy backend when its SVD refuses NaN (C139_hole_equal_weights); C139_match_refuted has a control that repeats the treated unit and one 100 away with a missing row, both with weight 1/2. The optimiser is the oracle of C136 (be_simplex, instances C136_backends)."
  },
  {
   "property": "C140",
   "status": "partial",
   "theorems": [
    "C140_cs_counts",
    "C140_cs_no_never",
    "C140_cs_partition",
    "C140_cs_infinite_refuted",
    "C140_sa_counts",
    "C140_sa_no_never",
    "C140_sa_partition",
    "C140_sa_infinite_refuted",
    "C140_bacon_counts",
    "C140_same_never_count",
    "C140_late_cohort_refuted",
    "C140_counts_case"
   ],
   "note": "Proved: exactly what the numbers count (C140_cs_counts, C140_sa_counts, C140_bacon_counts: never-treated units are those whose first row is coded 0 or infinity, for Bacon those whose first recorded cohort is; treated units those whose first recorded cohort exceeds 0), ValueError without never-treated rows (C140_cs_no_never, C140_sa_no_never), the sum over units when cohorts are finite and fixed (C140_cs_partition, C140_sa_partition) and agreement of the never-treated counts on fixed cohorts (C140_same_never_count). Refuted otherwise: every unit coded infinity is counted both as treated and as never treated, so the two numbers exceed the number of units by the number of such units (C140_cs_infinite_refuted, C140_sa_infinite_refuted); a never-treated unit whose first row lacks a cohort is missed by CallawaySantAnna, which then refuses the data, while Bacon counts it (C140_late_cohort_refuted)."
  },
  {
   "property": "C141",
   "status": "partial",
   "theorems": [
    "C141_left_rows",
    "C141_callaway",
    "C141_sun_refuted",
    "C141_case"
   ],
   "note": "C141_callaway proves the CallawaySantAnna half for every reported field, errors included (bootstrap weights per unit held fixed; every period must still be observed after dropping the units; with covariates not stated, because the logit and least-squares oracles then see different columns). Refuted for SunAbraham: C141_sun_refuted: one such cohort makes the saturated design singular on any balanced panel (its event dummies add up to its unit effects), so whatever column the QR drops some event-study effect is NaN with t = 0 and p = 1, and the overall ATT too when that event time is not negative. C141_case adds such a unit, with arbitrary outcomes, to the panel of C132: CallawaySantAnna still reports 17/2, SunAbraham goes from 17/2 to an undefined effect."
  },
  {
   "property": "C142",
   "status": "proved",
   "theorems": [
    "C142_present",
    "C142_range",
    "C142_crossed_trim",
    "C142_failed_fit",
    "C142_used",
    "C142_probabilities",
    "C142_balanced",
    "C142_case"
   ],
   "note": "C142_present, C142_range (with the sharper bound std^2 <= (1-trim-mean)(mean-trim)), C142_failed_fit, C142_used (the cell probabilities are the clipped products of the summarised scores), C142_probabilities and C142_balanced. C142_crossed_trim: pscore_trim is not validated, and a value above one half makes every score 1 - pscore_trim whatever the data. scipy's optimiser is an oracle; stationarity is a hypothesis of C142_balanced only. Real arithmetic: in floating point a fitted probability can round to 1, which C142_probabilities excludes."
  },
  {
   "property": "C143",
   "status": "partial",
   "theorems": [
    "C143_gradient_partial",
    "C143_cutoff_refuted",
    "C143_case"
   ],
   "note": "C143_gradient_partial proves it wherever every linear predictor is strictly between -500 and 500. False beyond: C143_cutoff_refuted: once a predictor passes the cut-off the objective is flat in that row, but the gradient still contains the row; with one untreated row at predictor 600 the derivative is 0 and the gradient exceeds 1/2. Exact real arithmetic; np.exp and np.log are exp and ln."
  }
 ]
}