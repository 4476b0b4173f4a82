{
 "claims": [
  {
   "property": "C01",
   "status": "proved",
   "theorems": [
    "C01_parallel_map_order_independent",
    "C01_parallel_map_raises"
   ],
   "note": "tasks are pure functions; thread pool replaced by an arbitrary completion order"
  },
  {
   "property": "C02",
   "status": "proved",
   "theorems": [
    "C02_tree_reduce_is_sequential_reduction",
    "C02_fan_in_one_never_terminates",
    "C02_every_partition_once_in_order"
   ],
   "note": "plus necessity of fan-in >= 2 (fan-in 1 never terminates)"
  },
  {
   "property": "C03",
   "status": "proved",
   "theorems": [
    "C03_distributed_gram_partition_invariant",
    "C03_masked_gram_partition_invariant",
    "C03_distributed_wls_partition_invariant",
    "C03_distributed_logit_partition_invariant",
    "C03_logit_step_is_newton_step"
   ],
   "note": "solver and logistic link are arbitrary functions"
  },
  {
   "property": "C04",
   "status": "proved",
   "theorems": [
    "C04_tiled_gram_is_direct"
   ],
   "note": ""
  },
  {
   "property": "C05",
   "status": "partial",
   "theorems": [
    "C05_dr_equals_local",
    "C05_ipw_equals_local",
    "C05_reg_equals_local",
    "C05_empty_first_partition",
    "C05_empty_first_partition_refuted",
    "C05_no_effective_control_refuted",
    "C05_score_floor_refuted"
   ],
   "note": "dr, ipw and reg cells on panel data proved equal to the local estimators for every partitioning with a non-empty first partition, given equal logit coefficients and scores above 1e-6; refuted for an empty first partition, for cells without effective controls and for scores below 1e-6; the repeated cross-section cell is not modelled"
  },
  {
   "property": "C06",
   "status": "proved",
   "theorems": [
    "C06_encode_step",
    "C06_group_codes_end_to_end"
   ],
   "note": "group codes, step and end to end; rationals stand for floats"
  },
  {
   "property": "C07",
   "status": "partial",
   "theorems": [
    "C07_no_early_cohort_left",
    "C07_no_eligible_unit_removed",
    "C07_base_period_exists",
    "C07_base_period_refuted"
   ],
   "note": "no early cohort survives and nothing else is removed; existence of a base period is proved when a not-yet-treated unit is observed in the first period and refuted otherwise (C07_base_period_refuted: the code lets such a cohort through)"
  },
  {
   "property": "C08",
   "status": "proved",
   "theorems": [
    "C08_control_group_construction",
    "C08_never_treated_data_untouched",
    "C08_relabelled_units_never_observed_treated"
   ],
   "note": ""
  },
  {
   "property": "C09",
   "status": "proved",
   "theorems": [
    "C09_balance_exact",
    "C09_balance_error",
    "C09_pipeline_output_is_balanced"
   ],
   "note": ""
  },
  {
   "property": "C10",
   "status": "proved",
   "theorems": [
    "C10_tensor_alignment",
    "C10_row_order_irrelevant"
   ],
   "note": ""
  },
  {
   "property": "C11",
   "status": "proved",
   "theorems": [
    "C11_roles_exact",
    "C11_estimator_inputs",
    "C11_roles_rc",
    "C11_estimator_inputs_rc"
   ],
   "note": "panel (all units) and repeated cross-section (all rows), plus what an arbitrary 2x2 estimator receives"
  },
  {
   "property": "C12",
   "status": "partial",
   "theorems": [
    "C12_no_forbidden_panel",
    "C12_no_forbidden_rc",
    "C12_anticipation_refuted"
   ],
   "note": "proved: no comparison unit is treated at the evaluated or base period, in the user's own group codes; the anticipation-window half is refuted for cohorts coded just after the last period (C12_anticipation_refuted)"
  },
  {
   "property": "C13",
   "status": "proved",
   "theorems": [
    "C13_base_period_choice"
   ],
   "note": ""
  },
  {
   "property": "C14",
   "status": "proved",
   "theorems": [
    "C14_cells_enumeration",
    "C14_universal_grid",
    "C14_universal_base_cell",
    "C14_varying_cells"
   ],
   "note": ""
  },
  {
   "property": "C15",
   "status": "proved",
   "theorems": [
    "C15_rescaled_mean",
    "C15_support",
    "C15_sample_values",
    "C15_cell_influence"
   ],
   "note": "panel end to end; estimator arbitrary"
  },
  {
   "property": "C16",
   "status": "partial",
   "theorems": [
    "C16_influence_alignment_refuted",
    "C16_aligned_when_ids_sorted_partial"
   ],
   "note": "the code violates the property (C16_influence_alignment_refuted); proved only when ids are sorted in unit order"
  },
  {
   "property": "C17",
   "status": "proved",
   "theorems": [
    "C17_simple",
    "C17_group",
    "C17_calendar",
    "C17_effects_convex",
    "C17_simple_convex",
    "C17_between_extremes",
    "C17_overall_between_extremes"
   ],
   "note": "every by-effect and the simple/dynamic/calendar overall effects, for all windows; the overall of type group when every cohort has an effect (otherwise see C18)"
  },
  {
   "property": "C18",
   "status": "partial",
   "theorems": [
    "C18_group_overall_partial",
    "C18_dropna_complete",
    "C18_no_effect_cohorts_refuted",
    "C18_dropna_window_refuted"
   ],
   "note": "proved when every cohort has an effect, and always for dropna=True without window; the code violates it otherwise (C18_*_refuted, end to end)"
  },
  {
   "property": "C19",
   "status": "proved",
   "theorems": [
    "C19_recoding"
   ],
   "note": "scalar and vectorised lookup, round trip"
  },
  {
   "property": "C20",
   "status": "proved",
   "theorems": [
    "C20_dynamic"
   ],
   "note": ""
  },
  {
   "property": "C21",
   "status": "partial",
   "theorems": [
    "C21_balanced_post_partial",
    "C21_pre_periods_refuted",
    "C21_gaps_refuted"
   ],
   "note": "proved for event times 0..balance_e on complete consecutive grids; refuted for negative event times and for irregular periods"
  },
  {
   "property": "C22",
   "status": "proved",
   "theorems": [
    "C22_rows_sum_to_zero",
    "C22_columns_average_to_zero",
    "C22_derivative_of_weights"
   ],
   "note": "rows, columns, and the derivative as a limit"
  },
  {
   "property": "C23",
   "status": "partial",
   "theorems": [
    "C23_dynamic_window",
    "C23_window_consecutive_partial",
    "C23_gaps_refuted",
    "C23_calendar_refuted"
   ],
   "note": "proved for dynamic and, on consecutive values, for simple/group; refuted on irregular periods and for calendar"
  },
  {
   "property": "C24",
   "status": "partial",
   "theorems": [
    "C24_weights_named_weights_partial",
    "C24_weights_ignored_refuted"
   ],
   "note": "holds for a column named \"weights\"; refuted for every name outside the time-invariant columns"
  },
  {
   "property": "C25",
   "status": "proved",
   "theorems": [
    "C25_dr_affine",
    "C25_reg_affine",
    "C25_ipw_affine",
    "C25_weight_scale",
    "C25_unit_order",
    "C25_no_covariates"
   ],
   "note": "dr, reg and ipw panel estimators; the numerical routines (logit, WLS, inverse) are inputs constrained by their estimating equations"
  },
  {
   "property": "C26",
   "status": "proved",
   "theorems": [
    "C26_exact_outcome_model",
    "C26_dr_is_corrected_ipw",
    "C26_exact_balance",
    "C26_estimates_as_means"
   ],
   "note": "sample identities for the panel estimators"
  },
  {
   "property": "C27",
   "status": "proved",
   "theorems": [
    "C27_reg_inf_is_derivative",
    "C27_ipw_inf_is_derivative",
    "C27_dr_inf_is_derivative",
    "C27_derivative_unique",
    "C27_dr_centred",
    "C27_reg_centred",
    "C27_ipw_centred"
   ],
   "note": "panel dr, reg and ipw"
  },
  {
   "property": "C28",
   "status": "proved",
   "theorems": [
    "C28_cluster_averages",
    "C28_unit_order",
    "C28_relabelling",
    "C28_monotone_relabelling",
    "C28_cluster_length_checked",
    "C28_singletons",
    "C28_batches",
    "C28_draw_moments",
    "C28_mammen",
    "C28_equal_clusters_variance",
    "C28_unequal_clusters_refuted"
   ],
   "note": "Over the reals (three standard axioms of Coq.Reals). Extra: with unequal cluster sizes the bootstrap variance is not the cluster-robust variance of the mean (C28_unequal_clusters_refuted), it is for equal sizes."
  },
  {
   "property": "C29",
   "status": "proved",
   "theorems": [
    "C29_subgroup_codes",
    "C29_untreated_means_zero_refuted"
   ],
   "note": "Also shown: codes 1 and 2 go to every cohort other than g, not only treat = 0 as the docstring says (C29_untreated_means_zero_refuted)."
  },
  {
   "property": "C30",
   "status": "proved",
   "theorems": [
    "C30_first_treated_period",
    "C30_row_order_irrelevant",
    "C30_zero_is_never_treated",
    "C30_zero_is_never_treated_refuted",
    "C30_static_treatment",
    "C30_static_existing_column_refuted"
   ],
   "note": "Also shown: a unit first treated in a period numbered 0 gets G = 0 (C30_zero_is_never_treated_refuted); with treat_period an existing column G is kept (C30_static_existing_column_refuted)."
  },
  {
   "property": "C31",
   "status": "partial",
   "theorems": [
    "C31_panel_one_row_per_unit",
    "C31_rc_without_id",
    "C31_unbalanced",
    "C31_one_row_per_unit_refuted"
   ],
   "note": "proved for balanced panels, repeated cross-sections without id, and unbalanced panels; refuted for panel=False with repeated ids (C31_one_row_per_unit_refuted)"
  },
  {
   "property": "C32",
   "status": "partial",
   "theorems": [
    "C32_failed_cell_is_zero_refuted",
    "C32_nan_cell_is_zero_refuted",
    "C32_post_cell_refuted"
   ],
   "note": "holds for base_period=varying when the estimator raises (C14_varying_cells); the code violates it for universal and for NaN estimates (C32_*_refuted)"
  },
  {
   "property": "C33",
   "status": "partial",
   "theorems": [
    "C33_no_crash_balanced",
    "C33_universal_no_base_refuted",
    "C33_unbalanced_panel_refuted"
   ],
   "note": "proved for balanced panels with a base period; refuted for universal without base period and for unbalanced data with panel=True, allow_unbalanced_panel=True"
  },
  {
   "property": "C34",
   "status": "partial",
   "theorems": [
    "C34_no_cover_no_effect",
    "C34_dynamic_overall",
    "C34_simple_zero_refuted",
    "C34_end_to_end_refuted"
   ],
   "note": "proved for by-effects and the dynamic overall; refuted for simple, end to end"
  },
  {
   "property": "C35",
   "status": "proved",
   "theorems": [
    "C35_centred"
   ],
   "note": "a zero total share is 0/0: the rational model gives 0 where the code gives NaN"
  },
  {
   "property": "C36",
   "status": "proved",
   "theorems": [
    "C36_aggregate_derivative"
   ],
   "note": "all four types, overall and by-effects"
  },
  {
   "property": "C37",
   "status": "partial",
   "theorems": [
    "C37_panel_cell",
    "C37_cross_section_cell",
    "C37_unbalanced_cell",
    "C37_cross_section_inflated",
    "C37_repeated_ids_refuted",
    "C37_cohort_effect",
    "C37_averaged_overall",
    "C37_reported_rule",
    "C37_reported_scale_refuted"
   ],
   "note": "proved for panels, unbalanced panels and cross-sections with distinct ids; refuted for panel=False with repeated ids and allow_unbalanced_panel=False, where the reported value is rows/ids times the two-period one (C37_cross_section_inflated gives the exact factor)"
  },
  {
   "property": "C38",
   "status": "partial",
   "theorems": [
    "C38_cell_table",
    "C38_base_period_matches_local",
    "C38_schedule_independent",
    "C38_rows",
    "C38_columns_aligned",
    "C38_columns_misaligned",
    "C38_failures",
    "C38_chunked_vcov",
    "C38_partition_count",
    "C38_dropped_cell_refuted"
   ],
   "note": "Row/column alignment holds when no computed cell is dropped before a reported one (C38_columns_aligned); otherwise it fails in the code: C38_columns_misaligned (general) and C38_dropped_cell_refuted (witness), because columns are taken as non_skip_counters[:n_valid]. All other parts are proved in full."
  },
  {
   "property": "C39",
   "status": "partial",
   "theorems": [
    "C39_streamed_sample",
    "C39_wide_sample",
    "C39_wide_equals_streamed",
    "C39_roles_match_local",
    "C39_anticipation_refuted",
    "C39_never_code_refuted",
    "C39_covariate_period_refuted"
   ],
   "note": "Streamed and wide samples characterised exactly and shown equal on balanced data with time-constant covariates; roles match the local ones for not-yet-treated without anticipation and for never-treated units coded 0. Outside these cases the code differs: C39_anticipation_refuted, C39_never_code_refuted, C39_covariate_period_refuted."
  },
  {
   "property": "C40",
   "status": "partial",
   "theorems": [
    "C40_standard_error",
    "C40_percentile",
    "C40_standard_error_nonneg",
    "C40_uniform_band",
    "C40_units_of_measurement",
    "C40_tiny_scale_refuted"
   ],
   "note": "All proved, except that rescaling invariance needs the same columns to pass the absolute degeneracy threshold (C40_tiny_scale_refuted shows it is observable)."
  },
  {
   "property": "C41",
   "status": "partial",
   "theorems": [
    "C41_distributed_equals_local",
    "C41_array_split"
   ],
   "note": "Draws are always equal; standard errors and critical value are equal when no reported column has spread below 10 sqrt(eps) (the two implementations treat such columns differently)."
  },
  {
   "property": "C42",
   "status": "proved",
   "theorems": [
    "C42_balance_tests_agree",
    "C42_scan_gaps_exact",
    "C42_fill_panel_gaps",
    "C42_complete_data_threshold",
    "C42_complete_data_balanced",
    "C42_make_balanced_panel",
    "C42_make_balanced_duplicates_refuted"
   ],
   "note": "make_balanced_panel counts rows, so with duplicated pairs its result can be unbalanced (C42_make_balanced_duplicates_refuted)."
  },
  {
   "property": "C43",
   "status": "proved",
   "theorems": [
    "C43_one_row_per_pair",
    "C43_mean_strategy",
    "C43_no_duplicates_unchanged"
   ],
   "note": ""
  },
  {
   "property": "C44",
   "status": "partial",
   "theorems": [
    "C44_diagnostics_counts",
    "C44_suggested_remedies_work",
    "C44_are_varying",
    "C44_duplicate_rows_documented_refuted",
    "C44_single_period_remedy_refuted",
    "C44_single_period_remedy"
   ],
   "note": "Counts and the deduplicate/fill/balance remedies proved. Two documented readings fail: n_duplicate_unit_time counts surplus rows (C44_duplicate_rows_documented_refuted) and the single-period remedy does nothing on a one-period panel (C44_single_period_remedy_refuted; C44_single_period_remedy otherwise)."
  },
  {
   "property": "C45",
   "status": "proved",
   "theorems": [
    "C45_first_difference",
    "C45_consecutive_periods",
    "C45_gap_refuted"
   ],
   "note": "The documented Y_t - Y_(t-1) holds when period t-1 is observed (C45_consecutive_periods), not across gaps (C45_gap_refuted)."
  },
  {
   "property": "C46",
   "status": "proved",
   "theorems": [
    "C46_smoothness_system_exact",
    "C46_post_moments_exact"
   ],
   "note": ""
  },
  {
   "property": "C47",
   "status": "partial",
   "theorems": [
    "C47_component_exact",
    "C47_union_partial",
    "C47_union_is_delta_rm_refuted",
    "C47_shaped_component_refuted"
   ],
   "note": "Each component is exact; the union is exactly the trends of Delta^RM(Mbar) with a largest pre-treatment step other than the earliest (C47_union_partial). The full claim fails in the code: the reference index is one period too late, so the earliest step is never a reference (C47_union_is_delta_rm_refuted) and with shape restrictions a post-treatment step is one (C47_shaped_component_refuted)."
  },
  {
   "property": "C48",
   "status": "proved",
   "theorems": [
    "C48_union_exact"
   ],
   "note": ""
  },
  {
   "property": "C49",
   "status": "partial",
   "theorems": [
    "C49_smoothness_identified_set",
    "C49_nonempty_iff",
    "C49_empty_reported_as_point_refuted"
   ],
   "note": "Exact whenever the identified set is non-empty, which is characterised (C49_nonempty_iff); an empty set is reported as the point l'beta_post (C49_empty_reported_as_point_refuted)."
  },
  {
   "property": "C50",
   "status": "partial",
   "theorems": [
    "C50_nested_in_M",
    "C50_nested_when_empty_refuted"
   ],
   "note": "Proved when the smaller identified set is non-empty; fails otherwise because of the fallback (C50_nested_when_empty_refuted)."
  },
  {
   "property": "C51",
   "status": "partial",
   "theorems": [
    "C51_rm_identified_set_partial",
    "C51_rm_collapses",
    "C51_rm_identified_set_refuted",
    "C51_sdrm_identified_set_partial",
    "C51_sdrm_exact_refuted"
   ],
   "note": "RM: exact when a largest pre-treatment step is not the earliest; otherwise the interval collapses to a point (C51_rm_collapses, C51_rm_identified_set_refuted). SDRM: covers the identified set and each end is in it or is l'beta_post; not exact in general (C51_sdrm_exact_refuted) because infeasible components contribute l'beta_post."
  },
  {
   "property": "C52",
   "status": "partial",
   "theorems": [
    "C52_lower_bound_system_partial",
    "C52_lower_bound_system_refuted",
    "C52_two_periods_refuted"
   ],
   "note": "Exact meaning proved; it is not the pre-treatment part of Delta^SD: the second difference at period -1 is missing (C52_lower_bound_system_refuted) and with two coefficients a first difference is used (C52_two_periods_refuted)."
  },
  {
   "property": "C53",
   "status": "proved",
   "theorems": [
    "C53_three_comparisons",
    "C53_no_covariates",
    "C53_all_subgroups_needed"
   ],
   "note": "Equality with the two-group estimators proved for fitted scores inside [1e-6, 1-1e-6] (ddd caps only at 1-1e-6, drdid clips on both sides) and, for reg, a constant among the covariates."
  },
  {
   "property": "C54",
   "status": "proved",
   "theorems": [
    "C54_shocks"
   ],
   "note": ""
  },
  {
   "property": "C55",
   "status": "proved",
   "theorems": [
    "C55_centred",
    "C55_inf_is_derivative"
   ],
   "note": "Derivative under the smooth-logit conditions of C27."
  },
  {
   "property": "C56",
   "status": "proved",
   "theorems": [
    "C56_weight_scale",
    "C56_unit_order"
   ],
   "note": ""
  },
  {
   "property": "C57",
   "status": "proved",
   "theorems": [
    "C57_cells",
    "C57_raises",
    "C57_once",
    "C57_estimate",
    "C57_no_covariates"
   ],
   "note": "Rows complete (no nulls), n_jobs=1, boot=False."
  },
  {
   "property": "C58",
   "status": "partial",
   "theorems": [
    "C58_own_column_partial",
    "C58_displaced",
    "C58_own_column_refuted"
   ],
   "note": "Proved for every cell before which no cell of the grid is missing; in general false (C58_own_column_refuted, C58_displaced): a cell that cannot be estimated shifts the columns and standard errors of all later cells."
  },
  {
   "property": "C59",
   "status": "proved",
   "theorems": [
    "C59_minimum_variance",
    "C59_control_order"
   ],
   "note": ""
  },
  {
   "property": "C60",
   "status": "partial",
   "theorems": [
    "C60_pooled_se",
    "C60_se_is_of_column_refuted"
   ],
   "note": "False: C60_pooled_se gives the exact factor c^2/(n(c-1)) between the reported and the implied squared standard error (c units in the comparisons, n in the panel), and C60_se_is_of_column_refuted a panel where it is 9/11."
  },
  {
   "property": "C61",
   "status": "proved",
   "theorems": [
    "C61_row_order"
   ],
   "note": "Inverse and pseudo-inverse assumed to commute with reordering."
  },
  {
   "property": "C62",
   "status": "partial",
   "theorems": [
    "C62_weights_ignored",
    "C62_weights_used_refuted"
   ],
   "note": "False: C62_weights_ignored shows that the weights have no effect, C62_weights_used_refuted a concrete panel."
  },
  {
   "property": "C63",
   "status": "proved",
   "theorems": [
    "C63_effects"
   ],
   "note": "Covariance matrices of pooled cells assumed invertible, regressors not collinear."
  },
  {
   "property": "C64",
   "status": "proved",
   "theorems": [
    "C64_effects",
    "C64_keys",
    "C64_raises",
    "C64_effect_between",
    "C64_between"
   ],
   "note": "Tables as handed over by ddd (table_ok; C69_table shows ddd's output is one)."
  },
  {
   "property": "C65",
   "status": "proved",
   "theorems": [
    "C65_standard_errors",
    "C65_columns",
    "C65_centred"
   ],
   "note": ""
  },
  {
   "property": "C66",
   "status": "partial",
   "theorems": [
    "C66_group",
    "C66_fixed_shares_partial",
    "C66_missing_term",
    "C66_refuted",
    "C66_calendar_refuted"
   ],
   "note": "True for 'group' (C66_group). For the others only with fixed cohort shares (C66_fixed_shares_partial); C66_missing_term gives the exact missing term, C66_refuted a concrete table where it is not 0, C66_calendar_refuted one where 'calendar' divides by periods without effect."
  },
  {
   "property": "C67",
   "status": "partial",
   "theorems": [
    "C67_overall_partial",
    "C67_overall_refuted"
   ],
   "note": "True when every cohort has an effect; C67_overall_refuted: a panel without never-treated units whose overall effect is half the only cohort effect."
  },
  {
   "property": "C68",
   "status": "partial",
   "theorems": [
    "C68_window_consecutive_partial",
    "C68_gaps_refuted",
    "C68_balanced_post_partial"
   ],
   "note": "Event study exact (C64_keys); 'simple'/'group' when periods and cohorts are consecutive, C68_gaps_refuted otherwise. Balancing for event times 0..b under a complete grid."
  },
  {
   "property": "C69",
   "status": "partial",
   "theorems": [
    "C69_table",
    "C69_shift",
    "C69_effects",
    "C69_displaced_refuted"
   ],
   "note": "Effects proved; standard errors false when columns are displaced (C69_displaced_refuted)."
  },
  {
   "property": "C70",
   "status": "partial",
   "theorems": [
    "C70_effect_formula_partial",
    "C70_switchers_in",
    "C70_unsigned_average",
    "C70_decreases_refuted"
   ],
   "note": "Proved when every switcher of the horizon increases its treatment (C70_switchers_in: always with switchers='in'); in general the average is unsigned (C70_unsigned_average), and C70_decreases_refuted gives panels with the wrong value. Hypotheses: panel_ok, no same_switchers/trends_lin/covariates."
  },
  {
   "property": "C71",
   "status": "partial",
   "theorems": [
    "C71_placebo_formula_partial",
    "C71_unsigned_average",
    "C71_zero_placebo_refuted"
   ],
   "note": "As C70, for placebos whose switchers have positive weight; C71_zero_placebo_refuted: 0 is reported where the documented placebo is -99."
  },
  {
   "property": "C72",
   "status": "proved",
   "theorems": [
    "C72_effects_reported",
    "C72_output_length"
   ],
   "note": "Effects without weights, and the length of both outputs."
  },
  {
   "property": "C73",
   "status": "proved",
   "theorems": [
    "C73_unit_effects_and_scale",
    "C73_standard_errors"
   ],
   "note": "No hypothesis on the panel or the options."
  },
  {
   "property": "C74",
   "status": "proved",
   "theorems": [
    "C74_common_shocks"
   ],
   "note": "panel_ok, unit-level trends_nonparam columns."
  },
  {
   "property": "C75",
   "status": "proved",
   "theorems": [
    "C75_effects_recovered",
    "C75_placebos_zero"
   ],
   "note": "panel_ok, unit-level trends_nonparam columns."
  },
  {
   "property": "C76",
   "status": "proved",
   "theorems": [
    "C76_row_order"
   ],
   "note": ""
  },
  {
   "property": "C77",
   "status": "proved",
   "theorems": [
    "C77_unit_linear_trends"
   ],
   "note": "panel_ok."
  },
  {
   "property": "C78",
   "status": "partial",
   "theorems": [
    "C78_normalized",
    "C78_bidirectional_refuted"
   ],
   "note": "Proved without bidirectional rows; C78_bidirectional_refuted: negative divisor, negative standard error with keep_bidirectional_switchers=True."
  },
  {
   "property": "C79",
   "status": "partial",
   "theorems": [
    "C79_average_total_effect_partial",
    "C79_average_total_effect_refuted"
   ],
   "note": "Proved for a common constant increase of treatment; C79_average_total_effect_refuted in general."
  },
  {
   "property": "C80",
   "status": "partial",
   "theorems": [
    "C80_same_switchers_refuted"
   ],
   "note": "C80_same_switchers_refuted: the placebo option overwrites the effect option, and has no effect alone."
  },
  {
   "property": "C81",
   "status": "partial",
   "theorems": [
    "C81_no_forbidden_comparison",
    "C81_missing_treatment_refuted"
   ],
   "note": "Proved when treatment is observed in every row; C81_missing_treatment_refuted otherwise."
  },
  {
   "property": "C82",
   "status": "partial",
   "theorems": [
    "C82_not_yet_switchers_refuted"
   ],
   "note": "C82_not_yet_switchers_refuted; not-yet-switchers are controls in the formula of C70 wherever a never-switcher is observed."
  },
  {
   "property": "C83",
   "status": "partial",
   "theorems": [
    "C83_one_cluster_per_unit_refuted"
   ],
   "note": "C83_one_cluster_per_unit_refuted."
  },
  {
   "property": "C84",
   "status": "partial",
   "theorems": [
    "C84_rows_after_crossing_partial",
    "C84_units_not_dropped_refuted"
   ],
   "note": "Only the rows from the crossing on are dropped (C84_rows_after_crossing_partial); C84_units_not_dropped_refuted."
  },
  {
   "property": "C85",
   "status": "partial",
   "theorems": [
    "C85_calendar_shift_partial",
    "C85_switch_at_zero_refuted",
    "C85_standard_error_refuted",
    "C85_gaps_refuted"
   ],
   "note": "Estimates proved when no first change gets the number 0; refuted for a first change at 0, for standard errors, and for gaps."
  },
  {
   "property": "C86",
   "status": "partial",
   "theorems": [
    "C86_weight_scale_partial",
    "C86_small_weights_refuted"
   ],
   "note": "Proved while the weights of the switchers total at least 1e-10 before and after; C86_small_weights_refuted below."
  },
  {
   "property": "C87",
   "status": "proved",
   "theorems": [],
   "note": "Stated with the value of the square-root routine squared; one experiment, unweighted, unclustered."
  },
  {
   "property": "C88",
   "status": "partial",
   "theorems": [],
   "note": "Missing: the degrees-of-freedom correction with clusters (refuted as documented in C83), weights, several cohorts."
  },
  {
   "property": "C89",
   "status": "partial",
   "theorems": [
    "C89_no_covariates_reg",
    "C89_no_covariates_ipw_dr",
    "C89_no_covariates_horvitz_thompson_partial",
    "C89_horvitz_thompson_refuted"
   ],
   "note": "Missing: ipw_did_rc in general (C89_horvitz_thompson_refuted); proved for it when treatment and period are independent in the weighted sample."
  },
  {
   "property": "C90",
   "status": "partial",
   "theorems": [
    "C90_weight_scale",
    "C90_row_order",
    "C90_affine_reg",
    "C90_affine_std_ipw",
    "C90_affine_trad",
    "C90_affine_local",
    "C90_horvitz_thompson_shift_refuted"
   ],
   "note": "Affine invariance does not hold for ipw_did_rc (C90_horvitz_thompson_shift_refuted)."
  },
  {
   "property": "C91",
   "status": "proved",
   "theorems": [
    "C91_estimates_as_means",
    "C91_local_with_intercept",
    "C91_exact_outcome_model"
   ],
   "note": ""
  },
  {
   "property": "C92",
   "status": "proved",
   "theorems": [
    "C92_inf_centred_reg",
    "C92_inf_centred_ps"
   ],
   "note": "Score equations are assumed for the clipped scores; true when no score is clipped."
  },
  {
   "property": "C93",
   "status": "partial",
   "theorems": [
    "C93_reg_inf_is_derivative",
    "C93_std_ipw_inf_is_derivative",
    "C93_horvitz_thompson_derivative",
    "C93_horvitz_thompson_equal_weights_partial",
    "C93_trad_derivative",
    "C93_local_derivative",
    "C93_dr_inf_is_derivative_partial",
    "C93_dr_inf_is_derivative_refuted",
    "C93_horvitz_thompson_refuted"
   ],
   "note": "Proved for reg_did_rc and std_ipw_did_rc; for the other three the exact correction term is proved and the claim refuted by a sample."
  },
  {
   "property": "C94",
   "status": "proved",
   "theorems": [
    "C94_bspline_basis",
    "C94_default_range",
    "C94_reduced",
    "C94_fails_iff"
   ],
   "note": ""
  },
  {
   "property": "C95",
   "status": "proved",
   "theorems": [
    "C95_derivative"
   ],
   "note": ""
  },
  {
   "property": "C96",
   "status": "proved",
   "theorems": [
    "C96_polynomials",
    "C96_with_intercept"
   ],
   "note": ""
  },
  {
   "property": "C97",
   "status": "proved",
   "theorems": [
    "C97_cell",
    "C97_overall"
   ],
   "note": "Balanced panels with periods labelled 1..T, positive doses for adopters, varying base period."
  },
  {
   "property": "C98",
   "status": "proved",
   "theorems": [
    "C98_polynomial_recovery"
   ],
   "note": ""
  },
  {
   "property": "C99",
   "status": "proved",
   "theorems": [],
   "note": ""
  },
  {
   "property": "C100",
   "status": "partial",
   "theorems": [
    "C100_weights",
    "C100_unestimated_cells_count_as_zero",
    "C100_weighted_average_refuted"
   ],
   "note": "The weights are as expected; the weighted-average claim fails when a cohort has a single dose level (C100_weighted_average_refuted; the exact formula is C100_unestimated_cells_count_as_zero)."
  },
  {
   "property": "C101",
   "status": "partial",
   "theorems": [],
   "note": "Centring and zero influence of never-treated units proved; four expected properties refuted on concrete panels."
  },
  {
   "property": "C102",
   "status": "partial",
   "theorems": [],
   "note": "Proved from adoption on; refuted for the anticipation window (C102_anticipating_cohorts_refuted)."
  },
  {
   "property": "C103",
   "status": "partial",
   "theorems": [],
   "note": "The expected invariance is refuted; the failure is characterised for all data with cohort labels beyond the number of periods."
  },
  {
   "property": "C104",
   "status": "proved",
   "theorems": [],
   "note": ""
  },
  {
   "property": "C105",
   "status": "partial",
   "theorems": [
    "C105_dose_weighted",
    "C105_fractional",
    "C105_binary",
    "C105_dose_response",
    "C105_mean_effect_refuted",
    "C105_dose_units_refuted",
    "C105_influence_mean_zero_refuted"
   ],
   "note": "Exact formulas for doses above one, fractional doses and binary treatment; the expected mean effect, dose-unit invariance and centring are refuted on concrete panels."
  },
  {
   "property": "C106",
   "status": "partial",
   "theorems": [
    "C106_event_means",
    "C106_balanced",
    "C106_slope_cells",
    "C106_slope_recovery",
    "C106_influence",
    "C106_influence_mean_zero",
    "C106_weight_term_refuted",
    "C106_row_alignment_refuted"
   ],
   "note": "Estimates, balancing, slope cells and centring proved; the influence values' weight term is characterised exactly and refuted as the expected one (scale and row order)."
  },
  {
   "property": "C107",
   "status": "proved",
   "theorems": [
    "C107_three_comparisons",
    "C107_no_covariates",
    "C107_all_cells_needed",
    "C107_invalid_raises",
    "C107_failed_fit_raises"
   ],
   "note": ""
  },
  {
   "property": "C108",
   "status": "proved",
   "theorems": [
    "C108_shocks",
    "C108_weight_scale",
    "C108_row_order"
   ],
   "note": ""
  },
  {
   "property": "C109",
   "status": "partial",
   "theorems": [
    "C109_centred",
    "C109_reg_ipw_inf_is_derivative",
    "C109_dr_derivative",
    "C109_dr_inf_is_derivative_partial",
    "C109_dr_inf_is_derivative_refuted"
   ],
   "note": "Centring and the derivative for reg and ipw proved; for dr the exact derivative is proved with its correction term, the claim itself proved only under exact pre-period balance and refuted in general."
  },
  {
   "property": "C110",
   "status": "proved",
   "theorems": [
    "C110_cell_equals_local",
    "C110_subgroup_code",
    "C110_empty_first_partition",
    "C110_empty_first_partition_refuted",
    "C110_no_effective_control_refuted"
   ],
   "note": "equality with the local estimator for all partitionings; refuted for an empty first partition and for a fully trimmed comparison group"
  },
  {
   "property": "C111",
   "status": "proved",
   "theorems": [
    "C111_multi_control",
    "C111_partition_free",
    "C111_partition_dependence_refuted"
   ],
   "note": "GMM combination of the local estimates of the visible control cohorts; partition dependence refuted when a cohort is not visible in the first partition"
  },
  {
   "property": "C112",
   "status": "proved",
   "theorems": [
    "C112_cell_equals_local",
    "C112_nonfinite_code_refuted"
   ],
   "note": "equality of the distributed and local cells from the long data; refuted for non-finite never-treated codes"
  },
  {
   "property": "C113",
   "status": "proved",
   "theorems": [
    "C113_estimates_as_totals",
    "C113_imp_is_tilted_regression",
    "C113_calibrated_scores_agree",
    "C113_exact_outcome_model",
    "C113_ht_level_dependent_refuted"
   ],
   "note": "all stated identities; the level dependence of ipw_did_panel is the refuted theorem"
  },
  {
   "property": "C114",
   "status": "proved",
   "theorems": [
    "C114_imp_affine",
    "C114_ht_affine",
    "C114_ht_shift_when_calibrated",
    "C114_ht_shift_refuted",
    "C114_weight_scale",
    "C114_unit_order",
    "C114_no_covariates"
   ],
   "note": "the shift behaviour of ipw_did_panel is characterised exactly; the invariance a user expects is refuted for it"
  },
  {
   "property": "C115",
   "status": "proved",
   "theorems": [
    "C115_imp_centred",
    "C115_ht_centred",
    "C115_imp_inf_is_derivative",
    "C115_ht_inf_is_derivative"
   ],
   "note": ""
  },
  {
   "property": "C116",
   "status": "partial",
   "theorems": [
    "C116_gradient_is_derivative",
    "C116_minimiser_is_calibrated",
    "C116_calibrated_is_minimiser",
    "C116_improved_estimate",
    "C116_fallback_gradient",
    "C116_fallback_unit_weights_partial",
    "C116_fallback_stationary",
    "C116_fallback_ignores_treated_weights",
    "C116_fallback_weights_refuted"
   ],
   "note": "gradient, hessian, minimiser = calibration in both directions, end-to-end estimate proved; the fallback objective balances only for unit weights (refuted with sampling weights). Existence of a minimiser and convergence of the optimiser are not modelled."
  },
  {
   "property": "C117",
   "status": "partial",
   "theorems": [
    "C117_covariates_do_not_matter",
    "C117_without_covariates",
    "C117_leading_ones",
    "C117_influence",
    "C117_standard_error",
    "C117_standard_error_refuted",
    "C117_no_treated_refuted"
   ],
   "note": "estimate, invariance and influence values proved; independence of the standard error from unit levels and the answer without treated units refuted"
  },
  {
   "property": "C118",
   "status": "proved",
   "theorems": [
    "C118_four_cells",
    "C118_no_covariates",
    "C118_leading_ones",
    "C118_influence_centred",
    "C118_standard_error",
    "C118_influence_is_derivative",
    "C118_weight_scale"
   ],
   "note": ""
  },
  {
   "property": "C119",
   "status": "proved",
   "theorems": [
    "C119_accepted",
    "C119_estimates",
    "C119_units_unique",
    "C119_rejected",
    "C119_row_order",
    "C119_period_labels",
    "C119_pre_covariates",
    "C119_weight_units",
    "C119_incomplete_units",
    "C119_no_covariates",
    "C119_treated_lost_refuted",
    "C119_trim_level"
   ],
   "note": "the exact acceptance condition and all invariances proved; that an estimate needs treated units is refuted for ordid. NaN values and formulas with stateful transforms are not modelled."
  },
  {
   "property": "C120",
   "status": "proved",
   "theorems": [
    "C120_accepted",
    "C120_estimates",
    "C120_rejected",
    "C120_missing_rows",
    "C120_irrelevant",
    "C120_row_order",
    "C120_no_covariates",
    "C120_trim_level"
   ],
   "note": ""
  },
  {
   "property": "C121",
   "status": "proved",
   "theorems": [
    "C121_no_covariates",
    "C121_estimates_as_means",
    "C121_regression_form",
    "C121_exact_outcome_model",
    "C121_balance"
   ],
   "note": "with the odds fits and the least squares as inputs meeting their defining equations; the balance of the IPT score itself is C116"
  },
  {
   "property": "C122",
   "status": "partial",
   "theorems": [
    "C122_weight_scale",
    "C122_row_order",
    "C122_affine_imp",
    "C122_affine_local",
    "C122_centred",
    "C122_imp_derivative",
    "C122_local_derivative",
    "C122_inf_is_derivative_partial",
    "C122_raises",
    "C122_enough_rows"
   ],
   "note": "invariances, centring, raising conditions and the exact derivative formula proved; influence values equal the derivative only under covariate balance (C122_inf_is_derivative_partial); smoothness of the fits is a hypothesis"
  },
  {
   "property": "C123",
   "status": "proved",
   "theorems": [
    "C123_statistic",
    "C123_sign",
    "C123_answered",
    "C123_order",
    "C123_units",
    "C123_post_cells",
    "C123_distributed",
    "C123_cont_did_same",
    "C123_cont_did_universal",
    "C123_same_test_in_cont_did_refuted"
   ],
   "note": "rank test, solver and chi-square distribution are inputs; NaN covariances not modelled; anticipation plays no role in the selection of tested cells"
  }
 ]
}