{
 "claims": [
  {
   "property": "C01",
   "status": "proved",
   "theorems": [
    "c01_year_steps_exact"
   ],
   "note": ""
  },
  {
   "property": "C02",
   "status": "proved",
   "theorems": [
    "c02_year_order",
    "c02_year_distance_additive",
    "c02_other_class_rejected"
   ],
   "note": ""
  },
  {
   "property": "C03",
   "status": "proved",
   "theorems": [
    "c03_year_stays_valid",
    "c03_day_stays_valid",
    "c03_constructors_exact"
   ],
   "note": ""
  },
  {
   "property": "C04",
   "status": "proved",
   "theorems": [
    "c04_year_round_trip"
   ],
   "note": ""
  },
  {
   "property": "C05",
   "status": "partial",
   "theorems": [
    "c05_membership",
    "c05_outside",
    "c05_length_partial",
    "c05_length_single_refuted",
    "c05_distance_forward",
    "c05_distance_backward_partial",
    "c05_distance_backward_refuted"
   ],
   "note": "Membership, outside test and forward distance exact for all ranges; length exact for ranges of two or more days and refuted (8 instead of 1) for one-day ranges; backward distance exact when it does not cross the week end and refuted whenever it does."
  },
  {
   "property": "C06",
   "status": "proved",
   "theorems": [
    "c06_week_steps_exact",
    "c06_week_order",
    "c06_week_distance_additive"
   ],
   "note": ""
  },
  {
   "property": "C07",
   "status": "partial",
   "theorems": [
    "c07_daily_in_week_steps",
    "c07_daily_in_week_order",
    "c07_constructor_moves_into_range",
    "c07_single_day_distance_refuted"
   ],
   "note": "Stepping, visiting order and construction proved for all ranges; Minus exact for ranges of two or more days, refuted for every one-day range (8n instead of n)."
  },
  {
   "property": "C08",
   "status": "partial",
   "theorems": [
    "c08_day_steps_exact",
    "c08_single_day_distance_refuted"
   ],
   "note": "Proved for every underlying day; the Minus/CompareTo part excludes an underlying one-day daily-in-week range, for which it is refuted."
  },
  {
   "property": "C09",
   "status": "proved",
   "theorems": [
    "c09_list_steps_exact",
    "c09_date_list_steps_exact",
    "c09_place_unique"
   ],
   "note": "Same place, same text and same list; the stored Value outside the list may differ, so equality is stated up to it."
  },
  {
   "property": "C10",
   "status": "partial",
   "theorems": [
    "c10_list_order_inside_partial",
    "c10_list_order_outside_refuted"
   ],
   "note": "Proved inside the list; refuted outside: CompareTo ignores OutIndex."
  },
  {
   "property": "C11",
   "status": "partial",
   "theorems": [
    "c11_other_round_trip",
    "c11_list_round_trip",
    "c11_list_text_refuted"
   ],
   "note": "Round trips proved for all other classes (years/days in the range of int / of boost dates; lists through ParseList). Refuted for an empty list and for lists read with the general Parse (items are never set; using the result is undefined)."
  },
  {
   "property": "C12",
   "status": "proved",
   "theorems": [
    "c12_class_string_identifies"
   ],
   "note": ""
  },
  {
   "property": "C13",
   "status": "partial",
   "theorems": [
    "c13_trim_exact",
    "c13_empty_variable_refuted"
   ],
   "note": "Exact for every non-empty variable; refuted for an empty one (reads outside the array)."
  },
  {
   "property": "C14",
   "status": "partial",
   "theorems": [
    "c14_interpolate_exact",
    "c14_empty_array_refuted"
   ],
   "note": "Exact for every non-empty array; refuted for the empty array (reads outside)."
  },
  {
   "property": "C15",
   "status": "partial",
   "theorems": [
    "c15_partition_forward",
    "c15_partition_from_end",
    "c15_empty_block_refuted"
   ],
   "note": "Exact from the start, and from the end when the size does not divide the length; otherwise an empty block is added in front (refuted, for every array)."
  },
  {
   "property": "C16",
   "status": "partial",
   "theorems": [
    "c16_multi_day_from_start",
    "c16_multi_day_from_end_partial",
    "c16_dates_from_end_refuted"
   ],
   "note": "Exact from the start. From the end: exact values, but the dates of the result do not follow the blocks (refuted)."
  },
  {
   "property": "C17",
   "status": "partial",
   "theorems": [
    "c17_text_round_trip",
    "c17_fields_any_order",
    "c17_small_numbers_refuted",
    "c17_no_fields_refuted",
    "c17_no_data_refuted"
   ],
   "note": "Proved for variables with data and fields and no separator characters in names and keys, data up to half a unit of the 16th decimal; refuted for small numbers, no fields, no data."
  },
  {
   "property": "C18",
   "status": "partial",
   "theorems": [
    "c18_aligned_by_date",
    "c18_no_observations",
    "c18_range_of_column",
    "c18_lists_refuted"
   ],
   "note": "Proved for all frequencies but lists; refuted for list frequencies (the order ignores the number of steps outside the list)."
  },
  {
   "property": "C19",
   "status": "proved",
   "theorems": [
    "c19_weekly_exact"
   ],
   "note": ""
  },
  {
   "property": "C20",
   "status": "partial",
   "theorems": [
    "c20_from_weekdays",
    "c20_from_dates",
    "c20_mid_week_refuted",
    "c20_other_start_refuted"
   ],
   "note": "Exact for daily-in-week variables that start on the first day of the range and for date lists from their first date; refuted for other starts."
  },
  {
   "property": "C21",
   "status": "partial",
   "theorems": [
    "c21_range_exact",
    "c21_empty_array_refuted"
   ],
   "note": "Exact for every non-empty array; refuted for the empty array."
  },
  {
   "property": "C22",
   "status": "partial",
   "theorems": [
    "c22_running_moments",
    "c22_lower_orders",
    "c22_unweighted",
    "c22_zero_weight_first_refuted"
   ],
   "note": "Exact for positive weights; refuted when the first weight is zero (0/0 makes the mean NaN for ever)."
  },
  {
   "property": "C23",
   "status": "proved",
   "theorems": [
    "c23_combine_is_concatenation",
    "c23_split_independent"
   ],
   "note": ""
  },
  {
   "property": "C24",
   "status": "proved",
   "theorems": [
    "c24_inverse",
    "c24_inverse_image",
    "c24_formula",
    "c24_increasing",
    "c24_limit",
    "c24_nan",
    "c24_array",
    "c24_negative"
   ],
   "note": "Over the real numbers (axioms of Coq's real numbers); includes monotonicity, the limit at lambda 0 and arrays."
  },
  {
   "property": "C25",
   "status": "partial",
   "theorems": [
    "c25_get",
    "c25_in_range",
    "c25_set",
    "c25_set_get",
    "c25_linear_index",
    "c25_set_linear",
    "c25_vector_access",
    "c25_vector_only",
    "c25_restructure",
    "c25_last_refuted"
   ],
   "note": "Proved for all shapes and indexes; Last() is refuted (reads behind the matrix)."
  },
  {
   "property": "C26",
   "status": "partial",
   "theorems": [
    "c26_transpose",
    "c26_transpose_to",
    "c26_transpose_twice",
    "c26_transpose_overflow_refuted",
    "c26_transpose_empty_refuted"
   ],
   "note": "Proved for square matrices and for all others whose index products fit an int; refuted for long row vectors (signed overflow) and empty non-square matrices (error)."
  },
  {
   "property": "C27",
   "status": "proved",
   "theorems": [
    "c27_places",
    "c27_length",
    "c27_get",
    "c27_set"
   ],
   "note": ""
  },
  {
   "property": "C28",
   "status": "partial",
   "theorems": [
    "c28_set_sub",
    "c28_set_sub_t",
    "c28_get_sub",
    "c28_get_sub_rejects",
    "c28_get_sub_storage_refuted",
    "c28_negative_start_refuted",
    "c28_get_sub_listed",
    "c28_get_sub_lists",
    "c28_index_not_checked_refuted",
    "c28_set_sub_vector",
    "c28_get_sub_vector",
    "c28_set_row_value",
    "c28_set_row",
    "c28_set_row_from_row",
    "c28_set_row_from_diag",
    "c28_set_sub_row",
    "c28_get_row",
    "c28_set_column_value",
    "c28_set_column",
    "c28_set_column_from_column",
    "c28_set_column_from_row",
    "c28_set_column_from_diag",
    "c28_get_column",
    "c28_get_diag",
    "c28_bad_numbers",
    "c28_set_column_from_row_refuted",
    "c28_set_column_from_column_refuted",
    "c28_short_source_refuted"
   ],
   "note": "Proved for requests that fit (starts not negative); refuted: negative starts, GetSub's storage check is reversed, listed indexes unchecked, SetColumnFromRow of non-square matrices, SetColumnFromColumn with another number of rows, sources too short."
  },
  {
   "property": "C29",
   "status": "partial",
   "theorems": [
    "c29_kron",
    "c29_kron_place",
    "c29_kron_iden",
    "c29_iden_kron",
    "c29_tr_kron_iden",
    "c29_diag_dot",
    "c29_dot_diag",
    "c29_dot_diag_refuted"
   ],
   "note": "Kronecker products and DiagDot proved; DotDiag proved for square matrices and refuted for others."
  },
  {
   "property": "C30",
   "status": "partial",
   "theorems": [
    "c30_dataset",
    "c30_rows",
    "c30_complete",
    "c30_missing_list",
    "c30_size",
    "c30_column_not_checked_refuted"
   ],
   "note": "Proved for all matrices, selections and NaN patterns; column numbers outside the matrix are not checked (refuted)."
  },
  {
   "property": "C31",
   "status": "partial",
   "theorems": [
    "c31_sort_indexes",
    "c31_unique",
    "c31_sort_by_vector",
    "c31_sort_by_vector_refuted"
   ],
   "note": "Sorting proved for all vectors; SortByVector exact for non-empty vectors, refuted for an empty vector and negative positions (undefined behaviour)."
  },
  {
   "property": "C32",
   "status": "proved",
   "theorems": [
    "c32_size",
    "c32_rounding",
    "c32_partition",
    "c32_order"
   ],
   "note": ""
  },
  {
   "property": "C33",
   "status": "partial",
   "theorems": [
    "c33_labels",
    "c33_partition",
    "c33_succeeds",
    "c33_overflow_refuted",
    "c33_both_sides_refuted"
   ],
   "note": "Proved: labels are checked, whenever the split succeeds it is a partition with the stated class sizes, and exactly when it succeeds. Refuted: (a) a largest class that is too small to fill the training part makes the test part overflow its storage before the size check throws; (b) the largest class may get no test row."
  },
  {
   "property": "C34",
   "status": "partial",
   "theorems": [
    "c34_auc",
    "c34_epsilon",
    "c34_range",
    "c34_order",
    "c34_points",
    "c34_partial_auc",
    "c34_rejected",
    "c34_costs",
    "c34_cost_matrix_refuted",
    "c34_pessimistic_refuted"
   ],
   "note": "Proved (pair counting, ties, weights, tolerance, thresholds, costs of observations) for all inputs without the pessimistic option. Refuted: a cost matrix laid out as documented is always rejected; the pessimistic option changes the area even without ties."
  },
  {
   "property": "C35",
   "status": "partial",
   "theorems": [
    "c35_check",
    "c35_brackets",
    "c35_calculate",
    "c35_range",
    "c35_bracket_refuted"
   ],
   "note": "Validation, brackets and charges proved for all tables, labels and weights; refuted: an accepted table need not reach 1, so probabilities above its last bound are charged from another column or read outside the table."
  },
  {
   "property": "C36",
   "status": "proved",
   "theorems": [
    "c36_inverse",
    "c36_inverse_weight",
    "c36_order",
    "c36_range",
    "c36_default_nan"
   ],
   "note": "Over the real numbers (axioms of Coq's real numbers). The default minimum (NaN) gives NaN weights (c36_default_nan)."
  },
  {
   "property": "C37",
   "status": "partial",
   "theorems": [
    "c37_gof",
    "c37_distance",
    "c37_linkage",
    "c37_correlation",
    "c37_link",
    "c37_model",
    "c37_function",
    "c37_descriptive",
    "c37_class",
    "c37_scoring_partial",
    "c37_rmspe_refuted",
    "c37_round_trip",
    "c37_long_names_refuted",
    "c37_case_refuted"
   ],
   "note": "Exact description of the accepted strings for ten enumerations; refuted: no string parses to RMSPE, ToString names of most enumerations are rejected by FromString, capital letters are rejected."
  },
  {
   "property": "C38",
   "status": "partial",
   "theorems": [
    "c38_multiply",
    "c38_multiply_object",
    "c38_multiply_value",
    "c38_power_partial",
    "c38_power_value",
    "c38_power_refuted",
    "c38_trim",
    "c38_matrix_multiply_partial",
    "c38_scalar_multiply_partial",
    "c38_matrix_reuse_refuted",
    "c38_invert_partial",
    "c38_singular_refuted",
    "c38_monic",
    "c38_matrix_trim"
   ],
   "note": "Products (scalar, matrix by matrix, matrix by scalar), powers, values, trimming, IsMonic and inversion (relative to the contract of dgetrf/dgetri) proved for all lengths and truncations. Refuted: a power of a polynomial longer than maxLength writes outside its storage; a second Calculate of a matrix-polynomial object appends to the first result; a singular first coefficient is not reported."
  },
  {
   "property": "C39",
   "status": "partial",
   "theorems": [
    "c39_invalid",
    "c39_sizes",
    "c39_distinct_partial",
    "c39_duplicates_refuted",
    "c39_max_partial",
    "c39_max_refuted"
   ],
   "note": "Errors, lag sets, parameter counts proved for every specification; order, largest lag and usable observations proved if the seasonal lags are behind the others. Refuted: for s <= p a lag is listed (and counted) twice, for p > s*P the last lag is taken for the largest."
  },
  {
   "property": "C40",
   "status": "proved",
   "theorems": [
    "c40_polynomial"
   ],
   "note": "Value at every point, degree and effect on every series, for any content of the work array of the declared size; integers without overflow of the coefficients."
  },
  {
   "property": "C41",
   "status": "partial",
   "theorems": [
    "c41_general_partial",
    "c41_general_refuted",
    "c41_fewer_refuted",
    "c41_final",
    "c41_unrestricted"
   ],
   "note": "Both forms proved. Refuted: repeated or invalid indexes write outside the storage; with fewer indexes than declared the error comes after zeros were written behind the storage."
  },
  {
   "property": "C42",
   "status": "proved",
   "theorems": [
    "c42_search_visits_every_model_once"
   ],
   "note": ""
  },
  {
   "property": "C43",
   "status": "proved",
   "theorems": [
    "c43_count_equals_estimated",
    "c43_count_closed_form"
   ],
   "note": ""
  },
  {
   "property": "C44",
   "status": "partial",
   "theorems": [
    "c44_fixed_items_exact",
    "c44_fixed_items_unsorted_refuted"
   ],
   "note": "Exact for partitions with sorted items and sorted first items; refuted for partitions whose first items are not sorted (the search stops early)."
  },
  {
   "property": "C45",
   "status": "proved",
   "theorems": [
    "c45_best_list"
   ],
   "note": ""
  },
  {
   "property": "C46",
   "status": "proved",
   "theorems": [
    "c46_combined_bests",
    "c46_schedule_independent",
    "c46_same_models",
    "c46_nothing_kept",
    "c46_all_models"
   ],
   "note": ""
  },
  {
   "property": "C47",
   "status": "proved",
   "theorems": [
    "c47_accounting",
    "c47_merged_accounting"
   ],
   "note": ""
  },
  {
   "property": "C48",
   "status": "partial",
   "theorems": [
    "c48_lower_bound",
    "c48_upper_bound",
    "c48_upper_bound_negative_refuted"
   ],
   "note": "Lower bound always exact; upper bound exact when some upper end is at least DBL_MIN; refuted when all upper ends are negative (numeric_limits<double>::min() used as initial value)."
  },
  {
   "property": "C49",
   "status": "proved",
   "theorems": [
    "c49_inclusion_weights"
   ],
   "note": ""
  },
  {
   "property": "C50",
   "status": "proved",
   "theorems": [
    "c50_calculate_binary_tree",
    "c50_nothing_to_cluster"
   ],
   "note": ""
  },
  {
   "property": "C51",
   "status": "proved",
   "theorems": [
    "c51_single",
    "c51_complete",
    "c51_average",
    "c51_weighted",
    "c51_ward",
    "c51_not_vacuous"
   ],
   "note": ""
  },
  {
   "property": "C52",
   "status": "proved",
   "theorems": [
    "c52_group_partition"
   ],
   "note": ""
  },
  {
   "property": "C53",
   "status": "partial",
   "theorems": [
    "c53_group_undoes_last_merges_partial",
    "c53_highest_merges_refuted"
   ],
   "note": "Proved: the k-1 merges created last are undone, which is right when heights never fall in creation order; refuted in general with four items."
  },
  {
   "property": "C54",
   "status": "partial",
   "theorems": [
    "c54_removal_partial",
    "c54_close_variable_kept_refuted",
    "c54_distant_variable_removed_refuted",
    "c54_removed_variables_refuted"
   ],
   "note": "For single linkage no close pair is left, for complete linkage only close variables are removed; both directions of the full claim are refuted because the clustering overwrites the distances, and Removed has positions, not variables."
  },
  {
   "property": "C55",
   "status": "partial",
   "theorems": [
    "c55_total",
    "c55_small_storage_refuted",
    "c55_counts",
    "c55_half_open_partial",
    "c55_documented_partial",
    "c55_inner_point_refuted",
    "c55_ties_split_refuted",
    "c55_given_axis",
    "c55_no_data",
    "c55_equal_bins",
    "c55_single_minimum_refuted",
    "c55_size",
    "c55_given_range",
    "c55_empty_range",
    "c55_auto_range",
    "c55_auto_bins",
    "c55_one_bin_refuted",
    "c55_negative_bins_refuted",
    "c55_small_sample_refuted",
    "c55_reversed_range_refuted",
    "c55_equal_quartiles_refuted"
   ],
   "note": "Proved: every observation is counted exactly once for any data and axis; the exact counts for sorted data and increasing axes (half-open bins, last observation special); axis, range and bin number of Compute. Refuted: an untied largest observation on an inner axis point is counted one bin too low; ties at the last point are split; one bin counts observations outside of the range; negative bincount (documented as automatic) is undefined behaviour; automatic bincount is 0 for small samples; a given minimum above the data is not rejected."
  },
  {
   "property": "C56",
   "status": "partial",
   "theorems": [
    "c56_line_search",
    "c56_line_search_throws",
    "c56_newton",
    "c56_newton_quadratic",
    "c56_newton_plain_refuted",
    "c56_nelder_mead",
    "c56_penalty",
    "c56_bounds_checked",
    "c56_work",
    "c56_no_number_refuted",
    "c56_bounds_refuted",
    "c56_minimize1",
    "c56_minimize1_converged",
    "c56_minimize1_cycles_refuted",
    "c56_minimize1_bounds_refuted"
   ],
   "note": "Proved under the contract of dposv. Exact numbers; minus infinity and NaN inside a gradient are not modelled. Refuted: Newton without line search never re-evaluates the gradient; Nelder-Mead with no number in the first simplex accesses index -1; bounds are soft (documented penalty), Minimize1's penalty vanishes at 0; Minimize1 cycles on ties."
  },
  {
   "property": "C57",
   "status": "proved",
   "theorems": [
    "c57_split_join",
    "c57_join_split",
    "c57_split_multiple",
    "c57_split_multiple_join",
    "c57_join_split_multiple",
    "c57_index_of"
   ],
   "note": ""
  },
  {
   "property": "C58",
   "status": "proved",
   "theorems": [
    "c58_rank",
    "c58_order",
    "c58_monotone",
    "c58_size"
   ],
   "note": "Proved for all matrices without NaN; Rank has no handling of NaN."
  },
  {
   "property": "C59",
   "status": "proved",
   "theorems": [
    "c59_cancel_terminates",
    "c59_cancel_prefix"
   ],
   "note": ""
  },
  {
   "property": "C60",
   "status": "partial",
   "theorems": [
    "c60_check_empty_exact",
    "c60_models_with_a_target_estimated_refuted"
   ],
   "note": "Exact characterisation proved; the claim that every model with a target is estimated is refuted when partitions are not ordered."
  },
  {
   "property": "C61",
   "status": "proved",
   "theorems": [
    "c61_mixture_of_normals"
   ],
   "note": ""
  },
  {
   "property": "C62",
   "status": "partial",
   "theorems": [
    "c62_array_mean_variance",
    "c62_all_missing_refuted"
   ],
   "note": "Exact with at least one known observation; for every all-missing array the code dereferences a null pointer (refuted)."
  },
  {
   "property": "C63",
   "status": "partial",
   "theorems": [
    "c63_zero_year_multiple_refuted"
   ],
   "note": "Refuted: the constructor accepts a zero multiple; Minus then divides by zero."
  },
  {
   "property": "C64",
   "status": "proved",
   "theorems": [
    "c64_month_periods"
   ],
   "note": ""
  },
  {
   "property": "C65",
   "status": "partial",
   "theorems": [
    "c65_equal_parts",
    "c65_one_part_refuted"
   ],
   "note": "Proved for 2 to 182 parts (exact arithmetic, which agrees with the doubles of the code in this range); refuted for one part a year (all years are merged)."
  },
  {
   "property": "C66",
   "status": "partial",
   "theorems": [
    "c66_merge_matrix",
    "c66_single_item_refuted"
   ],
   "note": "Proved for two or more items; one item reads outside an empty vector (refuted)."
  },
  {
   "property": "C67",
   "status": "proved",
   "theorems": [
    "c67_heights_rise"
   ],
   "note": ""
  },
  {
   "property": "C68",
   "status": "partial",
   "theorems": [
    "c68_distances_unchanged_refuted",
    "c68_direction_of_change_partial"
   ],
   "note": "Refuted; the direction of the change for single and complete linkage is proved."
  },
  {
   "property": "C69",
   "status": "partial",
   "theorems": [
    "c69_groups_fresh",
    "c69_removed_stale_refuted"
   ],
   "note": "Groups do not depend on earlier calls; Removed and NaNDistanceFound do (refuted)."
  },
  {
   "property": "C70",
   "status": "proved",
   "theorems": [
    "c70_remove_nan_vector",
    "c70_remove_columns",
    "c70_remove_columns_any_nan"
   ],
   "note": ""
  },
  {
   "property": "C71",
   "status": "partial",
   "theorems": [
    "c71_dot",
    "c71_dot_tr",
    "c71_tr_dot",
    "c71_tr_dot_tr",
    "c71_sizes",
    "c71_vector_dot_vector",
    "c71_dot_vector",
    "c71_t_dot_vector",
    "c71_dot_aat",
    "c71_dot_ata",
    "c71_dot_ata_symmetric",
    "c71_dot_ata_nan",
    "c71_sym_dot",
    "c71_dot_sym_partial",
    "c71_dot_sym_refuted"
   ],
   "note": "Proved relative to the contracts of the BLAS routines (modelled), for non-empty matrices; DotSym reads the other triangle than the caller names (refuted; right for fully stored symmetric matrices)."
  },
  {
   "property": "C72",
   "status": "proved",
   "theorems": [
    "c72_scalar",
    "c72_matrices",
    "c72_multiply_beta"
   ],
   "note": ""
  },
  {
   "property": "C73",
   "status": "partial",
   "theorems": [
    "c73_data",
    "c73_update",
    "c73_no_nan",
    "c73_index_checked",
    "c73_disjoint_refuted",
    "c73_empty_selection_refuted",
    "c73_plain_copy_end_refuted",
    "c73_reuse_refuted"
   ],
   "note": "Window and contents proved; refuted: windows that do not overlap give negative sizes instead of an error, an empty selection overflows, End is not set for a plain copy, marks of earlier data survive a second Data."
  },
  {
   "property": "C74",
   "status": "proved",
   "theorems": [
    "c74_trapezoids",
    "c74_vertical",
    "c74_parts"
   ],
   "note": ""
  },
  {
   "property": "C75",
   "status": "proved",
   "theorems": [
    "c75_difference",
    "c75_undifference",
    "c75_round_trip",
    "c75_seasonal"
   ],
   "note": "Proved over the rationals (no NaN, no rounding)."
  },
  {
   "property": "C76",
   "status": "partial",
   "theorems": [
    "c76_arrays_partial",
    "c76_lags_refuted"
   ],
   "note": "Proved if no lag exceeds the last one in the list; refuted otherwise (p > s*P: always reads before the data)."
  },
  {
   "property": "C77",
   "status": "partial",
   "theorems": [
    "c77_path_partial",
    "c77_errors",
    "c77_short_sample_refuted",
    "c77_new_exogenous_refuted",
    "c77_no_levels_refuted"
   ],
   "note": "The whole path (levels, differences, exogenous time, residual time) proved for every valid specification whose last lag is the largest. Missing: forecast variances. Refuted: MA lags longer than the sample and new exogenous data shorter than the horizon read outside the arrays; without the undifferenced data the path starts with differences taken for levels."
  },
  {
   "property": "C78",
   "status": "partial",
   "theorems": [
    "c78_value",
    "c78_interpolation_unique",
    "c78_range",
    "c78_monotone",
    "c78_ends",
    "c78_empty_refuted"
   ],
   "note": "Proved for every non-empty array and level; refuted for an empty array (reads outside)."
  },
  {
   "property": "C79",
   "status": "partial",
   "theorems": [
    "c79_min_max",
    "c79_mean",
    "c79_variance_flag_refuted",
    "c79_moments_partial",
    "c79_many_observations_refuted",
    "c79_sum_of_squares",
    "c79_skewness"
   ],
   "note": "Minimum, maximum, mean, sums of squares for all lengths; variance, skewness (real numbers, sum of squares positive) and kurtosis up to 46340 observations. Refuted: MeanVariance divides by n for the sample variance and by n-1 otherwise; more than 46340 observations overflow an int."
  },
  {
   "property": "C80",
   "status": "partial",
   "theorems": [
    "c80_autoregressive",
    "c80_autoregressive_errors",
    "c80_moving_average",
    "c80_inside",
    "c80_no_coefficients_refuted"
   ],
   "note": "Both filters proved for all lengths; refuted: a moving average without coefficients writes before its storage."
  },
  {
   "property": "C81",
   "status": "proved",
   "theorems": [
    "c81_additive",
    "c81_multiplicative",
    "c81_unknown_season",
    "c81_no_coefficients"
   ],
   "note": "Additive and multiplicative decompositions proved if every season has a known value (multiplicative: no zero divisors); default coefficients are an error."
  },
  {
   "property": "C82",
   "status": "proved",
   "theorems": [
    "c82_least_squares",
    "c82_too_short"
   ],
   "note": "Optimality and uniqueness against every other line."
  },
  {
   "property": "C83",
   "status": "partial",
   "theorems": [
    "c83_ols",
    "c83_resid",
    "c83_succeeds",
    "c83_refused",
    "c83_sizes_refuted"
   ],
   "note": "Proved under the contract of LAPACK (exact inverse or info <> 0). Refuted: the check of the declared sizes is reversed (smaller data are refused, larger data are accepted and leave the arrays)."
  },
  {
   "property": "C84",
   "status": "proved",
   "theorems": [
    "c84_gls",
    "c84_resid",
    "c84_succeeds",
    "c84_succeeds_inverting",
    "c84_identity"
   ],
   "note": "Proved under the contract of LAPACK. The size check of Gls has the same defect as that of Ols."
  },
  {
   "property": "C85",
   "status": "partial",
   "theorems": [
    "c85_extreme",
    "c85_place",
    "c85_empty_refuted",
    "c85_row",
    "c85_column"
   ],
   "note": "Defect: the place in a matrix without rows needs a division by zero (c85_empty_refuted). In a line without a number the place is not set."
  },
  {
   "property": "C86",
   "status": "partial",
   "theorems": [
    "c86_sum",
    "c86_mean",
    "c86_mean_nan_partial",
    "c86_mean_nan_refuted",
    "c86_variance",
    "c86_variance_column",
    "c86_variance_sign",
    "c86_all_nan_refuted",
    "c86_one_row_refuted",
    "c86_covariance_column",
    "c86_covariance_columns_checked",
    "c86_covariance_laws",
    "c86_rows_sum",
    "c86_columns_sum",
    "c86_columns_mean",
    "c86_columns_variance",
    "c86_columns_sizes",
    "c86_no_rows_refuted",
    "c86_columns_means",
    "c86_columns_variances",
    "c86_columns_variances_nan"
   ],
   "note": "Defects: Mean with a check for NaN divides by the index which counts the NaNs (c86_mean_nan_refuted; right if NaNs come last, c86_mean_nan_partial); sample statistics of no observation are 0 instead of NaN (c86_all_nan_refuted, c86_no_rows_refuted); one row gives NaN where one number in several rows gives 0 (c86_one_row_refuted)."
  },
  {
   "property": "C87",
   "status": "partial",
   "theorems": [
    "c87_pearson",
    "c87_pearson_nan",
    "c87_spearman",
    "c87_spearman_nan",
    "c87_monotone",
    "c87_psd",
    "c87_sizes",
    "c87_no_rows_refuted",
    "c87_no_pairs_refuted"
   ],
   "note": "Defects: no rows, or a pair of columns without complete rows for Spearman, is an exception in place of NaN (c87_no_rows_refuted); sample covariances of no pairs are 0 and one row differs between the two branches (c87_no_pairs_refuted)."
  },
  {
   "property": "C88",
   "status": "partial",
   "theorems": [
    "c88_pearson",
    "c88_column",
    "c88_pearson_nan",
    "c88_spearman",
    "c88_spearman_nan",
    "c88_range",
    "c88_extreme",
    "c88_affine",
    "c88_symmetric",
    "c88_diagonal",
    "c88_monotone",
    "c88_constant_refuted",
    "c88_counts_refuted",
    "c88_column_variances_refuted"
   ],
   "note": "Real arithmetic is exact (no rounding). Defects: constant columns give NaN or 1 depending on the check for NaNs (c88_constant_refuted); the counts of the diagonal are never written (c88_counts_refuted); variances of CorrelationColumn with NaNs left out are divided by the number of rows (c88_column_variances_refuted)."
  },
  {
   "property": "C89",
   "status": "partial",
   "theorems": [
    "c89_sums",
    "c89_maximum",
    "c89_correlation",
    "c89_too_small",
    "c89_triangle",
    "c89_zero",
    "c89_disjoint_refuted",
    "c89_triangle_refuted",
    "c89_maximum_nan_refuted"
   ],
   "note": "Real arithmetic is exact. Defects: with NaNs left out, two columns without a common observation have distance 0 (Euclidean, Manhattan, correlations) or -INFINITY (maximum) (c89_disjoint_refuted); the triangle inequality fails with NaNs left out (c89_triangle_refuted); the maximum ignores NaNs even without the check (c89_maximum_nan_refuted)."
  },
  {
   "property": "C90",
   "status": "proved",
   "theorems": [
    "c90_no_undefined",
    "c90_layout",
    "c90_rejects",
    "c90_ols",
    "c90_variance",
    "c90_details",
    "c90_solves",
    "c90_singular"
   ],
   "note": "Exact arithmetic; LAPACK's inverse is a parameter with the contract as hypothesis (sur_call), the tail probability of the t distribution and the Cholesky determinant are parameters. The t distribution has N degrees of freedom. The goodness-of-fit numbers are not in this property."
  },
  {
   "property": "C91",
   "status": "partial",
   "theorems": [
    "c91_gls",
    "c91_same_as_ols",
    "c91_details",
    "c91_condition_refuted",
    "c91_null_refuted"
   ],
   "note": "Defects: the reported condition number is not that of the matrix that is inverted (c91_condition_refuted); a restricted model without restriction matrix reads a null pointer (c91_null_refuted)."
  },
  {
   "property": "C92",
   "status": "partial",
   "theorems": [
    "c92_search",
    "c92_fixed_point",
    "c92_estimates",
    "c92_all_pass_refuted"
   ],
   "note": "Defect: if all coefficients pass at once, the restriction matrix is left at zero and all standard errors are zero (c92_all_pass_refuted)."
  },
  {
   "property": "C93",
   "status": "partial",
   "theorems": [
    "c93_estimated",
    "c93_projection",
    "c93_rejects",
    "c93_columns",
    "c93_layout",
    "c93_in_sample",
    "c93_variances",
    "c93_unrestricted",
    "c93_restricted",
    "c93_all_pass_refuted",
    "c93_flag_refuted"
   ],
   "note": "Defects: after a search in which all coefficients pass, the variances lack the part of the coefficients (c93_all_pass_refuted); SurExtended makes unrestricted projections for a model that the search makes restricted, and then variances are an exception (c93_flag_refuted). Semidefiniteness for restricted models assumes that the first residual covariances are invertible."
  },
  {
   "property": "C94",
   "status": "partial",
   "theorems": [
    "c94_r2",
    "c94_one_observation",
    "c94_range",
    "c94_nested",
    "c94_restricted",
    "c94_f",
    "c94_f_refuted",
    "c94_no_constant_refuted"
   ],
   "note": "Defects: F divides by m(N-1) instead of m(k-1) (c94_f gives the exact factor, c94_f_refuted a case); without a constant R2 can be negative (c94_no_constant_refuted)."
  },
  {
   "property": "C95",
   "status": "partial",
   "theorems": [
    "c95_likelihood",
    "c95_coefficients",
    "c95_maximum_partial",
    "c95_order",
    "c95_formulas",
    "c95_restricted_refuted"
   ],
   "note": "Real arithmetic. Missing: the maximum over the covariances for several equations (c95_maximum_partial is for one equation; the maximum over the coefficients is proved for all). Defect: the criteria count restricted coefficients (c95_restricted_refuted)."
  },
  {
   "property": "C96",
   "status": "partial",
   "theorems": [
    "c96_usable",
    "c96_results",
    "c96_counts",
    "c96_throws",
    "c96_errors",
    "c96_order",
    "c96_sign_range",
    "c96_missing_lambda",
    "c96_none_valid_refuted",
    "c96_direction_refuted",
    "c96_boxcox_refuted"
   ],
   "note": "Defects: no usable draw gives NaN without an exception (c96_none_valid_refuted); the direction metric always fails (c96_direction_refuted); the Box-Cox inverse is applied to standard deviations (c96_boxcox_refuted). Cancellation and the random split are not in this model (the split is C32)."
  },
  {
   "property": "C97",
   "status": "partial",
   "theorems": [
    "c97_results",
    "c97_out_of_sample",
    "c97_counts",
    "c97_throws",
    "c97_arguments",
    "c97_errors",
    "c97_details",
    "c97_range",
    "c97_break_refuted",
    "c97_ext_none_refuted",
    "c97_repeat_refuted",
    "c97_metric",
    "c97_scores_refuted",
    "c97_unsorted_refuted"
   ],
   "note": "Defects: with a smallest horizon above 1 the end of the loop counts as a failure (c97_break_refuted); the extended simulation gives NaN if all estimations fail (c97_ext_none_refuted) and does not reset its counts (c97_repeat_refuted); unsorted horizons give NaN (c97_unsorted_refuted); sign and MAPE differ from those of systems (c97_scores_refuted)."
  },
  {
   "property": "C98",
   "status": "proved",
   "theorems": [
    "c98_likelihood",
    "c98_logit_derivatives",
    "c98_probit_derivatives",
    "c98_maximum",
    "c98_calibrated",
    "c98_weights",
    "c98_row_order",
    "c98_no_solution"
   ],
   "note": "Real arithmetic (no overflow of exp). The hypothesis that the gradient vanishes cannot always be met: data separated by a regressor pass all checks but have no maximum (c98_no_solution). The optimizer is C56."
  },
  {
   "property": "C99",
   "status": "proved",
   "theorems": [
    "c99_likelihood",
    "c99_logit_derivatives",
    "c99_probit_derivatives",
    "c99_symmetric",
    "c99_negative"
   ],
   "note": "Real arithmetic. Cutoffs out of order are not excluded (restrictoffsets is false), then the logarithm of a negative probability is taken (c99_negative)."
  },
  {
   "property": "C100",
   "status": "proved",
   "theorems": [
    "c100_binary",
    "c100_ordered",
    "c100_range",
    "c100_negative"
   ],
   "note": "Predicted probabilities of ordered models are negative exactly if cutoffs are out of order (c100_negative)."
  },
  {
   "property": "C101",
   "status": "partial",
   "theorems": [
    "c101_accepts",
    "c101_every_choice_occurs",
    "c101_both_values_occur",
    "c101_number_of_choices",
    "c101_lengths",
    "c101_too_large",
    "c101_declare",
    "c101_buffers",
    "c101_started",
    "c101_values_refuted"
   ],
   "note": "The values of the dependent variable are not checked against 0, ..., choices - 1: they are accepted with wrong counts or used as indices out of range (c101_values_refuted)."
  },
  {
   "property": "C102",
   "status": "partial",
   "theorems": [
    "c102_rows",
    "c102_prediction",
    "c102_prediction_columns_refuted",
    "c102_brier",
    "c102_brier_range",
    "c102_brier_nan_refuted",
    "c102_storage",
    "c102_work",
    "c102_work_refuted",
    "c102_reuse_refuted",
    "c102_ordered_details_refuted"
   ],
   "note": "Without principal components (C104). Defects: with removed rows the Brier score reads other columns and uninitialised memory (c102_brier_nan_refuted); the work array is too short if many rows are predicted (c102_work_refuted); a reused object can write beyond its storage (c102_reuse_refuted); the columns of the new data are not checked (c102_prediction_columns_refuted); ordered models with scores always fail after the estimation (c102_ordered_details_refuted)."
  },
  {
   "property": "C103",
   "status": "partial",
   "theorems": [
    "c103_succeeds",
    "c103_auc",
    "c103_costs",
    "c103_table",
    "c103_tenths",
    "c103_order",
    "c103_brier_last",
    "c103_brier_refuted",
    "c103_weights_refuted",
    "c103_only_brier_refuted",
    "c103_ordered_refuted",
    "c103_buffers",
    "c103_small_training_refuted"
   ],
   "note": "Without principal components and cancellation. Defects: BrierScore is reset in each iteration, so the last one is reported (c103_brier_refuted); weights are used for Brier score and table even if unweighted evaluation is asked for (c103_weights_refuted); a simulation for the Brier score alone is rejected (c103_only_brier_refuted); ordered models are declared but never evaluated (c103_ordered_refuted); small training samples overflow the work array (c103_small_training_refuted)."
  },
  {
   "property": "C104",
   "status": "partial",
   "theorems": [
    "c104_defined",
    "c104_total_function",
    "c104_directions",
    "c104_uncorrelated",
    "c104_products",
    "c104_maximal",
    "c104_total_variance",
    "c104_ratios",
    "c104_reconstruction",
    "c104_forecast",
    "c104_errors",
    "c104_wide_refuted",
    "c104_uncentered_refuted"
   ],
   "note": "dgesvd by its contract. Defects: with fewer rows than columns the last columns of PCs are computed from uninitialised memory (c104_wide_refuted); without centering Stds are not standard deviations (c104_uncentered_refuted)."
  },
  {
   "property": "C105",
   "status": "partial",
   "theorems": [
    "c105_kept",
    "c105_standard",
    "c105_parts",
    "c105_units",
    "c105_override",
    "c105_empty",
    "c105_one_row_refuted"
   ],
   "note": "Means and variances as formulas (the loops are C86). With a single row nothing is removed and all is NaN (c105_one_row_refuted)."
  },
  {
   "property": "C106",
   "status": "partial",
   "theorems": [
    "c106_cutoff",
    "c106_rate",
    "c106_no_variance_refuted",
    "c106_final",
    "c106_validity",
    "c106_validity_refuted",
    "c106_for_model",
    "c106_constant",
    "c106_too_many_refuted",
    "c106_buffers",
    "c106_lwork",
    "c106_size_check_refuted"
   ],
   "note": "Defects: data without variance gives one component more than there are (c106_no_variance_refuted); negative counts pass CheckValidity (c106_validity_refuted); an exact count between the number of replaced variables and the number of variables passes the checks of the constructor and reads and writes beyond the matrices (c106_too_many_refuted); the size check is not enough for data with more columns than announced (c106_size_check_refuted)."
  },
  {
   "property": "C107",
   "status": "proved",
   "theorems": [
    "c107_columns",
    "c107_columns_distinct",
    "c107_records",
    "c107_once",
    "c107_sound",
    "c107_all_nan",
    "c107_cancelled",
    "c107_targets",
    "c107_succeeds"
   ],
   "note": "Estimation of one model is a parameter (C90-C96 for systems)."
  },
  {
   "property": "C108",
   "status": "partial",
   "theorems": [
    "c108_metrics",
    "c108_unsupported_refuted",
    "c108_coefficients",
    "c108_equation",
    "c108_unordered_refuted",
    "c108_searchers_partial",
    "c108_seeds",
    "c108_groups_refuted"
   ],
   "note": "Defects: metrics that systems do not have, or that are asked for twice, are evaluated to zero for every model (c108_unsupported_refuted); if the endogenous variables of a group are not ordered with the targets first, targets get the results of another equation (c108_unordered_refuted); a group whose targets come later is skipped or a group without a target makes the whole search fail (c108_groups_refuted)."
  },
  {
   "property": "C109",
   "status": "partial",
   "theorems": [
    "c109_refused",
    "c109_accepted",
    "c109_positions_partial",
    "c109_reuse_refuted",
    "c109_idempotent",
    "c109_estimation",
    "c109_checks_refused",
    "c109_condition_partial",
    "c109_condition_refuted"
   ],
   "note": "Defects: options that are used again for other metrics keep the old positions (c109_reuse_refuted); the limit of the condition number is ignored unless the estimation with all data was explicitly asked for (c109_condition_refuted)."
  },
  {
   "property": "C110",
   "status": "partial",
   "theorems": [
    "c110_rows",
    "c110_checks_partial",
    "c110_checks_complete",
    "c110_projections",
    "c110_restrictions",
    "c110_nan_refuted",
    "c110_buffers_partial",
    "c110_overlap_refuted"
   ],
   "note": "Without principal components. Defects: models with NaN as AIC, SIC or R2 pass every check (c110_nan_refuted); for data of another shape than announced the coefficients can be written into the copy of the data (c110_overlap_refuted)."
  },
  {
   "property": "C111",
   "status": "partial",
   "theorems": [
    "c111_metrics_partial",
    "c111_first_refuted",
    "c111_coefficients",
    "c111_thresholds_refuted",
    "c111_checks_partial",
    "c111_missing_refuted",
    "c111_dof_refuted",
    "c111_searchers",
    "c111_seeds",
    "c111_brier_refuted",
    "c111_response_refuted",
    "c111_costs_refuted"
   ],
   "note": "Defects: a Brier score, cost or AUC that is the first in-sample metric is never computed and all models get zero (c111_first_refuted); with missing values the Brier score uses entries of other variables (c111_missing_refuted); thresholds are never reported (c111_thresholds_refuted); the degrees of freedom are counted too low (c111_dof_refuted); a search with the Brier score as only score is impossible (c111_brier_refuted); the dependent variable is accepted as regressor and then memory is overwritten (c111_response_refuted); a cost metric in the first position needs no cost matrix (c111_costs_refuted)."
  },
  {
   "property": "C112",
   "status": "partial",
   "theorems": [
    "c112_metrics",
    "c112_equation",
    "c112_bounds",
    "c112_checks_partial",
    "c112_kept",
    "c112_searchers",
    "c112_unordered_refuted",
    "c112_dof_refuted",
    "c112_predictions_refuted",
    "c112_horizon_refuted",
    "c112_index_refuted"
   ],
   "note": "Defects: with a target behind another variable the predictions of another equation are recorded (c112_unordered_refuted); the check of the degrees of freedom ignores the coefficients of the lags (c112_dof_refuted); requested predictions are not reported if no option requires the estimation (c112_predictions_refuted); a bound for a later horizon is compared with memory behind the predictions (c112_horizon_refuted); the number of endogenous variables is accepted as an index (c112_index_refuted). c112_checks_partial: a NaN criterion passes its check."
  },
  {
   "property": "C113",
   "status": "partial",
   "theorems": [
    "c113_polynomials",
    "c113_response",
    "c113_unique",
    "c113_storage_refuted",
    "c113_overlap_refuted"
   ],
   "note": "Defects: for a pure MA model the declared storage is one block too small and the function writes behind it (c113_storage_refuted); if a seasonal lag is also one of the other lags, one of its coefficients is ignored (c113_overlap_refuted)."
  },
  {
   "property": "C114",
   "status": "partial",
   "theorems": [
    "c114_variance",
    "c114_monotone",
    "c114_first",
    "c114_uncertainty_refuted",
    "c114_error"
   ],
   "note": "Defect: with the uncertainty of the coefficients the function always throws (c114_uncertainty_refuted)."
  },
  {
   "property": "C115",
   "status": "partial",
   "theorems": [
    "c115_moments",
    "c115_constant",
    "c115_accepted",
    "c115_poisson_zero_refuted",
    "c115_geometric_zero_refuted",
    "c115_fraction_refuted",
    "c115_properties",
    "c115_maximum_refuted"
   ],
   "note": "Defects: a Poisson distribution with mean 0 is accepted, but its probability at 0 is NaN (c115_poisson_zero_refuted); a geometric distribution with p = 0 is accepted, all its probabilities are zero (c115_geometric_zero_refuted); non-integer bounds of the discrete uniform distribution are accepted (c115_fraction_refuted); GetProperty returns the minimum for the property Maximum (c115_maximum_refuted)."
  },
  {
   "property": "C116",
   "status": "partial",
   "theorems": [
    "c116_cdf",
    "c116_order",
    "c116_infinity",
    "c116_bernoulli_refuted",
    "c116_binomial_refuted",
    "c116_geometric_refuted"
   ],
   "note": "Defects: the Bernoulli distribution function at 0 is 0 instead of 1-p (c116_bernoulli_refuted), the binomial one at the number of trials is NaN (c116_binomial_refuted), the geometric one is not constant between integers (c116_geometric_refuted)."
  },
  {
   "property": "C117",
   "status": "partial",
   "theorems": [
    "c117_density",
    "c117_distribution",
    "c117_outside",
    "c117_accepted",
    "c117_zero_refuted",
    "c117_point_refuted"
   ],
   "note": "Defects: a standard deviation of zero is accepted, the distribution function is NaN at the mean and the density is NaN everywhere (c117_zero_refuted); a uniform distribution with equal bounds is accepted (c117_point_refuted)."
  },
  {
   "property": "C118",
   "status": "proved",
   "theorems": [
    "c118_inverse",
    "c118_round_trip",
    "c118_increasing",
    "c118_ends",
    "c118_inverse_exists"
   ],
   "note": "c118_inverse_exists shows that the contracts of the inverse functions can be met for all proper distributions."
  },
  {
   "property": "C119",
   "status": "partial",
   "theorems": [
    "c119_continuous",
    "c119_discrete",
    "c119_zero_refuted",
    "c119_certain_refuted"
   ],
   "note": "Defects at the edges: at 0 the log density of an exponential distribution is minus infinity, of gamma with shape 1, chi-squared with 2 degrees of freedom and beta with first parameter 1 it is NaN, although the densities are positive (c119_zero_refuted); with success probability 1 the log probability of the only possible value is NaN (c119_certain_refuted)."
  },
  {
   "property": "C120",
   "status": "partial",
   "theorems": [
    "c120_deviation",
    "c120_lognormal_refuted",
    "c120_continuous",
    "c120_chi2_refuted",
    "c120_discrete",
    "c120_discrete_refuted"
   ],
   "note": "Defects: the standard deviation of a log-normal distribution is 1 divided by its first parameter (c120_lognormal_refuted); the median of chi-squared is an approximation (c120_chi2_refuted); the median of Poisson with mean 1/100 is -2, of a binomial distribution with one trial and p = 9/10 it is 0, of a geometric one with p = 1 it is 1 (c120_discrete_refuted)."
  },
  {
   "property": "C121",
   "status": "partial",
   "theorems": [
    "c121_continuous",
    "c121_discrete",
    "c121_beta_refuted",
    "c121_binomial_refuted"
   ],
   "note": "Defects: the mode of Beta(2, 1/2) is 2, outside of the bounds, of Beta(1, 1/2) it is 0, where the density is smallest (c121_beta_refuted); for binomial with p = 1 it is one more than the number of trials (c121_binomial_refuted)."
  },
  {
   "property": "C122",
   "status": "partial",
   "theorems": [
    "c122_search",
    "c122_nan_refuted",
    "c122_bernoulli_refuted",
    "c122_uniform_refuted"
   ],
   "note": "Defects: the geometric distribution with p = 1/1000 has no median (NaN: the start uses the variance for the standard deviation and the search stops after 100 steps; c122_nan_refuted); every quantile of a Bernoulli distribution is 1 (c122_bernoulli_refuted); the quantile of 6/10 for the uniform distribution on 0, 1 is 0 (c122_uniform_refuted)."
  },
  {
   "property": "C123",
   "status": "partial",
   "theorems": [
    "c123_linear",
    "c123_at_quantiles",
    "c123_inverse",
    "c123_increasing",
    "c123_quantile_ends",
    "c123_tail_refuted",
    "c123_infinite",
    "c123_nan_refuted",
    "c123_combine_few",
    "c123_combine",
    "c123_combine_refuted"
   ],
   "note": "Defects: to the left of the first quantile the distribution function is decreasing and greater than 1 somewhere, to the right of the last one it is decreasing and negative somewhere, for every table (c123_tail_refuted: the sign of the shift); the argument NaN reads beyond the table (c123_nan_refuted); the combination of a table with itself differs from it when quantiles are more than 50 apart (c123_combine_refuted). Numbers are exact; in doubles floor(p * 100) / 100 may be one step off."
  },
  {
   "property": "C124",
   "status": "partial",
   "theorems": [
    "c124_new",
    "c124_mean_variance",
    "c124_moments",
    "c124_normal",
    "c124_cdf",
    "c124_cdf_order",
    "c124_density",
    "c124_extremes",
    "c124_discrete",
    "c124_chosen",
    "c124_support_size",
    "c124_support",
    "c124_support_throws",
    "c124_nan_refuted",
    "c124_support_refuted",
    "c124_unbounded_refuted"
   ],
   "note": "Defects: a member whose mean does not exist is skipped, the mixture gets the mean of the others (c124_nan_refuted); the search of the largest value starts with the smallest positive double, so a mixture with negative values only gets a wrong size of its support (c124_support_refuted); without a largest value and without a requested one, infinity is converted to an integer (c124_unbounded_refuted). Numbers are exact; sampling from the member that is chosen is not modelled; the statement on the mass function does not cover members with one possible value only."
  },
  {
   "property": "C125",
   "status": "partial",
   "theorems": [
    "c125_first",
    "c125_first_converges",
    "c125_second",
    "c125_second_converges",
    "c125_sizes",
    "c125_throws",
    "c125_shorter_refuted",
    "c125_count_refuted",
    "c125_zero_refuted"
   ],
   "note": "Defects: an argument shorter than the announced length throws although the code means to accept it (c125_shorter_refuted); count = 0 uses a vector outside of its range (c125_count_refuted); a first quotient that is zero by chance makes the derivative zero (c125_zero_refuted). Numbers are exact; the work array is not modelled cell by cell."
  },
  {
   "property": "C126",
   "status": "partial",
   "theorems": [
    "c126_equals_value",
    "c126_equals_value_column",
    "c126_equals",
    "c126_abs_diff_refuted",
    "c126_column_refuted",
    "c126_indices",
    "c126_any_all",
    "c126_set_value",
    "c126_set_sequence",
    "c126_diagonal",
    "c126_not_square"
   ],
   "note": "Defects: abs_diff of Equals is the difference of the last elements compared, not the largest one (c126_abs_diff_refuted); EqualsValueColumn does not check the column (c126_column_refuted). Numbers are exact."
  },
  {
   "property": "C127",
   "status": "partial",
   "theorems": [
    "c127_sort_rows",
    "c127_sort_columns",
    "c127_rejected",
    "c127_empty_refuted"
   ],
   "note": "Defect: no rows (columns) dereferences the maximum of an empty list (c127_empty_refuted)."
  },
  {
   "property": "C128",
   "status": "partial",
   "theorems": [
    "c128_range",
    "c128_no_columns_refuted",
    "c128_missing_refuted",
    "c128_interpolate",
    "c128_empty_refuted"
   ],
   "note": "Defects: a matrix without columns has the range 0..2147483647 (c128_no_columns_refuted); without a common time, gaps of later columns are not reported (c128_missing_refuted); an empty row or column is read (c128_empty_refuted). Numbers are exact."
  },
  {
   "property": "C129",
   "status": "partial",
   "theorems": [
    "c129_triangular",
    "c129_rejected",
    "c129_triangle",
    "c129_order_refuted"
   ],
   "note": "A symmetric matrix can be given row by row only and a lower triangle column by column only, else an exception (c129_order_refuted)."
  },
  {
   "property": "C130",
   "status": "partial",
   "theorems": [
    "c130_constructor",
    "c130_density",
    "c130_increasing",
    "c130_formula",
    "c130_limit_first",
    "c130_limit_second",
    "c130_minus_infinity_refuted",
    "c130_both_infinite_refuted"
   ],
   "note": "Numbers are exact. Defects: a shape of minus infinity is taken for plus infinity (c130_minus_infinity_refuted); with both shapes infinite the quantile is constant and the density infinite (c130_both_infinite_refuted)."
  },
  {
   "property": "C131",
   "status": "partial",
   "theorems": [
    "c131_moment",
    "c131_zero_first_partial",
    "c131_zero_second_partial",
    "c131_contract",
    "c131_order",
    "c131_all"
   ],
   "note": "boost's beta and digamma are assumed to be the integral of Euler and its derivative (beta_ok, digamma_ok; c131_contract shows that such functions exist). With a shape that is zero, orders 1 and 2 are proved (c131_zero_first_partial, c131_zero_second_partial; order 2 with both zero, and orders 3 and 4, are missing: polygamma)."
  },
  {
   "property": "C132",
   "status": "partial",
   "theorems": [
    "c132_mean",
    "c132_bounds",
    "c132_from_moments",
    "c132_type8_refuted"
   ],
   "note": "The optimizer is a parameter that honours the lower bounds. Skewness and kurtosis need shapes that are not zero. Defect: the objective of type 8 ignores the kurtosis in the region where its penalty is 0 (c132_type8_refuted)."
  }
 ]
}