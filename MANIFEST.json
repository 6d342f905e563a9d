{
 "claims": [
  {
   "property": "C01",
   "status": "proved",
   "theorems": [
    "C01_weights_in_unit_interval"
   ],
   "note": ""
  },
  {
   "property": "C02",
   "status": "proved",
   "theorems": [
    "C02_weights_decrease_with_distance"
   ],
   "note": ""
  },
  {
   "property": "C03",
   "status": "proved",
   "theorems": [
    "C03_zero_distance_full_weight"
   ],
   "note": ""
  },
  {
   "property": "C04",
   "status": "proved",
   "theorems": [
    "C04_support"
   ],
   "note": ""
  },
  {
   "property": "C05",
   "status": "proved",
   "theorems": [
    "C05_adaptive_bandwidth_is_order_statistic",
    "C05_fixed_bandwidth_is_used"
   ],
   "note": ""
  },
  {
   "property": "C06",
   "status": "proved",
   "theorems": [
    "C06_weights_monotone_in_bandwidth"
   ],
   "note": ""
  },
  {
   "property": "C07",
   "status": "proved",
   "theorems": [
    "C07_permutation_equivariance"
   ],
   "note": ""
  },
  {
   "property": "C08",
   "status": "proved",
   "theorems": [
    "C08_unit_invariance"
   ],
   "note": ""
  },
  {
   "property": "C09",
   "status": "partial",
   "theorems": [
    "C09_valid_bandwidth_weightable_refuted",
    "C09_failure_condition"
   ],
   "note": "False as stated (adaptive bandwidth in (0,1) throws); the exact failure condition is proved."
  },
  {
   "property": "C10",
   "status": "partial",
   "theorems": [
    "C10_weights_finite_refuted",
    "C10_finite_iff",
    "C10_boxcar_degenerate"
   ],
   "note": "False as stated (coincident points give NaN); the exact finiteness condition is proved."
  },
  {
   "property": "C11",
   "status": "partial",
   "theorems": [
    "C11_cpu_gpu_agree_partial",
    "C11_gpu_fixed_values",
    "C11_gpu_adaptive_values",
    "C11_gpu_unweighted",
    "C11_boxcar_always_disagrees",
    "C11_cpu_gpu_agree_refuted"
   ],
   "note": "False as stated; agreement proved for non-Boxcar kernels with fixed or integer adaptive bandwidth up to n."
  },
  {
   "property": "C12",
   "status": "proved",
   "theorems": [
    "C12_planar_metric",
    "C12_planar_value",
    "C12_planar_invariance"
   ],
   "note": "Over R; stated on the entries returned after makeParameter."
  },
  {
   "property": "C13",
   "status": "partial",
   "theorems": [
    "C13_symmetric",
    "C13_accurate",
    "C13_zero_only_when_close",
    "C13_distinct_points_refuted"
   ],
   "note": "Symmetry and identity proved; positivity proved away from the early exit with a 3f relative error bound against the spherical law of cosines; the early exit returns 0 for distinct points when longitudes are given in [0,360) (refuted)."
  },
  {
   "property": "C14",
   "status": "proved",
   "theorems": [
    "C14_crs_extremes",
    "C14_planar_extremes",
    "C14_onedim_extremes"
   ],
   "note": ""
  },
  {
   "property": "C15",
   "status": "partial",
   "theorems": [
    "C15_no_stale_coordinates_partial",
    "C15_fresh_coordinates_answered",
    "C15_onedim_no_stale_values_partial",
    "C15_no_stale_coordinates_refuted",
    "C15_spacetime_no_stale_refuted",
    "C15_out_of_range_reported",
    "C15_arguments"
   ],
   "note": "Holds when all arguments have the expected variant alternative; a bad_variant_access leaves the previous coordinates in place; CRSSTDistance::distance ignores the reset parameter."
  },
  {
   "property": "C16",
   "status": "partial",
   "theorems": [
    "C16_clone_equivalent_partial",
    "C16_clone_equivalent_refuted",
    "C16_spacetime_clone_fails"
   ],
   "note": "Holds for CRSDistance and MinkwoskiDistance; false for OneDimDistance, CRSSTDistance, DMatDistance."
  },
  {
   "property": "C17",
   "status": "partial",
   "theorems": [
    "C17_dispatch",
    "C17_objects",
    "C17_p_norm_refuted",
    "C17_bounds_partial",
    "C17_bounds_refuted"
   ],
   "note": "False: p=1 is Chebyshev, p=2 always throws, only -1 is Manhattan."
  },
  {
   "property": "C18",
   "status": "proved",
   "theorems": [
    "C18_spacetime_distance",
    "C18_monotone",
    "C18_setLambda",
    "C18_oblique_nonnegative",
    "C18_oblique_value",
    "C18_oblique_angle_refuted"
   ],
   "note": "The oblique refutation is an addition: the documented formula with the signed cosine fails for obtuse angles."
  },
  {
   "property": "C19",
   "status": "partial",
   "theorems": [
    "C19_ownership_partial",
    "C19_safe_exactly_when",
    "C19_no_ub_refuted",
    "C19_constructor_leak_refuted",
    "C19_pointer_setter_does_not_take_ownership"
   ],
   "note": "All histories that complete are well owned and leak free, and the exact safety condition of every operation is proved; the unconditional statement is false (copying a default-constructed or moved-from object, setting a member by reference to itself, throwing clone)."
  },
  {
   "property": "C20",
   "status": "proved",
   "theorems": [
    "C20_independence",
    "C20_copy_equal",
    "C20_assign_equal",
    "C20_construct",
    "C20_move",
    "C20_move_assign",
    "C20_set_by_reference",
    "C20_set_by_pointer",
    "C20_modify"
   ],
   "note": "clone() is an arbitrary function here; C16 says for which distance classes it preserves behaviour."
  },
  {
   "property": "C21",
   "status": "proved",
   "theorems": [
    "C21_best_evaluated",
    "C21_nan_refuted"
   ],
   "note": "For criteria that never answer NaN; with NaN the statement is false (separate refutation)."
  },
  {
   "property": "C22",
   "status": "proved",
   "theorems": [
    "C22_terminates"
   ],
   "note": ""
  },
  {
   "property": "C23",
   "status": "proved",
   "theorems": [
    "C23_inside",
    "C23_bracket"
   ],
   "note": ""
  },
  {
   "property": "C24",
   "status": "partial",
   "theorems": [
    "C24_integers_partial",
    "C24_bounds_refuted"
   ],
   "note": "All evaluated values are integers; staying inside the bounds is false (criterion |b-21| on [20,28] evaluates 18)."
  },
  {
   "property": "C25",
   "status": "proved",
   "theorems": [
    "C25_bracket_contains_minimiser",
    "C25_result",
    "C25_stops",
    "C25_accuracy_refuted"
   ],
   "note": "The accuracy refutation is an addition: the bracket can be as wide as the whole interval."
  },
  {
   "property": "C26",
   "status": "proved",
   "theorems": [
    "C26_kernel_kept",
    "C26_cancelled",
    "C26_invalid_start",
    "C26_error_only_if_invalid"
   ],
   "note": ""
  },
  {
   "property": "C27",
   "status": "partial",
   "theorems": [
    "C27_list_partial",
    "C27_newest_value",
    "C27_history",
    "C27_cancelled_refuted"
   ],
   "note": "Exact for every run that gets past its two initial evaluations; false for runs cancelled there."
  },
  {
   "property": "C28",
   "status": "partial",
   "theorems": [
    "C28_released_partial",
    "C28_early_exit_leaks",
    "C28_refuted"
   ],
   "note": "False on the early exits."
  },
  {
   "property": "C29",
   "status": "proved",
   "theorems": [
    "C29_subset"
   ],
   "note": "Candidates without repetition."
  },
  {
   "property": "C30",
   "status": "proved",
   "theorems": [
    "C30_C31_forward_search"
   ],
   "note": ""
  },
  {
   "property": "C31",
   "status": "proved",
   "theorems": [
    "C30_C31_forward_search"
   ],
   "note": ""
  },
  {
   "property": "C32",
   "status": "proved",
   "theorems": [
    "C32_reported",
    "C32_groups_cover"
   ],
   "note": ""
  },
  {
   "property": "C33",
   "status": "partial",
   "theorems": [
    "C33_safe_exactly_when_partial",
    "C33_choice",
    "C33_single_candidate_refuted",
    "C33_threshold_refuted"
   ],
   "note": "Exact condition proved; unconditional safety is false (reads models[-1])."
  },
  {
   "property": "C34",
   "status": "proved",
   "theorems": [
    "C34_cancelled"
   ],
   "note": ""
  },
  {
   "property": "C35",
   "status": "partial",
   "theorems": [
    "C35_partition",
    "C35_in_order",
    "C35_well_formed_partial",
    "C35_bounds_refuted"
   ],
   "note": "Disjointness and coverage proved for all n and worker counts; range bounds are violated (and the unsigned length wraps) when a worker is left without observations."
  },
  {
   "property": "C36",
   "status": "partial",
   "theorems": [
    "C36_any_order_partial",
    "C36_all_send",
    "C36_summed",
    "C36_idle_worker_refuted"
   ],
   "note": "All arrival orders, when every worker has an observation; otherwise the master blocks."
  },
  {
   "property": "C37",
   "status": "partial",
   "theorems": [
    "C37_combined_partial",
    "C37_exactly_when_partial",
    "C37_refuted"
   ],
   "note": "MPI_MAX replaces negative coefficients by zero."
  },
  {
   "property": "C38",
   "status": "partial",
   "theorems": [
    "C38_product_partial",
    "C38_overflow_refuted"
   ],
   "note": "All distributions whose element counts fit a C int."
  },
  {
   "property": "C39",
   "status": "proved",
   "theorems": [
    "C39_schedule_independent",
    "C39_serial_value"
   ],
   "note": "Every OpenMP loop of the library except the AIC criterion of generalised GWR (C66), every thread count, every interleaving of loop iterations; sums are over reals."
  },
  {
   "property": "C40",
   "status": "partial",
   "theorems": [
    "C40_reported_partial",
    "C40_how_reported",
    "C40_serial",
    "C40_criteria_refuted",
    "C40_criteria_schedule_refuted",
    "C40_GWDR_fit_refuted",
    "C40_escape_refuted"
   ],
   "note": "Proved for fourteen loops. Refuted for the CV/SHat criterion cores of basic and multiscale GWR (failures swallowed, result schedule dependent), GWDR::fitOmp (never reported) and the ridge, generalised criterion and summary statistics loops (program terminates)."
  },
  {
   "property": "C41",
   "status": "partial",
   "theorems": [
    "C41_fit_partial",
    "C41_shat_exact_partial",
    "C41_shat_sum_refuted",
    "C41_large_group_refuted",
    "C41_large_group_shat_refuted",
    "C41_zero_group_refuted",
    "C41_predict_partial",
    "C41_predict_exact_partial",
    "C41_predict_missed_refuted",
    "C41_predict_bounds_refuted"
   ],
   "note": "fitCoreCuda correct for group sizes 1..n. fitCoreSHatCuda adds stale buffer entries when the group size does not divide n; group sizes above n always fail; predictCuda ranges over data points instead of prediction locations."
  },
  {
   "property": "C42",
   "status": "partial",
   "theorems": [
    "C42_accepted_partial",
    "C42_overlap_refuted",
    "C42_rejected_unchanged",
    "C42_mode_recorded",
    "C42_choice_recorded",
    "C42_consistent_partial",
    "C42_defined_partial",
    "C42_gtwr_refuted",
    "C42_robust_refuted",
    "C42_null_refuted",
    "C42_family_refuted",
    "C42_not_offered_refuted",
    "C42_not_built_refuted",
    "C42_initial_refuted"
   ],
   "note": "Rejection leaves every reachable state unchanged; consistency proved for modes an algorithm offers and the build contains. Refuted otherwise: GTWR criterion always serial, robust GWR inherited cores stay serial, null calculators in generalised GWR, uninitialised family, MPI modes accepted without support, initial AIC/CV mismatch."
  },
  {
   "property": "C43",
   "status": "proved",
   "theorems": [
    "C43_weighted_least_squares"
   ],
   "note": "Exact arithmetic over any ordered field; inv_sympd enters through its contract."
  },
  {
   "property": "C44",
   "status": "proved",
   "theorems": [
    "C44_hat_matrix",
    "C44_independent_of_y"
   ],
   "note": ""
  },
  {
   "property": "C45",
   "status": "proved",
   "theorems": [
    "C45_linear_in_response",
    "C45_exact_data",
    "C45_dimensions"
   ],
   "note": ""
  },
  {
   "property": "C46",
   "status": "proved",
   "theorems": [
    "C46_equivariant",
    "C46_hat_unchanged",
    "C46_dimensions"
   ],
   "note": "Both runs assumed to succeed."
  },
  {
   "property": "C47",
   "status": "proved",
   "theorems": [
    "C47_ignores_left_out",
    "C47_leave_one_out"
   ],
   "note": ""
  },
  {
   "property": "C48",
   "status": "proved",
   "theorems": [
    "C48_only_weighted"
   ],
   "note": ""
  },
  {
   "property": "C49",
   "status": "proved",
   "theorems": [
    "C49_weight_scale",
    "C49_global"
   ],
   "note": ""
  },
  {
   "property": "C50",
   "status": "proved",
   "theorems": [
    "C50_rss_enp_edf",
    "C50_r2",
    "C50_aicc",
    "C50_perfect_fit",
    "C50_values"
   ],
   "note": ""
  },
  {
   "property": "C51",
   "status": "proved",
   "theorems": [
    "C51_predict_is_fit",
    "C51_predict_least_squares"
   ],
   "note": "CRS and Minkowski distances, the ones for which a prediction distance parameter is made."
  },
  {
   "property": "C52",
   "status": "partial",
   "theorems": [
    "C52_status_sticky",
    "C52_predict_status",
    "C52_result_partial",
    "C52_half_computed_refuted"
   ],
   "note": "Status is sticky. A stop inside the location loop returns partially computed coefficients."
  },
  {
   "property": "C53",
   "status": "proved",
   "theorems": [
    "C53_hat_matrices_consistent",
    "C53_residuals_current"
   ],
   "note": "Serial mode."
  },
  {
   "property": "C54",
   "status": "proved",
   "theorems": [
    "C54_sweeps",
    "C54_stops_at_convergence"
   ],
   "note": ""
  },
  {
   "property": "C55",
   "status": "proved",
   "theorems": [
    "C55_specified_kept",
    "C55_converged_kept",
    "C55_not_selected_again",
    "C55_converged_after_repeats"
   ],
   "note": ""
  },
  {
   "property": "C56",
   "status": "proved",
   "theorems": [
    "C56_centring"
   ],
   "note": ""
  },
  {
   "property": "C57",
   "status": "proved",
   "theorems": [
    "C57_fixed_point",
    "C57_every_sweep"
   ],
   "note": ""
  },
  {
   "property": "C58",
   "status": "proved",
   "theorems": [
    "C58_moments",
    "C58_meaning",
    "C58_shape"
   ],
   "note": "real arithmetic; weights as returned by the weight computation"
  },
  {
   "property": "C59",
   "status": "proved",
   "theorems": [
    "C59_pearson",
    "C59_spearman",
    "C59_meaning",
    "C59_spearman_meaning"
   ],
   "note": "Spearman invariance is for columns without ties, since the order given to ties by sort_index is unspecified"
  },
  {
   "property": "C60",
   "status": "partial",
   "theorems": [
    "C60_quartiles_partial",
    "C60_stats",
    "C60_out_of_range",
    "C60_quartiles_refuted",
    "C60_from_quartiles"
   ],
   "note": "holds when no smallest observation weighs more than 1/4; otherwise findq reads outside the data"
  },
  {
   "property": "C61",
   "status": "proved",
   "theorems": [
    "C61_ranks"
   ],
   "note": "for any sort_index that sorts"
  },
  {
   "property": "C62",
   "status": "proved",
   "theorems": [
    "C62_pairs",
    "C62_columns",
    "C62_too_few"
   ],
   "note": ""
  },
  {
   "property": "C63",
   "status": "partial",
   "theorems": [
    "C63_binomial_roundtrip",
    "C63_poisson_roundtrip_partial",
    "C63_poisson_roundtrip_refuted",
    "C63_valid_means",
    "C63_binomial_derivative",
    "C63_poisson_derivative_partial"
   ],
   "note": "Binomial in full; Poisson down to the clamp 2.220446e-16 of linkinv and muEta, false below; exp does not overflow in the model"
  },
  {
   "property": "C64",
   "status": "partial",
   "theorems": [
    "C64_poisson",
    "C64_binomial",
    "C64_local_poisson",
    "C64_local_binomial_partial",
    "C64_local_binomial_refuted",
    "C64_values",
    "C64_local_values"
   ],
   "note": "deviance residuals in full; the binomial deviance formula of GWRGeneralized::fit holds for responses 0 and 1 and is false for proportions"
  },
  {
   "property": "C65",
   "status": "proved",
   "theorems": [
    "C65_scoring",
    "C65_returns",
    "C65_fisher_scoring"
   ],
   "note": "the local regressions are a parameter that must return numbers"
  },
  {
   "property": "C66",
   "status": "partial",
   "theorems": [
    "C66_one_thread_partial",
    "C66_what_is_computed",
    "C66_threads_refuted",
    "C66_failure_refuted",
    "C66_formula"
   ],
   "note": "equal with one thread; with more, only thread 0 contributes to the trace, and failures end the program"
  },
  {
   "property": "C67",
   "status": "partial",
   "theorems": [
    "C67_fit_partial",
    "C67_standard_errors",
    "C67_fails",
    "C67_predict_refuted",
    "C67_predict_binomial_refuted"
   ],
   "note": "fit with hat matrix; predict always throws for more than one observation"
  },
  {
   "property": "C68",
   "status": "proved",
   "theorems": [
    "C68_filter_weights"
   ],
   "note": ""
  },
  {
   "property": "C69",
   "status": "partial",
   "theorems": [
    "C69_iterative",
    "C69_rounds",
    "C69_mean_square",
    "C69_filtered",
    "C69_filtered_cancelled",
    "C69_filtered_perfect_fit",
    "C69_zero_mask_throws",
    "C69_perfect_fit_refuted"
   ],
   "note": "counts in full; the iterative calibration throws on a perfect fit"
  },
  {
   "property": "C70",
   "status": "proved",
   "theorems": [
    "C70_levels",
    "C70_split",
    "C70_table"
   ],
   "note": ""
  },
  {
   "property": "C71",
   "status": "partial",
   "theorems": [
    "C71_row_partial",
    "C71_predicted_first_min",
    "C71_order_reversed",
    "C71_distribution_refuted",
    "C71_largest_refuted",
    "C71_reported"
   ],
   "note": "rows add up to one and the prediction is the first minimal score; the reported values are not probabilities and are in reverse order"
  },
  {
   "property": "C72",
   "status": "partial",
   "theorems": [
    "C72_entropy_bounds",
    "C72_reported_partial",
    "C72_above_one_refuted",
    "C72_two_groups_refuted"
   ],
   "note": "Shannon entropy bounds in full; the reported normalised value exceeds 1 and is not a number for two groups"
  },
  {
   "property": "C73",
   "status": "partial",
   "theorems": [
    "C73_prediction_set_partial",
    "C73_modes_refuted"
   ],
   "note": "equal once a prediction set is present; false for a fresh object"
  },
  {
   "property": "C74",
   "status": "proved",
   "theorems": [
    "C74_lambda_range",
    "C74_failed_evaluation"
   ],
   "note": ""
  },
  {
   "property": "C75",
   "status": "partial",
   "theorems": [
    "C75_unimodal_partial",
    "C75_precision",
    "C75_best_refuted"
   ],
   "note": "holds to the precision of the search for strictly unimodal criteria; false in general"
  },
  {
   "property": "C76",
   "status": "partial",
   "theorems": [
    "C76_own_partial",
    "C76_only_count",
    "C76_requested_refuted",
    "C76_more_throws"
   ],
   "note": "only at the observations themselves; false: the locations are used only for their number"
  },
  {
   "property": "C77",
   "status": "proved",
   "theorems": [
    "C77_weights",
    "C77_product"
   ],
   "note": ""
  },
  {
   "property": "C78",
   "status": "partial",
   "theorems": [
    "C78_first_partial",
    "C78_fixed_refuted",
    "C78_nonnegative",
    "C78_start"
   ],
   "note": "start point right for adaptive bandwidths, multiplied by the number of observations for fixed ones; non-negativity in full"
  },
  {
   "property": "C79",
   "status": "proved",
   "theorems": [
    "C79_adjustment"
   ],
   "note": ""
  },
  {
   "property": "C80",
   "status": "partial",
   "theorems": [
    "C80_zero_lambda",
    "C80_second_fit_partial",
    "C80_repeatable_refuted"
   ],
   "note": "weighted least squares part in full; refitting repeats the coefficients but the traces grow"
  },
  {
   "property": "C81",
   "status": "proved",
   "theorems": [
    "C81_convex",
    "C81_same",
    "C81_range",
    "C81_different",
    "C81_different_y",
    "C81_moments"
   ],
   "note": ""
  },
  {
   "property": "C82",
   "status": "partial",
   "theorems": [
    "C82_leaves_out_refuted",
    "C82_prediction",
    "C82_fitting",
    "C82_in_range",
    "C82_succeeds_cv",
    "C82_succeeds_aic",
    "C82_valid_succeeds_refuted"
   ],
   "note": "reads stay in range; the observation is always its own first neighbour; accepted bandwidths can throw, exact conditions given"
  },
  {
   "property": "C83",
   "status": "partial",
   "theorems": [
    "C83_range",
    "C83_value",
    "C83_sdev_partial",
    "C83_own_weights_refuted"
   ],
   "note": "PV proved; standard deviations use the total weight of the last location (counterexample)"
  },
  {
   "property": "C84",
   "status": "partial",
   "theorems": [
    "C84_basic",
    "C84_null_refuted"
   ],
   "note": "proved when a weight is set; a null weight is undefined behaviour"
  },
  {
   "property": "C85",
   "status": "partial",
   "theorems": [
    "C85_cuda_distance_partial",
    "C85_cuda_distance_refuted"
   ],
   "note": "The GPU vector has the number of focus points as its length."
  },
  {
   "property": "C86",
   "status": "proved",
   "theorems": [
    "C86_criterion_uses_final_fit"
   ],
   "note": ""
  },
  {
   "property": "C87",
   "status": "proved",
   "theorems": [
    "C87_coefficient_operator"
   ],
   "note": ""
  },
  {
   "property": "C88",
   "status": "proved",
   "theorems": [
    "C88_standard_errors"
   ],
   "note": ""
  },
  {
   "property": "C89",
   "status": "partial",
   "theorems": [
    "C89_search_interval_partial",
    "C89_initial_collapses",
    "C89_search_interval_refuted"
   ],
   "note": "Holds for Null variables; for Initial variables the interval is [0,0]."
  },
  {
   "property": "C90",
   "status": "partial",
   "theorems": [
    "C90_final_regression_partial",
    "C90_limit_refuted"
   ],
   "note": "holds after convergence, false when the iteration limit is reached"
  },
  {
   "property": "C91",
   "status": "proved",
   "theorems": [
    "C91_global_model",
    "C91_reported",
    "C91_returns",
    "C91_fisher_scoring",
    "C91_null_deviance"
   ],
   "note": ""
  },
  {
   "property": "C92",
   "status": "proved",
   "theorems": [
    "C92_few_discarded"
   ],
   "note": ""
  },
  {
   "property": "C93",
   "status": "proved",
   "theorems": [
    "C93_no_influence"
   ],
   "note": ""
  },
  {
   "property": "C94",
   "status": "partial",
   "theorems": [
    "C94_second_run",
    "C94_repeatable_refuted",
    "C94_fewer_refuted"
   ],
   "note": "false: the second run keeps the observation itself, and after a run with more observations it fails or reads beyond the priors"
  },
  {
   "property": "C95",
   "status": "proved",
   "theorems": [
    "C95_mean",
    "C95_covariance"
   ],
   "note": ""
  },
  {
   "property": "C96",
   "status": "proved",
   "theorems": [
    "C96_lda_rule",
    "C96_deviation",
    "C96_pooled_covariance"
   ],
   "note": "norm and solver are parameters returning numbers"
  },
  {
   "property": "C97",
   "status": "partial",
   "theorems": [
    "C97_linear_options",
    "C97_global_options_refuted"
   ],
   "note": "linear analysis in full; quadratic analysis throws for every global option"
  },
  {
   "property": "C98",
   "status": "partial",
   "theorems": [
    "C98_upper_refuted",
    "C98_upper_exact",
    "C98_upper_partial"
   ],
   "note": "false: with two different times the upper end is at least 10^13; it is exactly the largest space-time distance (marker included), and with equal times lambda times the largest distance"
  },
  {
   "property": "C99",
   "status": "partial",
   "theorems": [
    "C99_rounded_partial",
    "C99_used_refuted"
   ],
   "note": "within one half of an evaluated one; false: a small fixed bandwidth is rounded to zero"
  },
  {
   "property": "C100",
   "status": "partial",
   "theorems": [
    "C100_limit",
    "C100_ends",
    "C100_setup_failed",
    "C100_limit_refuted"
   ],
   "note": "ends; false: fit throws when the limit is reached"
  },
  {
   "property": "C101",
   "status": "partial",
   "theorems": [
    "C101_predict_refuted"
   ],
   "note": "false: zeros are returned"
  },
  {
   "property": "C102",
   "status": "proved",
   "theorems": [
    "C102_product_least_squares",
    "C102_is_gwr"
   ],
   "note": ""
  },
  {
   "property": "C103",
   "status": "proved",
   "theorems": [
    "C103_leave_one_out"
   ],
   "note": ""
  },
  {
   "property": "C104",
   "status": "proved",
   "theorems": [
    "C104_ridge"
   ],
   "note": "square roots exact at the arguments used"
  },
  {
   "property": "C105",
   "status": "partial",
   "theorems": [
    "C105_traces_partial",
    "C105_traces_refuted"
   ],
   "note": "holds for lambda zero; false for positive lambda, whose hat matrix is not the one used"
  },
  {
   "property": "C106",
   "status": "proved",
   "theorems": [
    "C106_leave_one_out"
   ],
   "note": ""
  },
  {
   "property": "C107",
   "status": "partial",
   "theorems": [
    "C107_fit_partial",
    "C107_fitted_refuted",
    "C107_openmp_throws",
    "C107_modes_refuted"
   ],
   "note": "fits of fresh objects agree for every schedule; false for refits, and OpenMP prediction always throws"
  },
  {
   "property": "C108",
   "status": "proved",
   "theorems": [
    "C108_predict",
    "C108_fit",
    "C81_moments"
   ],
   "note": "where the inverse exists; otherwise C110"
  },
  {
   "property": "C109",
   "status": "partial",
   "theorems": [
    "C109_valid",
    "C109_gaussian",
    "C109_exponential_refuted"
   ],
   "note": "Gaussian holds; the Exponential option is a Gaussian kernel"
  },
  {
   "property": "C110",
   "status": "partial",
   "theorems": [
    "C110_zeros_partial",
    "C110_reported_refuted"
   ],
   "note": "false: coefficients silently stay zero"
  },
  {
   "property": "C111",
   "status": "partial",
   "theorems": [
    "C111_trace_refuted",
    "C111_units_refuted"
   ],
   "note": "false; counterexample"
  },
  {
   "property": "C112",
   "status": "partial",
   "theorems": [
    "C112_criterion_partial",
    "C112_leave_one_out_refuted"
   ],
   "note": "sum of squared residuals of fits that include the observation"
  },
  {
   "property": "C113",
   "status": "partial",
   "theorems": [
    "C113_refit_refuted",
    "C113_refit_partial",
    "C113_third_partial",
    "C113_throws_refuted"
   ],
   "note": "false: after a fit of up to 51 observations with CV and a bandwidth of all observations everything throws; exact condition for a second fit, and the third answers as the second"
  },
  {
   "property": "C114",
   "status": "proved",
   "theorems": [
    "C114_returns",
    "C114_not_worse",
    "C114_setup_failed"
   ],
   "note": "GSL contracts as hypotheses"
  },
  {
   "property": "C115",
   "status": "proved",
   "theorems": [
    "C115_criterion"
   ],
   "note": ""
  },
  {
   "property": "C116",
   "status": "proved",
   "theorems": [
    "C116_principal"
   ],
   "note": ""
  },
  {
   "property": "C117",
   "status": "partial",
   "theorems": [
    "C117_winner_partial",
    "C117_winner_refuted"
   ],
   "note": "largest signed loading only; depends on the sign chosen by svd"
  },
  {
   "property": "C118",
   "status": "partial",
   "theorems": [
    "C118_succeeds",
    "C118_valid_refuted"
   ],
   "note": "exact conditions; isValid accepts inputs that throw"
  },
  {
   "property": "C119",
   "status": "partial",
   "theorems": [
    "C119_scalable",
    "C119_base_partial",
    "C119_gwss_refuted",
    "C119_gwpca_refuted",
    "C119_gwdr_refuted",
    "C119_multiscale_refuted"
   ],
   "note": "holds for scalable GWR; exact acceptance conditions of the others"
  },
  {
   "property": "C120",
   "status": "proved",
   "theorems": [
    "C120_leave_one_out",
    "C120_value"
   ],
   "note": ""
  },
  {
   "property": "C121",
   "status": "proved",
   "theorems": [
    "C121_columns",
    "C121_calls_in_range",
    "C121_reported"
   ],
   "note": ""
  },
  {
   "property": "C122",
   "status": "proved",
   "theorems": [
    "C122_result",
    "C122_bandwidth"
   ],
   "note": "the value of a criterion must not depend on the number of the call"
  },
  {
   "property": "C123",
   "status": "partial",
   "theorems": [
    "C123_repeat_partial",
    "C123_single_undefined",
    "C123_repeat_refuted",
    "C123_no_candidate"
   ],
   "note": "holds without variable selection; undefined after a single variable was selected"
  },
  {
   "property": "C124",
   "status": "partial",
   "theorems": [
    "C124_defaults_partial",
    "C124_few_observations",
    "C124_defaults_refuted"
   ],
   "note": "holds for fixed bandwidths; adaptive ones exceed the number of observations when there are fewer than 20"
  },
  {
   "property": "C125",
   "status": "partial",
   "theorems": [
    "C125_sticky",
    "C125_after_cancel",
    "C125_refuted"
   ],
   "note": "false: the status stays Terminated and later selections are skipped"
  },
  {
   "property": "C126",
   "status": "partial",
   "theorems": [
    "C126_all_failed",
    "C126_nan",
    "C126_refuted",
    "C126_criterion_nan"
   ],
   "note": "false: the run is undefined; exact condition for a NaN criterion"
  },
  {
   "property": "C127",
   "status": "proved",
   "theorems": [
    "C127_bandwidth_ignored",
    "C127_global_weights"
   ],
   "note": "exact real arithmetic"
  },
  {
   "property": "C128",
   "status": "partial",
   "theorems": [
    "C128_criterion_partial",
    "C128_leave_one_out_refuted"
   ],
   "note": "false: working weights and responses of the other points depend on the observation left out; proved: the final regression at a point minimises over the other points, and the criterion is the sum of squares of those predictions"
  },
  {
   "property": "C129",
   "status": "partial",
   "theorems": [
    "C129_local_diagnostics",
    "C129_global_diagnostics_partial",
    "C129_global_aicc_refuted",
    "C129_division_refuted"
   ],
   "note": "local model proved; the global AICc is computed with unsigned integers"
  },
  {
   "property": "C130",
   "status": "partial",
   "theorems": [
    "C130_has_regression_data_refuted",
    "C130_data_kept_refuted",
    "C130_data_partial"
   ],
   "note": "false: the flag setter assigns to the data"
  },
  {
   "property": "C131",
   "status": "partial",
   "theorems": [
    "C131_cv",
    "C131_loo_minimises",
    "C131_aic",
    "C131_aic_not_finite",
    "C131_cv_unusable",
    "C131_aic_unusable",
    "C131_perfect_fit_refuted"
   ],
   "note": "formulas and unusable cases proved; the last clause is false: a perfect fit gets DBL_MAX"
  },
  {
   "property": "C132",
   "status": "partial",
   "theorems": [
    "C132_omp_partial",
    "C132_omp_refuted",
    "C132_mpi_partial",
    "C132_mpi_one",
    "C132_mpi_fails",
    "C132_mpi_refuted"
   ],
   "note": "OpenMP agrees unless a location fails; MPI combines coefficients by maximum, so negative slopes become 0"
  },
  {
   "property": "C133",
   "status": "partial",
   "theorems": [
    "C133_penalty_partial",
    "C133_too_local_refuted"
   ],
   "note": "monotone while the trace is below n - 2; false beyond"
  },
  {
   "property": "C134",
   "status": "partial",
   "theorems": [
    "C134_values_partial",
    "C134_aic_refuted",
    "C134_without_hat",
    "C134_no_hat_refuted"
   ],
   "note": "AIC never set; without the hat matrix no parameters are counted"
  },
  {
   "property": "C135",
   "status": "partial",
   "theorems": [
    "C135_specified_repeats_partial",
    "C135_bandwidth_stuck",
    "C135_selection_lost_refuted",
    "C135_data_refuted"
   ],
   "note": "true when every bandwidth is specified; a converged bandwidth is never selected again, and the design matrix stays centred"
  },
  {
   "property": "C136",
   "status": "proved",
   "theorems": [
    "C136_global",
    "C136_local",
    "C136_status"
   ],
   "note": "serial code; AICc as a function of residual sum of squares and trace"
  },
  {
   "property": "C137",
   "status": "proved",
   "theorems": [
    "C137_criterion_of_fit",
    "C137_value",
    "C137_cancelled"
   ],
   "note": "serial code; AICc as a function of residual sum of squares and trace"
  },
  {
   "property": "C138",
   "status": "proved",
   "theorems": [
    "C138_result",
    "C138_kept"
   ],
   "note": ""
  },
  {
   "property": "C139",
   "status": "partial",
   "theorems": [
    "C139_bandwidth_partial",
    "C139_lambda_partial",
    "C139_joint_refuted"
   ],
   "note": "the bandwidth is selected for the lambda of before, lambda then for that bandwidth; jointly false"
  },
  {
   "property": "C140",
   "status": "partial",
   "theorems": [
    "C140_repeat_partial",
    "C140_repeat_refuted",
    "C140_kept_refuted",
    "C140_after_cancel"
   ],
   "note": "repeatable with at most one automatic selection; lambda is not restored"
  },
  {
   "property": "C141",
   "status": "partial",
   "theorems": [
    "C141_rejected_refuted",
    "C141_undefined",
    "C141_never_returns"
   ],
   "note": "false: an unchecked cast, undefined behaviour"
  },
  {
   "property": "C142",
   "status": "partial",
   "theorems": [
    "C142_product_partial",
    "C142_new_partial",
    "C142_mismatch_partial",
    "C142_beyond_refuted",
    "C142_truncated_refuted"
   ],
   "note": "Products of fitting shapes are correct for all operands; a longer second operand is cut off silently and a shorter transposed one is read beyond its end."
  },
  {
   "property": "C143",
   "status": "partial",
   "theorems": [
    "C143_fit_partial",
    "C143_many_columns_refuted",
    "C143_hat_partial",
    "C143_tail_refuted",
    "C143_hat_criterion_partial"
   ],
   "note": "Correct for up to 32 columns (limit of cublasDmatinvBatched, whose status is ignored); beyond that zero coefficients. Hat rows of an incomplete last group read beyond the data in fitCoreCuda. The batched inversion is a premise (inverts)."
  },
  {
   "property": "C144",
   "status": "partial",
   "theorems": [
    "C144_step_partial",
    "C144_memory_partial",
    "C144_no_leak_partial",
    "C144_move_assign_refuted",
    "C144_assign_default_refuted",
    "C144_assign_shape_refuted",
    "C144_assign_self_refuted",
    "C144_move_view_refuted",
    "C144_dangling_view_refuted",
    "C144_destroyed_refuted",
    "C144_transpose_refuted"
   ],
   "note": "Holds for every sequence of safe uses (CumemSpec.safe); refuted for move assignment onto an owner, copy assignment between different shapes or to itself, moved or dangling views, transposing into a moved-from or default object."
  },
  {
   "property": "C145",
   "status": "partial",
   "theorems": [
    "C145_set_coords_refuted",
    "C145_first_refuted",
    "C145_second_refuted",
    "C145_throws_refuted",
    "C145_undefined_refuted"
   ],
   "note": "Refuted: the first coordinate is used as a column index. The exact behaviour is proved for every value; all other locations keep their value."
  },
  {
   "property": "C146",
   "status": "partial",
   "theorems": [
    "C146_destroy_partial",
    "C146_copy_partial",
    "C146_copy_diagnostics_refuted",
    "C146_assign_partial",
    "C146_assign_diagnostics_refuted",
    "C146_assign_leak_refuted",
    "C146_set_distance_leak_refuted",
    "C146_unsupported_refuted",
    "C146_minkwoski_partial",
    "C146_set_unsupported_partial",
    "C146_destroy_twice_refuted"
   ],
   "note": "Creation, copies and destruction are balanced; copies lose the diagnostics; assignment and a change of the distance type leak; unsupported distance types leave a null distance that is dereferenced."
  },
  {
   "property": "C147",
   "status": "partial",
   "theorems": [
    "C147_true_partial",
    "C147_false_partial",
    "C147_escape_refuted",
    "C147_small_sample_refuted"
   ],
   "note": "Holds for outcomes derived from std::exception; those thrown by the device matrices escape. With fewer than 64 points a fit never succeeds."
  },
  {
   "property": "C148",
   "status": "partial",
   "theorems": [
    "C148_values",
    "C148_agree_partial",
    "C148_adjusted_refuted",
    "C148_aic_refuted",
    "C148_refit_refuted"
   ],
   "note": "The values are proved for all data; RSS, ENP, EDF and R2 agree with the other regressions, adjusted R2 and AIC do not; after enough fits of one object AIC and AICc are not numbers."
  },
  {
   "property": "C149",
   "status": "partial",
   "theorems": [
    "C149_rounded_partial",
    "C149_reach_partial",
    "C149_binary64",
    "C149_far_refuted",
    "C149_large_refuted",
    "C149_small_refuted",
    "C149_positive_refuted"
   ],
   "note": "Proved for every monotone rounding on distances and bandwidths of moderate size, and binary64 shown to be one; outside that range weights are not numbers, and positivity of the kernels without a cut-off is lost."
  },
  {
   "property": "C150",
   "status": "partial",
   "theorems": [
    "C150_weights_partial",
    "C150_roundings_partial",
    "C150_binary64",
    "C150_bandwidth_partial",
    "C150_boxcar_refuted"
   ],
   "note": "Proved on distances and bandwidths of moderate size with explicit bounds, 2^-47 (fixed) and 2^-45 (adaptive); false for the boxcar kernel with an adaptive bandwidth."
  },
  {
   "property": "C151",
   "status": "partial",
   "theorems": [
    "C151_computed_partial",
    "C151_second_moment",
    "C151_second_moment_partial",
    "C151_reported_refuted",
    "C151_units_refuted",
    "C151_second_moment_refuted"
   ],
   "note": "exact formulas of what is reported; false for all data: changing the unit changes the traces and scales the standard errors wrongly, the squared weights are too small"
  },
  {
   "property": "C152",
   "status": "partial",
   "theorems": [
    "C152_computed",
    "C152_unaffected",
    "C152_standard_errors_refuted",
    "C152_one_variable_partial"
   ],
   "note": "what is reported are the standard errors of the initial GWR, whatever back-fitting does; they are those of the final coefficients with one variable and the same weights, and not in general"
  },
  {
   "property": "C153",
   "status": "partial",
   "theorems": [
    "C153_zero_partial",
    "C153_symmetric_partial",
    "C153_increasing_partial",
    "C153_accurate_partial",
    "C153_triangle_partial",
    "C153_binary64",
    "C153_triangle_refuted",
    "C153_near_refuted",
    "C153_far_refuted"
   ],
   "note": "proved for coordinates up to 2^400 that are equal or at least 2^-400 apart, with relative error 2^-50; the exact triangle inequality is false, and distances underflow and overflow outside that range"
  },
  {
   "property": "C154",
   "status": "partial",
   "theorems": [
    "C154_weights_partial",
    "C154_boxcar_refuted"
   ],
   "note": "error at most 2^-45 (fixed) and 2^-44 (adaptive) for moderate distances; false for the boxcar kernel"
  },
  {
   "property": "C155",
   "status": "partial",
   "theorems": [
    "C155_again_partial",
    "C155_least_squares_partial",
    "C155_twice_partial",
    "C155_predict_refuted",
    "C155_cancelled_refuted",
    "C155_betas",
    "C155_betas_refuted"
   ],
   "note": "holds for histories without predict and without cancellations; predict switches the hat matrix off, after which every fit throws; after a cancelled run nothing is selected; betas() has the other shape after a failed or cancelled fit"
  },
  {
   "property": "C156",
   "status": "partial",
   "theorems": [
    "C156_mean_partial",
    "C156_variance_partial",
    "C156_sd_partial",
    "C156_constant_refuted"
   ],
   "note": "error bounds for weights with one of at least 2^-400 and data up to 2^400; refuted in binary64: with weights 1/4 and 1 the mean of 3 and 3 is 3+2^-51, the variance 2^-102 and the skewness -1"
  },
  {
   "property": "C157",
   "status": "partial",
   "theorems": [
    "C157_same_selection",
    "C157_result",
    "C157_history",
    "C157_unset_refuted",
    "C157_bounds_refuted",
    "C157_bounds_kept",
    "C157_predict_refuted"
   ],
   "note": "The stages are those of FlowModel.v and the calibration that of RobModel.v, with the regressions as oracles. The history theorem is for objects without automatic selection; the diagnostics after the calibration are not modelled. Initial value of the kind of calibration, effect of the bounds, and agreement of prediction with fit are refuted."
  },
  {
   "property": "C158",
   "status": "partial",
   "theorems": [
    "C158_fit_partial",
    "C158_range_refuted",
    "C158_cv_partial",
    "C158_shat_partial",
    "C158_squares_refuted",
    "C158_cv_criterion_partial",
    "C158_aic_criterion_partial",
    "C158_cancelled_partial",
    "C158_criterion_refuted",
    "C158_large_group_refuted",
    "C158_zero_group_refuted",
    "C158_leak_refuted"
   ],
   "note": "the three loops are characterised after any number of good groups (all done, cancelled, or a group without a fit); sums are exact and the inverse of a batch is an oracle; the refuted parts are listed in the statement"
  },
  {
   "property": "C159",
   "status": "partial",
   "theorems": [
    "C159_current_partial",
    "C159_coordinates_refuted",
    "C159_predict_refuted",
    "C159_refit_refuted",
    "C159_copy_refuted",
    "C159_copy_flag_partial",
    "C159_unset_refuted",
    "C159_minkowski_refuted"
   ],
   "note": "true when all coordinates are set before the first preparation; refuted otherwise, with the exact result for every sequence of calls without copies"
  },
  {
   "property": "C160",
   "status": "partial",
   "theorems": [
    "C160_fit_partial",
    "C160_predict_partial",
    "C160_again_partial",
    "C160_bandwidth",
    "C160_settings",
    "C160_weight",
    "C160_status",
    "C160_settled",
    "C160_stale_refuted",
    "C160_shape_refuted",
    "C160_cancelled_refuted",
    "C160_shrunk_refuted",
    "C160_betas_refuted"
   ],
   "note": "exact results for supported kernels and a criterion that is a number; refuted otherwise: stale coefficients, a bandwidth that shrinks for good, wrong shape of cancelled predictions, betas() overwritten by predict"
  },
  {
   "property": "C161",
   "status": "partial",
   "theorems": [
    "C161_cross_partial",
    "C161_asymmetry_partial",
    "C161_diagonal_partial",
    "C161_symmetric_refuted",
    "C161_rss_partial",
    "C161_perfect_refuted",
    "C161_zero_refuted"
   ],
   "note": "bounds for data of magnitude up to 2^400 and at most 2^40 rows and columns; binary64 counterexamples for symmetry, perfect fits and underflow"
  },
  {
   "property": "C162",
   "status": "partial",
   "theorems": [
    "C162_again_partial",
    "C162_result",
    "C162_plain",
    "C162_repeat_partial",
    "C162_kept",
    "C162_columns",
    "C162_weights",
    "C162_selection",
    "C162_single_refuted",
    "C162_whole",
    "C162_failed_refuted",
    "C162_threw",
    "C162_sticky",
    "C162_blind_refuted",
    "C162_late_refuted",
    "C162_stale_refuted",
    "C162_fewer_undefined",
    "C162_predict",
    "C162_setters",
    "C162_drift_refuted"
   ],
   "note": "history does not matter when there are as many weights as coordinate columns; refuted: stale coordinates otherwise, repetition with selections, settings after a failed optimisation, dependence on the data after a cancelled call"
  },
  {
   "property": "C163",
   "status": "partial",
   "theorems": [
    "C163_again",
    "C163_result",
    "C163_plain",
    "C163_repeat_partial",
    "C163_accumulates_refuted",
    "C163_kept",
    "C163_setters",
    "C163_sticky",
    "C163_disabled_refuted",
    "C163_predict",
    "C163_shape",
    "C163_shape_refuted",
    "C163_omp_undefined",
    "C163_late_refuted",
    "C163_thrown_refuted",
    "C163_small_refuted"
   ],
   "note": "coefficients and bandwidth repeat, settings are kept, history does not matter for answers; refuted: diagnostics of a second serial fit, selection after a cancellation, shape of a cancelled prediction, parallel prediction, consistency after late cancellation or exception, bandwidths within the number of points"
  },
  {
   "property": "C164",
   "status": "partial",
   "theorems": [
    "C164_exact",
    "C164_best",
    "C164_inside",
    "C164_bracket",
    "C164_nested",
    "C164_minimiser",
    "C164_result",
    "C164_few",
    "C164_narrow",
    "C164_adaptive_partial",
    "C164_lost_refuted"
   ],
   "note": "for every faithful monotone rounding and bounds up to 2^24; refuted in binary64 for bounds that are huge compared with their difference; adaptive bandwidths may leave the bounds as in C24"
  },
  {
   "property": "C165",
   "status": "partial",
   "theorems": [
    "C165_lockstep",
    "C165_rest",
    "C165_agrees_partial",
    "C165_reached",
    "C165_golden_partial",
    "C165_failure_refuted",
    "C165_cancel_refuted",
    "C165_finite_refuted"
   ],
   "note": "full for selections without DBL_MAX; refuted: a failing local fit makes its process throw and leaves the others waiting, a cancelled process leaves the others waiting, non-finite bandwidth criteria are not replaced by DBL_MAX"
  },
  {
   "property": "C166",
   "status": "partial",
   "theorems": [
    "C166_agrees_partial",
    "C166_survivors",
    "C166_selection",
    "C166_ends",
    "C166_matched",
    "C166_failure_refuted",
    "C166_cancel_refuted",
    "C166_negative_refuted",
    "C166_backfitting"
   ],
   "note": "full for coefficients that are not negative and for the general description by positive parts; refuted: negative coefficients are lost by the maximum, a failing local fit makes its process throw and leaves the others waiting, a process cancelled alone leaves the others waiting"
  },
  {
   "property": "C167",
   "status": "partial",
   "theorems": [
    "C167_free_partial",
    "C167_unstored_refuted",
    "C167_ridge_refuted",
    "C167_failure_refuted",
    "C167_cancel_refuted",
    "C167_torn",
    "C167_no_row_refuted"
   ],
   "note": "free of races when all local regressions succeed, rows are stored and no two threads see a request to stop; refuted in every execution with two threads: rows that are not stored (basic GWR with its default settings), mTrS and the counter of ridge regression, the flag and message of failing locations, mStatus after a request to stop"
  },
  {
   "property": "C168",
   "status": "partial",
   "theorems": [
    "C168_calculator",
    "C168_average",
    "C168_correlation",
    "C168_early",
    "C168_too_few_refuted",
    "C168_mismatch_refuted",
    "C168_heavy_refuted",
    "C168_no_weight_refuted",
    "C168_status_refuted",
    "C168_stale_refuted"
   ],
   "note": "full for data of matching sizes with positive weights (and light smallest observations when quantiles are wanted); refuted: unequal sizes end in an exception after the results were zeroed (or end the program with OpenMP), correlations of one variable zero the means before throwing, heavy smallest observations read out of range, the status stays Terminated, standard deviations of an earlier table stay beside the variances of a later one"
  },
  {
   "property": "C169",
   "status": "partial",
   "theorems": [
    "C169_results",
    "C169_new",
    "C169_early",
    "C169_none_refuted",
    "C169_failure_refuted",
    "C169_mismatch_refuted",
    "C169_many_refuted",
    "C169_zero_refuted",
    "C169_negative",
    "C169_status_refuted",
    "C169_scale_refuted"
   ],
   "note": "full for runs whose last reached location has a positive sum of weights; refuted: a request at the first location returns NaN everywhere without an error, a failing decomposition, mismatched rows and too many components throw with loadings of this run beside percentages and standard deviations of an earlier one, zero components throw after the standard deviations were replaced, the status stays Terminated, standard deviations of a location depend on where the run stopped"
  },
  {
   "property": "C170",
   "status": "partial",
   "theorems": [
    "C170_entry_partial",
    "C170_slope_partial",
    "C170_boxcar_refuted"
   ],
   "note": "for points, bandwidths and columns of moderate size and all kernels but the boxcar; refuted for the boxcar kernel: a point inside the bandwidth whose rounded distance reaches the bandwidth does not contribute"
  },
  {
   "property": "C171",
   "status": "partial",
   "theorems": [
    "C171_sweep_is_smoothing",
    "C171_one_variable",
    "C171_converges_partial",
    "C171_equal_weights",
    "C171_equal_weights_end",
    "C171_solution_exists",
    "C171_grows",
    "C171_diverges_refuted",
    "C171_kernel_weights"
   ],
   "note": "sweeps as smoothing steps for any number of variables; convergence for two variables whose smoothers contract, and for any number of variables with independent columns when all weights are 1 (linear rate to least squares, and the loop ends by itself); refuted in general: three observations with Boxcar and Bisquare weights for which every sweep enlarges coefficients by 126/125 and the RSS by its square, so that the run uses up every iteration limit, although a solution with RSS 0 exists"
  },
  {
   "property": "C172",
   "status": "partial",
   "theorems": [
    "C172_limit_equations",
    "C172_same_weights",
    "C172_local_partial",
    "C172_local_refuted"
   ],
   "note": "limit equations for all weights and both families; maximum likelihood in the limit when all locations have the same weights; with local weights a necessary condition for the Poisson model, and refuted in general: three observations for which all rounds succeed and the means do not tend to those of the local estimates. Convergence of the rounds itself is not proved"
  },
  {
   "property": "C173",
   "status": "partial",
   "theorems": [
    "C173_bounds",
    "C173_dimensions",
    "C173_uniform",
    "C173_local_means",
    "C173_penalty_partial",
    "C173_unbounded_refuted"
   ],
   "note": "the bounds and the uniform case are proved for all weights in [0,1] with own weight 1; the claim that AICc has a minimum is refuted: on a square with a Gaussian kernel the trace passes n - 2 and AICc is unbounded below"
  },
  {
   "property": "C174",
   "status": "proved",
   "theorems": [
    "C174_fit",
    "C174_predict",
    "C174_cross_validation",
    "C174_bandwidth",
    "C174_adaptive_neighbours",
    "C174_fixed_neighbours",
    "C174_dimensions",
    "C174_dimensions_score"
   ],
   "note": "rank argument for any solver returning left inverses; the number of non-zero weights from the order statistic of C05"
  },
  {
   "property": "C175",
   "status": "proved",
   "theorems": [
    "C175_sensitivity",
    "C175_global",
    "C175_limit",
    "C175_limit_any",
    "C175_fixed_weights",
    "C175_adaptive_weights",
    "C175_dimensions"
   ],
   "note": "the inequality for any solver returning left inverses; the limit also with success of the fit for an exact solver; the limit of the weights in exact arithmetic"
  },
  {
   "property": "C176",
   "status": "partial",
   "theorems": [
    "C176_undefined",
    "C176_refused",
    "C176_undefined_cuda",
    "C176_undefined_refuted",
    "C176_infinite",
    "C176_infinite_refuted",
    "C176_below_one"
   ],
   "note": "proved for the CPU code; refuted on the GPU, where the Boxcar kernel gives an undefined distance full weight and a bandwidth below one reads outside the distances, and for infinite distances with Bisquare and Tricube weights on the CPU, which are NaN"
  },
  {
   "property": "C177",
   "status": "proved",
   "theorems": [
    "C177_residual",
    "C177_leverage",
    "C177_score",
    "C177_possible",
    "C177_dimensions",
    "C177_dimensions_possible"
   ],
   "note": "the fit and the leave-one-out fit of GWRBasic and of GWDR, exact arithmetic; the inverse is any that meets its contract, and for C177_possible one that fails on singular matrices only."
  },
  {
   "property": "C178",
   "status": "partial",
   "theorems": [
    "C178_scaled",
    "C178_list",
    "C178_rows_refuted",
    "C178_short_refuted",
    "C178_small_refuted",
    "C178_list_refuted"
   ],
   "note": "scaling is right for fitting shapes; refuted: shapes that do not fit are not refused (the destination stays as it was, or memory outside the operands is accessed), and the list made from one matrix points one element apart"
  },
  {
   "property": "C179",
   "status": "partial",
   "theorems": [
    "C179_coefficients",
    "C179_sigma",
    "C179_residual_partial",
    "C179_studentised_refuted",
    "C179_price",
    "C179_dimensions"
   ],
   "note": "coefficients, standard errors and sigma^2 are proved; refuted for studentised residuals: mQDiag is the diagonal of (I - S)'(I - S), the variance of the residuals that of (I - S)(I - S)'; they agree when S is symmetric (C179_residual_partial)"
  },
  {
   "property": "C180",
   "status": "partial",
   "theorems": [
    "C180_monotone",
    "C180_limit",
    "C180_units",
    "C180_shift_refuted"
   ],
   "note": "the order in the parameter, the bounds and the change of units for all data; refuted: the intercept is penalised too, so adding a constant to the response adds less to the fitted values"
  },
  {
   "property": "C181",
   "status": "partial",
   "theorems": [
    "C181_trace",
    "C181_mean",
    "C181_enp_refuted",
    "C181_discarded",
    "C181_influence_refuted"
   ],
   "note": "trace, upper bound on ENP and non-negative EDF for all data; refuted: ENP falls below the number of coefficients, even below zero, once observations are discarded (C181_mean gives it exactly for the mean), and a discarded response changes the residual variance without bound because RSS runs over all observations"
  },
  {
   "property": "C182",
   "status": "proved",
   "theorems": [
    "C182_response",
    "C182_roots",
    "C182_regressors",
    "C182_clean_iterative",
    "C182_clean_filtered",
    "C182_outlier",
    "C182_passes"
   ],
   "note": "exact arithmetic; the square root any function with sqrt(c^2 a) = |c| sqrt(a) (C182_roots: every square root); quotients by zero compared as doubles compare them; recombination for an inverse that fails on singular matrices only"
  }
 ]
}