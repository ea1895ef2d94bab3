{
 "claims": [
  {
   "property": "C01",
   "status": "proved",
   "theorems": [
    "C01_add_encloses"
   ],
   "note": ""
  },
  {
   "property": "C02",
   "status": "proved",
   "theorems": [
    "C02_sub_encloses"
   ],
   "note": ""
  },
  {
   "property": "C03",
   "status": "proved",
   "theorems": [
    "C03_mul_encloses",
    "C03_mul_finite_never_nan"
   ],
   "note": ""
  },
  {
   "property": "C04",
   "status": "proved",
   "theorems": [
    "C04_div_encloses"
   ],
   "note": ""
  },
  {
   "property": "C05",
   "status": "proved",
   "theorems": [
    "C05_ops_tight"
   ],
   "note": ""
  },
  {
   "property": "C06",
   "status": "proved",
   "theorems": [
    "C06_rounding_mode_restored",
    "C06_arrays_restore_rounding_mode",
    "C06_solvers_restore_rounding_mode"
   ],
   "note": ""
  },
  {
   "property": "C07",
   "status": "proved",
   "theorems": [
    "C07_mixed_encloses",
    "C07_number_over_interval"
   ],
   "note": ""
  },
  {
   "property": "C08",
   "status": "proved",
   "theorems": [
    "C08_div_by_number_encloses",
    "C08_div_by_number_refuted"
   ],
   "note": "The unconditional user expectation is false of the code (C08_div_by_number_refuted)."
  },
  {
   "property": "C09",
   "status": "proved",
   "theorems": [
    "C09_medium_integers_enclose",
    "C09_big_integers_refuted"
   ],
   "note": "Failure beyond 2^53 is C09_big_integers_refuted."
  },
  {
   "property": "C10",
   "status": "proved",
   "theorems": [
    "C10_numpy_scalar_left",
    "C10_numpy_scalar_divide_refuted"
   ],
   "note": "Zero-containing divisors: C10_numpy_scalar_divide_refuted."
  },
  {
   "property": "C11",
   "status": "proved",
   "theorems": [
    "C11_array_first_ignores_second",
    "C11_array_first_refuted",
    "C11_array_first_shapes_refuted",
    "C11_ufunc_interval_first_refuted",
    "C11_ufunc_interval_first_ignores_second"
   ],
   "note": "The property a user expects is refuted; both theorems describe the actual behaviour."
  },
  {
   "property": "C12",
   "status": "proved",
   "theorems": [
    "C12_class_invariant"
   ],
   "note": ""
  },
  {
   "property": "C13",
   "status": "proved",
   "theorems": [
    "C13_fundamental_theorem"
   ],
   "note": ""
  },
  {
   "property": "C14",
   "status": "proved",
   "theorems": [
    "C14_array_operators_isotonic",
    "C14_array_reflected_isotonic",
    "C14_matmul_isotonic",
    "C14_inclusion_isotonic",
    "C14_expressions_isotonic",
    "C14_overflow_refuted"
   ],
   "note": ""
  },
  {
   "property": "C15",
   "status": "proved",
   "theorems": [
    "C15_dual_opp_neg_pro"
   ],
   "note": ""
  },
  {
   "property": "C16",
   "status": "proved",
   "theorems": [
    "C16_opposite_cancels",
    "C16_inverse_endpoints",
    "C16_inverse_cancels_refuted"
   ],
   "note": "Inverse part refuted by a concrete interval."
  },
  {
   "property": "C17",
   "status": "proved",
   "theorems": [
    "C17_product_is_kaucher",
    "C17_proper_operands_give_range",
    "C17_commutative",
    "C17_dual_homomorphism"
   ],
   "note": ""
  },
  {
   "property": "C18",
   "status": "proved",
   "theorems": [
    "C18_mixed_product_commutes",
    "C18_reachable_mixed_product_refuted"
   ],
   "note": "Fails on reachable inconsistently-classed operands (C18_reachable_mixed_product_refuted)."
  },
  {
   "property": "C19",
   "status": "proved",
   "theorems": [
    "C19_outward_on_nonnegative",
    "C19_outward_refuted"
   ],
   "note": "General claim refuted (C19_outward_refuted)."
  },
  {
   "property": "C20",
   "status": "proved",
   "theorems": [
    "C20_mid_inside",
    "C20_mid_overflow_refuted"
   ],
   "note": "C20_mid_overflow_refuted shows the no-overflow proviso is needed."
  },
  {
   "property": "C21",
   "status": "proved",
   "theorems": [
    "C21_mig_exact",
    "C21_mag_exact",
    "C21_abs_exact"
   ],
   "note": ""
  },
  {
   "property": "C22",
   "status": "proved",
   "theorems": [
    "C22_order_laws",
    "C22_equality_is_endpoint_equality"
   ],
   "note": ""
  },
  {
   "property": "C23",
   "status": "proved",
   "theorems": [
    "C23_number_membership",
    "C23_interval_membership"
   ],
   "note": ""
  },
  {
   "property": "C24",
   "status": "proved",
   "theorems": [
    "C24_pow_int_endpoints",
    "C24_pow_double_endpoints",
    "C24_pow_odd_negative_refuted"
   ],
   "note": "Odd powers of negative doubles: C24_pow_odd_negative_refuted."
  },
  {
   "property": "C25",
   "status": "proved",
   "theorems": [
    "C25_exp_encloses",
    "C25_exp_overflow_refuted"
   ],
   "note": "Overflowing upper endpoint: C25_exp_overflow_refuted."
  },
  {
   "property": "C26",
   "status": "proved",
   "theorems": [
    "C26_sin_encloses",
    "C26_cos_encloses",
    "C26_sin_large_argument_refuted"
   ],
   "note": "Endpoints up to 2^20; beyond: C26_sin_large_argument_refuted."
  },
  {
   "property": "C27",
   "status": "proved",
   "theorems": [
    "C27_sorted_construction",
    "C27_unsorted_construction",
    "C27_midrad_construction",
    "C27_midrad_rejects_negative_radius",
    "C27_two_arrays",
    "C27_array_of_pairs",
    "C27_midrad_encloses_refuted",
    "C27_single_number_raises"
   ],
   "note": "Enclosure of the midpoint-radius form is refuted (C27_midrad_encloses_refuted)."
  },
  {
   "property": "C28",
   "status": "proved",
   "theorems": [
    "C28_vertex_rows",
    "C28_vertex_every_choice",
    "C28_choice_determines_row"
   ],
   "note": "Vectors and matrices; any number of components."
  },
  {
   "property": "C29",
   "status": "proved",
   "theorems": [
    "C29_endpoint_arrays",
    "C29_mag_array",
    "C29_mig_array",
    "C29_mid_array",
    "C29_rad_array",
    "C29_wid_array",
    "C29_wid_mixed_refuted",
    "C29_mixed_types_refuted"
   ],
   "note": "Mixed int/float endpoints: C29_mixed_types_refuted."
  },
  {
   "property": "C30",
   "status": "proved",
   "theorems": [
    "C30_matrix_vector",
    "C30_vector_matrix",
    "C30_vector_vector",
    "C30_matrix_matrix"
   ],
   "note": ""
  },
  {
   "property": "C31",
   "status": "proved",
   "theorems": [
    "C31_intersection",
    "C31_arrays",
    "C31_array_and_scalar",
    "C31_disjoint_gives_nan_refuted"
   ],
   "note": "Tiny gaps: C31_disjoint_gives_nan_refuted."
  },
  {
   "property": "C32",
   "status": "proved",
   "theorems": [
    "C32_chebyshev_distance_is_a_metric",
    "C32_order_p_distance_is_a_metric",
    "C32_subset_is_inclusion",
    "C32_subset_is_a_partial_order"
   ],
   "note": "dist over exact reals; subset over the floating-point model (lists of elements)."
  },
  {
   "property": "C33",
   "status": "proved",
   "theorems": [
    "C33_tol_measures_tolerance",
    "C33_tol_recognizes_tolerable_points",
    "C33_tol_is_concave",
    "C33_floating_point_guarantee",
    "C33_floating_point_margin",
    "C33_floating_point_refuted",
    "C33_tiny_weight_refuted",
    "C33_integer_rhs_is_exact"
   ],
   "note": "Exact reals for the recognition, the margin and concavity; binary64 for what a non-negative computed value guarantees (exact when b.mid and b.rad are exact, e.g. an integer b; otherwise up to rounding_margin; weights at least 1). The unguarded binary64 claims are refuted."
  },
  {
   "property": "C34",
   "status": "proved",
   "theorems": [
    "C34_uni_measures_compatibility",
    "C34_uni_recognizes_united_points",
    "C34_uss_recognizes_united_points",
    "C34_same_sign",
    "C34_floating_point_guarantee",
    "C34_floating_point_margin",
    "C34_floating_point_refuted",
    "C34_uss_floating_point_margin",
    "C34_uss_floating_point_excludes",
    "C34_dot_in_order",
    "C34_uss_floating_point_refuted",
    "C34_uss_negative_refuted"
   ],
   "note": "Exact reals for the equivalences; binary64 for what a negative computed Uni guarantees. Uss in floating point (BLAS summation order) is not modelled."
  },
  {
   "property": "C35",
   "status": "proved",
   "theorems": [
    "C35_tol_value",
    "C35_tol_subgradient",
    "C35_constrained_tol_value",
    "C35_constrained_tol_subgradient",
    "C35_uni_value",
    "C35_uni_subgradient_in_orthant",
    "C35_uni_subgradient_refuted",
    "C35_uss_value",
    "C35_uss_subgradient_in_orthant"
   ],
   "note": "Exact-real model; unguarded Uni claim refuted."
  },
  {
   "property": "C36",
   "status": "proved",
   "theorems": [
    "C36_returns_evaluated_point",
    "C36_no_evaluated_point_is_better",
    "C36_counts_and_codes",
    "C36_codes",
    "C36_tolf_needs_nsims",
    "C36_nit_at_most_maxiter_refuted",
    "C36_tol_maximize",
    "C36_start_kept",
    "C36_nan_start",
    "C36_tol_maximize_recognizes",
    "C36_uni_maximize"
   ],
   "note": "The algorithm is modelled over an abstract record of number/vector operations, instantiated with binary64 lists and with exact reals. nit <= maxiter: C36_nit_at_most_maxiter_refuted."
  },
  {
   "property": "C37",
   "status": "proved",
   "theorems": [
    "C37_penalty_zero_iff_feasible",
    "C37_penalty_subgradient",
    "C37_find_mu_dominates",
    "C37_no_usable_row_fails",
    "C37_zero_rows_refuted"
   ],
   "note": "Exact-real model; random weights uniform(1,1) are the constant 1."
  },
  {
   "property": "C38",
   "status": "proved",
   "theorems": [
    "C38_gauss_encloses_small",
    "C38_gauss_encloses_nearly_triangular",
    "C38_gauss_encloses_refuted"
   ],
   "note": "For three or more unknowns the code transposes the multipliers and loses solutions (C38_gauss_encloses_refuted)."
  },
  {
   "property": "C39",
   "status": "proved",
   "theorems": [
    "C39_gauss_seidel_keeps_solutions",
    "C39_default_box_refuted",
    "C39_negative_maxiter_refuted",
    "C39_exception_excludes"
   ],
   "note": "Kernel (binary64) model; dist, the preconditioner and the H-matrix test are arbitrary. Default box and negative limits are refuted."
  },
  {
   "property": "C40",
   "status": "proved",
   "theorems": [
    "C40_several_unknowns_krawczyk",
    "C40_several_unknowns_hansen_sengupta",
    "C40_several_unknowns_raise",
    "C40_krawczyk_keeps_zeros",
    "C40_hansen_sengupta_keeps_zeros",
    "C40_krawczyk_nan_excludes",
    "C40_hansen_sengupta_nan_excludes",
    "C40_krawczyk_exception_excludes",
    "C40_hansen_sengupta_exception_excludes"
   ],
   "note": "Kernel (binary64) model. Several unknowns: the code calls to_float on the elements, which do not have it; what follows is an arbitrary continuation in the model."
  },
  {
   "property": "C41",
   "status": "proved",
   "theorems": [
    "C41_globopt_bounds",
    "C41_stops_below_tolerance",
    "C41_negative_limit",
    "C41_at_most_maxiter_bisections_refuted"
   ],
   "note": "Kernel (binary64) model for any dimension; off-by-one of the limit refuted."
  },
  {
   "property": "C42",
   "status": "proved",
   "theorems": [
    "C42_exact_hull",
    "C42_returns_when_bounded",
    "C42_raises_when_empty"
   ],
   "note": "Exact reals; cvxopt is an oracle assumed truthful on the 2n problems it is given; the nu argument of the internal helper is never passed by Rohn."
  },
  {
   "property": "C43",
   "status": "proved",
   "theorems": [
    "C43_encloses_when_settled",
    "C43_encloses_strongly_regular",
    "C43_iteration_limit_refuted",
    "C43_doubles_refuted"
   ],
   "note": "Exact reals; any inverse function for the settled case, exact inverses for the strongly regular case, where a large enough limit is shown to exist. The unconditional claim is refuted for the iteration limit."
  },
  {
   "property": "C44",
   "status": "proved",
   "theorems": [
    "C44_encloses",
    "C44_h_check_refuted",
    "C44_all_check",
    "C44_matrix_rhs_refuted",
    "C44_matrix_rhs_single"
   ],
   "note": "Exact reals; H-matrix is a hypothesis because the check in the code is too weak (refuted); the corrected check is proved exact. Matrix right-hand side: refuted beyond one equation."
  },
  {
   "property": "C45",
   "status": "proved",
   "theorems": [
    "C45_encloses",
    "C45_lower_bound",
    "C45_exact_in_orthant",
    "C45_initial_box_refuted",
    "C45_point_component_refuted",
    "C45_one_unknown_raises",
    "C45_floating_point",
    "C45_floating_point_clear_column",
    "C45_floating_point_lower_bound",
    "C45_floating_point_rounding_refuted"
   ],
   "note": "Exact reals; starting boxes (StartBar) and the LP solver are arguments; solutions with |x_nu| <= 1e15, the bound written into the LP. Refuted for x0 (second pass starts from x0 instead of -x0). On doubles (PssFl.v): the answer contains the solution rounded to nearest, the solution itself if the column is clear of zero; losing it otherwise is proved (floating_point_rounding_refuted)."
  },
  {
   "property": "C46",
   "status": "proved",
   "theorems": [
    "C46_united",
    "C46_tolerable",
    "C46_united_space",
    "C46_tolerable_space",
    "C46_four_orthants_united",
    "C46_four_orthants_tolerable",
    "C46_vertices",
    "C46_slice_corners",
    "C46_slice_in_window",
    "C46_zero_equation_refuted"
   ],
   "note": "Exact reals. The systems are handled for any m and n; slices for two unknowns (any number of equations), assuming rounding to 12 digits leaves the system unchanged, no zero rows (refuted with them) and corners more than 1e-8 apart."
  },
  {
   "property": "C47",
   "status": "proved",
   "theorems": [
    "C47_one_segment_per_face",
    "C47_segment_is_face",
    "C47_segment_perturbed",
    "C47_infinite_ends",
    "C47_all_vertices",
    "C47_empty_answer",
    "C47_lineqs_vertices_feasible",
    "C47_lineqs_empty_answer",
    "C47_lineqs_polygon",
    "C47_hull",
    "C47_lineqs_window",
    "C47_lineqs_window_raises",
    "C47_lineqs_zero_row_refuted"
   ],
   "note": "Exact reals; the 1e-301 is a parameter (0 in the lineqs theorems). Corners of the set are assumed more than 1e-8 apart (the tolerance of the code). Plotting is not modelled."
  },
  {
   "property": "C48",
   "status": "proved",
   "theorems": [
    "C48_zeros",
    "C48_full",
    "C48_eye",
    "C48_diag_of_vector",
    "C48_diag_of_matrix",
    "C48_neumaier_system",
    "C48_shary_system",
    "C48_shary_rejects",
    "C48_toft_system"
   ],
   "note": ""
  },
  {
   "property": "C49",
   "status": "proved",
   "theorems": [
    "C49_asinterval",
    "C49_idempotent"
   ],
   "note": ""
  },
  {
   "property": "C50",
   "status": "proved",
   "theorems": [
    "C50_history_keeps_shape_consistent",
    "C50_set_item",
    "C50_delete_first_axis",
    "C50_delete_tuple",
    "C50_in_place_consistent_iff_not_enlarging",
    "C50_in_place_broadcast_refuted"
   ],
   "note": "Enlarging in-place broadcasting: C50_in_place_broadcast_refuted."
  },
  {
   "property": "C51",
   "status": "proved",
   "theorems": [
    "C51_sign_is_hull_of_signs",
    "C51_comparison_matrix",
    "C51_utilities_of_numbers",
    "C51_wid_of_number_refuted"
   ],
   "note": "wid of a plain number: C51_wid_of_number_refuted."
  },
  {
   "property": "C52",
   "status": "proved",
   "theorems": [
    "C52_linearization",
    "C52_improper_refuted",
    "C52_point_matrix",
    "C52_settled",
    "C52_same_matrix",
    "C52_box_tolerable",
    "C52_box_united",
    "C52_run",
    "C52_tolerance_refuted"
   ],
   "note": "Exact reals; numpy.linalg.solve is an argument assumed correct when it answers. Convergence of the iteration is not claimed by the property and not proved."
  },
  {
   "property": "C53",
   "status": "proved",
   "theorems": [
    "C53_single_equation",
    "C53_common_radius",
    "C53_shape",
    "C53_inner_refuted",
    "C53_weighted_refuted",
    "C53_inner_iff",
    "C53_inner_average",
    "C53_weighted_radii",
    "C53_largest_at_origin",
    "C53_doubles_box",
    "C53_doubles_single_equation",
    "C53_sums",
    "C53_doubles_refuted"
   ],
   "note": "The unconditional claim is refuted (C53_inner_refuted, C53_weighted_refuted); C53_inner_iff says exactly when it holds."
  },
  {
   "property": "C54",
   "status": "proved",
   "theorems": [
    "C54_smoothing",
    "C54_weights_kept",
    "C54_weights_positive",
    "C54_default_reproducible",
    "C54_no_smoothing_reproducible",
    "C54_history",
    "C54_caller_changed_refuted",
    "C54_integer_weights_refuted"
   ],
   "note": "Exact reals; aliasing of the weight argument is modelled, float rounding is not."
  },
  {
   "property": "C55",
   "status": "proved",
   "theorems": [
    "C55_monomials",
    "C55_chebyshev",
    "C55_hermite",
    "C55_legendre",
    "C55_laguerre",
    "C55_column_exact",
    "C55_column_inner",
    "C55_roots_exist",
    "C55_row_exact",
    "C55_predict_encloses",
    "C55_value_in_predict",
    "C55_bias",
    "C55_bias_laguerre_refuted"
   ],
   "note": "Exact reals; numpy's root finder is an argument; the bases are defined by their recurrences. Pandas is not modelled."
  },
  {
   "property": "C56",
   "status": "proved",
   "theorems": [
    "C56_value_attained",
    "C56_value_exact",
    "C56_calcfg_value",
    "C56_calcfg_supports",
    "C56_value_refuted",
    "C56_weighted_gradient_refuted"
   ],
   "note": "Full claim refuted (sign error in the comparison; weights missing in the gradient); exact characterisation of when it holds proved."
  },
  {
   "property": "C57",
   "status": "proved",
   "theorems": [
    "C57_log_encloses",
    "C57_log_of_negative_is_nan"
   ],
   "note": ""
  },
  {
   "property": "C58",
   "status": "proved",
   "theorems": [
    "C58_sqrt_encloses",
    "C58_sqrt_is_tight"
   ],
   "note": ""
  },
  {
   "property": "C59",
   "status": "proved",
   "theorems": [
    "C59_elementwise_with_broadcasting",
    "C59_array_operations_enclose",
    "C59_reflected_operations_enclose",
    "C59_numpy_array_left_encloses",
    "C59_scalar_interval_encloses",
    "C59_divide_by_scalar_interval_with_zero_refuted"
   ],
   "note": "Division by a zero-containing scalar interval: see the _refuted theorem."
  },
  {
   "property": "C60",
   "status": "proved",
   "theorems": [
    "C60_get_item",
    "C60_transpose",
    "C60_transpose_involutive",
    "C60_reshape",
    "C60_contains_means_some_element",
    "C60_contains_every_element_refuted"
   ],
   "note": "Membership of every element is refuted."
  },
  {
   "property": "C61",
   "status": "proved",
   "theorems": [
    "C61_kaucher_division_outward"
   ],
   "note": ""
  },
  {
   "property": "C62",
   "status": "proved",
   "theorems": [
    "C62_plane_parametrized"
   ],
   "note": "Exact reals."
  },
  {
   "property": "C63",
   "status": "proved",
   "theorems": [
    "C63_tol_value",
    "C63_uni_value",
    "C63_tol_subgradient",
    "C63_uss_subgradient_in_orthant",
    "C63_uni_subgradient_in_orthant",
    "C63_uni_l1_subgradient_in_orthant",
    "C63_uni_subgradient_refuted",
    "C63_fit",
    "C63_fit_recognizes",
    "C63_tol_predict",
    "C63_uni_predict",
    "C63_l1_necessary",
    "C63_l1_sufficient_refuted"
   ],
   "note": "Exact reals; the r-algorithm is the model of C36. Uni subgradients have the exception of C35."
  },
  {
   "property": "C64",
   "status": "proved",
   "theorems": [
    "C64_tol_recognizes",
    "C64_uni_recognizes",
    "C64_fit",
    "C64_tol_fit",
    "C64_predict_refuted",
    "C64_subgradient_refuted",
    "C64_first_order_is_wils",
    "C64_first_order_subgradient"
   ],
   "note": "Exact reals; roots are an argument assumed to contain all real roots of the derivative."
  },
  {
   "property": "C65",
   "status": "proved",
   "theorems": [
    "C65_all_components",
    "C65_all_encloses",
    "C65_encloses",
    "C65_never_reads_undefined_name",
    "C65_point_matrix_raises",
    "C65_block_triangular_refuted"
   ],
   "note": "The property a user expects (no genericity condition) is false: C65_block_triangular_refuted. Termination of the sign propagation is not claimed: a run that does not end is the value PHang."
  },
  {
   "property": "C66",
   "status": "proved",
   "theorems": [
    "C66_one_window",
    "C66_given_window",
    "C66_chosen_window",
    "C66_reset",
    "C66_lineqs_given_window_keeps",
    "C66_earlier_calls_refuted",
    "C66_default_window_refuted"
   ],
   "note": "Exact reals. Histories of lineqs and IntLinIncR2 calls; the calls in space share the variable and are not part of the histories."
  },
  {
   "property": "C67",
   "status": "proved",
   "theorems": [
    "C67_value",
    "C67_bound",
    "C67_more_rounds",
    "C67_sign",
    "C67_is_a_number",
    "C67_singular",
    "C67_zero_rhs",
    "C67_every_corner",
    "C67_no_rounds",
    "C67_origin_refuted"
   ],
   "note": "Exact reals; numpy.linalg.cond and the random choices are oracles; uses the model of Tol.maximize."
  },
  {
   "property": "C68",
   "status": "proved",
   "theorems": [
    "C68_every_box_once",
    "C68_solution_sets"
   ],
   "note": "Up to the calls of matplotlib; colours and axes not modelled."
  },
  {
   "property": "C69",
   "status": "proved",
   "theorems": [
    "C69_faces",
    "C69_window",
    "C69_default",
    "C69_hull",
    "C69_window_hull",
    "C69_nearly_feasible",
    "C69_repeated",
    "C69_merged_refuted",
    "C69_contradiction_refuted",
    "C69_one_inequality_refuted",
    "C69_whole_plane_refuted",
    "C69_default_window_refuted"
   ],
   "note": "Exact reals (rounding to 12 decimals and BoundaryIntervals' eps taken as exact); the tolerances 1e-12 and 1e-8 are kept and appear as the conditions all_apart and separated3. The defaults that raise or lose inequalities are proved as refutations."
  },
  {
   "property": "C70",
   "status": "proved",
   "theorems": [
    "C70_orthants",
    "C70_union",
    "C70_one_window",
    "C70_given_window",
    "C70_history",
    "C70_stale_window_refuted",
    "C70_dropped_equation_refuted"
   ],
   "note": "Hull statements with exact arithmetic (around = identity); the one-window, history and dropped-equation theorems hold for any rounding / for the program's own 12 decimals. Drawing is not modelled."
  },
  {
   "property": "C71",
   "status": "proved",
   "theorems": [
    "C71_elementwise",
    "C71_meaning",
    "C71_scalar_and_left_refuted"
   ],
   "note": "Elements are classical or Kaucher intervals; a scalar interval or numpy array on the left always raises, proved in C71_scalar_and_left_refuted."
  },
  {
   "property": "C72",
   "status": "proved",
   "theorems": [
    "C72_iteration",
    "C72_sum_encloses",
    "C72_sum_of_pieces"
   ],
   "note": "sum is stated for vectors; for arrays with more dimensions the pieces are numpy arrays and the sum is not an interval array."
  },
  {
   "property": "C73",
   "status": "proved",
   "theorems": [
    "C73_encloses",
    "C73_elementwise",
    "C73_raises",
    "C73_package_functions",
    "C73_numbers",
    "C73_powers_elementwise",
    "C73_integer_powers"
   ],
   "note": "The C library is an oracle; its accuracy is a hypothesis (library_ok) met by perfect_libm. Where the scalar functions fail (C24, C25, C26 refutations) the array functions fail alike."
  },
  {
   "property": "C74",
   "status": "proved",
   "theorems": [
    "C74_get",
    "C74_set",
    "C74_get_after_set",
    "C74_mask",
    "C74_joint_get",
    "C74_joint_set",
    "C74_joint_misfit",
    "C74_read_back",
    "C74_joint_read_back",
    "C74_mask_read_back",
    "C74_distinct_read_back",
    "C74_errors",
    "C74_slices"
   ],
   "note": "Keys: ints, slices, one list or mask among slices, a mask of the full shape. Lists combined with ints or with other lists, and an array stored under a full int key (numpy then stores the array object as an element), are outside the model."
  },
  {
   "property": "C75",
   "status": "proved",
   "theorems": [
    "C75_objects",
    "C75_others_unchanged",
    "C75_readers_change_nothing",
    "C75_data_is_live",
    "C75_data_detached",
    "C75_pieces_are_live",
    "C75_numpy_value"
   ],
   "note": "Model: buffers, objects and variables; intervals are immutable values (no operation of the Cython classes changes one). C75_objects is a refinement of a machine in which each object has its own value, for programs without numpy handles; the other theorems hold for programs with handles too."
  },
  {
   "property": "C76",
   "status": "proved",
   "theorems": [
    "C76_regular",
    "C76_ndarray",
    "C76_reads_first_elements",
    "C76_ragged_refuted"
   ],
   "note": "C76_ragged_refuted records the inputs on which a user would expect a ValueError or another shape."
  },
  {
   "property": "C77",
   "status": "proved",
   "theorems": [
    "C77_ends",
    "C77_returns",
    "C77_accurate",
    "C77_hbr_exact_on_numbers",
    "C77_hull"
   ],
   "note": ""
  },
  {
   "property": "C78",
   "status": "proved",
   "theorems": [
    "C78_accurate",
    "C78_settles",
    "C78_hull",
    "C78_no_solutions",
    "C78_answer_lost_refuted",
    "C78_zero_end_refuted"
   ],
   "note": ""
  },
  {
   "property": "C79",
   "status": "proved",
   "theorems": [
    "C79_settles",
    "C79_optimal"
   ],
   "note": ""
  },
  {
   "property": "C80",
   "status": "proved",
   "theorems": [
    "C80_nearest",
    "C80_ordered",
    "C80_exact",
    "C80_outward_refuted",
    "C80_injective_refuted",
    "C80_always_prints_refuted",
    "C80_special"
   ],
   "note": ""
  },
  {
   "property": "C81",
   "status": "proved",
   "theorems": [
    "C81_diagonal",
    "C81_one_equation",
    "C81_encloses_refuted"
   ],
   "note": ""
  },
  {
   "property": "C82",
   "status": "proved",
   "theorems": [
    "C82_moves",
    "C82_applies",
    "C82_tolg_zero_refuted"
   ],
   "note": ""
  },
  {
   "property": "C83",
   "status": "proved",
   "theorems": [
    "C83_krawczyk_proves_existence",
    "C83_hansen_sengupta_proves_existence",
    "C83_more_iterations_refuted"
   ],
   "note": ""
  },
  {
   "property": "C84",
   "status": "proved",
   "theorems": [
    "C84_krawczyk_shrinks",
    "C84_hansen_sengupta_shrinks",
    "C84_gauss_seidel_shrinks",
    "C84_needs_zero_refuted"
   ],
   "note": ""
  },
  {
   "property": "C85",
   "status": "proved",
   "theorems": [
    "C85_addition",
    "C85_subtraction",
    "C85_product",
    "C85_number_product",
    "C85_quotient"
   ],
   "note": ""
  },
  {
   "property": "C86",
   "status": "proved",
   "theorems": [
    "C86_operations_isotonic",
    "C86_division_isotonic",
    "C86_proper_kaucher_refuted"
   ],
   "note": ""
  },
  {
   "property": "C87",
   "status": "proved",
   "theorems": [
    "C87_exp",
    "C87_log",
    "C87_sin",
    "C87_cos",
    "C87_improper_sin_outward_refuted"
   ],
   "note": ""
  },
  {
   "property": "C88",
   "status": "proved",
   "theorems": [
    "C88_integer_ends",
    "C88_double_ends",
    "C88_negative_base_refuted",
    "C88_zero_exponent_refuted"
   ],
   "note": ""
  },
  {
   "property": "C89",
   "status": "proved",
   "theorems": [
    "C89_short_last_line",
    "C89_long_last_line",
    "C89_closes_refuted"
   ],
   "note": ""
  },
  {
   "property": "C90",
   "status": "proved",
   "theorems": [
    "C90_dual_pro_opp",
    "C90_negation",
    "C90_absolute_values",
    "C90_inverses",
    "C90_raises",
    "C90_khi",
    "C90_khi_array",
    "C90_khi_mixed_refuted",
    "C90_to_float_reversed_refuted"
   ],
   "note": ""
  },
  {
   "property": "C91",
   "status": "proved",
   "theorems": [
    "C91_tol_reported",
    "C91_uni_reported",
    "C91_uss_reported",
    "C91_cheb_reported",
    "C91_tol_feasible_optimum",
    "C91_uni_feasible_optimum",
    "C91_uss_feasible_optimum",
    "C91_default_start_refuted",
    "C91_shared_variables_refuted",
    "C91_weight_refuted",
    "C91_mu_kept",
    "C91_mu_given",
    "C91_reuse_refuted",
    "C91_two_sided",
    "C91_infinite_penalty",
    "C91_infinite_run"
   ],
   "note": ""
  },
  {
   "property": "C92",
   "status": "proved",
   "theorems": [
    "C92_commutative",
    "C92_minus_swapped",
    "C92_minus_is_plus_negated",
    "C92_sign_of_left",
    "C92_sign_of_right",
    "C92_number_on_the_right",
    "C92_number_on_the_left",
    "C92_zero",
    "C92_one",
    "C92_twice",
    "C92_minus_itself",
    "C92_over_itself",
    "C92_add_then_subtract",
    "C92_subtract_then_add",
    "C92_multiply_then_divide",
    "C92_divide_then_multiply",
    "C92_subdistributive",
    "C92_subdistributive_refuted",
    "C92_distributive_refuted",
    "C92_associative_refuted"
   ],
   "note": ""
  },
  {
   "property": "C93",
   "status": "proved",
   "theorems": [
    "C93_direction_tol_uni",
    "C93_direction_uss",
    "C93_direction_wils",
    "C93_direction_given",
    "C93_tol_reported_value",
    "C93_uni_reported_value",
    "C93_uss_reported_value",
    "C93_tol_reports_a_number",
    "C93_uni_reports_a_number",
    "C93_uss_reports_a_number",
    "C93_tol_nonnegative",
    "C93_tol_negative",
    "C93_uni_nonnegative",
    "C93_uni_negative",
    "C93_uss_nonnegative",
    "C93_uss_negative",
    "C93_tol_accuracy",
    "C93_uni_accuracy",
    "C93_uss_accuracy",
    "C93_tol_exact_refuted",
    "C93_uni_exact_refuted",
    "C93_uss_exact_refuted",
    "C93_tol_value_agrees_refuted",
    "C93_tol_negative_means_empty_refuted",
    "C93_uni_negative_means_empty_refuted",
    "C93_uss_negative_means_empty_refuted"
   ],
   "note": ""
  },
  {
   "property": "C94",
   "status": "proved",
   "theorems": [
    "C94_direction",
    "C94_direction_given",
    "C94_tol_reported_value",
    "C94_uni_reported_value",
    "C94_uss_reported_value",
    "C94_penalty_lowers",
    "C94_no_penalty_inside",
    "C94_tol_nonnegative",
    "C94_uni_nonnegative",
    "C94_uss_nonnegative",
    "C94_tol_negative",
    "C94_uni_negative",
    "C94_uss_negative",
    "C94_satisfied_refuted",
    "C94_adding_in_turn"
   ],
   "note": ""
  },
  {
   "property": "C95",
   "status": "proved",
   "theorems": [
    "C95_unknown_consistency_raises",
    "C95_tol_hull",
    "C95_tol_empty_raises",
    "C95_tol_raises_iff_negative",
    "C95_tol_returns",
    "C95_raises_only_if_empty_refuted"
   ],
   "note": ""
  },
  {
   "property": "C96",
   "status": "proved",
   "theorems": [
    "C96_power_encloses",
    "C96_negative_integer",
    "C96_power_is_tight",
    "C96_kaucher_power",
    "C96_negative_base_raises",
    "C96_half_is_sqrt",
    "C96_zero_exponent_refuted",
    "C96_overflow_refuted"
   ],
   "note": ""
  },
  {
   "property": "C97",
   "status": "proved",
   "theorems": [
    "C97_direction_given",
    "C97_inconsistent_dimensions",
    "C97_fit_returns",
    "C97_reported_value",
    "C97_smoothed_weights",
    "C97_smoothing_rule",
    "C97_no_smoothing",
    "C97_repeated_fit_refuted",
    "C97_nonnegative",
    "C97_negative",
    "C97_sum_refuted",
    "C97_predictions"
   ],
   "note": ""
  },
  {
   "property": "C98",
   "status": "proved",
   "theorems": [
    "C98_column",
    "C98_row",
    "C98_enclosure_refuted"
   ],
   "note": ""
  },
  {
   "property": "C99",
   "status": "proved",
   "theorems": [
    "C99_fit",
    "C99_tol_computed",
    "C99_tol_nonnegative",
    "C99_tol_negative",
    "C99_uni_nonnegative",
    "C99_uni_negative",
    "C99_predict",
    "C99_predict_ends"
   ],
   "note": ""
  }
 ]
}