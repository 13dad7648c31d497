{
 "claims": [
  {
   "property": "C01",
   "status": "proved",
   "theorems": [
    "C01_rouwenhorst_stochastic"
   ],
   "note": ""
  },
  {
   "property": "C02",
   "status": "proved",
   "theorems": [
    "C02_rouwenhorst_conditional_moments",
    "C02_rouwenhorst_stationary_law",
    "C02_rouwenhorst_only_law",
    "C02_rouwenhorst_horizon"
   ],
   "note": ""
  },
  {
   "property": "C03",
   "status": "proved",
   "theorems": [
    "C03_tauchen_stochastic",
    "C03_tauchen_single_node"
   ],
   "note": "for any monotone [0,1]-valued distribution function in place of scipy's normal cdf"
  },
  {
   "property": "C04",
   "status": "proved",
   "theorems": [
    "C04_tensor_markov_joint",
    "C04_tensor_markov_stochastic",
    "C04_tensor_markov_errors"
   ],
   "note": ""
  },
  {
   "property": "C05",
   "status": "proved",
   "theorems": [
    "C05_iid_to_mc",
    "C05_constructors",
    "C05_constant_process"
   ],
   "note": ""
  },
  {
   "property": "C06",
   "status": "partial",
   "theorems": [
    "C06_diagonal_covariance",
    "C06_correlated_covariance_refuted",
    "C06_zero_sum_column_refuted"
   ],
   "note": "true for diagonal covariances, false in general: the code multiplies by the upper Cholesky factor on the wrong side, and treats zero-sum columns as null shocks"
  },
  {
   "property": "C07",
   "status": "partial",
   "theorems": [
    "C07_univariate",
    "C07_unormal",
    "C07_multivariate_mean_refuted"
   ],
   "note": "False in dimension two or more: the mean is added twice. Proved in one dimension."
  },
  {
   "property": "C08",
   "status": "partial",
   "theorems": [
    "C08_nondegenerate",
    "C08_univariate",
    "C08_degenerate_refuted"
   ],
   "note": "False when a column of Sigma sums to zero: Sigma is overwritten in place."
  },
  {
   "property": "C09",
   "status": "partial",
   "theorems": [
    "C09_cartesian",
    "C09_rows_are_tuples",
    "C09_tuples_are_rows",
    "C09_mlinspace",
    "C09_integer_first_axis_refuted"
   ],
   "note": "true when the first axis is a float array (always so in mlinspace); false when it is an integer array: the output takes its dtype and truncates the other axes. Axes are nonempty."
  },
  {
   "property": "C10",
   "status": "proved",
   "theorems": [
    "C10_uniform_grid",
    "C10_nodes_in_box",
    "C10_errors"
   ],
   "note": ""
  },
  {
   "property": "C11",
   "status": "partial",
   "theorems": [
    "C11_nonuniform_add",
    "C11_uniform_add_same_bounds",
    "C11_uniform_add_refuted"
   ],
   "note": "true for non-uniform grids; false for uniform grids unless both have the same bounds"
  },
  {
   "property": "C12",
   "status": "partial",
   "theorems": [
    "C12_cat_empty",
    "C12_cat_cartesian_refuted"
   ],
   "note": "true for an empty left grid; false (always raises TypeError) for Cartesian grids"
  },
  {
   "property": "C13",
   "status": "partial",
   "theorems": [
    "C13_valid_indices",
    "C13_simulated_values",
    "C13_defective_rows_refuted",
    "C13_return_values_refuted"
   ],
   "note": "Indices: proved for stochastic matrices; rows summing to less than one can give an invalid index, and simulate_markov_chain(return_values=True) always raises."
  },
  {
   "property": "C14",
   "status": "proved",
   "theorems": [
    "C14_choice_interval",
    "C14_transitions"
   ],
   "note": "The interval of draws leading to j is [cumulative before j, cumulative before j + P_ij), of length P_ij."
  },
  {
   "property": "C15",
   "status": "partial",
   "theorems": [
    "C15_var1_response",
    "C15_geometric",
    "C15_own_rates",
    "C15_iid_response",
    "C15_ar1_refuted"
   ],
   "note": "Proved for VAR1 and i.i.d. processes; AR1.response always raises."
  },
  {
   "property": "C16",
   "status": "partial",
   "theorems": [
    "C16_markov_product",
    "C16_iid_product",
    "C16_otherwise",
    "C16_single_markov_refuted"
   ],
   "note": "A product of one Markov or continuous process raises."
  },
  {
   "property": "C17",
   "status": "proved",
   "theorems": [
    "C17_gauss_solve_exact"
   ],
   "note": ""
  },
  {
   "property": "C18",
   "status": "proved",
   "theorems": [
    "C18_invert_exact",
    "C18_invert_gu_exact"
   ],
   "note": ""
  },
  {
   "property": "C19",
   "status": "partial",
   "theorems": [
    "C18_invert_exact",
    "C19_wide_rhs_refuted",
    "C19_narrow_rhs_refuted"
   ],
   "note": "false: the matrix helpers take the number of rows as number of columns; only the first n columns are right"
  },
  {
   "property": "C20",
   "status": "proved",
   "theorems": [
    "C20_fischer_burmeister_zero"
   ],
   "note": ""
  },
  {
   "property": "C21",
   "status": "partial",
   "theorems": [
    "C21_smooth_FB_zero",
    "C21_smooth_array",
    "C21_ncpsolve_residual_zero",
    "C21_smooth_FB_infinite_refuted"
   ],
   "note": "true for finite bounds (fb.py) and for finite or infinite bounds (ncpsolve, magnitudes >= 1e20 count as infinite); false for fb.py with an infinite bound: the residual is nan"
  },
  {
   "property": "C22",
   "status": "proved",
   "theorems": [
    "C22_PhiFB_partials",
    "C22_smooth_FB_derivative",
    "C22_ncpsolve_jacobian",
    "C22_newton_matrix"
   ],
   "note": ""
  },
  {
   "property": "C23",
   "status": "partial",
   "theorems": [
    "C23_ncpsolve_enforces_bounds",
    "C23_full_jacobian_refuted"
   ],
   "note": "true for serial and sparse Jacobians; false for jactype='full': an early return discards the smoothing"
  },
  {
   "property": "C24",
   "status": "partial",
   "theorems": [
    "C24_lmmcp_residual_zero",
    "C24_threshold_bound_refuted"
   ],
   "note": "true for all bounds except those exactly equal to +-Big (1e10 by default), for which it is false: the component becomes unconstrained"
  },
  {
   "property": "C25",
   "status": "proved",
   "theorems": [
    "C25_lmmcp_returns_solutions",
    "C25_lmmcp_outcomes",
    "C25_preprocessing_feasible",
    "C25_large_presteps_refuted"
   ],
   "note": "the stated restriction presteps<=kmax is shown to be needed"
  },
  {
   "property": "C26",
   "status": "proved",
   "theorems": [
    "C26_newton_answer",
    "C26_newton_affine"
   ],
   "note": ""
  },
  {
   "property": "C27",
   "status": "partial",
   "theorems": [
    "C27_MyJacobian_quadratic",
    "C27_MyJacobian_affine",
    "C27_serial_affine",
    "C27_serial_quadratic_error",
    "C27_numdiff1_quadratic",
    "C27_numdiff2_old_numpy_partial",
    "C27_numdiff2_refuted",
    "C27_compiler_numdiff_square",
    "C27_compiler_numdiff_rect_refuted"
   ],
   "note": "false for the compiler's numdiff unless the number of values equals the number of rows (or is one): it confuses the two and raises; numdiff2 raises with numpy 1.23 and later, which no longer reads a list as a tuple of indices; true for the others"
  },
  {
   "property": "C28",
   "status": "proved",
   "theorems": [
    "C28_markov_chain",
    "C28_iid",
    "C28_gdp"
   ],
   "note": "f and g are arbitrary functions; the rule's evaluation is any row-wise evaluation."
  },
  {
   "property": "C29",
   "status": "proved",
   "theorems": [
    "C29_run",
    "C29_never_runs"
   ],
   "note": ""
  },
  {
   "property": "C30",
   "status": "proved",
   "theorems": [
    "C30_same_residuals",
    "C30_complementarity"
   ],
   "note": ""
  },
  {
   "property": "C31",
   "status": "proved",
   "theorems": [
    "C31_neumann",
    "C31_newton_system",
    "C31_error_bound",
    "C31_complementarity_jacobian"
   ],
   "note": "invmethod='iti'; the rule is linear in its node values (linear_rule). gmres is not modelled."
  },
  {
   "property": "C32",
   "status": "partial",
   "theorems": [
    "C32_run",
    "C32_converged",
    "C32_converged_bounds",
    "C32_last_backstep_refuted"
   ],
   "note": "Proved when improved_time_iteration stops on its tolerance; the last allowed back-step is accepted whatever its error, and at maxit the reported error is that of the previous rule (refuted)."
  },
  {
   "property": "C33",
   "status": "proved",
   "theorems": [
    "C33_update",
    "C33_contraction",
    "C33_result",
    "C33_error",
    "C33_distance",
    "C33_stops"
   ],
   "note": "For a value equation beta-Lipschitz in the future value and an interpolation K-Lipschitz in its node values (modulus beta K; K = 1 for piecewise linear interpolation). Unstructured or empty exogenous grid."
  },
  {
   "property": "C34",
   "status": "partial",
   "theorems": [
    "C34_run",
    "C34_partial",
    "C34_refuted",
    "C34_never_runs"
   ],
   "note": "The loop uses tol (default 1e-6), the flag 1e-7: the full claim is refuted; proved for tol < 1e-7."
  },
  {
   "property": "C35",
   "status": "partial",
   "theorems": [
    "C35_rule_used",
    "C35_returned_partial",
    "C35_one_iteration_refuted",
    "C35_gdp_refuted"
   ],
   "note": "Proved at the grid nodes from the second iteration on. Missing: off-node values of the returned cubic rule; false for maxit=1 (initial rule returned unchecked) and for quadrature points off the exogenous grid."
  },
  {
   "property": "C36",
   "status": "proved",
   "theorems": [
    "C36_residual_zero",
    "C36_residual_small"
   ],
   "note": "det_residual vanishes exactly on perfect-foresight paths, any number of rows >= 2; also up to an error d."
  },
  {
   "property": "C37",
   "status": "proved",
   "theorems": [
    "C37_jacobian",
    "C37_flat"
   ],
   "note": "The assembled array, before and after it is reshaped for the solvers, is the derivative in every direction, given that the model's own derivatives are right."
  },
  {
   "property": "C38",
   "status": "partial",
   "theorems": [
    "C38_dict",
    "C38_dict_accepted",
    "C38_none",
    "C38_array_partial",
    "C38_refuted"
   ],
   "note": "Dict input proved. Array input drops its first row, so the equivalence is refuted; the shifted statement is proved."
  },
  {
   "property": "C39",
   "status": "partial",
   "theorems": [
    "C39_refuted"
   ],
   "note": "Refuted: lmmcp(fun, Dfun, x0, lb, ub) is called with (lower, upper, guess). The call to ncpsolve is right (C90_constrained)."
  },
  {
   "property": "C40",
   "status": "partial",
   "theorems": [
    "C40_simulate_partial",
    "C40_constant_partial",
    "C40_refuted"
   ],
   "note": "The recursion actually computed is proved: s(t+1)=g(m(t-1),s(t),x(t),m(t)); the documented timing g(m(t),s(t),x(t),m(t+1)) is refuted, and holds for constant exogenous values."
  },
  {
   "property": "C41",
   "status": "proved",
   "theorems": [
    "C41_find_index",
    "C41_found",
    "C41_error"
   ],
   "note": ""
  },
  {
   "property": "C42",
   "status": "partial",
   "theorems": [
    "C42_tabulate_partial",
    "C42_refuted",
    "C42_cartesian_refuted"
   ],
   "note": "Proved when the starting point is an array of floats; refuted for integer arrays (values truncated) and for Cartesian exogenous grids (always raises)."
  },
  {
   "property": "C43",
   "status": "proved",
   "theorems": [
    "C43_markov",
    "C43_iid"
   ],
   "note": "Uniform grids over one or two states (others raise). The NonUniformCartesianGrid i.i.d. path raises TypeError before producing a matrix."
  },
  {
   "property": "C44",
   "status": "proved",
   "theorems": [
    "C44_spread",
    "C44_errors"
   ],
   "note": ""
  },
  {
   "property": "C45",
   "status": "proved",
   "theorems": [
    "C45_markov",
    "C45_iid"
   ],
   "note": "numpy.linalg.solve is an oracle with the contract exact_solver."
  },
  {
   "property": "C46",
   "status": "proved",
   "theorems": [
    "C46_solves"
   ],
   "note": "The generalised Schur decomposition and numpy's solve are parameters with their contracts as hypotheses; exact reals."
  },
  {
   "property": "C47",
   "status": "partial",
   "theorems": [
    "C47_returned_partial",
    "C47_explosive_refuted",
    "C47_indeterminate_refuted"
   ],
   "note": "Refuted as stated: the test asks only for one stable root among the first group and one unstable root among the second (max and min are the wrong way round), so explosive and indeterminate models pass. Proved: what a returned rule does imply."
  },
  {
   "property": "C48",
   "status": "proved",
   "theorems": [
    "C48_rows",
    "C48_vectors",
    "C48_one_exogenous",
    "C48_iid",
    "C48_expansion_point",
    "C48_states_alone"
   ],
   "note": ""
  },
  {
   "property": "C49",
   "status": "partial",
   "theorems": [
    "C49_solves",
    "C49_returns",
    "C49_order_0_refuted",
    "C49_order_0_raises"
   ],
   "note": "Proved for all orders d >= 1 of the right-hand side; refuted for d = 0 (the code uses kron(C, C)). The slycot branch is not modelled."
  },
  {
   "property": "C50",
   "status": "partial",
   "theorems": [
    "C50_multitake",
    "C50_sdot_matrices",
    "C50_sdot",
    "C50_sdot_mismatch",
    "C50_mdot",
    "C50_mdot_letters",
    "C50_multidot_old",
    "C50_mdot_mismatch",
    "C50_mdot_too_many",
    "C50_mdot_size_one_refuted",
    "C50_mdot_no_matrix_refuted"
   ],
   "note": "Proved for one or more matrices and at most 26 named axes; mdot(M) without matrices sums everything and axes of size 1 are broadcast silently."
  },
  {
   "property": "C51",
   "status": "proved",
   "theorems": [
    "C51_value",
    "C51_rows",
    "C51_expansion_point",
    "C51_getitem",
    "C51_orders"
   ],
   "note": ""
  },
  {
   "property": "C52",
   "status": "partial",
   "theorems": [
    "C52_trend",
    "C52_returns",
    "C52_short",
    "C52_linear",
    "C52_two_dimensions",
    "C52_two_dimensions_refuted"
   ],
   "note": "One-dimensional data: proved for all lengths and lam>=0. Two-dimensional data: refuted, lam is dropped in the recursive call (always 1600)."
  },
  {
   "property": "C53",
   "status": "partial",
   "theorems": [
    "C53_correct_partial",
    "C53_plain",
    "C53_evaluated_once",
    "C53_minus_one_refuted",
    "C53_confused_refuted",
    "C53_unhashable_refuted"
   ],
   "note": "True for all histories whose keys do not clash; false in general (hash collisions, lists/tuples, booleans/integers, array shapes); unhashable arguments raise instead of bypassing the cache."
  },
  {
   "property": "C54",
   "status": "partial",
   "theorems": [
    "C54_correct_partial",
    "C54_answers",
    "C54_none_recomputed",
    "C54_crash_refuted",
    "C54_same_name_refuted",
    "C54_disk_dictionary_refuted"
   ],
   "note": "True for all histories and crash points outside of a write; a crash while writing poisons the key; functions with the same name share files; DiskDictionary never stores."
  },
  {
   "property": "C55",
   "status": "partial",
   "theorems": [
    "C55_equal_keys",
    "C55_key_hashable",
    "C55_unhashable_key_refuted",
    "C55_opaque_refuted"
   ],
   "note": "Equal arguments have equal keys (no opaque object); the key may be unhashable, and opaque objects give a TypeError instance as key."
  },
  {
   "property": "C56",
   "status": "proved",
   "theorems": [
    "C56_found",
    "C56_not_found",
    "C56_cases",
    "C56_bad_path_refuted"
   ],
   "note": "All trees and depths. Only when a directory cannot be listed, or the sub-directory asked for does not exist, is the process left elsewhere (C56_bad_path_refuted)."
  },
  {
   "property": "C57",
   "status": "partial",
   "theorems": [
    "C57_applicable",
    "C57_exact",
    "C57_missing",
    "C57_cache_invisible",
    "C57_most_specific",
    "C57_general_first",
    "C57_most_specific_refuted",
    "C57_ambiguous_refuted"
   ],
   "note": "Proved for all histories: applicability, exact match, missing methods, invisibility of the cache, most specific method for signatures of equal length or registered general first. Refuted: signatures of different lengths registered in another order pick a less specific method; ambiguous calls do not raise."
  },
  {
   "property": "C58",
   "status": "partial",
   "theorems": [
    "C58_constructed",
    "C58_group",
    "C58_alternative_name",
    "C58_symbol_partial",
    "C58_tuple",
    "C58_unknown",
    "C58_symbol_refuted"
   ],
   "note": "All lookups proved; a symbol which has the name of a group (or 'actions') cannot be read."
  },
  {
   "property": "C59",
   "status": "proved",
   "theorems": [
    "C59_round_trip",
    "C59_vectors",
    "C59_actions_group_refuted"
   ],
   "note": "The triangular solver is a parameter. Holds even when a symbol is declared twice; a table with a group 'actions' and no 'controls' cannot be used at all."
  },
  {
   "property": "C60",
   "status": "partial",
   "theorems": [
    "C60_lookup",
    "C60_other_methods_refuted"
   ],
   "note": "Lookups follow the renaming after any history; 'in', get, assignment and deletion do not."
  },
  {
   "property": "C61",
   "status": "partial",
   "theorems": [
    "C61_current",
    "C61_last_write",
    "C61_positional_refuted",
    "C61_domain_read_refuted"
   ],
   "note": "Proved for all histories, with the domain section's keys listed before the deletion loop; with the live view that Python uses, a key that is not a state makes the first read raise and the second succeed. set_calibration ignores two or more positional arguments."
  },
  {
   "property": "C62",
   "status": "partial",
   "theorems": [
    "C62_intervals_partial",
    "C62_order_partial",
    "C62_missing",
    "C62_old_files",
    "C62_order_refuted"
   ],
   "note": "One interval per state; but in the order of the section, not of the declaration, unless they agree."
  },
  {
   "property": "C63",
   "status": "partial",
   "theorems": [
    "C63_accepted",
    "C63_refused",
    "C63_dimension_refuted"
   ],
   "note": "Names are checked exactly; dimensions of the processes and old-style sections are not checked."
  },
  {
   "property": "C64",
   "status": "partial",
   "theorems": [
    "C64_parsed",
    "C64_accepted",
    "C64_refused",
    "C64_text",
    "C64_one_sided_refuted"
   ],
   "note": "Two-sided conditions proved on syntax trees and on text; one-sided conditions always raise."
  },
  {
   "property": "C65",
   "status": "proved",
   "theorems": [
    "C65_values",
    "C65_shift",
    "C65_argument_names",
    "C65_bounds_auxiliary_refuted",
    "C65_extra_equations_refuted"
   ],
   "note": "For all models, kinds of equations and shifts, any correct sorting of definitions, both conventions for the visibility of targets. Findings: auxiliary variables do not exist in bounds; equations beyond the number of targets are dropped."
  },
  {
   "property": "C66",
   "status": "partial",
   "theorems": [
    "C66_rows_partial",
    "C66_lead_refuted"
   ],
   "note": "The value of each row is characterised; but k(1) is the previous value, not the next one."
  },
  {
   "property": "C67",
   "status": "partial",
   "theorems": [
    "C67_kronecker",
    "C67_apply",
    "C67_reshape",
    "C67_reshape_refused",
    "C67_as_array_partial",
    "C67_as_array_square",
    "C67_present_jacobian",
    "C67_future_jacobian",
    "C67_jacobian_refused",
    "C67_mult_AB",
    "C67_four_bases_refuted",
    "C67_as_array_shape_refuted",
    "C67_as_array_empty_refuted",
    "C67_unusable_refuted"
   ],
   "note": "True for up to three bases, for values and for the Jacobians; false for more bases, for the shape of sparse arrays with empty trailing rows or columns, and for the methods that read undefined names."
  },
  {
   "property": "C68",
   "status": "proved",
   "theorems": [
    "C68_serial_multiplication",
    "C68_serial_solve_diagnose",
    "C68_serial_solve_nodiagnose"
   ],
   "note": ""
  },
  {
   "property": "C69",
   "status": "partial",
   "theorems": [
    "C69_residuals",
    "C69_find_partial",
    "C69_refuted"
   ],
   "note": "residuals proved; find_steady_state ignores the success flag of the root finder (refuted)."
  },
  {
   "property": "C70",
   "status": "partial",
   "theorems": [
    "C70_product_points",
    "C70_product_integrate",
    "C70_product_law",
    "C70_mixture_by_position",
    "C70_mixture_by_value",
    "C70_mixture_order_refuted"
   ],
   "note": "Products proved; mixtures select by position instead of value."
  },
  {
   "property": "C71",
   "status": "partial",
   "theorems": [
    "C71_median_points",
    "C71_other_points",
    "C71_points_ordered",
    "C71_uniform_mean",
    "C71_mc_ignores_N_refuted"
   ],
   "note": "to='mc' ignores N."
  },
  {
   "property": "C72",
   "status": "partial",
   "theorems": [
    "C72_bernouilli_draw_refuted"
   ],
   "note": "False: the parameter is ignored."
  },
  {
   "property": "C73",
   "status": "partial",
   "theorems": [
    "C73_call_states_rows",
    "C73_call_index_rows",
    "C73_cartesian_rows_refuted",
    "C73_integer_point_refuted"
   ],
   "note": "Row-wise agreement of __call__ is proved for any row-wise evaluation; it fails over a Cartesian exogenous grid (one exogenous point with several states raises ValueError) and for integer-typed exogenous points (taken for an index)."
  },
  {
   "property": "C74",
   "status": "partial",
   "theorems": [
    "C74_empty",
    "C74_unstructured_cubic",
    "C74_unstructured_linear_one_state",
    "C74_unstructured_linear_refuted",
    "C74_cartesian_nonuniform",
    "C74_cartesian_uniform_refuted"
   ],
   "note": "interpolation.py's eval_linear/prefilter/eval_spline are oracles whose contract is interpolation at the nodes. Refuted for an unstructured exogenous grid with linear interpolation over two or more states and for two uniform Cartesian grids."
  },
  {
   "property": "C75",
   "status": "proved",
   "theorems": [
    "C75_items",
    "C75_error",
    "C75_chain_as_gdp"
   ],
   "note": ""
  },
  {
   "property": "C76",
   "status": "partial",
   "theorems": [
    "C76_symmetric_nodes",
    "C76_odd_moments_even_order",
    "C76_odd_moments_odd_order_partial",
    "C76_order_three",
    "C76_odd_order_refuted"
   ],
   "note": "Refuted for odd orders: the middle node is whatever the Newton iteration returns, and is not zero for order three (it is below 1e-14)."
  },
  {
   "property": "C77",
   "status": "proved",
   "theorems": [
    "C77_lmmcp_jacobian",
    "C77_lmmcp_gradient"
   ],
   "note": ""
  },
  {
   "property": "C78",
   "status": "partial",
   "theorems": [
    "C78_mixture_draw_refuted"
   ],
   "note": "False: every draw is zero."
  },
  {
   "property": "C79",
   "status": "proved",
   "theorems": [
    "C79_truncated_quantiles",
    "C79_within_bounds"
   ],
   "note": ""
  },
  {
   "property": "C80",
   "status": "proved",
   "theorems": [
    "C80_multivariate_covariance"
   ],
   "note": "Components whose column of Sigma sums to zero are constant."
  },
  {
   "property": "C81",
   "status": "partial",
   "theorems": [
    "C81_var1_simulate_partial",
    "C81_start_refuted",
    "C81_never_returns_refuted"
   ],
   "note": "VAR1 recursion proved; starting point is m0+mu; stochastic=False and AR1.simulate always raise."
  },
  {
   "property": "C82",
   "status": "proved",
   "theorems": [
    "C82_var1_chain",
    "C82_method"
   ],
   "note": "The Cholesky factorisation is an oracle with its specification."
  },
  {
   "property": "C83",
   "status": "partial",
   "theorems": [
    "C83_nonscalar_persistence_refuted"
   ],
   "note": "False."
  },
  {
   "property": "C84",
   "status": "proved",
   "theorems": [
    "C84_ar1_chain",
    "C84_method"
   ],
   "note": ""
  },
  {
   "property": "C85",
   "status": "proved",
   "theorems": [
    "C85_conditional_mean",
    "C85_conditional_mean_iid"
   ],
   "note": ""
  },
  {
   "property": "C86",
   "status": "partial",
   "theorems": [
    "C86_with_bounds",
    "C86_without_bounds",
    "C86_inner_limit_refuted"
   ],
   "note": "Proved when the last inner solve stops by itself; refuted when it is stopped by its iteration limit, which time_iteration does not check."
  },
  {
   "property": "C87",
   "status": "partial",
   "theorems": [
    "C87_unstructured",
    "C87_empty",
    "C87_cartesian_refuted"
   ],
   "note": "Holds for unstructured (cubic) and empty exogenous grids; over a Cartesian exogenous grid the warm start raises."
  },
  {
   "property": "C88",
   "status": "partial",
   "theorems": [
    "C88_bellman",
    "C88_markov_chain",
    "C88_iid",
    "C88_gdp_refuted"
   ],
   "note": "scipy's minimiser is a parameter; the objective is wrong when the quadrature points are not the nodes of the exogenous grid (refuted)."
  },
  {
   "property": "C89",
   "status": "proved",
   "theorems": [
    "C89_run",
    "C89_converged",
    "C89_iterates",
    "C89_never_runs"
   ],
   "note": "eval_linear and the model's functions are parameters; the future rule is indexed by the exogenous node, as in the code."
  },
  {
   "property": "C90",
   "status": "partial",
   "theorems": [
    "C90_unconstrained",
    "C90_constrained",
    "C90_default_guess",
    "C90_initial_state_refuted"
   ],
   "note": "Proved for ncpsolve and for the unconstrained Newton, with initial state g(m0,s0,x0,m1); the documented initial state s0 is refuted. lmmcp: see C39."
  },
  {
   "property": "C91",
   "status": "partial",
   "theorems": [
    "C91_refuted",
    "C91_kept_partial"
   ],
   "note": "Refuted for every call without keep_steady_state; proved for unconstrained calls that keep it."
  },
  {
   "property": "C92",
   "status": "partial",
   "theorems": [
    "C92_finite_partial",
    "C92_refuted"
   ],
   "note": "Proved when all bounds are finite; refuted when another control has infinite bounds (nan in max)."
  },
  {
   "property": "C93",
   "status": "partial",
   "theorems": [
    "C93_refuted",
    "C90_constrained"
   ],
   "note": "With bounds the tolerance bounds the errors (C90_constrained); without bounds maxit and tol are ignored."
  },
  {
   "property": "C94",
   "status": "proved",
   "theorems": [
    "C94_rest_path",
    "C94_rest_chain"
   ],
   "note": "For chains, nodes are assumed distinct (see C96)."
  },
  {
   "property": "C95",
   "status": "partial",
   "theorems": [
    "C95_refuted",
    "C95_next_call_partial",
    "C95_driven_partial"
   ],
   "note": "Refuted: the seed is set after the draws. Proved: the generator left by a call is the seeded one; driven simulations do not use it."
  },
  {
   "property": "C96",
   "status": "partial",
   "theorems": [
    "C96_index_partial",
    "C96_refuted"
   ],
   "note": "Proved for chains with distinct nodes; refuted for repeated nodes."
  },
  {
   "property": "C97",
   "status": "partial",
   "theorems": [
    "C97_tabulate_2d_partial",
    "C97_refuted"
   ],
   "note": "Values proved for rules that accept a single point; refuted for grid-based rules: always raises AssertionError."
  },
  {
   "property": "C98",
   "status": "partial",
   "theorems": [
    "C98_response_partial",
    "C98_persistent_refuted",
    "C98_late_refuted"
   ],
   "note": "Proved for iid shocks up to the timing of C40; refuted for AR1, VAR1 (always raises) and for the date at which states react."
  },
  {
   "property": "C99",
   "status": "proved",
   "theorems": [
    "C99_middle"
   ],
   "note": ""
  },
  {
   "property": "C100",
   "status": "proved",
   "theorems": [
    "C100_blanchard_kahn"
   ],
   "note": "For decompositions with real eigenvalues (triangular S, T)."
  },
  {
   "property": "C101",
   "status": "partial",
   "theorems": [
    "C101_iid",
    "C101_autocorrelated_refuted"
   ],
   "note": "Proved for iid shocks; refuted for VAR1 (reads process.rho, AttributeError) and AR1 (not implemented)."
  },
  {
   "property": "C102",
   "status": "proved",
   "theorems": [
    "C102_quadratic"
   ],
   "note": ""
  },
  {
   "property": "C103",
   "status": "proved",
   "theorems": [
    "C103_moving_average",
    "C103_linear_trend"
   ],
   "note": "Exact-real convolution instead of FFT round-off."
  },
  {
   "property": "C104",
   "status": "partial",
   "theorems": [
    "C104_calibration",
    "C104_values_refuted"
   ],
   "note": "The triangular solver is a parameter with its specification. values and expectations get nan though their initial value is said to be 0."
  },
  {
   "property": "C105",
   "status": "partial",
   "theorems": [
    "C105_accepted",
    "C105_computable",
    "C105_dates_refuted"
   ],
   "note": "New-style blocks. The checks are characterised and guarantee an order of computation; dates of the right-hand side are not checked, so functions may always raise."
  },
  {
   "property": "C106",
   "status": "proved",
   "theorems": [
    "C106_matrix",
    "C106_effect",
    "C106_newton_step"
   ],
   "note": "The return code of gmres is never looked at, so the residual of the step is whatever gmres leaves."
  },
  {
   "property": "C107",
   "status": "proved",
   "theorems": [
    "C107_ratios",
    "C107_bound"
   ],
   "note": ""
  },
  {
   "property": "C108",
   "status": "proved",
   "theorems": [
    "C108_order1",
    "C108_order2",
    "C108_rule",
    "C108_raises"
   ],
   "note": "About state_perturb and the rule built from its result. The module itself cannot be imported at this commit (dolo.compiler.function_compiler_sympy is missing), so the derivatives are inputs."
  },
  {
   "property": "C109",
   "status": "partial",
   "theorems": [
    "C109_order3_partial",
    "C109_one_state_partial",
    "C109_raises",
    "C109_order3_refuted",
    "C109_two_states_refuted"
   ],
   "note": "The second-order terms are right and residuals are of third order. With one state, zero third moments and a transition where state and controls do not interact at second order, residuals are of fourth order. In general fourth order fails, for two reasons: the term g_sx X_ss enters with coefficient 2 instead of 3 (one-state counter-model), and dot(X_s, V2_3) contracts the wrong axis (two-state counter-model)."
  },
  {
   "property": "C110",
   "status": "partial",
   "theorems": [
    "C110_dispatch_partial",
    "C110_redefinition",
    "C110_arity_refuted",
    "C110_return_refuted",
    "C110_redefined_refuted",
    "C110_shadowed_refuted"
   ],
   "note": "True when every definition can be checked against the call and signatures differ; false for definitions with another number of parameters (TypeError), annotated return values (KeyError), redefined signatures (old rank kept) and names already bound to a plain function (definition dropped)."
  },
  {
   "property": "C111",
   "status": "partial",
   "theorems": [
    "C111_cartesian_partial",
    "C111_smolyak",
    "C111_nonuniform",
    "C111_discretize",
    "C111_discretize_file",
    "C111_discretize_smolyak",
    "C111_discretize_default",
    "C111_untagged_refuted",
    "C111_missing_refuted",
    "C111_columns_refuted"
   ],
   "note": "True for tagged sections relative to the order of the section domain; false for untagged or missing sections and when the section domain lists the states in another order. The nodes of Smolyak grids are external."
  },
  {
   "property": "C112",
   "status": "partial",
   "theorems": [
    "C112_rows_partial",
    "C112_one_exogenous_partial",
    "C112_mismatch",
    "C112_call_partial",
    "C112_missing",
    "C112_index_refuted",
    "C112_states_only_refuted",
    "C112_dated_refuted",
    "C112_frozen_refuted",
    "C112_discretize_refuted"
   ],
   "note": "Values are right at float points when intermediate names are plain. Calls with an integer or with the states only raise AttributeError; intermediate names written with a date are not recognised; parameters are those of the time of construction; a model whose process has no default discretisation is refused."
  },
  {
   "property": "C113",
   "status": "partial",
   "theorems": [
    "C113_arrays_partial",
    "C113_never_refuted",
    "C113_type_error",
    "C113_mean_refuted"
   ],
   "note": "False at this commit: every call raises, since the class of the grid has no constructor and, for AR1, the coefficient is a float without shape. The arrays computed around that call have the right moments when the mean of the process is 0 and are wrong otherwise."
  },
  {
   "property": "C114",
   "status": "proved",
   "theorems": [
    "C114_equilibrium",
    "C114_stops",
    "C114_error"
   ],
   "note": "Without bounds, from the slope and Lipschitz constants of the equations; with bounds, from the contraction of the updates themselves. The slope and Lipschitz conditions are assumptions on the model; an example meets them."
  },
  {
   "property": "C115",
   "status": "proved",
   "theorems": [
    "C115_value",
    "C115_policy",
    "C115_unique",
    "C115_exists",
    "C115_policy_value"
   ],
   "note": "The minimiser is a parameter that finds minima; K = 1 for piecewise linear value rules."
  },
  {
   "property": "C116",
   "status": "proved",
   "theorems": [
    "C116_stops",
    "C116_error",
    "C116_exists"
   ],
   "note": "Contraction of the step is an assumption on the model and grid; an example meets it. A tolerance above 1 is met by the placeholder error of the first iteration, hence tol <= 1 in C116_error."
  },
  {
   "property": "C117",
   "status": "proved",
   "theorems": [
    "C117_value_iteration"
   ],
   "note": "Interpolation rules that average node values only (cubic splines do not); the first two passes may start from infeasible calibrated controls."
  },
  {
   "property": "C118",
   "status": "proved",
   "theorems": [
    "C118_slope",
    "C118_descent",
    "C118_strict",
    "C118_line_search",
    "C118_merit",
    "C118_best"
   ],
   "note": "The least-squares routine is a parameter that finds minimisers; the condition number is an arbitrary test. C118_merit has the exception of a line search that gives up, which the code accepts."
  },
  {
   "property": "C119",
   "status": "proved",
   "theorems": [
    "C119_unique",
    "C119_unique_iid",
    "C119_reached",
    "C119_marginal",
    "C119_mean",
    "C119_several"
   ],
   "note": "The linear solver is a parameter that is exact and raises only on singular matrices; gaussian elimination meets this. C119_several is a model whose state never moves, on which the call raises."
  },
  {
   "property": "C120",
   "status": "proved",
   "theorems": [
    "C120_quadratic",
    "C120_affine"
   ],
   "note": "Regularity of the root (bounds on the inverse Jacobian and on the second-order remainder near it) is an assumption on the user's function; an example meets it."
  },
  {
   "property": "C121",
   "status": "partial",
   "theorems": [
    "C121_reads_partial",
    "C121_accepts",
    "C121_edited_partial",
    "C121_functions_kept",
    "C121_egm",
    "C121_stale_functions_refuted",
    "C121_definitions_first_refuted",
    "C121_wrong_definitions_refuted",
    "C121_mapping_variables_refuted"
   ],
   "note": "Proved for models built with the checks. Refuted otherwise: announced edits do not reach the compiled functions; on an unchecked model the first read of the definitions raises, wrong definitions are only reported once, and the variables of files with a mapping of definitions depend on the order of reads."
  },
  {
   "property": "C122",
   "status": "proved",
   "theorems": [
    "C122_tauchen",
    "C122_nonuniform_grid",
    "C122_add_accepted",
    "C122_add_refused",
    "C122_shocks_dict",
    "C122_shocks_array",
    "C122_hp_filter",
    "C122_bases",
    "C122_initial_rule",
    "C122_perturbation",
    "C122_zero_pair",
    "C122_mixed_product",
    "C122_residuals",
    "C122_taylor_value",
    "C122_taylor_select",
    "C122_multitake",
    "C122_x_bounds",
    "C122_ar1_response",
    "C122_var1_response",
    "C122_call",
    "C122_call_exogenous",
    "C122_egm",
    "C122_ergodic",
    "C122_ergodic_iid",
    "C122_driving_path",
    "C122_driving_indices"
   ],
   "note": "Exceptions raised by numpy itself are those it documents; nan results are flagged ResultNaN. The NameError of C122_zero_pair is the one the code raises, the class it means to raise is not defined."
  },
  {
   "property": "C123",
   "status": "partial",
   "theorems": [
    "C123_second_partial",
    "C123_cutoff_refuted"
   ],
   "note": "Refuted: half the difference of the two moduli is compared with their squares, so it need not separate them. Proved for any numbers of states and controls: which decomposition is asked, and when NameError is raised instead."
  },
  {
   "property": "C124",
   "status": "proved",
   "theorems": [
    "C124_rule_read",
    "C124_nodes"
   ],
   "note": "For decision rules on grids (interpolation routines are parameters)."
  },
  {
   "property": "C125",
   "status": "proved",
   "theorems": [
    "C125_roots",
    "C125_computed_rule",
    "C125_all_roots",
    "C125_exact_degree",
    "C125_meets_C07"
   ],
   "note": "In exact arithmetic. The nodes the code returns are approximate roots, so the moments are stated for the exact roots and classical weights (shown to exist for every order) and the computed nodes and weights are located around them; that different searches reach different roots is an hypothesis of C125_all_roots."
  },
  {
   "property": "C126",
   "status": "partial",
   "theorems": [
    "C126_shape_partial",
    "C126_single_normal_refuted",
    "C126_single_product_refuted",
    "C126_finite",
    "C126_finite_refused",
    "C126_equiprobable",
    "C126_uniform",
    "C126_normal_partial",
    "C126_unormal_partial",
    "C126_product",
    "C126_bernouilli_refuted",
    "C126_bernouilli_draw_refuted"
   ],
   "note": "Refuted for Bernouilli laws (drawn with probability one half, whatever their parameter) and for a single draw of a Normal (a column, or a number, instead of a row; products with it raise). Proved for all other cases. Products with a Bernouilli law cannot be built. The random generators are parameters."
  },
  {
   "property": "C127",
   "status": "partial",
   "theorems": [
    "C127_layout",
    "C127_normal",
    "C127_refused",
    "C127_flags",
    "C127_deterministic_refuted"
   ],
   "note": "Layout proved. Refuted: stochastic=False is ignored, the path is random."
  },
  {
   "property": "C128",
   "status": "partial",
   "theorems": [
    "C128_succeeds",
    "C128_blocks",
    "C128_chain",
    "C128_var1",
    "C128_start_refused",
    "C128_bernouilli_refuted",
    "C128_all_factors_refuted"
   ],
   "note": "Refuted in that products with an AR1 or a constant, or with a VAR1 without shocks, are never simulated; products with a Bernouilli law cannot be built."
  },
  {
   "property": "C129",
   "status": "partial",
   "theorems": [
    "C129_rbc_partial",
    "C129_rbc_shipped",
    "C129_fiscal_partial",
    "C129_savings_partial",
    "C129_savings_refuted"
   ],
   "note": "Exact conditions: the RBC files iff zbar=0, rmt3_ch11 iff A=1 and no tax on capital (or beta=1), consumption_savings_iid iff w(1-r/10)=1 and beta*r=1, which the shipped numbers do not meet. So the full claim is refuted; nothing is missing from the characterisation."
  },
  {
   "property": "C130",
   "status": "proved",
   "theorems": [
    "C130_response",
    "C130_expected",
    "C130_calibration"
   ],
   "note": "The second equation of direct_response uses the target of the first: stated for compiled functions in which earlier targets are visible."
  },
  {
   "property": "C131",
   "status": "partial",
   "theorems": [
    "C131_value",
    "C131_steady_value_refuted",
    "C131_expectation_partial",
    "C131_expectation_refuted"
   ],
   "note": "The value equation is right. Refuted: the calibrated V is above the value of staying there for every sigma>1; m=0 in rbc_ar1 and rbc_mc; rbc_iid's m needs zbar=0."
  },
  {
   "property": "C132",
   "status": "proved",
   "theorems": [
    "C132_assets",
    "C132_euler"
   ],
   "note": ""
  },
  {
   "property": "C133",
   "status": "proved",
   "theorems": [
    "C133_brock_mirman"
   ],
   "note": ""
  },
  {
   "property": "C134",
   "status": "partial",
   "theorems": [
    "C134_domain_partial",
    "C134_productivity_refuted"
   ],
   "note": "Exact conditions; refuted for productivity (the interval ignores zbar) and for rbc.yaml's capital, whose interval is around the literal 10."
  },
  {
   "property": "C135",
   "status": "partial",
   "theorems": [
    "C135_second_block_partial",
    "C135_first_block_partial",
    "C135_two_bounds_refuted",
    "C135_close_second_refuted",
    "C135_close_first_refuted"
   ],
   "note": "Proved on the kinks and more than 2e-8 away from them. Refuted for the first block at the lower of two finite bounds with F=0, and for both blocks within 1e-8 of a kink without being on it. Missing: coinciding bounds."
  },
  {
   "property": "C136",
   "status": "partial",
   "theorems": [
    "C136_kind_partial",
    "C136_none_refuted",
    "C136_grids",
    "C136_unknown",
    "C136_laws_chain_refuted",
    "C136_default",
    "C136_product_default",
    "C136_keywords"
   ],
   "note": "Refuted: AR1 and VAR1 return None for 'iid' and for unknown kinds; a product of laws never becomes a chain; a constant process has no usable default."
  },
  {
   "property": "C137",
   "status": "partial",
   "theorems": [
    "C137_probability",
    "C137_order_zero_refuted",
    "C137_chain_of_law"
   ],
   "note": "Proved for all processes with positive orders, quadrature rules being parameters with nonnegative weights of the right sum (the computed rule meets this up to its Newton tolerance). Refuted for order 0, which gives a law without points."
  },
  {
   "property": "C138",
   "status": "proved",
   "theorems": [
    "C138_dimension"
   ],
   "note": "Triangular factors are parameters that have the size of their matrix."
  },
  {
   "property": "C139",
   "status": "partial",
   "theorems": [
    "C139_univariate",
    "C139_normal",
    "C139_var1",
    "C139_ar1",
    "C139_constant",
    "C139_chains_refuted"
   ],
   "note": "Proved for laws and for chains of autoregressive and constant processes. Refuted for chains of laws: N and method are accepted and ignored."
  },
  {
   "property": "C140",
   "status": "partial",
   "theorems": [
    "C140_history",
    "C140_chain",
    "C140_law",
    "C140_rule",
    "C140_nothing",
    "C140_unsupported_refuted",
    "C140_classes",
    "C140_which_classes",
    "C140_solved"
   ],
   "note": "Proved for all classes and histories, objects that are instances of both signatures (multiple inheritance) being left out of C140_chain and C140_law. Refuted: unsupported grids or processes, and compute_mu in the two-argument form, are given to the two-argument version, which raises TypeError for its number of arguments."
  },
  {
   "property": "C141",
   "status": "proved",
   "theorems": [
    "C141_step",
    "C141_converges",
    "C141_full_steps",
    "C141_affine"
   ],
   "note": "Interpolation is a parameter, linear in the values (C35 covers what is proved of it). The conditions on the equilibrium are stated in Spec/ItiRegular.v with the algorithm's own finite differences; C141_affine states them with the coefficients of a model whose equations are affine in controls; C141_case meets them with an equation involving tomorrow's control."
  },
  {
   "property": "C142",
   "status": "partial",
   "theorems": [
    "C142_normal_partial",
    "C142_given",
    "C142_unknown",
    "C142_unormal_refuted",
    "C142_unormal_table_refuted",
    "C142_lognormal_refuted",
    "C142_lognormal_once_refuted",
    "C142_others_refuted"
   ],
   "note": "Proved for multivariate normal shocks. Refuted for univariate normal shocks (the square root of the standard deviation is taken), lognormal shocks (the same) and all other laws (AttributeError without an impulse). Autoregressive processes raise in any case (C98_persistent_refuted)."
  },
  {
   "property": "C143",
   "status": "partial",
   "theorems": [
    "C143_run",
    "C143_tomorrow",
    "C143_trace",
    "C143_chain_partial",
    "C143_grid_refuted",
    "C143_simulated_refuted",
    "C143_first_state_refuted",
    "C143_reshaped_refuted"
   ],
   "note": "Proved: constraints options, details, trace, and the equations solved for a chain given to a model whose process is a chain. Refuted: the rule keeps the grid of the model's own process, so that simulations along indices report other nodes than those solved for; a chain given to a model with i.i.d. shocks is solved with the controls of its first state; on Cartesian grids another number of nodes is reshaped wrongly. Interpolation is a parameter that never raises."
  },
  {
   "property": "C144",
   "status": "partial",
   "theorems": [
    "C144_run",
    "C144_series",
    "C144_converged",
    "C144_no_pass",
    "C144_no_details",
    "C144_gmres",
    "C144_no_bounds_refuted",
    "C144_guess_refuted",
    "C144_unread_refuted",
    "C144_grid_refuted"
   ],
   "note": "Proved: process, guess, constraints, interpolation, what N, f_x, d_x, L and the convergence flag mean, for any answer of gmres. Refuted: a model without constraints is refused (KeyError) even with ignore_constraints; results of algorithms, first-order rules and CustomDR are refused as guess (AttributeError); method and mu are never read; the rule keeps the grids of the model. f_x, d_x and L are those of the rule before the returned one when convergence is not reported."
  },
  {
   "property": "C145",
   "status": "partial",
   "theorems": [
    "C145_functions",
    "C145_algorithms",
    "C145_known_blocks",
    "C145_x_bounds",
    "C145_examples",
    "C145_value_iteration_refuted",
    "C145_alias_refuted",
    "C145_egm_unchecked_refuted"
   ],
   "note": "Proved: which function a name stands for, which blocks each algorithm needs, for all files; which algorithms start on the six shipped files of the model. Refuted: value_iteration starts on no model at all (it reads functions controls_lb and controls_ub, which no file can provide); a file using the names equilibrium or optimality is refused although functions can be read under them; egm on a model read with check=False raises AttributeError until the functions have been read."
  },
  {
   "property": "C146",
   "status": "partial",
   "theorems": [
    "C146_run",
    "C146_warm_start",
    "C146_missing",
    "C146_process",
    "C146_accuracy",
    "C146_no_pass",
    "C146_needs",
    "C146_dr0_refuted",
    "C146_policy_refuted",
    "C146_cartesian_refuted",
    "C146_unread_refuted"
   ],
   "note": "Proved: the run of the loop, what is kept (the iterate before the last), what the details mean, error bound under discounting. Refuted: dr0 is overwritten and returned; arrays of controls and objects without eval_is and eval_ijs give AttributeError; Cartesian exogenous grids without dr0 give AttributeError; grid, hook and integration_orders are never read."
  },
  {
   "property": "C147",
   "status": "partial",
   "theorems": [
    "C147_report",
    "C147_converged",
    "C147_needs",
    "C147_half_given_refuted",
    "C147_unread_refuted",
    "C147_product_refuted",
    "C147_chain_refuted",
    "C147_large_tol_refuted"
   ],
   "note": "Proved: grids, process, first rule, what the report and its flag mean. Refuted: grid without dp (AttributeError) and dp without grid (TypeError); details is never read; i.i.d. shocks written as a mapping make a product and raise IndexError in the second iteration; for an i.i.d. model a chain given as dp is not followed; with a tolerance above 1 the first rule is flagged as converged."
  },
  {
   "property": "C148",
   "status": "proved",
   "theorems": [
    "C148_table",
    "C148_guess",
    "C148_round_trip"
   ],
   "note": "Names of variables are assumed distinct (the compiler of functions requires it)."
  },
  {
   "property": "C149",
   "status": "proved",
   "theorems": [
    "C149_quadratic",
    "C149_stops"
   ],
   "note": "Serial and sparse Jacobians (the full layout ignores the bounds, C23). The linear solver is any exact solver that only raises on singular matrices."
  },
  {
   "property": "C150",
   "status": "partial",
   "theorems": [
    "C150_silent",
    "C150_header",
    "C150_names",
    "C150_values",
    "C150_missing",
    "C150_layout",
    "C150_improved_refuted"
   ],
   "note": "Proved for every table whose columns are int or float. Refuted for the table of improved_time_iteration: its names are longer than their columns. The decimal texts of floating-point numbers are parameters."
  },
  {
   "property": "C151",
   "status": "proved",
   "theorems": [
    "C151_newton",
    "C151_time_iteration",
    "C151_rows_shown"
   ],
   "note": "The numbers shown are exact; their decimal texts and the elapsed times are not modelled."
  },
  {
   "property": "C152",
   "status": "partial",
   "theorems": [
    "C152_lines",
    "C152_count",
    "C152_total",
    "C152_errors",
    "C152_table_total",
    "C152_table_errors",
    "C152_same",
    "C152_hidden_refuted",
    "C152_nan_refuted"
   ],
   "note": "Proved for the blocks transition and arbitrage. Refuted: the other blocks are not shown; a residual that is not a number is not coloured."
  },
  {
   "property": "C153",
   "status": "partial",
   "theorems": [
    "C153_run",
    "C153_close",
    "C153_reaches",
    "C153_needs",
    "C153_missing",
    "C153_details",
    "C153_maxit_refuted",
    "C153_howard_refuted"
   ],
   "note": "Proved for models with a Markov chain or i.i.d. shocks. Refuted: maxit_howard is never read, maxit=0 raises NameError, Cartesian exogenous grids fail. The interpolation library and the minimiser are parameters, with hypotheses in the statements."
  },
  {
   "property": "C154",
   "status": "partial",
   "theorems": [
    "C154_numbers_partial",
    "C154_series_partial",
    "C154_table_not_read",
    "C154_missing",
    "C154_model",
    "C154_t_refuted",
    "C154_underscore_refuted",
    "C154_dated_refuted"
   ],
   "note": "Proved for names without double underscore and without an underscore at the end, and tables with at least one row. Refuted for a parameter called t on a table (it is the index), for names that end with an underscore, and for dated variables without a table (NameError). The spelling of names is that of dolang (s_, s__0_, s__m1_, s__p1_)."
  },
  {
   "property": "C155",
   "status": "partial",
   "theorems": [
    "C155_import",
    "C155_messages",
    "C155_checked",
    "C155_accepted",
    "C155_infos",
    "C155_infos_defaults",
    "C155_unchecked_refuted",
    "C155_check_only_refuted",
    "C155_http_path_refuted",
    "C155_name_refuted"
   ],
   "note": "Proved with check=True (the default). False of the code: check_only is not read; a local path containing http is taken for a URL; with check=False files of which nothing can be read are accepted; a name which is a list is returned as nodes. The checks on symbols, definitions and functions are C121."
  },
  {
   "property": "C156",
   "status": "partial",
   "theorems": [
    "C156_egm",
    "C156_egm_silent_refuted",
    "C156_evaluate",
    "C156_value_iteration"
   ],
   "note": "Proved for the numbers in the rows and their order; times, rules and headings are left out. False of the code: egm prints one bare line per iteration, node and integration node whatever verbose is, and its first two rows show the error 1 without computing it."
  }
 ]
}