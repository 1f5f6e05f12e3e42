{
 "claims": [
  {
   "property": "C01",
   "status": "proved",
   "theorems": [
    "C01_terminates_within_budget",
    "C01_default_budget"
   ],
   "note": "All arithmetics, solvers, stateful user functions, clocks and callbacks."
  },
  {
   "property": "C02",
   "status": "partial",
   "theorems": [
    "C02_returns_when_limit_disabled_refuted",
    "C02_returns_partial"
   ],
   "note": "The statement is false of the code: a solver that keeps failing is retried for ever when max_consec_failures = 0. Proved: the call returns when no attempt fails with a finite cost."
  },
  {
   "property": "C03",
   "status": "partial",
   "theorems": [
    "C03_iteration_count_partial",
    "C03_iteration_count_refuted"
   ],
   "note": "Proved for budgets up to 65535; false at 65536 (16-bit counter wraps, no stop reason)."
  },
  {
   "property": "C04",
   "status": "proved",
   "theorems": [
    "C04_final_cost_is_minimum",
    "C04_more_iterations_never_worse"
   ],
   "note": "IEEE double arithmetic."
  },
  {
   "property": "C05",
   "status": "proved",
   "theorems": [
    "C05_successes_are_strict_improvements"
   ],
   "note": "IEEE double arithmetic."
  },
  {
   "property": "C06",
   "status": "proved",
   "theorems": [
    "C06_histories_consistent"
   ],
   "note": ""
  },
  {
   "property": "C07",
   "status": "proved",
   "theorems": [
    "C07_rollback_to_best_point",
    "C07_rolled_back"
   ],
   "note": "For every solver, arithmetic and parameter type, any number of iterations up to 65535 (C03). C07_rolled_back drops the assumption that updates are exactly invertible: x is then the best point moved there and back at most once per iteration."
  },
  {
   "property": "C08",
   "status": "partial",
   "theorems": [
    "C08_returned_x_has_final_cost_refuted",
    "C08_rejected_partial"
   ],
   "note": "False of the code: the last proposed step is applied without being evaluated, even with check_final_cost. True for runs that end with a failure or with a rejected step (C08_rejected_partial)."
  },
  {
   "property": "C09",
   "status": "partial",
   "theorems": [
    "C09_bitwise_rollback_refuted",
    "C09_exact_partial",
    "C09_error_partial"
   ],
   "note": "False in double and float arithmetic. True when x + d is computed without rounding and no parameter is -0; otherwise the error of the way back is bounded. For all parameter types that are updated correctly (C29)."
  },
  {
   "property": "C10",
   "status": "proved",
   "theorems": [
    "C10_stop_reasons_are_justified"
   ],
   "note": ""
  },
  {
   "property": "C11",
   "status": "proved",
   "theorems": [
    "C11_zero_threshold_disables"
   ],
   "note": ""
  },
  {
   "property": "C12",
   "status": "proved",
   "theorems": [
    "C12_priority",
    "C12_first_opportunity"
   ],
   "note": "Priority and consultation of the callbacks are stated on one Step from any state without a stop reason; the run-level theorem says that no recorded iteration but the last meets a criterion on error, relative decrease or step, and that the last reason is the first that holds. The gradient criterion of earlier iterations is covered by the Step theorem (gradients are not recorded in the output)."
  },
  {
   "property": "C13",
   "status": "proved",
   "theorems": [
    "C13_classification"
   ],
   "note": ""
  },
  {
   "property": "C14",
   "status": "partial",
   "theorems": [
    "C14_failure_reported_refuted",
    "C14_failure_reported_partial"
   ],
   "note": "False as stated: with max_duration_ms set, kTimedOut replaces the failure reason. The partial theorem covers runs with no time limit."
  },
  {
   "property": "C15",
   "status": "proved",
   "theorems": [
    "C15_bad_cost_detected",
    "C15_bad_step_detected",
    "C15_final_cost_finite"
   ],
   "note": "The reported reason may be replaced by kTimedOut when a time limit is set (see C14)."
  },
  {
   "property": "C16",
   "status": "proved",
   "theorems": [
    "C16_callback_consulted",
    "C12_priority"
   ],
   "note": "The squared gradient norm argument is in C12_priority."
  },
  {
   "property": "C17",
   "status": "proved",
   "theorems": [
    "C17_range_ieee",
    "C17_range_real",
    "C17_steps_defined",
    "C17_run",
    "C17_run_not_nan"
   ],
   "note": "NaN damping (e.g. 0 * infinity with a step quality of -infinity) passes through std::clamp; C17_run_not_nan says when it cannot occur."
  },
  {
   "property": "C18",
   "status": "proved",
   "theorems": [
    "C18_good_step",
    "C18_bad_step",
    "C18_growth"
   ],
   "note": "Direction in IEEE arithmetic, exact growth in real arithmetic."
  },
  {
   "property": "C19",
   "status": "partial",
   "theorems": [
    "C19_refuted",
    "C19_damping_starts",
    "C19_first_build_partial",
    "C19_zero_range_partial"
   ],
   "note": "False as stated: after the first step the damping is clamped to the lower bound of its range (1e-9 by default). True for the first Build, and for all Builds if the lower bound is 0 as well."
  },
  {
   "property": "C20",
   "status": "proved",
   "theorems": [
    "C20_any_history",
    "C20_run"
   ],
   "note": "Exact arithmetic, positive damping range; the run-level statement excludes user functions that report exactly DBL_MAX from a cost-only evaluation."
  },
  {
   "property": "C21",
   "status": "partial",
   "theorems": [
    "C21_refuted",
    "C21_later_iteration_partial"
   ],
   "note": "False as stated: the run that ends at its first iteration returns the damped Hessian. Proved for runs with two or more iterations whose last iteration found a step."
  },
  {
   "property": "C22",
   "status": "partial",
   "theorems": [
    "C22_reset",
    "C22_stale_refuted",
    "C22_uninit_refuted",
    "C22_no_reset_partial",
    "C22_lm_no_reset_partial"
   ],
   "note": "The first half (reset) is proved. The second half is false for Levenberg-Marquardt after a run that ended with a cost-only evaluation pending; proved for the other solvers and for Levenberg-Marquardt runs that ended ready to rebuild."
  },
  {
   "property": "C23",
   "status": "partial",
   "theorems": [
    "C23_count",
    "C23_sum",
    "C23_in_order",
    "C23_residuals",
    "C23_long_residuals_refuted",
    "C23_inliers_real",
    "C23_inliers_partial",
    "C23_inliers_refuted",
    "C23_undefined_refuted"
   ],
   "note": "Counts and logs hold for any arithmetic, sums and ratios in exact arithmetic. With C++ floats the ratio stays 1 up to 2^24 residuals; it is refuted beyond (ratio < 1 for inliers only, and float to int overflow near INT_MAX). From 2^31 residuals on, their number is negative as an int and the cost counts as invalid."
  },
  {
   "property": "C24",
   "status": "partial",
   "theorems": [
    "C24_real",
    "C24_sum_real",
    "C24_refuted",
    "C24_assign_refuted",
    "C24_within_one_partial",
    "C24_add_within_one_partial"
   ],
   "note": "Exact arithmetic: proved. C++ floats: refuted (1 inlier of 41 is counted as 0); at most one inlier is lost per call for up to 2^24 residuals and 2^22 inliers. Refuted for assigning a vector, which keeps the old inlier ratio."
  },
  {
   "property": "C25",
   "status": "proved",
   "theorems": [
    "C25_value",
    "C25_strict_order",
    "C25_order_ieee",
    "C25_strict_order_ieee_refuted"
   ],
   "note": "Stated in exact arithmetic as in the property; in doubles the order is never reversed but strictness can be lost (refuted)."
  },
  {
   "property": "C26",
   "status": "proved",
   "theorems": [
    "C26_gauss_newton",
    "C26_gradient_descent",
    "C26_levenberg_marquardt",
    "C26_zero"
   ],
   "note": "For all three solvers, about the gradient held by the solver after a successful build."
  },
  {
   "property": "C27",
   "status": "proved",
   "theorems": [
    "C27_upper_only",
    "C27_symmetric"
   ],
   "note": "Whole runs with two user functions that differ below the diagonal give the same results."
  },
  {
   "property": "C28",
   "status": "proved",
   "theorems": [
    "C28_sqrt",
    "C28_negative"
   ],
   "note": ""
  },
  {
   "property": "C29",
   "status": "proved",
   "theorems": [
    "C29_dims",
    "C29_dims_overflow",
    "C29_blocks_overflow",
    "C29_static_dims",
    "C29_plus",
    "C29_flatten_injective",
    "C29_undo",
    "C29_cast",
    "C29_cast_back"
   ],
   "note": "Scalars, fixed and dynamic matrices, vectors, arrays and pairs, nested without bound; the types the code handles incorrectly are C30 and C31. User-defined types are C60."
  },
  {
   "property": "C30",
   "status": "partial",
   "theorems": [
    "C30_refuted",
    "C30_second_never_updated",
    "C30_dynamic_second_partial"
   ],
   "note": "False in the code when the second member has a static size (traits.h:347 updates v.first). Proved for dynamically sized second members."
  },
  {
   "property": "C31",
   "status": "partial",
   "theorems": [
    "C31_never_defined",
    "C31_refuted"
   ],
   "note": "False in the code (traits.h:256, 304 use segment(i, i*dims)): out of bounds whenever the first element is not empty, wrong entries otherwise."
  },
  {
   "property": "C32",
   "status": "partial",
   "theorems": [
    "C32_largest_difference",
    "C32_symmetric",
    "C32_zero_iff_equal",
    "C32_shape",
    "C32_ieee_partial",
    "C32_nan_refuted"
   ],
   "note": "Exact arithmetic: proved. Floating point: holds when no difference is NaN; refuted with NaN, which is ignored."
  },
  {
   "property": "C33",
   "status": "partial",
   "theorems": [
    "C33_difference_quotients",
    "C33_calls",
    "C33_forward_matrix_refuted"
   ],
   "note": "Proved for all parameter types with well-defined updates, any arithmetic, and residuals that are scalars or columns (any matrix for central differences). Forward differences of a matrix of residuals with several columns subtract vectors of different shapes: refuted."
  },
  {
   "property": "C34",
   "status": "proved",
   "theorems": [
    "C34_forward",
    "C34_central",
    "C34_affine",
    "C34_quadratic"
   ],
   "note": "Exact arithmetic."
  },
  {
   "property": "C35",
   "status": "proved",
   "theorems": [
    "C35_jets_differentiate",
    "C35_Eval"
   ],
   "note": "Exact arithmetic (T = R). Covers every expression over + - * / with jets and scalars, all unary functions of jet.h except Bessel functions, copysign, hypot, fma, lerp, midpoint, fmax/fmin/fdim, atan2, the three pow overloads and comparisons/branches; nested jets are C69. C35_Eval: diff::Eval for every parameter type of traits.h with regular updates."
  },
  {
   "property": "C36",
   "status": "partial",
   "theorems": [
    "C36_dynamic_jets_differentiate_partial",
    "C36_empty_is_zero_partial",
    "C36_refuted",
    "C36_midpoint_refuted",
    "C36_Eval_refuted"
   ],
   "note": "Holds for + - * /, all unary functions, copysign, fdim, atan2, pow(Jet,Jet), fmax/fmin of different values. Refuted for hypot, fma, lerp, midpoint, fmax/fmin of equal values and pow(negative scalar, Jet): they mix vectors of different sizes or write to an empty vector; midpoint(const, x) silently drops the derivative. diff::Eval without check_residuals is undefined for constant residuals."
  },
  {
   "property": "C37",
   "status": "partial",
   "theorems": [
    "C37_gauss_newton_partial",
    "C37_half_gradient",
    "C37_symmetric",
    "C37_semi_definite",
    "C37_refuted"
   ],
   "note": "Proved in exact arithmetic for static parameters, and for dynamic ones when every residual depends on some parameter. Refuted for constant residuals of dynamically sized parameters."
  },
  {
   "property": "C38",
   "status": "partial",
   "theorems": [
    "C38_scaled_gradient_partial",
    "C38_refuted",
    "C38_numeric_refuted"
   ],
   "note": "The code multiplies the gradient by the cost: refuted; proved that the gradient is f times the gradient of f."
  },
  {
   "property": "C39",
   "status": "partial",
   "theorems": [
    "C39_refuted"
   ],
   "note": "Refuted: num_diff_used is false after every run (the right value only if derivatives are not numerical)."
  },
  {
   "property": "C40",
   "status": "proved",
   "theorems": [
    "C40_scale",
    "C40_gradient"
   ],
   "note": "Exact arithmetic. The scale of Huber, Arctan and Cauchy is floored at numeric_limits::min(), which the statement includes; the truncated loss is excluded at its kink."
  },
  {
   "property": "C41",
   "status": "partial",
   "theorems": [
    "C41_admissible_partial",
    "C41_weights",
    "C41_refuted"
   ],
   "note": "All of it holds except that the Blake-Zisserman loss is not 0 at 0 but -ln(1+exp(-th2)) < 0 (C41_refuted)."
  },
  {
   "property": "C42",
   "status": "partial",
   "theorems": [
    "C42_squared_l2",
    "C42_squared_l2_unscaled",
    "C42_l2_partial",
    "C42_l2_refuted",
    "C42_l1",
    "C42_l1_subgradient",
    "C42_linf",
    "C42_linf_value",
    "C42_scalar_partial",
    "C42_scalar_refuted"
   ],
   "note": "Proved for vectors, for L2 only where the norm exceeds FloatEpsilon: below it the exported row is x instead of x/|x| (C42_l2_refuted). Scalar L1 and L2 export derivative 1 also for negative x (C42_scalar_refuted)."
  },
  {
   "property": "C43",
   "status": "proved",
   "theorems": [
    "C43_positive",
    "C43_sums_to_one",
    "C43_order",
    "C43_shift",
    "C43_safe",
    "C43_safe_arguments",
    "C43_jacobian",
    "C43_symmetric",
    "C43_row_sums",
    "C43_scalar_refuted"
   ],
   "note": "Fully proved for vectors, which is what the property ranges over. Beyond it: the scalar overload exports derivative 1 of a constant (C43_scalar_refuted)."
  },
  {
   "property": "C44",
   "status": "partial",
   "theorems": [
    "C44_jacobian",
    "C44_sigmoid",
    "C44_tanh",
    "C44_relu",
    "C44_leaky_relu",
    "C44_scalar_refuted"
   ],
   "note": "Proved for vectors away from the kink of (Leaky)ReLU; for scalars the exported derivative is 0, a TODO in the code (C44_scalar_refuted)."
  },
  {
   "property": "C45",
   "status": "partial",
   "theorems": [
    "C45_squared_norm",
    "C45_norm_partial",
    "C45_whitened_norm",
    "C45_whitened",
    "C45_variances_squared",
    "C45_variances_norm_partial",
    "C45_stdevs",
    "C45_stdevs_norm",
    "C45_iso",
    "C45_info_norm",
    "C45_info_chain",
    "C45_info_jacobian_partial",
    "C45_info_refuted",
    "C45_scalar_partial",
    "C45_scalar_refuted"
   ],
   "note": "Proved in exact arithmetic for all sizes, covariances, variances, standard deviations and information factors. The inverse and the Cholesky factor computed by Eigen are arguments with their defining equations. The gradient of the norm is guarded by FloatEpsilon (below it the code returns the unscaled one). Refuted: the Jacobian of MahaWhitenedInfoU if U has numbers below the diagonal; a scalar variance below FloatEpsilon counts as 1."
  },
  {
   "property": "C46",
   "status": "partial",
   "theorems": [
    "C46_euclidean_metric",
    "C46_manhattan_metric",
    "C46_linf_metric",
    "C46_euclidean_gradients_partial",
    "C46_refuted",
    "C46_manhattan_gradients",
    "C46_linf_gradients",
    "C46_mahalanobis_gradients"
   ],
   "note": "Exact arithmetic, all sizes; the metric axioms are proved for all three, the gradients wherever the distance is differentiable, except for the Euclidean distance of vectors closer than FloatEpsilon, where the code returns unnormalised rows (C46_refuted)."
  },
  {
   "property": "C47",
   "status": "partial",
   "theorems": [
    "C47_formula_partial",
    "C47_no_hessian",
    "C47_never_rescaled",
    "C47_refuted"
   ],
   "note": "The formula is right for an Output with num_residuals set, but no run sets it, so rescaling never happens (refuted for every run)."
  },
  {
   "property": "C48",
   "status": "proved",
   "theorems": [
    "C48_requested_solver",
    "C48_unsupported_throws"
   ],
   "note": "Function kinds are given by the results of std::is_invocable_v."
  },
  {
   "property": "C49",
   "status": "partial",
   "theorems": [
    "C49_gauss_newton",
    "C49_levenberg_marquardt",
    "C49_gradient_descent",
    "C49_tiny_refuted",
    "C49_affine",
    "C49_affine_returns"
   ],
   "note": "Exact arithmetic, for every number of residuals and parameters. Eigen's decompositions are an argument, assumed exact on the matrix at hand; gradient clipping is off. The one case that violates the statement is refuted: one static parameter without decomposition and a Hessian of at most FloatEpsilon (a zero step at a non-zero gradient)."
  },
  {
   "property": "C50",
   "status": "proved",
   "theorems": [
    "C50_accepts_iff",
    "C50_accepts_iff_rounded",
    "C50_correct_gradient_accepted",
    "C50_wrong_gradient_rejected",
    "C50_residuals"
   ],
   "note": "In exact arithmetic without conditions; in float/double when no difference is NaN or infinite (then the result depends on how Eigen's maxCoeff treats NaN). Dense Hessians only in CheckResidualsGradient."
  },
  {
   "property": "C51",
   "status": "proved",
   "theorems": [
    "C51_description_safe",
    "C51_descriptions_differ"
   ],
   "note": "Texts are modelled without the appended numbers and emoji; the texts compared are the constant leading parts."
  },
  {
   "property": "C52",
   "status": "proved",
   "theorems": [
    "C52_total",
    "C52_text",
    "C52_too_few",
    "C52_invalid"
   ],
   "note": "The arguments are their printed forms (C++ streams are not modelled). A last placeholder without closing brace silently extends to the end of the string; this is what the code does and what C52_text says."
  },
  {
   "property": "C53",
   "status": "proved",
   "theorems": [
    "C53_zero_initialised",
    "C53_bad_dimension",
    "C53_out_of_memory"
   ],
   "note": "kTimedOut replaces the reason if a time limit was exceeded (see C14)."
  },
  {
   "property": "C54",
   "status": "proved",
   "theorems": [
    "C54_no_undefined_behavior",
    "C54_max_iters_needed",
    "C54_range_needed",
    "C54_dimension_needed"
   ],
   "note": "The last three show that the hypotheses are needed."
  },
  {
   "property": "C55",
   "status": "partial",
   "theorems": [
    "C55_numerical_system_partial",
    "C55_refuted"
   ],
   "note": "Gradient and Hessian agree up to the quotients, but numerical differentiation returns the norm and automatic differentiation the squared norm as cost: refuted."
  },
  {
   "property": "C56",
   "status": "partial",
   "theorems": [
    "C56_cosine_partial",
    "C56_refuted",
    "C56_scalar_refuted"
   ],
   "note": "Value, bounds and the gradient in a are proved. The code violates the claim for the gradient in b (a_norm*b_norm^2 instead of a_norm*b_norm^3) unless |b| = 1, and returns 0 for scalars and when no Jacobian is requested."
  },
  {
   "property": "C57",
   "status": "partial",
   "theorems": [
    "C57_values_partial",
    "C57_refuted",
    "C57_division",
    "C57_size",
    "C57_derivatives",
    "C57_total"
   ],
   "note": "Bitwise equality holds for programs that do not divide by a jet and divide by numbers with exact inverse only; jet.h computes f/g as f*(1/g), so other quotients differ from plain division (C57_refuted), by a relative error of at most 2u+u^2 away from overflow and underflow (C57_division). The derivative parts are the exact derivatives when nothing is rounded, along lines (C57_derivatives) and along every differentiable curve, so that they form the gradient (C57_total)."
  },
  {
   "property": "C58",
   "status": "partial",
   "theorems": [
    "C58_recorded",
    "C58_accuracy",
    "C58_monotone",
    "C58_limit_partial",
    "C58_lost_refuted",
    "C58_limit_refuted"
   ],
   "note": "The run stops exactly when the recorded duration exceeds the limit; the recorded duration equals the true one up to one microsecond and one float rounding per iteration. Refuted as stated: each iteration is truncated to whole microseconds, so iterations below 1 us are never counted and a run can exceed the limit arbitrarily."
  },
  {
   "property": "C59",
   "status": "partial",
   "theorems": [
    "C59_same_result",
    "C59_ends",
    "C59_no_failure_partial",
    "C59_lines",
    "C59_stdev_refuted",
    "C59_inliers_refuted"
   ],
   "note": "A logged run that returns, returns what the unlogged one does, and the lines printed are the recorded history (a last step rejected by a failure limit is not printed). The log never fails with default options, nor when standard deviations and inlier counts are available. Refuted otherwise: print_max_stdev with Gauss-Newton and use_ldlt = false throws bad_optional_access on an indefinite Hessian (gn.h:177-183; lm.h checks), and print_inliers with INT_MAX residuals is an undefined conversion. The text formatting is not modelled, and the time that printing takes is not added to the clock."
  },
  {
   "property": "C60",
   "status": "partial",
   "theorems": [
    "C60_dims",
    "C60_plus_partial",
    "C60_second_never_updated",
    "C60_leaves_injective",
    "C60_undo",
    "C60_zero",
    "C60_poses",
    "C60_best_pose",
    "C60_refuted"
   ],
   "note": "False for vectors and arrays of elements with one parameter, which are updated with += and a scalar instead of PlusEq (C60_refuted; does not compile when there is no such +=). Pairs with a fixed-size second member and vectors of dynamically sized elements are excluded (C30, C31). dims() of a pair with a pose and a dynamically sized member does not compile since the traits of the poses have no dims()."
  },
  {
   "property": "C61",
   "status": "proved",
   "theorems": [
    "C61_solver_exists",
    "C61_minimiser_exists",
    "C61_bound_exists",
    "C61_step",
    "C61_run",
    "C61_run_dampings",
    "C61_converges"
   ],
   "note": "Exact arithmetic (real numbers); Eigen's linear solver is a parameter assumed to solve the damped systems exactly, and C61_solver_exists shows that such a solver exists for every size. mu bounds the column-weighted squares by |A y|^2; C61_bound_exists shows that one exists for every matrix with independent columns. Gradient clipping and the diagonal check are off; rounding errors are not covered."
  },
  {
   "property": "C62",
   "status": "proved",
   "theorems": [
    "C62_same_runs"
   ],
   "note": "Simulation proof over the whole loop for all three solvers; Eigen is assumed to return as many unknowns as there are right-hand sides."
  },
  {
   "property": "C63",
   "status": "proved",
   "theorems": [
    "C63_system",
    "C63_step",
    "C63_gauss_newton",
    "C63_levenberg_marquardt",
    "C63_converges",
    "C63_exists"
   ],
   "note": "Exact arithmetic; linear algebra is an argument that solves the damped normal equations exactly (C61_solver_exists gives one for every size). C63_exists: problems as described exist for all functions and parameters."
  },
  {
   "property": "C64",
   "status": "partial",
   "theorems": [
    "C64_real",
    "C64_refuted",
    "C64_within_one_partial"
   ],
   "note": "Proved in exact arithmetic; refuted in floats (41 residuals with 1 inlier count as 0 + 40); in floats at most one inlier and one outlier is not counted, up to 2^22 residuals."
  },
  {
   "property": "C65",
   "status": "proved",
   "theorems": [
    "C65_trajectory",
    "C65_gradients",
    "C65_linear_rate",
    "C65_convex",
    "C65_squares",
    "C65_converges",
    "C65_no_progress"
   ],
   "note": "Exact arithmetic; at most 65535 iterations (num_iters is a uint16)."
  },
  {
   "property": "C66",
   "status": "proved",
   "theorems": [
    "C66_gauss_newton",
    "C66_levenberg_marquardt",
    "C66_gradient_descent",
    "C66_residuals"
   ],
   "note": "Exact arithmetic, LDLT that solves positive definite systems and refuses all others (use_ldlt on). Includes failed solves, undefined behaviour and running out of memory, which happen in both runs or in none. Eigen's LDLT also accepts singular semidefinite matrices; their solution does depend on the units (C72_units_refuted)."
  },
  {
   "property": "C67",
   "status": "proved",
   "theorems": [
    "C67_step",
    "C67_decrease",
    "C67_isolated",
    "C67_run",
    "C67_converges",
    "C67_quadratic"
   ],
   "note": "exact arithmetic; grad_clipping = 0, check_min_H_diag <= 0, Eigen's solution exact near z"
  },
  {
   "property": "C68",
   "status": "partial",
   "theorems": [
    "C68_compatible_partial",
    "C68_promotable_partial",
    "C68_refuted",
    "C68_set",
    "C68_implies",
    "C68_scalar",
    "C68_remove",
    "C68_scan",
    "C68_scan_unsigned",
    "C68_compare"
   ],
   "note": "The two characterisations hold for scalars and jets with a nonzero number of derivatives. C68_refuted: a jet with 0 derivatives is compatible with any other jet, and a dynamic jet (rank -1) is promotable with any type that is neither a jet nor a scalar, because such types also get rank -1. Everything else is unrestricted."
  },
  {
   "property": "C69",
   "status": "partial",
   "theorems": [
    "C69_partial",
    "C69_refuted",
    "C69_value",
    "C69_symmetric",
    "C69_schwarz",
    "C69_one_level"
   ],
   "note": "Proved for every expression, point, depth and order when the bases of powers are not zero. C69_refuted: pow(x, 2) with jet arguments at x = 0 returns a jet without derivatives, so the second derivative is 0 instead of 2. Exact arithmetic; at most two levels compile in C++ when the code uses constants."
  },
  {
   "property": "C70",
   "status": "proved",
   "theorems": [
    "C70_step",
    "C70_gradient",
    "C70_run",
    "C70_gradients",
    "C70_stuck"
   ],
   "note": "Over the reals with an exact linear solver, for every number of residuals and parameters. Examples: the residual atan(x) from 3, where undamped Gauss-Newton diverges, and a run that is given up at a stationary point."
  },
  {
   "property": "C71",
   "status": "partial",
   "theorems": [
    "C71_classes",
    "C71_order",
    "C71_trichotomy",
    "C71_midpoint",
    "C71_fmax",
    "C71_fmin",
    "C71_fmax_cpp17_partial",
    "C71_fmax_cpp17_refuted",
    "C71_fdim",
    "C71_abs",
    "C71_copysign",
    "C71_pow_zero",
    "C71_pow_negative",
    "C71_pow_positive",
    "C71_pow_constant",
    "C71_limits",
    "C71_ranges_partial",
    "C71_ranges_refuted"
   ],
   "note": "proved except for numeric_limits<Jet>::min_exponent10, which returns the maximal decimal exponent (C71_ranges_refuted; the other ranges are C71_ranges_partial). C71_fmax_cpp17_partial and C71_fmax_cpp17_refuted are about the branch compiled before C++20, which the project does not use."
  },
  {
   "property": "C72",
   "status": "partial",
   "theorems": [
    "C72_inverse",
    "C72_decomposition_exists",
    "C72_refused_partial",
    "C72_refuted",
    "C72_semidefinite",
    "C72_one_by_one",
    "C72_zero_refuted",
    "C72_empty",
    "C72_sparse",
    "C72_no_retry",
    "C72_shift",
    "C72_shift_refuted",
    "C72_overloads",
    "C72_solve",
    "C72_solve_sparse",
    "C72_normal_equations",
    "C72_units_refuted",
    "C72_max_stdev",
    "C72_log"
   ],
   "note": "Proved for positive definite matrices (C72_inverse, C72_sparse, C72_overloads, C72_solve). False otherwise: singular semidefinite dense matrices give a generalised inverse instead of nullopt (C72_refuted, C72_semidefinite), 1 x 1 matrices are not checked (C72_zero_refuted), a sparse result need not be positive, and after a retry it is the inverse of the shifted matrix (C72_shift_refuted). Eigen's decompositions are arguments with a contract that every matrix can meet (C72_decomposition_exists)."
  },
  {
   "property": "C73",
   "status": "proved",
   "theorems": [
    "C73_converges",
    "C73_quadratic",
    "C73_run",
    "C73_gradients",
    "C73_stuck",
    "C73_static",
    "C73_everywhere"
   ],
   "note": "Exact real arithmetic; composes the proofs about jets, seeding, storage, the solvers and the loop (C62, C63, C67, C70). Eigen's solvers are assumed exact on the systems met (exact_on). sized_gradients (the automatic differentiation is defined wherever the function is called) is proved for parameters of static size and for functions differentiable everywhere."
  },
  {
   "property": "C74",
   "status": "partial",
   "theorems": [
    "C74_functions",
    "C74_derivative",
    "C74_orders",
    "C74_real_order_partial",
    "C74_integer_order_partial",
    "C74_throws",
    "C74_refuted"
   ],
   "note": "Proved for all integer orders and arguments with the POSIX functions. With the C++17 functions it is proved for orders 0 and >= 1 and positive arguments, and refuted elsewhere (domain_error)."
  },
  {
   "property": "C75",
   "status": "partial",
   "theorems": [
    "C75_rounding",
    "C75_accuracy",
    "C75_lost_refuted",
    "C75_same_argument",
    "C75_converged_refuted"
   ],
   "note": "The error bounds (C75_rounding, C75_accuracy) hold for all parameters in range but grow with |x|/h, as the step is a constant: the code contradicts its comment. C75_lost_refuted: parameters that absorb the step get zero columns for every function; C75_converged_refuted: the optimization then reports convergence after one iteration without moving. Eigen's sums and LDLT on zeros are hypotheses."
  },
  {
   "property": "C76",
   "status": "partial",
   "theorems": [
    "C76_safe_softmax",
    "C76_softmax_partial",
    "C76_softmax_refuted",
    "C76_losses",
    "C76_scales",
    "C76_tukey_scale_partial",
    "C76_tukey_scale_refuted",
    "C76_blake_zisserman_refuted",
    "C76_nan_refuted",
    "C76_norm_refuted",
    "C76_activations",
    "C76_tanh_refuted",
    "C76_exact"
   ],
   "note": "Proved for SafeSoftmax, the losses Truncated, Tukey, Huber and Geman-McClure, the scales of Huber, Arctan and Cauchy, and Sigmoid. The code violates the rest: Softmax gives NaN when exponentials overflow or all vanish, Tanh is NaN when exp overflows, Tukey's scale is not a number in [0,4] when th2*th2 leaves the range, Blake-Zisserman's scale is NaN and its loss infinite when exp(-th2) vanishes, L2 overflows and underflows, and Truncated, Tukey and ReLU turn NaN into a number. exp, log and atan2 are parameters."
  },
  {
   "property": "C77",
   "status": "proved",
   "theorems": [
    "C77_system",
    "C77_gauss_newton",
    "C77_levenberg_marquardt",
    "C77_converges",
    "C77_exists"
   ],
   "note": "Exact arithmetic; the linear algebra is an argument that solves the normal equations. Affine residuals; rounding is C75."
  },
  {
   "property": "C78",
   "status": "proved",
   "theorems": [
    "C78_step",
    "C78_decrease",
    "C78_run",
    "C78_perturbed",
    "C78_quotients",
    "C78_column",
    "C78_optimize",
    "C78_central",
    "C78_near",
    "C78_quadratic",
    "C78_far",
    "C78_stuck"
   ],
   "note": "Over the reals, with exact linear solves."
  },
  {
   "property": "C79",
   "status": "proved",
   "theorems": [
    "C79_solver_iff",
    "C79_minimiser_exists",
    "C79_bound_exists",
    "C79_step",
    "C79_run",
    "C79_run_dampings",
    "C79_converges",
    "C79_automatic",
    "C79_automatic_converges",
    "C79_numerical",
    "C79_numerical_converges"
   ],
   "note": "Over the reals, with exact linear solves. A zero column makes the damped system singular (C79_solver_iff)."
  },
  {
   "property": "C80",
   "status": "proved",
   "theorems": [
    "C80_dot",
    "C80_automatic",
    "C80_one",
    "C80_numerical",
    "C80_exact",
    "C80_run",
    "C80_not_worse",
    "C80_gauss_newton",
    "C80_levenberg_marquardt",
    "C80_exact_jets"
   ],
   "note": "Overflow is excluded by finiteness of the results. Backward stability of Eigen's LDLT is a hypothesis. The Levenberg-Marquardt descent is for a system that was just built (not one damped again after a rejection). C80_exact ties the generic accumulation to the exact model of C45."
  },
  {
   "property": "C81",
   "status": "proved",
   "theorems": [
    "C81_step",
    "C81_contraction",
    "C81_run",
    "C81_linear",
    "C81_nonlinear",
    "C81_affine"
   ],
   "note": "Real numbers are compared with the values of the IEEE floats. The errors of the user's function are hypotheses (computes_near, cost_within), which C80 derives for automatic differentiation; LDLT is an argument, backward stable. C81_linear bounds the distance of the best evaluated point, given that it has n entries. The returned point is bounded when no step was rejected; after rollbacks it is the best point up to the error of x + d - d (there_and_back)."
  },
  {
   "property": "C82",
   "status": "partial",
   "theorems": [
    "C82_returns",
    "C82_silent",
    "C82_exact",
    "C82_interrupted",
    "C82_restored_refuted",
    "C82_place_partial",
    "C82_again",
    "C82_reuse_refuted",
    "C82_reuse_partial",
    "C82_state"
   ],
   "note": "The code has no handler: x is left at the trial point where the call threw (C82_restored_refuted), so calling Optimize again with it throws at once (C82_again). C82_exact says when an exception escapes, C82_interrupted where. C82_place_partial says how far x is from the best evaluated point. Levenberg-Marquardt keeps the dampings of the interrupted run (C82_reuse_refuted) unless reset() is called (C82_reuse_partial). The linear system and dampings left behind are those of a run that halts at the same call (C82_state)."
  },
  {
   "property": "C83",
   "status": "partial",
   "theorems": [
    "C83_continued_partial",
    "C83_damping_refuted",
    "C83_not_worse_refuted",
    "C83_start_partial",
    "C83_rejected_partial"
   ],
   "note": "For Gauss-Newton and gradient descent two calls equal one, from any state, when the point at which the first call ended was accepted and the unevaluated last step of the first call improves the cost. The full statement is false and refuted: Levenberg-Marquardt does not adapt its damping to the step at the seam, and when that step does not improve, the second call starts from the worse point and reports a higher cost than the first call. Whatever the solver, the second call is not worse than its own start, and not worse than the first call if this ended with a rejected step or a failure."
  },
  {
   "property": "C84",
   "status": "proved",
   "theorems": [
    "C84_step",
    "C84_contraction",
    "C84_run",
    "C84_best",
    "C84_nonlinear"
   ],
   "note": "All dimensions, formats and run lengths. The contraction of exact steps is a hypothesis that C84_nonlinear derives from the conditions of C67."
  },
  {
   "property": "C85",
   "status": "proved",
   "theorems": [
    "C85_autodiff",
    "C85_autodiff_rate",
    "C85_optimize",
    "C85_numeric",
    "C85_autodiff_converges",
    "C85_numeric_converges",
    "C85_exists"
   ],
   "note": "Exact arithmetic. The functions are syntactic expressions for automatic differentiation (all of jet.h) and any function for numerical differentiation. Scalar functions with negative values are excluded: there the gradient f grad f points the wrong way (C38_refuted). Through Optimizer::Optimize the code compiles only for scalar functions (IsNLLS is false for gradient descent); several residuals are possible with OptimizeWithAutoDiff<true> and with CreateNumDiffFunc1."
  },
  {
   "property": "C86",
   "status": "proved",
   "theorems": [
    "C86_step",
    "C86_contraction",
    "C86_run",
    "C86_steep",
    "C86_affine"
   ],
   "note": "Contraction of the exact steps is a hypothesis, discharged by C86_steep and C86_affine; whether a step is accepted depends on the computed costs."
  },
  {
   "property": "C87",
   "status": "proved",
   "theorems": [
    "C87_errors",
    "C87_polynomial",
    "C87_square_root",
    "C87_absolute"
   ],
   "note": "Error balls are propagated along the operations of jet.h; exp, sin and the other library functions enter with an assumed accuracy, sqrt and abs with a proved one."
  },
  {
   "property": "C88",
   "status": "proved",
   "theorems": [
    "C88_system",
    "C88_near",
    "C88_run",
    "C88_lm"
   ],
   "note": "The errors of residuals and derivatives enter through the balls of C87, those of the sums through C80; that no sum overflows and that the smallest eigenvalue of J^T J stays above sigma near the solution are assumptions. The examples are x*x - 2 in double, with Gauss-Newton and with Levenberg-Marquardt."
  },
  {
   "property": "C89",
   "status": "proved",
   "theorems": [
    "C89_system",
    "C89_near",
    "C89_run",
    "C89_lm"
   ],
   "note": "The errors of the quotients are those of C75, those of the sums C80; that no quotient or sum overflows and that the smallest eigenvalue of J^T J stays above sigma near the solution are assumptions. The examples are x*x - 2 in double with central differences and the default step."
  },
  {
   "property": "C90",
   "status": "proved",
   "theorems": [
    "C90_auto",
    "C90_auto_run",
    "C90_num",
    "C90_num_run"
   ],
   "note": "With automatic differentiation the code only compiles for a scalar function, whose value is then the cost; as in C86 the run theorems assume costs that are not negative. That the gradient does not overflow near the minimum is an assumption. The examples are x*x + 1 with automatic and x*x - 2 with central differences, in double."
  },
  {
   "property": "C91",
   "status": "partial",
   "theorems": [
    "C91_gauss_newton_partial",
    "C91_levenberg_marquardt_partial",
    "C91_gradient_descent_partial",
    "C91_refuted"
   ],
   "note": "Violated by the code: a cost below FloatEpsilon has the relative decrease 0 (optimizer.h:428-434), in whatever unit, so that min_rerr_dec and the step quality depend on the unit; C91_refuted is a run that stops with kMinRelError in one unit and with kMaxIters in another. The _partial theorems hold as long as all costs are between FloatEpsilon and the largest number in both units. Exact arithmetic, fresh solvers, use_ldlt for the second-order solvers; that LDLT and the norm commute with the factor are assumptions about Eigen without rounding."
  },
  {
   "property": "C92",
   "status": "partial",
   "theorems": [
    "C92_value",
    "C92_order",
    "C92_nan_refuted"
   ],
   "note": "Violated if a cost is NaN: NaN is equivalent to every cost, so that < is no strict weak order (C92_nan_refuted); proved for all other costs."
  }
 ]
}