{
 "claims": [
  {
   "property": "C01",
   "status": "proved",
   "theorems": [
    "C01_safe",
    "C01_alive",
    "C01_last_reference",
    "C01_once",
    "C01_no_leak"
   ],
   "note": "All histories of a well-behaved client, with arbitrary malloc failures (except the allocation of a driver, see C50)."
  },
  {
   "property": "C02",
   "status": "partial",
   "theorems": [
    "C02_count",
    "C02_counters",
    "C02_null",
    "C02_hold",
    "C02_drop",
    "C02_hold_null_refuted"
   ],
   "note": "opk_hold_object(NULL) dereferences NULL (algebra.c 61-66): the part of the claim about hold on NULL is refuted."
  },
  {
   "property": "C03",
   "status": "proved",
   "theorems": [
    "C03_exactly_once",
    "C03_sequence",
    "C03_failed",
    "C03_success"
   ],
   "note": "All histories (C03_exactly_once) and the order of the calls for a sequence of re-wraps (C03_sequence)."
  },
  {
   "property": "C04",
   "status": "proved",
   "theorems": [
    "C04_peek",
    "C04_poke",
    "C04_peek_poke",
    "C04_import",
    "C04_export",
    "C04_roundtrip"
   ],
   "note": ""
  },
  {
   "property": "C05",
   "status": "proved",
   "theorems": [
    "C05_scale_exact",
    "C05_axpby_exact",
    "C05_axpbypcz_exact",
    "C05_double",
    "C05_single",
    "C05_operands_unchanged",
    "C05_copy_swap_fill_product"
   ],
   "note": "Exact arithmetic: mathematical combination; IEEE: equal to the general rounded formula up to the sign of zero, finite elements, any coefficients."
  },
  {
   "property": "C06",
   "status": "proved",
   "theorems": [
    "C06_different_spaces",
    "C06_projections",
    "C06_null"
   ],
   "note": ""
  },
  {
   "property": "C07",
   "status": "proved",
   "theorems": [
    "C07_values",
    "C07_laws"
   ],
   "note": ""
  },
  {
   "property": "C08",
   "status": "proved",
   "theorems": [
    "C08_copy",
    "C08_null_buffer"
   ],
   "note": "Any source string and buffer. The bytes are the numbers of the model."
  },
  {
   "property": "C09",
   "status": "proved",
   "theorems": [
    "C09_projection",
    "C09_ieee",
    "C09_nearest",
    "C09_single_scalar_bound_refuted"
   ],
   "note": "Bounds are those of the element type; C09_single_scalar_bound_refuted: with float vectors a scalar bound given as a double is rounded first, so that the projected value may exceed the double bound."
  },
  {
   "property": "C10",
   "status": "proved",
   "theorems": [
    "C10_direction",
    "C10_feasible_steps"
   ],
   "note": ""
  },
  {
   "property": "C11",
   "status": "partial",
   "theorems": [
    "C11_free_variables_partial",
    "C11_free_variables_refuted"
   ],
   "note": "Fails for a box without bounds and zero components of the direction (refuted); proved in all other cases."
  },
  {
   "property": "C12",
   "status": "proved",
   "theorems": [
    "C12_step_limits",
    "C12_double_refuted"
   ],
   "note": "Exact arithmetic as stated; C12_double_refuted shows that it fails by one rounding in binary64."
  },
  {
   "property": "C13",
   "status": "partial",
   "theorems": [
    "C13_start_partial",
    "C13_start_any",
    "C13_nan_refuted",
    "C13_null_refuted"
   ],
   "note": "Full characterisation of start-up for all histories and arguments which are not NaN; with NaN arguments the checks pass and a search starts (refuted); a NULL object returns a status code which is not a task (refuted)."
  },
  {
   "property": "C14",
   "status": "proved",
   "theorems": [
    "C14_protocol"
   ],
   "note": "Every sequence of calls, any arithmetic."
  },
  {
   "property": "C15",
   "status": "partial",
   "theorems": [
    "C15_bounds",
    "C15_backtrack_partial",
    "C15_backtrack_double_partial",
    "C15_backtrack_nan_refuted"
   ],
   "note": "Proved for the nonmonotone search and for the search of More and Thuente, whatever is fed back; for backtracking proved unless a function value is NaN (refuted in that case: the proposed step is NaN)."
  },
  {
   "property": "C16",
   "status": "proved",
   "theorems": [
    "C16_backtrack",
    "C16_nonmonotone",
    "C16_csrch",
    "C16_csrch_exact"
   ],
   "note": "For any arithmetic with IEEE comparisons."
  },
  {
   "property": "C17",
   "status": "proved",
   "theorems": [
    "C17_factor",
    "C17_terminates",
    "C17_bound",
    "C17_converges",
    "C17_half_refuted"
   ],
   "note": "ftol < 1/2 as documented; C17_half_refuted: the constructor also accepts ftol = 1/2 for which no bound on the number of iterations exists."
  },
  {
   "property": "C18",
   "status": "proved",
   "theorems": [
    "C18_reference",
    "C18_overflow_refuted"
   ],
   "note": "For m < 2^60 and initial values which are not NaN; with m = 2^61 the allocation size wraps and the first start writes out of bounds (refuted)."
  },
  {
   "property": "C19",
   "status": "partial",
   "theorems": [
    "C19_accepts",
    "C19_cstep_partial",
    "C19_zero_derivative_refuted"
   ],
   "note": "The strict inclusion of the new step needs a nonzero derivative at the best point (refuted otherwise) and the bracketing invariant, which is shown to be maintained."
  },
  {
   "property": "C20",
   "status": "proved",
   "theorems": [
    "C20_protocol"
   ],
   "note": "Any arithmetic, any space and set of constraints, any sequence of calls."
  },
  {
   "property": "C21",
   "status": "proved",
   "theorems": [
    "C21_convergence",
    "C21_variables",
    "C21_norm_exact"
   ],
   "note": "C21_convergence and C21_variables hold for any arithmetic; C21_norm_exact gives the meaning of the computed norm in exact arithmetic."
  },
  {
   "property": "C22",
   "status": "partial",
   "theorems": [
    "C22_decrease_partial",
    "C22_double_refuted"
   ],
   "note": "Exact arithmetic: strictly decreasing for every function and supposed gradient, monotone line searches. In binary64 the decrease may not be strict (refuted)."
  },
  {
   "property": "C23",
   "status": "partial",
   "theorems": [
    "C23_feasible_partial",
    "C23_start_partial",
    "C23_double_refuted"
   ],
   "note": "Exact arithmetic: proved; in binary64 proved after a start, but the trial points which are not projected may leave the bounds by one rounding (refuted)."
  },
  {
   "property": "C24",
   "status": "proved",
   "theorems": [
    "C24_memory",
    "C24_growth"
   ],
   "note": "Any arithmetic, any sequence of calls."
  },
  {
   "property": "C25",
   "status": "proved",
   "theorems": [
    "C25_operator",
    "C25_direction",
    "C25_free_direction",
    "C25_blmvm_direction"
   ],
   "note": "Exact arithmetic: the direction is the product of the limited memory operator (defined by the matrix recursion) by the gradient; the operator is linear, symmetric, positive definite and satisfies the secant condition. The claim is about exact arithmetic; nothing is proved about rounding."
  },
  {
   "property": "C26",
   "status": "partial",
   "theorems": [
    "C26_slope_exact",
    "C26_slope_any",
    "C26_nlcg_slope",
    "C26_nlcg_slope_exact"
   ],
   "note": "Exact arithmetic: strictly negative and equal to the derivative along the path for the supplied gradient, both optimizers. Any arithmetic: never >= 0 (it may be a NaN)."
  },
  {
   "property": "C27",
   "status": "proved",
   "theorems": [
    "C27_protocol"
   ],
   "note": "Any arithmetic, any space, any sequence of calls with any values."
  },
  {
   "property": "C28",
   "status": "proved",
   "theorems": [
    "C28_convergence",
    "C28_decrease"
   ],
   "note": "The convergence test for any arithmetic with IEEE comparisons; the decrease in exact arithmetic, for every function and supposed gradient."
  },
  {
   "property": "C29",
   "status": "proved",
   "theorems": [
    "C29_direction",
    "C29_first",
    "C29_perry_shanno"
   ],
   "note": "Exact arithmetic (the claim is about identities over the reals); any number of variables; also the restarts and the initial steps. The published formula of Perry & Shanno is proved to be the memoryless BFGS direction."
  },
  {
   "property": "C30",
   "status": "partial",
   "theorems": [
    "C30_fmin_refuted"
   ],
   "note": "Refuted: opk_new_nlcg_optimizer sets opt->fmin_given to FALSE (nlcg.c 524); the step is then as proved in C29_direction and C29_first."
  },
  {
   "property": "C31",
   "status": "partial",
   "theorems": [
    "C31_nlcg_partial",
    "C31_nlcg_overflow",
    "C31_refuted",
    "C31_vmlmb",
    "C31_nlcg_name",
    "C31_nlcg_null"
   ],
   "note": "VMLMB: proved. NLCG: proved for the flags whose description fits in the local array str[80] of opk_get_nlcg_description; refuted otherwise: the array overflows, even for the default flags."
  },
  {
   "property": "C32",
   "status": "partial",
   "theorems": [
    "C32_driver",
    "C32_stateless",
    "C32_queries",
    "C32_null",
    "C32_null_gradient",
    "C32_until_start",
    "C32_null_queries",
    "C32_description_refuted"
   ],
   "note": "Proved for the simple driver of both optimizers, any sequence of calls; refuted for the description: opk_get_description(NULL) dereferences NULL. A refused call of opk_start or opk_iterate sets the task and the status of the driver, nothing else."
  },
  {
   "property": "C33",
   "status": "partial",
   "theorems": [
    "C33_values",
    "C33_order"
   ],
   "note": "Values: any arithmetic with IEEE comparisons. Order of the points: exact arithmetic."
  },
  {
   "property": "C34",
   "status": "partial",
   "theorems": [
    "C34",
    "C34_rounding_refuted"
   ],
   "note": "The claim is about exact arithmetic, where it is proved for functions not larger than HUGE_VAL; with rounding it is refuted."
  },
  {
   "property": "C35",
   "status": "partial",
   "theorems": [
    "C35_limit",
    "C35_count",
    "C35_converges_partial",
    "C35_zero_refuted"
   ],
   "note": "The count and the limit maxeval > 0 for any arithmetic. Refuted: maxeval = 0 is no limit (against the documentation), and the method never ends when the minimum is at zero since the precision is relative; it ends for the brackets which do not contain zero (exact arithmetic)."
  },
  {
   "property": "C36",
   "status": "partial",
   "theorems": [
    "C36",
    "C36_get_final",
    "C36_get_final_refuted",
    "C36_again_refuted",
    "C36_other_point"
   ],
   "note": "The requested points and the final state are proved to be the same, for any arithmetic; refuted: opk_fmin_get_final reports one end of the bracket only, twice the minimum; a call after convergence counts and uses the last point again."
  },
  {
   "property": "C37",
   "status": "proved",
   "theorems": [
    "C37_start",
    "C37_next",
    "C37_states",
    "C37_residual",
    "C37_step",
    "C37_orthogonal",
    "C37_conjugate",
    "C37_count",
    "C37_finish",
    "C37_optimal",
    "C37_terminates"
   ],
   "note": "Exact arithmetic, with or without a preconditioner (symmetric positive definite). OPK_LCG is OPK_PLCG with z = NULL. Also: no access out of the arrays, each iterate minimizes the quadratic over the span of the directions, at most n steps, the result solves the equations."
  },
  {
   "property": "C38",
   "status": "proved",
   "theorems": [
    "C38_start",
    "C38_next",
    "C38_states",
    "C38_norm",
    "C38_step",
    "C38_unchanged",
    "C38_decrease",
    "C38_residual",
    "C38_finish",
    "C38_residual_refuted"
   ],
   "note": "Exact arithmetic, any symmetric A, anything for the preconditioned residuals. C38_residual_refuted is about the documentation of r, not about the property: after a restart out of the trust region r is still the right hand side."
  },
  {
   "property": "C39",
   "status": "proved",
   "theorems": [
    "C39_copy",
    "C39_swap",
    "C39_axpy",
    "C39_scal",
    "C39_zero",
    "C39_iamax",
    "C39_bad_increment",
    "C39_exact_elements",
    "C39_dot",
    "C39_sums",
    "C39_amax"
   ],
   "note": "Any arithmetic for copy, swap, axpy, scal, zero and, with IEEE comparisons and no NaN, iamax; exact arithmetic for dot, asum, sum, nrm2 and amax (sums in another order than the mathematical one)."
  },
  {
   "property": "C40",
   "status": "partial",
   "theorems": [
    "C40_gemv",
    "C40_gemv_empty",
    "C40_gemm",
    "C40_syrk_partial",
    "C40_syrk_refuted",
    "C40_gemm_code_refuted"
   ],
   "note": "Exact arithmetic. GEMV and GEMM proved. SYRK is refuted when lda differs from ldc since A is read with ldc, proved when they are equal. GEMM reports argument 1 instead of 2 for an invalid transb."
  },
  {
   "property": "C41",
   "status": "proved",
   "theorems": [
    "C41_trmv",
    "C41_trsv",
    "C41_round_trip"
   ],
   "note": "Exact arithmetic, any order, leading dimension and increment."
  },
  {
   "property": "C42",
   "status": "proved",
   "theorems": [
    "C42_potf2",
    "C42_decides"
   ],
   "note": "Exact arithmetic."
  },
  {
   "property": "C43",
   "status": "proved",
   "theorems": [
    "C43_partition",
    "C43_memory_safe",
    "C43_memory_safe_double",
    "C43_memory_safe_exact"
   ],
   "note": "The partition for all sizes; moreover the whole of bobyqa_optimize makes no access out of the arrays of the caller, for any arithmetic and any objective function, and modifies nothing else than x and w."
  },
  {
   "property": "C44",
   "status": "proved",
   "theorems": [
    "C44_starting_point"
   ],
   "note": "Exact arithmetic."
  },
  {
   "property": "C45",
   "status": "partial",
   "theorems": [
    "C45_in_bounds_exact",
    "C45_in_bounds_double",
    "C45_scaled_double_refuted"
   ],
   "note": "Exact arithmetic: proved with and without scaling. Double precision: proved without scaling (no variable is outside its bounds; a NaN is not excluded); refuted with scaling: a variable on its lower bound 1 with the scaling factor 49 is given as 49*(1/49) < 1."
  },
  {
   "property": "C46",
   "status": "proved",
   "theorems": [
    "C46_vmlmb_options",
    "C46_vmlmb_defaults",
    "C46_nlcg_options",
    "C46_nlcg_defaults"
   ],
   "note": "Any arithmetic with IEEE comparisons; defaults in binary64."
  },
  {
   "property": "C47",
   "status": "partial",
   "theorems": [
    "C47_constructors_partial",
    "C47_nan_refuted"
   ],
   "note": "Exact accepted ranges for parameters which are not NaN; NaN and ftol = 1/2 are accepted although undocumented (refuted)."
  },
  {
   "property": "C48",
   "status": "proved",
   "theorems": [
    "C48_box"
   ],
   "note": "The bounds in every later state in which the box is allocated."
  },
  {
   "property": "C49",
   "status": "partial",
   "theorems": [
    "C49_backtrack_partial",
    "C49_csrch_partial",
    "C18_reference",
    "C49_bound_refuted"
   ],
   "note": "Proved strictly inside the bounds (nonmonotone: last part of C18_reference); at a bound a warning is reported instead (refuted)."
  },
  {
   "property": "C50",
   "status": "partial",
   "theorems": [
    "C50_atomic",
    "C50_driver_refuted"
   ],
   "note": "opk_new_optimizer does not check the allocation of the driver (driver.c 343-347, refuted); everything else is proved."
  },
  {
   "property": "C51",
   "status": "partial",
   "theorems": [
    "C51_progress_partial",
    "C51_steps_refuted"
   ],
   "note": "Proved for stpmin <= 1 <= stpmax; other values are accepted by the option checks but then the first line search fails (refuted)."
  },
  {
   "property": "C52",
   "status": "proved",
   "theorems": [
    "C52_progress"
   ],
   "note": "Exact arithmetic."
  },
  {
   "property": "C53",
   "status": "proved",
   "theorems": [
    "C53_start",
    "C53_iterate"
   ],
   "note": "Any arithmetic, any state, any operations on the bounds."
  },
  {
   "property": "C54",
   "status": "proved",
   "theorems": [
    "C54_count",
    "C54_count_double",
    "C54_maxfun_refuted"
   ],
   "note": "Any arithmetic. C54_maxfun_refuted: one call is made even if maxfun is not positive, so the maximum itself is not a bound."
  },
  {
   "property": "C55",
   "status": "partial",
   "theorems": [
    "C55_result_in_bounds_exact",
    "C55_result_in_bounds_double",
    "C55_refused_modified_refuted"
   ],
   "note": "Exact arithmetic: proved with and without scaling; double precision: proved without scaling (a NaN is not excluded). The refutation is about refused calls: with BOBYQA_TOO_CLOSE x has been modified (it holds the scaled variables)."
  },
  {
   "property": "C56",
   "status": "proved",
   "theorems": [
    "C56_best_point_exact",
    "C56_step_failed_exact"
   ],
   "note": "Exact arithmetic, with and without scaling, minimization and maximization."
  },
  {
   "property": "C57",
   "status": "proved",
   "theorems": [
    "C57_partition",
    "C57_memory_safe",
    "C57_status",
    "C57_iterate_safe",
    "C57_create",
    "C57_misuse"
   ],
   "note": "Any arithmetic, any initial contents of the workspace. No integer overflow; arrays of the caller not overlapping."
  },
  {
   "property": "C58",
   "status": "proved",
   "theorems": [
    "C58_count",
    "C58_requests",
    "C58_success",
    "C58_iterate_count"
   ],
   "note": "Any arithmetic."
  },
  {
   "property": "C59",
   "status": "proved",
   "theorems": [
    "C59_best_point_exact",
    "C59_best_value",
    "C59_best_value_max",
    "C59_opp",
    "C59_few_evaluations_refuted",
    "C59_nan_refuted"
   ],
   "note": "The variables: exact arithmetic, npt <= maxfun; the value: any arithmetic with the order of IEEE 754, no NaN value. The refutations show that these conditions are needed: with fewer evaluations x is not one of the points (XOPT was never set) and after one NaN value x and work[0] are NaN."
  },
  {
   "property": "C60",
   "status": "proved",
   "theorems": [
    "C60_client",
    "C60_optimize",
    "C60_minus_zero_refuted"
   ],
   "note": "Any arithmetic; no axioms used. The saved and restored variables are one record in the model: that each of the local variables is listed in SAVE and RESTORE is by inspection of newuoa.c 792-833 and 1680-1715. The refutation shows that the condition on -0 is needed."
  },
  {
   "property": "C61",
   "status": "proved",
   "theorems": [
    "C61_partition",
    "C61_arithmetics",
    "C61_memory_safe",
    "C61_status",
    "C61_refused",
    "C61_iterate_safe",
    "C61_create",
    "C61_misuse"
   ],
   "note": "Any arithmetic with two laws (0 == 0; t < r/4 implies t < 2.1*r for the inverse t of the root of a sum of squares), proved for double and single precision and exact reals. The array iact is a value of the model, not in its memory; no integer overflow; arrays of the caller not overlapping."
  },
  {
   "property": "C62",
   "status": "proved",
   "theorems": [
    "C62_count",
    "C62_requests",
    "C62_success",
    "C62_iterate_count"
   ],
   "note": "Same arithmetics as C61."
  },
  {
   "property": "C63",
   "status": "partial",
   "theorems": [
    "C63_arithmetics",
    "C63_trstlp_refuted",
    "C63_nan_refuted"
   ],
   "note": "Refuted: trstlp never ends when there is no constraint and the gradient is made of NaN (any number of variables, any arithmetic with NaN); a whole call of cobyla_optimize that does not end after a single NaN value of the objective function (double precision). The number of evaluations is limited (C62). Missing: the end of the calls without NaN."
  },
  {
   "property": "C64",
   "status": "proved",
   "theorems": [
    "C64_client",
    "C64_optimize"
   ],
   "note": "For any arithmetic with the laws CbLaws (doubles, singles, exact reals), any functions (which may depend on the previous calls), and without scaling (cobyla_iterate has none); the client gives an array of constraints apart from x and the workspace."
  },
  {
   "property": "C65",
   "status": "proved",
   "theorems": [
    "C65_tried_point_exact",
    "C65_best_point_refuted",
    "C65_rounding_refuted"
   ],
   "note": "Exact arithmetic. Two refutations in double precision: the comment 'Return the best calculated values of the variables' (cobyla.c 970) is false, a point with a lower value may have been tried (convex quadratic, no constraint, COBYLA_SUCCESS); with rounding errors, x may differ from all the points that were tried."
  },
  {
   "property": "C66",
   "status": "proved",
   "theorems": [
    "C66_gqt",
    "C66_ends",
    "C66_empty_refuted"
   ],
   "note": "Any arithmetic (no law is used). The arrays do not overlap. The refutation shows that n >= 1 is needed (it is not checked): with n = 0 an element of a is read."
  },
  {
   "property": "C67",
   "status": "proved",
   "theorems": [
    "C67_gqt",
    "C67_zero_refuted",
    "C67_multiplier_refuted",
    "C67_limit_refuted"
   ],
   "note": "Exact arithmetic. Refutations in double precision of other sentences of the documentation: with b = 0 the relative accuracy may not be the requested one when 1 is returned; a positive multiplier does not imply |norm(x)-delta| <= rtol*delta; when 4 is returned x may be far outside of the region."
  },
  {
   "property": "C68",
   "status": "proved",
   "theorems": [
    "C68_estsv"
   ],
   "note": "Exact arithmetic. That the value is close to the smallest singular value is not claimed (the routine is a heuristic)."
  },
  {
   "property": "C69",
   "status": "proved",
   "theorems": [
    "C69_radius",
    "C69_call",
    "C69_create",
    "C69_bounds",
    "C69_decreasing",
    "C69_arithmetics",
    "C69_count",
    "C69_restart_refuted",
    "C69_nan_refuted"
   ],
   "note": "The bounds are for any ordered arithmetic with the laws RhoLaws, proved of double and single precision and of the exact reals. Two refutations of the documentation of cobyla_get_rho: after cobyla_restart the result is not 0 but the last radius; a NaN for rhobeg is accepted and then the radius is not positive."
  },
  {
   "property": "C70",
   "status": "proved",
   "theorems": [
    "C70_radius",
    "C70_call",
    "C70_bounds",
    "C70_delta",
    "C70_decreasing",
    "C70_count",
    "C70_positive_refuted",
    "C70_restart_refuted",
    "C70_nan_refuted"
   ],
   "note": "Same laws as C69 (C69_arithmetics). Three refutations of the documentation of newuoa_get_rho: the result is still 0 during the npt initial evaluations; after newuoa_restart it is not 0 but the last radius; with a NaN for rhoend a negative rhobeg is accepted."
  },
  {
   "property": "C71",
   "status": "proved",
   "theorems": [
    "C71_trsapp",
    "C71_biglag",
    "C71_bigden",
    "C71_zero_radius_refuted"
   ],
   "note": "The arithmetic is that of NumE (reals with an undefined element), so that a division by zero gives no spurious number. The theorems are about the three functions with their arrays anywhere in the memory; that the arrays of newuob are disjoint is in the theorems on memory safety (C43 and following)."
  },
  {
   "property": "C72",
   "status": "partial",
   "theorems": [
    "C72_constants",
    "C72_constants_value",
    "C72_reason",
    "C72_reason_distinct",
    "C72_guess",
    "C72_handler",
    "C72_all_constants_refuted",
    "C72_tolerance_refuted",
    "C72_guess_status_refuted"
   ],
   "note": "Refuted parts: the messages of OPK_FTOL_TEST_SATISFIED, OPK_GTOL_TEST_SATISFIED and OPK_XTOL_TEST_SATISFIED are exchanged (a rotation); OPK_NLCG_DEFAULT and OPK_MAX_STATUS are not known by opk_get_integer_constant; opk_guess_status returns -1, which is no status, for the other codes. All the rest is proved."
  },
  {
   "property": "C73",
   "status": "proved",
   "theorems": [
    "C73_near",
    "C73_rho_refuted"
   ],
   "note": "The arithmetic is that of NumE (reals with an undefined element); rhobeg and rhoend are numbers. If x, XBASE or XOPT holds an undefined element the theorem says nothing of the distance."
  },
  {
   "property": "C74",
   "status": "proved",
   "theorems": [
    "C74_bobyqa",
    "C74_bobyqa_codes",
    "C74_newuoa",
    "C74_cobyla",
    "C74_documented",
    "C74_initial_refuted",
    "C74_newuoa_client",
    "C74_newuoa_optimize",
    "C74_cobyla_client",
    "C74_cobyla_optimize"
   ],
   "note": "The values of bobyqa_status are exactly the integers with a message (C74_bobyqa_codes), so nothing about the executions of bobyqa is needed."
  }
 ]
}