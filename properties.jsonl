{"id": "C01", "title": "Reference counted objects: no use after free, released exactly once, no leak", "statement": "In every history of creating objects (vector spaces, vectors, box sets, line searches, optimizers), holding and dropping references by a client that only drops references it owns: an object stays usable as long as the client or another live object references it; it is finalized exactly once, at the drop which removes its last reference; everything an object refers to (the space of a vector, the bounds of a box, the line search and work vectors of an optimizer) outlives it; and once the client has dropped all its references no object remains allocated.", "quantifier": "all finite histories of create/hold/drop/query calls of a well-behaved client, all object graphs they build", "why_tests_cant": "A test exercises a few call sequences; a leak, double free or dangling reference depends on the interleaving of holds and drops over an arbitrary object graph.", "anchors": ["src/algebra.c: opk_allocate_object, opk_hold_object, opk_drop_object, opk_get_object_references, finalize_vector, opk_allocate_vector", "src/vmlmb.c: finalize_vmlmb, opk_new_vmlmb_optimizer", "src/nlcg.c: finalize_nlcg"]}
{"id": "C02", "title": "Reference count reported to the client is the number of live references", "statement": "opk_get_object_references returns 0 for NULL, otherwise exactly the number of references currently held on the object by the client plus those held by live library objects; hold adds one, drop removes one, and hold/drop on NULL have no effect.", "quantifier": "all histories of a well-behaved client, every live object", "why_tests_cant": "The count is a function of the whole history, not of the last call.", "anchors": ["src/algebra.c: opk_hold_object, opk_drop_object, opk_get_object_references"]}
{"id": "C03", "title": "Release callback of wrapped data is called exactly once", "statement": "For a vector that wraps client memory, over any sequence of re-wraps followed by the destruction of the vector, every (callback, client data) pair installed with a non-NULL callback is invoked exactly once, when it is replaced by a different pair or when the vector dies, and never while it is still installed; a failed re-wrap changes nothing.", "quantifier": "all finite sequences of rewrap calls with arbitrary arguments followed by destruction", "why_tests_cant": "Double release or missing release depends on the sequence of pairs installed.", "anchors": ["src/simple_vector.c: opk_wrap_simple_double_vector, opk_rewrap_simple_double_vector, finalize_vector"]}
{"id": "C04", "title": "Element access stays in bounds and round-trips", "statement": "opk_vpeek/opk_vpoke succeed exactly when the vector is valid and 0 <= k < size; a successful poke changes component k only and a following peek of k returns the stored value (converted to the element type); an unsuccessful call modifies nothing. opk_vimport/opk_vexport succeed exactly when the array is valid, of known type and has size elements; importing then exporting with the element type of the space is the identity.", "quantifier": "all vectors, indices (including negative and too large), values and arrays", "why_tests_cant": "Index checks must hold for every index and size; a test tries a handful.", "anchors": ["src/algebra.c: opk_vpeek, opk_vpoke, opk_vimport, opk_vexport"]}
{"id": "C05", "title": "Linear combinations compute what they promise for every coefficient and aliasing", "statement": "opk_vscale, opk_vaxpby and opk_vaxpbypcz set dst to alpha*x (+ beta*y (+ gamma*z)) component by component for every value of the coefficients, whatever shortcuts (0, 1, -1) are taken, also when dst is one of the operands or operands coincide; operands other than dst are unchanged. In exact arithmetic this is the mathematical combination; in IEEE arithmetic the shortcuts do not change the result compared with the general formula on finite data, up to the sign of zero.", "quantifier": "all vectors of a space of any size, all coefficients, all aliasing patterns of dst and operands", "why_tests_cant": "There are 27 coefficient classes times aliasing patterns times all values; tests sample a few.", "anchors": ["src/algebra.c: opk_vscale, opk_vaxpby, opk_vaxpbypcz", "src/simple_vector.c: scale, axpby, axpbypcz"]}
{"id": "C06", "title": "Operations on vectors of different spaces are refused without effect", "statement": "Every vector operation and projection given vectors which do not belong to one and the same space reports the error (through the error handler or by returning OPK_BAD_SPACE) and leaves all vectors unchanged.", "quantifier": "all operations, all operand tuples with at least one foreign vector", "why_tests_cant": "Requires covering each argument position of each operation, for all states.", "anchors": ["src/algebra.c: opk_vcopy, opk_vswap, opk_vdot, opk_vaxpby, opk_vaxpbypcz, opk_project_variables, opk_project_direction, opk_get_free_variables, opk_get_step_limits"]}
{"id": "C07", "title": "Dot products and norms", "statement": "opk_vdot is the sum of products (symmetric, bilinear), opk_vnorm2 squared equals opk_vdot(x,x), opk_vnorm1 and opk_vnorminf are the sum and the maximum of absolute values, with norminf <= norm2 <= norm1 and |dot(x,y)| <= norm2(x)*norm2(y) in exact arithmetic.", "quantifier": "all vectors of any size", "why_tests_cant": "Algebraic identities over all vectors of all sizes.", "anchors": ["src/simple_vector.c: dot, norm1, norm2, norminf"]}
{"id": "C08", "title": "String copies never overflow and are always terminated", "statement": "opk_copy_string(dst,size,src) writes only inside the first size bytes of dst, leaves a terminated string there whenever size > 0, copies src entirely when it fits and its longest prefix otherwise, writes nothing for a NULL dst, and always returns the number of bytes needed for src with its terminator.", "quantifier": "all source strings, buffer sizes and buffer contents", "why_tests_cant": "Off-by-one errors at the boundary between sizes and lengths; universally quantified over both.", "anchors": ["src/utils.c: opk_copy_string"]}
{"id": "C09", "title": "Projection onto a box is the nearest feasible point, also in floating point", "statement": "opk_project_variables with finite or infinite, scalar or vector, one-sided or two-sided bounds (lower <= upper) stores in dst a point inside the bounds, unchanged wherever x was already inside, equal to the violated bound elsewhere; hence it is idempotent and the closest point of the box; works in place. This holds with IEEE arithmetic including infinities and excluding only NaN in x or the bounds.", "quantifier": "all bound kinds, all vectors, all IEEE values except NaN", "why_tests_cant": "Nine bound combinations times all floating point values.", "anchors": ["src/simple_vector.c: boxprojvar", "src/algebra.c: opk_project_variables, get_bounds"]}
{"id": "C10", "title": "Projected directions keep small steps feasible and remove nothing else", "statement": "For feasible x, the direction d projected by opk_project_direction equals d except for components which would leave the box immediately, which are zero; as a consequence x +/- alpha*dst is feasible for all sufficiently small alpha > 0 (exact arithmetic), and the projection of a descent direction g (ascent orientation of the gradient) is never an ascent direction: <dst,d> >= 0.", "quantifier": "all boxes, feasible points, directions, both orientations", "why_tests_cant": "Universally quantified over boxes, points, directions and the existence of a step.", "anchors": ["src/simple_vector.c: boxprojdir", "src/algebra.c: opk_project_direction"]}
{"id": "C11", "title": "Free-variable mask agrees with the projected direction", "statement": "opk_get_free_variables yields 1 exactly for the components that opk_project_direction leaves non-zero, and 0 for the others.", "quantifier": "all boxes, feasible points, directions, both orientations", "why_tests_cant": "Agreement of two independent nine-case implementations on all inputs.", "anchors": ["src/simple_vector.c: boxfreevar, boxprojdir"]}
{"id": "C12", "title": "Step limits are correct", "statement": "For feasible x, opk_get_step_limits returns smin1, smin2, smax such that no step 0 <= alpha <= smin1 leaves the box, each step larger than smin1 leaves it, proj(x +/- alpha*d) is constant for alpha >= smax, 0 <= smin1 <= smin2 and smin2 > 0, and smin1 = smin2 when d is a projected direction.", "quantifier": "all boxes, feasible points, directions, orientations, step lengths (exact arithmetic)", "why_tests_cant": "Quantifies over every step length; a test samples steps.", "anchors": ["src/simple_vector.c: boxsteplim", "src/algebra.c: opk_get_step_limits"]}
{"id": "C13", "title": "Line search start-up validates its arguments", "statement": "opk_lnsrch_start returns OPK_LNSRCH_SEARCH only if 0 <= stpmin <= stp <= stpmax and the initial derivative is not non-negative; otherwise it returns an error with the status of the first violated condition; after an error opk_lnsrch_iterate refuses with OPK_NOT_STARTED.", "quantifier": "all line search methods, all argument values", "why_tests_cant": "Order and completeness of checks over all values.", "anchors": ["src/lnsrch.c: opk_lnsrch_start"]}
{"id": "C14", "title": "Line search protocol", "statement": "opk_lnsrch_iterate is only effective while a search is in progress and with the step it proposed: otherwise it reports OPK_NOT_STARTED or OPK_STEP_CHANGED, and after any terminal task (convergence, warning, error) further calls return an error until the next start; the predicates converged/finished/has_errors/has_warnings always agree with the last returned task.", "quantifier": "all sequences of start and iterate calls with arbitrary function values (including NaN)", "why_tests_cant": "A property of call histories.", "anchors": ["src/lnsrch.c: opk_lnsrch_iterate, opk_lnsrch_get_task, opk_lnsrch_has_errors, opk_lnsrch_converged, opk_lnsrch_finished"]}
{"id": "C15", "title": "Every proposed step lies within the step bounds", "statement": "Whatever function values and derivatives are fed back (including infinities and NaN), as long as the search is in progress the proposed step satisfies stpmin <= step <= stpmax.", "quantifier": "all methods, histories, function values", "why_tests_cant": "Must hold for adversarial function values over arbitrarily long searches.", "anchors": ["src/lnsrch.c: opk_lnsrch_iterate, backtrack_iterate, nonmonotone_iterate, csrch_iterate"]}
{"id": "C16", "title": "Convergence of a line search means its acceptance test holds", "statement": "When the search reports convergence at a step: backtracking guarantees f <= f0 + ftol*stp*df0; nonmonotone guarantees f <= fmax + ftol*stp*df0; More-Thuente guarantees f <= f0 + ftol*stp*df0 and |df| <= gtol*|df0|.", "quantifier": "all methods, histories, values", "why_tests_cant": "Holds for all function values and histories; tests see some accepted steps.", "anchors": ["src/lnsrch.c: backtrack_iterate, nonmonotone_iterate, csrch_iterate"]}
{"id": "C17", "title": "Backtracking reduces the step geometrically and terminates", "statement": "Each unsuccessful backtracking iteration multiplies the step by a factor inside [min(amin,1/2), rho_max] with rho_max < 1 depending on ftol only (exact arithmetic), so with stpmin > 0 the search ends after a number of iterations bounded in terms of stp/stpmin, for every sequence of function values; for a function that satisfies the descent property at 0 it ends with convergence when stpmin = 0.", "quantifier": "all function values, all parameters in the documented ranges (0 < ftol < 1/2, 0 < amin < 1)", "why_tests_cant": "Termination for all inputs.", "anchors": ["src/lnsrch.c: backtrack_iterate"]}
{"id": "C18", "title": "Nonmonotone reference value", "statement": "The reference value used by the nonmonotone search is the maximum of the starting function values of the last min(m, number of searches since creation) searches.", "quantifier": "all 1 <= m < 2^60, all sequences of starts with arbitrary values which are not NaN (the maximum is not defined otherwise)", "why_tests_cant": "Ring buffer behaviour over arbitrarily long histories.", "anchors": ["src/lnsrch.c: nonmonotone_start, nonmonotone_iterate"]}
{"id": "C19", "title": "More-Thuente step update keeps the best point and brackets the minimizer", "statement": "opk_cstep, when it accepts its arguments, returns an interval whose best endpoint has the lowest function value seen, replaces an endpoint by the current step, once bracketed stays bracketed with the derivative at the best endpoint pointing to the other endpoint, and proposes a step inside the allowed range (and strictly inside the bracket if bracketed).", "quantifier": "all endpoint values, derivatives, steps (exact arithmetic)", "why_tests_cant": "Four cases with cubic/quadratic interpolation over all reals.", "anchors": ["src/lnsrch.c: opk_cstep, csrch_iterate"]}
{"id": "C20", "title": "VMLMB task protocol and counters", "statement": "For every sequence of calls, opk_iterate_vmlmb after opk_start_vmlmb returns one of COMPUTE_FG, NEW_X, FINAL_X, WARNING, ERROR; evaluations counts the calls following COMPUTE_FG since the last start, iterations counts the completed iterations, restarts never exceeds iterations-related limits, counters never decrease before the next start; before start, or after an error, iterate returns ERROR and modifies nothing.", "quantifier": "all call sequences with arbitrary function and gradient values (including NaN)", "why_tests_cant": "State machine over unbounded histories.", "anchors": ["src/vmlmb.c: opk_start_vmlmb, opk_iterate_vmlmb"]}
{"id": "C21", "title": "Convergence reported by VMLMB means the gradient test holds, and conversely", "statement": "Whenever VMLMB returns FINAL_X the reported (projected) gradient norm is <= max(0, gatol, grtol*norm of initial projected gradient), and whenever it returns NEW_X the test does not hold; the norm is that of the gradient projected at the current variables.", "quantifier": "all call sequences, objective functions, options", "why_tests_cant": "All histories.", "anchors": ["src/vmlmb.c: opk_iterate_vmlmb"]}
{"id": "C22", "title": "VMLMB iterates never increase the objective", "statement": "With a backtracking or More-Thuente line search the sequence of objective values at successive NEW_X/FINAL_X is strictly decreasing (Armijo), for every objective function (exact or IEEE arithmetic).", "quantifier": "all objective functions, starting points, options, run lengths", "why_tests_cant": "Unbounded runs over arbitrary objective functions.", "anchors": ["src/vmlmb.c: opk_iterate_vmlmb", "src/lnsrch.c"]}
{"id": "C23", "title": "VMLMB evaluates the objective only at feasible points", "statement": "With a box set, each time COMPUTE_FG is returned the variables are inside the bounds.", "quantifier": "all boxes with lower <= upper, starting points (also infeasible), objectives, run lengths; exact and IEEE arithmetic", "why_tests_cant": "Unbounded runs; rounding makes it a subtle claim in floating point.", "anchors": ["src/vmlmb.c: opk_start_vmlmb, opk_iterate_vmlmb"]}
{"id": "C24", "title": "L-BFGS memory holds the most recent pairs", "statement": "opk_get_vmlmb_mp stays within [0,m]; for j = 1..mp, opk_get_vmlmb_s/y return the j-th most recent stored change of variables/gradient, with distinct storage for distinct j, and NULL for j outside [0,mp].", "quantifier": "all histories of updates and restarts, all m", "why_tests_cant": "Ring buffer behaviour for all lengths of history.", "anchors": ["src/vmlmb.c: opk_get_vmlmb_mp, opk_get_vmlmb_s, opk_get_vmlmb_y, slot, update"]}
{"id": "C25", "title": "The L-BFGS direction is the exact limited-memory BFGS product, positive definite on descent", "statement": "The two-loop recursion returns H*g where H is the inverse BFGS matrix obtained from gamma*I by the stored pairs with positive curvature; H is symmetric positive definite, so the direction is an ascent-oriented descent direction (<d,g> > 0 for g <> 0), and H satisfies the secant equation for the most recent pair.", "quantifier": "all memories of any length, all vectors in any dimension (exact arithmetic)", "why_tests_cant": "Linear algebra identity by induction over the memory.", "anchors": ["src/vmlmb.c: apply, update"]}
{"id": "C26", "title": "Line searches in the optimizers are always started along a descent direction", "statement": "Each line search started by VMLMB or NLCG has a strictly negative initial directional derivative, equal (exact arithmetic) to the derivative of the objective along the search path for the supplied gradient.", "quantifier": "all objectives, histories, options", "why_tests_cant": "All runs.", "anchors": ["src/vmlmb.c: opk_iterate_vmlmb", "src/nlcg.c: opk_iterate_nlcg"]}
{"id": "C27", "title": "NLCG task protocol and counters", "statement": "As C20 for the nonlinear conjugate gradient optimizer.", "quantifier": "all call sequences with arbitrary function and gradient values (including NaN)", "why_tests_cant": "State machine over unbounded histories.", "anchors": ["src/nlcg.c: opk_start_nlcg, opk_iterate_nlcg"]}
{"id": "C28", "title": "NLCG convergence test and monotone decrease", "statement": "FINAL_X is returned by NLCG exactly when the Euclidean norm of the gradient at the accepted point is <= max(0, gatol, grtol*||g_init||), and objective values at successive iterates strictly decrease with a monotone line search.", "quantifier": "all objectives, histories, options", "why_tests_cant": "Unbounded runs.", "anchors": ["src/nlcg.c: opk_iterate_nlcg"]}
{"id": "C29", "title": "NLCG update rules compute the published formulas", "statement": "For each of the 8 rules the computed beta and new direction are those of the published formula in terms of previous direction, previous and current gradients (Hestenes-Stiefel, Fletcher-Reeves, Polak-Ribiere-Polyak, Fletcher, Liu-Storey, Dai-Yuan, Perry-Shanno, Hager-Zhang), with max(beta,0) when Powell's option is set; a restart uses the steepest descent direction.", "quantifier": "all vectors in any dimension, all rules, both storage modes", "why_tests_cant": "Identities over all reals.", "anchors": ["src/nlcg.c: update_* functions"]}
{"id": "C30", "title": "NLCG honours the minimal function value given in its options", "statement": "If fmin_given is set, the initial step of the first iteration/after restart is computed from fmin as documented.", "quantifier": "all options", "why_tests_cant": "Configuration interplay.", "anchors": ["src/nlcg.c: opk_new_nlcg_optimizer, opk_iterate_nlcg"]}
{"id": "C31", "title": "Descriptions fit their buffers", "statement": "Querying the description of an NLCG or VMLMB optimizer never writes outside a buffer, for any valid combination of flags and any client buffer size.", "quantifier": "all valid flags, all buffer sizes", "why_tests_cant": "Overflow only for particular flag combinations.", "anchors": ["src/nlcg.c: opk_get_nlcg_description", "src/vmlmb.c: opk_get_vmlmb_description"]}
{"id": "C32", "title": "The simple driver behaves as the optimizer it wraps", "statement": "opk_start/opk_iterate and the query functions of the driver return what the wrapped optimizer returns on the same data, refuse NULL arguments without effect and never touch the arrays between calls.", "quantifier": "all call sequences", "why_tests_cant": "Refinement over histories.", "anchors": ["src/driver.c: opk_new_optimizer, opk_start, opk_iterate"]}
{"id": "C33", "title": "fmin returns a bracket containing the best point evaluated", "statement": "When opk_fmin returns 0 or 1, out[1] <= out[0] <= out[2], the three function values are those of f at these points (or infinite for an exclusive bound), f(out[0]) is not larger than the other two, and no evaluated point had a smaller value than out[3].", "quantifier": "all functions f, intervals, flags, precisions, evaluation limits", "why_tests_cant": "Quantifies over all functions.", "anchors": ["src/fmin.c: opk_fmin, opk_fmin_with_context"]}
{"id": "C34", "title": "fmin never evaluates on or beyond an exclusive bound", "statement": "With OPK_FMIN_BOUNDED_BY_A and/or OPK_FMIN_BOUNDED_BY_B set, every evaluation point lies strictly on the inner side of the bound(s).", "quantifier": "all functions, intervals, flags (exact arithmetic)", "why_tests_cant": "All functions.", "anchors": ["src/fmin.c: opk_fmin, opk_fmin_next"]}
{"id": "C35", "title": "fmin evaluation budget", "statement": "opk_fmin calls f at most max(maxeval,3) times when maxeval >= 0 and out[6] is the exact number of calls; with no limit, once the minimum is bracketed the golden section method stops after a number of evaluations bounded by the initial bracket and the precision.", "quantifier": "all functions, intervals, limits", "why_tests_cant": "All functions, all run lengths.", "anchors": ["src/fmin.c: opk_fmin"]}
{"id": "C36", "title": "Reverse-communication fmin equals the direct one", "statement": "Driving opk_fmin_next with values of f requests exactly the sequence of points that opk_fmin evaluates, and converges with the same final state; opk_fmin_get_final reports the bracket.", "quantifier": "all functions, intervals, flags, run lengths", "why_tests_cant": "Equality of two control flows for all functions.", "anchors": ["src/fmin.c: opk_fmin_start, opk_fmin_next, opk_fmin_get_final"]}
{"id": "C37", "title": "Linear conjugate gradient invariants", "statement": "At each NEWX of opk_dplcg/opk_dlcg the vector r equals b - A x (for r initially b - A x0), each step minimizes the quadratic along the search direction so the quadratic strictly decreases, and residuals/directions are orthogonal/A-conjugate.", "quantifier": "all symmetric positive definite A in any dimension, all right hand sides, iterations (exact arithmetic)", "why_tests_cant": "Induction over iterations in any dimension.", "anchors": ["src/lcg.c: OPK_PLCG, OPK_LCG"]}
{"id": "C38", "title": "Trust-region conjugate gradient stays in the trust region", "statement": "All iterates of opk_dtrcg satisfy ||x|| <= delta, the quadratic decreases at each iterate, and a truncated or non-convex exit returns a point on the boundary ||x|| = delta.", "quantifier": "all symmetric A (also indefinite), b, delta > 0, preconditioner-free (exact arithmetic)", "why_tests_cant": "All matrices and iterations.", "anchors": ["src/lcg.c: OPK_TRCG"]}
{"id": "C39", "title": "Strided BLAS level 1 routines touch exactly the addressed elements and compute the right values", "statement": "opk_dswap/dcopy/daxpy/dscal/ddot/dasum/dnrm2/idamax with n elements and non-zero increments access exactly the elements at offsets of the BLAS convention, independently of loop unrolling, and compute the mathematical result.", "quantifier": "all n, increments (positive and negative), arrays", "why_tests_cant": "Unrolled loops with remainders and signed strides for all n.", "anchors": ["src/linalg.c: OPK_SWAP, OPK_COPY, OPK_AXPY, OPK_SCAL, OPK_DOT, OPK_ASUM, OPK_NRM2, OPK_IAMAX"]}
{"id": "C40", "title": "Matrix routines honour leading dimensions", "statement": "opk_dgemv, opk_dgemm and opk_dsyrk compute the documented matrix expressions reading A with leading dimension lda (B with ldb, C with ldc), never accessing outside the declared arrays.", "quantifier": "all sizes, leading dimensions, transposition flags, values", "why_tests_cant": "All sizes and leading dimensions.", "anchors": ["src/linalg.c: OPK_GEMV, OPK_GEMM, OPK_SYRK"]}
{"id": "C41", "title": "Triangular solve inverts triangular product", "statement": "For a triangular matrix with non-zero diagonal, opk_dtrsv returns the unique solution of A x = b (or A' x = b), so that opk_dtrmv of the result gives b back.", "quantifier": "all orders n, both triangles, transposition, unit/non-unit diagonal (exact arithmetic)", "why_tests_cant": "Induction over n.", "anchors": ["src/linalg.c: OPK_TRSV, OPK_TRMV"]}
{"id": "C42", "title": "Cholesky factorization is correct and detects non positive definiteness", "statement": "opk_dpotf2 returns 0 with U'U = A (LL' = A) in the selected triangle and leaves the other triangle unchanged, or returns j > 0 where j is the order of the first leading minor which is not positive definite.", "quantifier": "all symmetric matrices of any order (exact arithmetic)", "why_tests_cant": "Induction over n.", "anchors": ["src/linalg.c: OPK_POTF2"]}
{"id": "C43", "title": "Workspace partition of BOBYQA fits the documented size", "statement": "For all admissible n and npt, the arrays carved by bobyqa() out of the workspace are disjoint and inside the documented length (NPT+5)*(NPT+N)+3*N*(N+5)/2.", "quantifier": "all n >= 2, n+2 <= npt <= (n+1)(n+2)/2", "why_tests_cant": "All sizes.", "anchors": ["src/bobyqa.c: bobyqa_optimize"]}
{"id": "C44", "title": "BOBYQA starting point is feasible with room for the first model", "statement": "After argument checks, each initial variable is inside its bounds and either on a bound or at least rhobeg away from it, and the stored relative bounds are consistent.", "quantifier": "all bounds, starting points, radii (exact arithmetic)", "why_tests_cant": "All real inputs.", "anchors": ["src/bobyqa.c: bobyqa_optimize"]}
{"id": "C45", "title": "BOBYQA with scaling evaluates inside the user's bounds", "statement": "The objective is called only with variables inside [xl,xu], also when scaling factors are given.", "quantifier": "all bounds and scaling factors in floating point", "why_tests_cant": "Rounding of scl*(x/scl).", "anchors": ["src/bobyqa.c: bobyqa_optimize, scale"]}
{"id": "C46", "title": "Option checks accept exactly the documented ranges", "statement": "opk_check_vmlmb_options and opk_check_nlcg_options succeed exactly for options in the documented ranges, reject NaN, and the default options pass.", "quantifier": "all option values including NaN and infinities", "why_tests_cant": "All floating point values.", "anchors": ["src/vmlmb.c: opk_check_vmlmb_options", "src/nlcg.c: opk_check_nlcg_options"]}
{"id": "C47", "title": "Constructors of line searches reject parameters outside the documented ranges", "statement": "opk_lnsrch_new_backtrack, opk_lnsrch_new_nonmonotone and opk_lnsrch_new_csrch return an object only for parameters in the documented ranges.", "quantifier": "all parameter values including NaN and infinities", "why_tests_cant": "All floating point values.", "anchors": ["src/lnsrch.c: opk_lnsrch_new_backtrack, opk_lnsrch_new_nonmonotone, opk_lnsrch_new_csrch"]}
{"id": "C48", "title": "Box set construction", "statement": "opk_new_boxset either returns a box whose bounds are those given at construction time (copies for volatile and static arrays: later changes of the client array do not matter; a reference on the vector for vector bounds) or returns NULL leaving all reference counts as before.", "quantifier": "all bound types and addresses, both sides", "why_tests_cant": "All 64 combinations of bound kinds with all failures.", "anchors": ["src/algebra.c: opk_new_boxset, set_bound, finalize_boxset"]}
{"id": "C49", "title": "Acceptable steps are accepted", "statement": "While a search is in progress, calling opk_lnsrch_iterate with the current step and values for which the acceptance test of the line search holds reports convergence and leaves the step unchanged.", "quantifier": "all histories of calls, all values, every step inside the bounds (including the bounds themselves)", "why_tests_cant": "Steps which coincide with a bound follow another path.", "anchors": ["src/lnsrch.c: opk_lnsrch_iterate, backtrack_iterate, nonmonotone_iterate, csrch_iterate"]}
{"id": "C50", "title": "Construction of objects is atomic, also when memory is exhausted", "statement": "Every function which creates an object (space, vector, wrapped vector, box, line search, operator, optimizers, driver) either returns NULL and leaves every existing object, its members and its reference count unchanged, with nothing new left allocated, or returns an object which did not exist before and whose only reference is the one given to the caller; this holds wherever malloc fails.", "quantifier": "all reachable states, all arguments of a well-behaved client, all patterns of malloc failures", "why_tests_cant": "the failure of each of the allocations inside a constructor, in every heap, cannot be provoked exhaustively", "anchors": ["src/algebra.c: opk_allocate_vector_space, opk_allocate_vector, opk_new_boxset", "src/vmlmb.c: opk_new_vmlmb_optimizer", "src/nlcg.c: opk_new_nlcg_optimizer", "src/driver.c: opk_new_optimizer"]}
{"id": "C51", "title": "VMLMB makes progress", "statement": "Without bound constraints, an iteration requested after NEW_X always proposes a new trial point (COMPUTE_FG) and never fails, for every options accepted by opk_check_vmlmb_options.", "quantifier": "all histories, all values, all options (exact arithmetic)", "why_tests_cant": "All histories and option values.", "anchors": ["src/vmlmb.c: opk_iterate_vmlmb, opk_check_vmlmb_options"]}
{"id": "C52", "title": "NLCG always starts the next line search", "statement": "In exact arithmetic and with stpmin <= 1 <= stpmax, an iteration of NLCG requested after NEW_X always proposes a new trial point (task COMPUTE_FG) and never ends with an error, whatever the caller supplied before.", "quantifier": "all options with stpmin <= 1 <= stpmax, all line searches, all call sequences", "why_tests_cant": "All histories and option values.", "anchors": ["src/nlcg.c: opk_iterate_nlcg"]}
{"id": "C53", "title": "VMLMB reports the failures of the operations on the bounds", "statement": "Whatever the results of the operations on the bounds: a start requests the function if and only if the projection of the variables succeeded, otherwise the task is OPK_TASK_ERROR with the status of the projection; an iteration accepts a point only if the free variables were successfully determined there; it requests the function at a new point only if the step limits were successfully determined, some step is possible, and the point comes from a successful projection (unless the step is shorter than the first bound).", "quantifier": "all states, all bounds including those whose operations fail", "why_tests_cant": "Failures of the operations cannot be produced with the provided sets of bounds.", "anchors": ["src/vmlmb.c: opk_start_vmlmb, opk_iterate_vmlmb"]}
{"id": "C54", "title": "BOBYQA limits the number of calls of the objective function", "statement": "Whatever the arithmetic and the values of the objective function (including infinities and NaN), bobyqa_optimize calls the objective function at most max(1,maxfun) times, during prelim, rescue and the iterations.", "quantifier": "all sizes, arguments, objective functions (possibly with a memory of the previous calls), arithmetics", "why_tests_cant": "The calls are made in three functions with separate counters; the path through rescue needs rounding errors to be taken.", "anchors": ["src/bobyqa.c: bobyqa_optimize, bobyqb, prelim, rescue"]}
{"id": "C55", "title": "BOBYQA returns variables inside the bounds", "statement": "When the call is not refused because of its arguments, the variables in x at the return of bobyqa_optimize are inside the bounds of the caller, whatever the status.", "quantifier": "all bounds, starting points, scaling factors, objective functions", "why_tests_cant": "All exits, including those after a failed rescue or in the middle of the construction of the first model.", "anchors": ["src/bobyqa.c: bobyqa_optimize, bobyqb"]}
{"id": "C56", "title": "BOBYQA returns the best of the points it has tried", "statement": "When the call is not refused because of its arguments and the status is not BOBYQA_STEP_FAILED, the variables in x at the return of bobyqa_optimize are one of the points given to the objective function and no other one has a better (lower, or higher for a maximization) value; if the status is BOBYQA_SUCCESS the value at this point is in w[0]. With BOBYQA_STEP_FAILED the same holds for all the points but possibly the last one.", "quantifier": "all sizes, bounds, scaling factors, objective functions (possibly with a memory of the previous calls), all exits (exact arithmetic)", "why_tests_cant": "The best point is tracked by an index in three functions, moved by exchanges, shifts of the origin and the rescue; tests only see the paths taken by a few functions.", "anchors": ["src/bobyqa.c: bobyqa_optimize, bobyqb, prelim, rescue"]}
{"id": "C57", "title": "NEWUOA stays inside the documented workspace", "statement": "Whatever the arithmetic (rounding, overflows, NaN, any sine and cosine functions) and whatever the initial contents of the workspace: newuoa_optimize, newuoa_create and newuoa_iterate access no element out of the arrays of the caller when the workspace has the documented size, and modify nothing else than x and the workspace; the arrays cut in the workspace do not overlap and fill the documented size exactly. Refused arguments modify nothing. newuoa_iterate called by a client that does anything between the calls (other values, misuse, restart) stays inside the same arrays, and a misuse only changes the status.", "quantifier": "all sizes, arguments, objective functions, arithmetics, clients", "why_tests_cant": "An access just after the end of an array goes unnoticed; most of the branches are only taken after rounding errors.", "anchors": ["src/newuoa.c: newuoa_optimize, newuoa_create, newuoa_iterate, newuoa_restart, bigden, biglag, trsapp, update", "src/newuoa.h: 97-98, 160-163"]}
{"id": "C58", "title": "NEWUOA limits the number of calls of the objective function", "statement": "Whatever the arithmetic and the values of the objective function, newuoa_optimize calls the objective function at most max(1,maxfun) times, and exactly that number if the status is NEWUOA_TOO_MANY_EVALUATIONS; a context of the reverse communication version requests at most maxfun values since its creation or its last restart, counts one evaluation for each accepted call, and has the status NEWUOA_TOO_MANY_EVALUATIONS only when maxfun evaluations have been made, NEWUOA_SUCCESS only if rho is not more than rhoend.", "quantifier": "all sizes, arguments, objective functions (possibly with a memory of the previous calls), arithmetics, clients", "why_tests_cant": "The counter is incremented at one place and tested at another one, with two different codes compiled from the same source.", "anchors": ["src/newuoa.c: newuoa_optimize, newuoa_iterate (L310, new_eval)"]}
{"id": "C59", "title": "NEWUOA returns the best of the points it has tried", "statement": "When the call is not refused because of its arguments: in exact arithmetic, if npt evaluations at least are allowed, the variables in x at the return of newuoa_optimize are one of the points given to the objective function, no other one has a better (lower, or higher for a maximization) value, and work[0] is its value, for every status. In double or single precision, for any number of evaluations, work[0] is the best of the values returned by the objective function if none of them is a NaN.", "quantifier": "all sizes, scaling factors, objective functions (possibly with a memory of the previous calls), all exits", "why_tests_cant": "The best point is kept relative to an origin that is moved during the iterations; the last point is only tried at some of the exits. With fewer evaluations than npt, or after a NaN, the documented result is not returned: tests do not use such arguments.", "anchors": ["src/newuoa.c: newuoa_optimize (L50 to done)", "src/newuoa.h: 79-80, 163-165"]}
{"id": "C60", "title": "The two versions of NEWUOA do the same", "statement": "newuoa_optimize and a client of the reverse communication version (newuoa_create, then newuoa_iterate while the status is NEWUOA_ITERATE) call the objective function with the same variables in the same order, end with the same status and leave the same variables in x and the same workspace but work[0]; one of them ends if and only if the other one does; newuoa_get_nevals is then the number of calls. The first variables must not be changed by adding zero (-0 is changed).", "quantifier": "all sizes, arguments, objective functions (possibly with a memory of the previous calls), arithmetics, all numbers of evaluations", "why_tests_cant": "The source is compiled twice with conditional parts; the local variables must be saved and restored at each of the evaluations, and the first evaluation is treated differently.", "anchors": ["src/newuoa.c: newuoa_optimize, newuoa_create, newuoa_iterate (RESTORE, SAVE, new_eval)", "src/newuoa.h: 180-250"]}
{"id": "C61", "title": "COBYLA stays inside the documented workspace", "statement": "Whatever the objective function and the constraints (infinite values, NaN), the rounding errors and the initial contents of the workspace: cobyla_optimize, cobyla_create and cobyla_iterate access no element out of the arrays of the caller when the workspace has the documented size, and modify nothing else than x and the workspace (and iact); the arrays cut in the workspace do not overlap and fill the documented size exactly. Only the documented statuses are returned; refused arguments modify nothing. cobyla_iterate called by a client that does anything between the calls (other values, misuse, restart) stays inside the same arrays, and a misuse only changes the status.", "quantifier": "all sizes, arguments, objective functions, constraints, clients; double and single precision, exact arithmetic", "why_tests_cant": "An access just after the end of an array goes unnoticed; many of the branches of trstlp are only taken for degenerate constraints, rounding errors or NaN.", "anchors": ["src/cobyla.c: cobyla_optimize, cobyla_create, cobyla_iterate, cobyla_restart, cobylb, trstlp", "src/cobyla.h"]}
{"id": "C62", "title": "COBYLA limits the number of calls of the objective function", "statement": "cobyla_optimize calls the objective function at most max(1,maxfun) times, exactly that number if the status is COBYLA_TOO_MANY_EVALUATIONS, and returns the number of calls in iact[0]; a context of the reverse communication version requests at most maxfun values since its creation or its last restart, counts one evaluation for each accepted call, has the status COBYLA_TOO_MANY_EVALUATIONS only when maxfun evaluations have been made, and COBYLA_SUCCESS only if rho is not more than rhoend.", "quantifier": "all sizes, arguments, objective functions and constraints (possibly with a memory of the previous calls), clients; double and single precision, exact arithmetic", "why_tests_cant": "The counter is incremented at one place and tested at another one, with two different codes compiled from the same source.", "anchors": ["src/cobyla.c: cobyla_optimize, cobyla_iterate (call_calcfc, new_eval)"]}
{"id": "C63", "title": "COBYLA ends", "statement": "Every call of cobyla_optimize and of cobyla_iterate ends, whatever the values of the objective function and of the constraints: the number of evaluations is limited by maxfun and the computations between two evaluations end.", "quantifier": "all sizes, arguments, objective functions, constraints", "why_tests_cant": "A test that does not end tells nothing about the number of steps; the values that make the method loop are out of the domain of the objective function.", "anchors": ["src/cobyla.c: trstlp (L_60, L_320, L_340, L_480), cobylb"]}
{"id": "C64", "title": "cobyla_optimize and the reverse communication version of COBYLA do the same", "statement": "cobyla_optimize and a client that calls cobyla_iterate as documented with the same functions end both or none; they end with the same status and number of evaluations after the same calls of the functions with the same variables in the same order, and leave the same variables in x.", "quantifier": "all sizes, initial variables, objective functions, constraints, radii, maxfun", "why_tests_cant": "The two versions are obtained from the same text by the preprocessor but save the variables and transmit the constraints in different ways; a test compares them on a few functions, a variable which is not saved is only noticed when it changes between two calls.", "anchors": ["src/cobyla.c: cobyla_optimize, cobyla_iterate, LOCAL_VARS SAVE/RESTORE", "src/cobyla.h: 237-262"]}
{"id": "C65", "title": "COBYLA returns one of the points it has tried, with the values of the functions at this point", "statement": "In exact arithmetic, when cobyla_optimize is not refused because of its arguments, the variables in x at the end are the ones of one of the calls of calcfc, work[0] is the value of the objective function in this call and work[1] is max(0, -c0, ..., -c(m-1)), the worst violation of the constraints in this call.", "quantifier": "all n >= 1, m >= 0, initial variables and contents of the workspace, functions, radii, scaling factors, maxfun, minimization or maximization, the three ways to end (also the two that are not a success)", "why_tests_cant": "The pair of values and the variables are kept in three matrices (SIM, DATMAT) whose columns are exchanged and updated at many places, relatively to a vertex that changes; a wrong column only shows for some sequences of values of the functions, and the tests do not compare work[0] with f(x).", "anchors": ["src/cobyla.c: cobyla_optimize, lines 486-1018", "src/cobyla.h: 133-151"]}
{"id": "C66", "title": "OPK_GQT ends and respects the memory", "statement": "opk_dgqt and opk_sgqt read only elements of their arrays and modify only a, x, z, wa1 and wa2; they end after at most max(1,itmax) iterations with 1, 2, 3 or 4, 4 only after max(1,itmax) iterations; then the array a is the full symmetric matrix whose upper triangle was given and b is unchanged.", "quantifier": "all n >= 1, lda >= n, contents of the arrays (NaN included), delta, rtol, atol, itmax, initial multiplier, any arithmetic", "why_tests_cant": "The factorization overwrites the upper triangle at each iteration and the matrix is rebuilt from the lower triangle and wa1; an error in a leading dimension, or an element that is not restored after a factorization that stops in the middle, is only visible for some matrices, orders and lda > n.", "anchors": ["src/gqtpar.c: 70-357", "src/optimpack.h: 2293-2405"]}
{"id": "C67", "title": "OPK_GQT has the accuracy that it reports", "statement": "In exact arithmetic, with delta > 0 and 0 <= rtol <= 1: *f_ptr is f(x) at the returned x, it is not positive, and the multiplier is not negative; if 1 is returned and b is not 0 then norm(x) <= (1+rtol)*delta and f(x) <= (1-rtol)^2 f(y) for every y of the region; if 2 is returned and atol >= 0 then norm(x) <= (1+rtol)*delta and -f(x) <= atol and -f(y) <= atol for every y of the region.", "quantifier": "all orders, symmetric matrices (indefinite and singular ones included), vectors b, radii, tolerances, iteration limits, initial multipliers", "why_tests_cant": "The exact minimum is not known to a test, and the tests which end the iterations are inequalities between norms of intermediate vectors; a wrong factor in one of them only makes the routine stop too early for some matrices.", "anchors": ["src/gqtpar.c: 70-357", "src/optimpack.h: 2293-2392"]}
{"id": "C68", "title": "OPK_ESTSV returns a unit vector z and the norm of R z", "statement": "In exact arithmetic, for every upper triangular matrix R, singular or not: opk_destsv returns the norm of R z for the vector z of norm 1 that it stores, and modifies nothing else.", "quantifier": "all orders, leading dimensions, upper triangular matrices", "why_tests_cant": "z is the product of two substitutions with scalings of all the elements at any step; a scaling which is not applied to the estimated norm is only visible for badly conditioned matrices.", "anchors": ["src/gqtpar.c: 361-453"]}
{"id": "C69", "title": "The radius of COBYLA goes from rhobeg to rhoend and never increases", "statement": "Once a value has been given, cobyla_get_rho is rhobeg after some number of halvings, each one of a radius larger than rhoend, the last one replaced by rhoend; hence (rhobeg, rhoend not NaN) rhoend <= rho <= rhobeg, rho > 0, no call increases it, and with the status of success it is rhoend. In exact arithmetic the number k of reductions satisfies 2^(k-1) rhoend < rhobeg. It is 0 after cobyla_create.", "quantifier": "all sequences of calls (restarts, rejected calls and changes of the memory included), numbers of variables and constraints, values of the function and of the constraints; the chain in any arithmetic, the bounds in double and single precision and exact arithmetic", "why_tests_cant": "The radius is reduced at the end of long computations which depend on all the values; with rounding errors a halved radius could miss rhoend, or be less than it, for some pairs (rhobeg, rhoend) only.", "anchors": ["src/cobyla.c: 203-301, 480-1021", "src/cobyla.h: 74-78, 296-298"]}
{"id": "C70", "title": "The radius of NEWUOA goes from rhobeg to rhoend, never increases, and delta is not less than it", "statement": "Once the npt initial values have been given, newuoa_get_rho is rhobeg after some number of reductions (by 10, the last two by similar factors), each one of a radius larger than rhoend; hence (rhobeg, rhoend not NaN) rhoend <= rho <= rhobeg, rho > 0, no call increases it, delta >= rho, and with the status of success it is rhoend. In exact arithmetic, if k >= 2 reductions are made, 16*10^(k-2) rhoend < rhobeg.", "quantifier": "all sequences of calls (restarts, rejected calls and changes of the memory included), n, npt, values of the function, functions cos and sin; the chain in any arithmetic, the bounds in double and single precision and exact arithmetic", "why_tests_cant": "The factor of a reduction depends on the ratio rho/rhoend and its square root, both rounded; a radius below rhoend or larger than the previous one would be visible for some ratios only. delta is modified in five places and never observable.", "anchors": ["src/newuoa.c: 1100-1140, 1400-1420, 1586-1601", "src/newuoa.h: 82-83, 119-121, 253-255"]}
{"id": "C71", "title": "The steps of NEWUOA stay in the trust region", "statement": "In exact arithmetic (0/0 and square roots of negative numbers undefined), if trsapp returns and its step is made of numbers then the Euclidean norm of the step is at most delta (delta not 0); the step of biglag has exactly the norm delta; the step of bigden has exactly the norm of the step that was given to it. With delta = 0 trsapp may return a step that is not zero.", "quantifier": "all n >= 1, npt, addresses of disjoint arrays, contents of the memory, values of delta, numbers of iterations (conjugate gradients, two dimensional searches on the sphere); all dimensions of the arrays, functions cos and sin of the real numbers", "why_tests_cant": "The norms follow from the recurrences on ds, ss and hd and from the rotation of the couple (d, s): an error in one of them gives a step that is longer in some iterations only, and the algorithm still converges, more slowly.", "anchors": ["src/newuoa.c: 1781-2138, 2175-2376, 2444-2632"]}
{"id": "C72", "title": "Constants, messages and error handler", "statement": "opk_get_integer_constant gives, for exactly the names of the constants listed in the documentation, their values in optimpack.h, and refuses any other name (NULL and the empty string included) without writing; opk_get_reason gives a message that is not empty exactly for the statuses, and different messages for different statuses; opk_guess_status maps exactly ENOMEM, EFAULT, EINVAL to the corresponding statuses; each call of opk_set_error_handler returns the handler that was set by the previous one, NULL meaning the default one. The message of each test of convergence names the quantity that was tested (refuted: the messages of the three tests are exchanged).", "quantifier": "all strings, all pointers, all integers as status or error code, all distinct values of ENOMEM, EFAULT, EINVAL, all sequences of calls of opk_set_error_handler", "why_tests_cant": "The set of the names is infinite, and a test only compares the messages with those of the code: nothing says that a message is the one of another status.", "anchors": ["src/utils.c: 61-197", "src/optimpack.h: 286-390"]}
{"id": "C73", "title": "NEWUOA asks for values inside the trust region", "statement": "In exact arithmetic, once the NPT initial values are known, each call of newuoa_iterate that asks for a value of the objective function leaves in x a point whose distance to the best point so far (XBASE + XOPT) is at most DELTA, and DELTA is then a number not smaller than RHO > 0. (With RHO in place of DELTA: refuted.)", "quantifier": "all objective functions, all numbers of variables and of interpolation points, all sequences of calls and of restarts, all changes of the memory by the client between the calls", "why_tests_cant": "The step comes from one of three procedures, is kept or not through the shift of the origin and the choice of another point, and the radius is changed on the way: a test sees only a few paths.", "anchors": ["src/newuoa.c: 736-1724", "src/newuoa.c: 1119-1145", "src/newuoa.c: 1149-1316", "src/newuoa.c: 1559-1632"]}
{"id": "C74", "title": "Each status that BOBYQA, NEWUOA or COBYLA can report has a message of its own", "statement": "For every integer, bobyqa_reason, newuoa_reason and cobyla_reason give the message of an unknown status if and only if the integer is not one of the statuses with a message, and two integers with the same message are equal unless both are unknown; each message is the one documented for the value. The status of any context that a client of newuoa_iterate or cobyla_iterate can have, the status given for NULL and the status returned by newuoa_optimize or cobyla_optimize have a message other than the unknown one; the optimize functions never return the status that asks for a value. (For all the values of the enumerated types: refuted, INITIAL_ITERATE has no message.)", "quantifier": "all integers, all contexts reachable by any sequence of calls, all arguments, all arithmetics (for COBYLA those with the laws of C61)", "why_tests_cant": "Which statuses can come out is a property of all the executions, and the argument of ..._reason is any integer.", "anchors": ["src/bobyqa.h: 44-60", "src/bobyqa.c: 296-320", "src/newuoa.h: 43-62", "src/newuoa.c: 655-683", "src/cobyla.h: 51-64", "src/cobyla.c: 1558-1585"]}
