{"id": "C01", "title": "Setup's data check accepts exactly the documented problems", "statement": "osqp_setup reports a data validation error unless n > 0, m >= 0, P is n-by-n with only upper triangular entries, A is m-by-n, q is given and every lower bound is at most the matching upper bound; when all of these hold it never reports that error.", "quantifier": "every P, q, A, l, u, m, n", "why_tests_cant": "the accepted set is infinite and the check is a conjunction whose boundary must be exact in both directions", "anchors": ["src/auxil.c:validate_data", "src/osqp_api.c:osqp_setup"]}
{"id": "C02", "title": "Settings are accepted exactly on their documented ranges", "statement": "osqp_setup (and osqp_update_settings, for the fields it may change) rejects a settings structure if and only if some field lies outside its documented range; the defaults written by osqp_set_default_settings are accepted.", "quantifier": "every settings structure, including ones with NaN fields", "why_tests_cant": "about thirty fields with open/closed ends, each combination of violated and satisfied ranges", "anchors": ["src/auxil.c:validate_settings", "src/osqp_api.c:osqp_set_default_settings"]}
{"id": "C03", "title": "osqp_update_settings is atomic and changes exactly the mutable fields", "statement": "If osqp_update_settings returns an error no setting changes; if it succeeds every updatable field equals the new value and every other field (rho, sigma, scaling, adaptive rho, linear solver, ...) is unchanged, as are the problem data and the iterates.", "quantifier": "every solver state and every new settings structure", "why_tests_cant": "frame condition over all fields and all states", "anchors": ["src/osqp_api.c:osqp_update_settings", "src/auxil.c:validate_settings"]}
{"id": "C04", "title": "Sparse products compute the mathematical product", "statement": "For every well-formed CSC matrix (unsorted or duplicate entries and empty columns allowed), the kernels used for A*x, A'*y and P*x (P stored as its upper triangle) return alpha*M*x + beta*y for the dense matrix M that the CSC data represents; P is treated as the full symmetric matrix; the special-cased values of alpha and beta change nothing.", "quantifier": "every CSC matrix, vectors and scalars alpha, beta", "why_tests_cant": "unbounded sizes and sparsity patterns", "anchors": ["algebra/_common/csc_math.c:csc_Axpy", "algebra/_common/csc_math.c:csc_Atxpy", "algebra/_common/csc_math.c:csc_Axpy_sym_triu", "algebra/builtin/matrix.c:OSQPMatrix_Axpy"]}
{"id": "C05", "title": "Sparse kernels stay inside their arrays", "statement": "On a well-formed CSC matrix and vectors of the matching lengths, the sparse kernels never read or write outside the arrays they are given.", "quantifier": "every well-formed CSC matrix and index", "why_tests_cant": "out-of-range accesses may go unnoticed in a test run; absence must be shown for all patterns", "anchors": ["algebra/_common/csc_math.c", "algebra/_common/csc_utils.c"]}
{"id": "C06", "title": "Row and column norms are the true infinity norms", "statement": "The column norms and row norms used by the equilibration are the largest absolute value of the entries in that column or row; for the symmetric P they are those of the full symmetric matrix.", "quantifier": "every CSC matrix", "why_tests_cant": "unbounded sizes and sparsity patterns", "anchors": ["algebra/_common/csc_math.c:csc_col_norm_inf", "algebra/_common/csc_math.c:csc_row_norm_inf", "algebra/_common/csc_math.c:csc_row_norm_inf_sym_triu"]}
{"id": "C07", "title": "Diagonal scaling of sparse matrices", "statement": "Left, right and scalar scaling of a CSC matrix multiply entry (i,j) by L_i, R_j and the scalar, and keep the sparsity structure.", "quantifier": "every CSC matrix and scaling vector", "why_tests_cant": "unbounded sizes and sparsity patterns", "anchors": ["algebra/_common/csc_math.c:csc_lmult_diag", "algebra/_common/csc_math.c:csc_rmult_diag", "algebra/_common/csc_math.c:csc_scale"]}
{"id": "C08", "title": "Row selection extracts exactly the selected rows", "statement": "The reduced constraint matrix built from a set of flagged rows has one row for every flagged row, in order, and the same entries as the original matrix in those rows.", "quantifier": "every CSC matrix and row flag vector", "why_tests_cant": "unbounded sizes and sparsity patterns", "anchors": ["algebra/_common/csc_utils.c:csc_submatrix_byrows", "src/polish.c:form_Ared"]}
{"id": "C09", "title": "Triplet to CSC conversion preserves the matrix", "statement": "Converting a triplet list to CSC (or CSR) gives a well-formed matrix in which every dense entry is the sum of the triplets at that position, and the returned map sends each triplet to the slot that holds it.", "quantifier": "every triplet list with in-range indices", "why_tests_cant": "all orders, duplicates and sizes", "anchors": ["algebra/_common/csc_utils.c:triplet_to_csc", "algebra/_common/csc_utils.c:triplet_to_csr", "algebra/_common/csc_utils.c:csc_cumsum"]}
{"id": "C10", "title": "Permuting a symmetric matrix", "statement": "For every permutation, the permuted KKT matrix C and map satisfy C = P K P' as symmetric matrices with only the upper triangle stored, the map is a bijection on stored entries, and the inverse permutation routine returns the inverse.", "quantifier": "every upper triangular CSC matrix and permutation", "why_tests_cant": "all permutations and patterns", "anchors": ["algebra/_common/csc_utils.c:csc_symperm", "algebra/_common/csc_utils.c:csc_pinv", "algebra/_common/lin_sys/qdldl/qdldl_interface.c:permute_KKT"]}
{"id": "C11", "title": "The KKT matrix handed to the factorisation is the ADMM KKT matrix", "statement": "After setup the (unpermuted) matrix that is factorised is the upper triangle of [P + sigma*I, A'; A, -diag(1/rho)], for every sparsity pattern of P and A including missing diagonal entries.", "quantifier": "every problem, sigma and rho vector", "why_tests_cant": "unbounded sizes and sparsity patterns", "anchors": ["algebra/_common/kkt.c:form_KKT", "algebra/_common/kkt.c:_kkt_assemble_csc"]}
{"id": "C12", "title": "Incremental KKT updates equal a fresh assembly", "statement": "After any sequence of matrix value updates (full or by index) and rho updates, the stored permuted KKT matrix equals the one that assembling from scratch with the current P, A, rho would give.", "quantifier": "every history of value and rho updates", "why_tests_cant": "histories of any length; index maps must be right for every entry", "anchors": ["algebra/_common/kkt.c:update_KKT_P", "algebra/_common/kkt.c:update_KKT_A", "algebra/_common/kkt.c:update_KKT_param2", "algebra/_common/lin_sys/qdldl/qdldl_interface.c:update_linsys_solver_matrices_qdldl", "algebra/_common/lin_sys/qdldl/qdldl_interface.c:update_linsys_solver_rho_vec_qdldl"]}
{"id": "C13", "title": "The linear system step returns the exact ADMM half step", "statement": "If the factorisation solves the permuted system exactly, then the linear system step of an ADMM iteration returns x~ with (P + sigma*I + A'*diag(rho)*A) x~ = sigma*x - q + A'(rho*z - y) and z~ = A*x~, whatever fill-reducing permutation was chosen.", "quantifier": "every problem, permutation and iterate", "why_tests_cant": "all permutations and sizes", "anchors": ["algebra/_common/lin_sys/qdldl/qdldl_interface.c:solve_linsys_qdldl", "algebra/_common/lin_sys/qdldl/qdldl_interface.c:LDLSolve", "src/auxil.c:compute_rhs", "src/auxil.c:update_xz_tilde"]}
{"id": "C14", "title": "Scaling factors are positive and bounded per pass", "statement": "After scaling, every entry of D and E and the cost factor c is positive and the stored inverses are their reciprocals; each pass multiplies an entry of D or E by a factor in [1e-2, 1e2].", "quantifier": "every problem and number of scaling passes", "why_tests_cant": "holds for all data including zero rows/columns", "anchors": ["src/scaling.c:scale_data", "src/scaling.c:limit_scaling_vector"]}
{"id": "C15", "title": "Scaled data are the user's problem in new units", "statement": "After setup with scaling, the stored data are c*D*P*D, c*D*q, E*A*D, E*l, E*u for the user's P, q, A, l, u and the stored c, D, E.", "quantifier": "every problem and number of scaling passes", "why_tests_cant": "invariant over all passes and data", "anchors": ["src/scaling.c:scale_data"]}
{"id": "C16", "title": "Unscaling restores the user's data", "statement": "Undoing the scaling returns exactly (in exact arithmetic) the data that the user supplied.", "quantifier": "every problem", "why_tests_cant": "inverse law over all data", "anchors": ["src/scaling.c:unscale_data"]}
{"id": "C17", "title": "Solutions reported to the user are in the user's units", "statement": "A point feasible/optimal for the scaled problem maps, by the unscaling that osqp_get_solution applies, to a point feasible/optimal for the user's problem, and the reported objective and residuals (without scaled_termination) are those of the user's problem.", "quantifier": "every problem, scaling and iterate", "why_tests_cant": "algebraic identities over all data", "anchors": ["src/scaling.c:unscale_solution", "src/auxil.c:compute_prim_res", "src/auxil.c:compute_dual_res", "src/auxil.c:compute_obj_val_dual_gap"]}
{"id": "C18", "title": "osqp_update_data_vec replaces exactly the vectors given", "statement": "When osqp_update_data_vec succeeds, each of q, l, u that was passed becomes the user's new value and each that was not passed keeps its value; P, A and the iterates are unchanged and the status becomes unsolved.", "quantifier": "every solver state and every combination of NULL/non-NULL arguments", "why_tests_cant": "frame condition over all states", "anchors": ["src/osqp_api.c:osqp_update_data_vec"]}
{"id": "C19", "title": "A rejected osqp_update_data_vec changes no problem data", "statement": "If osqp_update_data_vec is rejected because some new lower bound exceeds the matching upper bound (new or stored) then q, l, u, the rho vector, the iterates and the status are unchanged; and it is rejected exactly in that case.", "quantifier": "every solver state and arguments", "why_tests_cant": "atomicity over all inputs", "anchors": ["src/osqp_api.c:osqp_update_data_vec"]}
{"id": "C20", "title": "A rejected update leaves every later observation unchanged", "statement": "A rejected osqp_update_data_vec does not change what osqp_get_solution returns afterwards.", "quantifier": "every solver state and arguments", "why_tests_cant": "needs a statement over all states; found false for infeasible statuses", "anchors": ["src/osqp_api.c:osqp_update_data_vec", "src/auxil.c:store_solution"]}
{"id": "C21", "title": "osqp_update_data_mat overwrites exactly the addressed entries", "statement": "When osqp_update_data_mat succeeds the user's P and A (undoing the scaling) have the new values at the addressed positions and the old values elsewhere, with the sparsity structure unchanged; with more indices than nonzeros it returns the documented code and changes nothing.", "quantifier": "every solver state, index list and values", "why_tests_cant": "all index lists, orders and repetitions", "anchors": ["src/osqp_api.c:osqp_update_data_mat", "algebra/_common/csc_math.c:csc_update_values"]}
{"id": "C22", "title": "Data updates compose: only the last value counts", "statement": "After any sequence of successful data updates, warm starts, settings updates and solves, the stored problem is the scaled form of the problem obtained by applying the updates to the user's original data.", "quantifier": "every finite history of API calls", "why_tests_cant": "histories of unbounded length", "anchors": ["src/osqp_api.c:osqp_update_data_vec", "src/osqp_api.c:osqp_update_data_mat", "src/osqp_api.c:osqp_solve", "src/osqp_api.c:osqp_warm_start"]}
{"id": "C23", "title": "Bounds stay ordered", "statement": "In every reachable solver state each stored lower bound is at most the matching upper bound.", "quantifier": "every finite history of API calls", "why_tests_cant": "histories of unbounded length", "anchors": ["src/osqp_api.c:osqp_setup", "src/osqp_api.c:osqp_update_data_vec", "src/osqp_api.c:osqp_update_data_mat"]}
{"id": "C24", "title": "Dimensions are constant", "statement": "In every reachable solver state all vectors have the lengths n and m fixed at setup and the matrices keep their shapes and patterns, so no vector kernel leaves its arrays.", "quantifier": "every finite history of API calls", "why_tests_cant": "histories of unbounded length", "anchors": ["src/osqp_api.c", "src/auxil.c"]}
{"id": "C25", "title": "Warm start round trip", "statement": "After osqp_warm_start(x,y), if the status is one for which a solution is reported, osqp_get_solution returns x and y, and the stored z is A*x in scaled units; arguments that are NULL leave their iterate unchanged (except that z follows x).", "quantifier": "every solver state, x and y", "why_tests_cant": "inverse law over all scalings", "anchors": ["src/osqp_api.c:osqp_warm_start", "src/osqp_api.c:osqp_get_solution"]}
{"id": "C26", "title": "rho stays in its safe range", "statement": "In every reachable state the rho setting lies in [1e-6, 1e6], whatever value was requested or estimated, including NaN or infinite residual quotients.", "quantifier": "every history and every floating-point value", "why_tests_cant": "requires all values including NaN, infinities", "anchors": ["src/auxil.c:set_rho_vec", "src/auxil.c:compute_rho_estimate", "src/osqp_api.c:osqp_update_rho"]}
{"id": "C27", "title": "Per-constraint rho follows the constraint type", "statement": "With vector rho, after setup, after a successful bounds update and after osqp_update_rho, constraint i has rho_min if unbounded on both sides, 1e3*rho if an equality within tolerance, rho otherwise, and the stored inverse is its reciprocal.", "quantifier": "every state and bounds", "why_tests_cant": "all classifications of all constraints", "anchors": ["src/auxil.c:set_rho_vec", "src/auxil.c:update_rho_vec", "algebra/builtin/vector.c:OSQPVectorf_ew_bounds_type"]}
{"id": "C28", "title": "The factorised system always matches the current rho and data", "statement": "In every state reachable by successful calls, the factorised KKT matrix is the one for the current data and the current rho vector, and the rho inverse used by the iteration is the one in the factorised matrix.", "quantifier": "every history of successful calls", "why_tests_cant": "histories of unbounded length; found false for scalar rho outside the range and after osqp_update_data_mat with scaling", "anchors": ["src/osqp_api.c:osqp_setup", "src/osqp_api.c:osqp_update_rho", "src/osqp_api.c:osqp_update_data_mat", "algebra/_common/lin_sys/qdldl/qdldl_interface.c"]}
{"id": "C29", "title": "Every iterate's z is within the bounds", "statement": "After every ADMM iteration each component of z lies between the stored bounds, also in floating-point arithmetic and whatever the linear solver returned (NaN included, bounds not NaN).", "quantifier": "every iterate and every linear solver answer", "why_tests_cant": "must hold for every floating-point value", "anchors": ["src/auxil.c:update_z", "algebra/builtin/vector.c:OSQPVectorf_ew_bound_vec"]}
{"id": "C30", "title": "Every iterate satisfies complementarity exactly", "statement": "In exact arithmetic, after every ADMM iteration each multiplier is in the normal cone of the bounds at z: positive only where z is at its upper bound, negative only where z is at its lower bound.", "quantifier": "every iterate and every linear solver answer", "why_tests_cant": "for all states", "anchors": ["src/auxil.c:update_y", "src/auxil.c:update_z"]}
{"id": "C31", "title": "Fixed points of the iteration are exactly the KKT points", "statement": "If the linear solver is exact, a point is left unchanged by an ADMM iteration if and only if it satisfies the optimality conditions of the scaled problem; with P positive semidefinite such a point is a global minimiser.", "quantifier": "every problem and point", "why_tests_cant": "universal statement over all problems", "anchors": ["src/auxil.c:update_xz_tilde", "src/auxil.c:update_x", "src/auxil.c:update_z", "src/auxil.c:update_y"]}
{"id": "C32", "title": "Objective, dual objective and duality gap", "statement": "The reported objective is 1/2 x'Px + q'x, the dual objective is -1/2 x'Px - sup over the bounds of y'z (infinite bounds skipped), and the reported gap is their difference, in the user's units.", "quantifier": "every state", "why_tests_cant": "algebraic identities over all data", "anchors": ["src/auxil.c:compute_obj_val_dual_gap"]}
{"id": "C33", "title": "Status solved implies the tolerances hold", "statement": "When the termination test sets the status to solved, the primal residual, the dual residual and (if enabled) the duality gap satisfy eps_abs + eps_rel * (documented norms) for the problem in the user's units (or scaled units with scaled_termination).", "quantifier": "every state, problem and tolerance", "why_tests_cant": "universally quantified implication", "anchors": ["src/auxil.c:check_termination", "src/auxil.c:compute_prim_tol", "src/auxil.c:compute_dual_tol", "src/auxil.c:compute_duality_gap_tol"]}
{"id": "C34", "title": "Primal infeasible implies a certificate", "statement": "When the status becomes primal infeasible, the returned certificate y satisfies the documented inequalities, hence no point of 1-norm up to the quotient of the violation by the tolerance is feasible; with zero residual the problem has no feasible point at all.", "quantifier": "every state and problem", "why_tests_cant": "universal statement over all points x", "anchors": ["src/auxil.c:is_primal_infeasible", "src/auxil.c:check_termination", "src/auxil.c:store_solution"]}
{"id": "C35", "title": "Dual infeasible implies an unbounded direction", "statement": "When the status becomes dual infeasible, the certificate x satisfies the documented inequalities: q'x < 0, P*x small, A*x in the recession cone within tolerance; with zero tolerance residuals moving along x keeps feasibility and decreases the objective without bound.", "quantifier": "every state and problem", "why_tests_cant": "universal statement over all step lengths", "anchors": ["src/auxil.c:is_dual_infeasible", "src/auxil.c:check_termination", "src/auxil.c:store_solution"]}
{"id": "C36", "title": "Non-convex status", "statement": "The termination test reports non-convexity exactly when a residual exceeds the solver's infinity, and then reports the documented objective value.", "quantifier": "every state", "why_tests_cant": "for every value of the residuals", "anchors": ["src/auxil.c:check_termination"]}
{"id": "C37", "title": "Inaccurate statuses mean ten times the tolerance", "statement": "Statuses solved/primal infeasible/dual infeasible inaccurate are only set by the final relaxed test and imply the corresponding conditions with every tolerance multiplied by 10.", "quantifier": "every run", "why_tests_cant": "for every state", "anchors": ["src/auxil.c:check_termination", "src/osqp_api.c:osqp_solve"]}
{"id": "C38", "title": "The status describes this solve", "statement": "After osqp_solve returns 0, the status is the outcome of this call: solved only if the tolerances were met by the returned iterate, maximum iterations only if they were not.", "quantifier": "every history of calls, including repeated solves", "why_tests_cant": "depends on the history of earlier calls; found false for a re-solve without data update and for the time limit", "anchors": ["src/osqp_api.c:osqp_solve", "src/auxil.c:reset_info"]}
{"id": "C39", "title": "Iteration limit", "statement": "osqp_solve performs at most max_iter ADMM iterations and the reported iteration count never exceeds max_iter; when status is maximum iterations reached exactly max_iter iterations were performed.", "quantifier": "every run, schedule of interrupts and clock", "why_tests_cant": "for every schedule", "anchors": ["src/osqp_api.c:osqp_solve"]}
{"id": "C40", "title": "Termination is only tested on schedule", "statement": "With check_termination = k > 0 the loop can stop by the termination test only at iterations divisible by k; with k = 0 only after max_iter iterations, an interrupt or the time limit.", "quantifier": "every run", "why_tests_cant": "for every schedule", "anchors": ["src/osqp_api.c:osqp_solve"]}
{"id": "C41", "title": "Reported residuals belong to the returned iterate", "statement": "When osqp_solve returns with a solution, the reported residuals and objective are those of the returned x, y.", "quantifier": "every run, clock and schedule", "why_tests_cant": "depends on the clock; found false when the time limit strikes", "anchors": ["src/osqp_api.c:osqp_solve", "src/auxil.c:update_info"]}
{"id": "C42", "title": "Interrupt handling is balanced", "statement": "Every call of osqp_solve that installs the interrupt handler restores the previous handler before returning, on every exit path; an interrupted call returns nonzero with status interrupted.", "quantifier": "every schedule of interrupts and failures", "why_tests_cant": "all exit paths under all schedules", "anchors": ["src/osqp_api.c:osqp_solve", "src/interrupt_unix.c"]}
{"id": "C43", "title": "Exactly the right outputs are filled for each status", "statement": "For solution statuses x,y are the unscaled iterate and the certificates are filled with the not-available marker; for infeasibility statuses x,y hold the marker and exactly the matching certificate is set; otherwise x, y hold the marker.", "quantifier": "every state and status", "why_tests_cant": "all states", "anchors": ["src/auxil.c:store_solution", "src/auxil.c:has_solution"]}
{"id": "C44", "title": "Certificates are normalised", "statement": "A reported infeasibility certificate has infinity norm one, and fetching the solution again returns the same values.", "quantifier": "every state with an infeasible status", "why_tests_cant": "all states", "anchors": ["src/auxil.c:store_solution", "src/osqp_api.c:osqp_get_solution"]}
{"id": "C45", "title": "Not-available marker is NaN", "statement": "Outputs that are not available for a status are filled with a value that is not a number.", "quantifier": "every state", "why_tests_cant": "a test comparing with the library's own macro cannot see that the macro is a finite number; found false", "anchors": ["include/public/osqp_api_constants.h:OSQP_NAN", "src/auxil.c:store_solution"]}
{"id": "C46", "title": "Polishing is only accepted when it improves", "statement": "A polished solution replaces the iterate only if a residual decreased and the other did not get worse than the accepted threshold; otherwise x, y, z, the objective and the residuals are unchanged.", "quantifier": "every state and every answer of the polishing linear solver", "why_tests_cant": "all answers; found false: one branch never looks at the polished residual", "anchors": ["src/polish.c:polish"]}
{"id": "C47", "title": "Polished dual variables are complementary", "statement": "A polished solution comes from Newton steps for the problem restricted to the constraints active at the last iterate, held at their bounds; its z lies within the bounds and its multipliers are positive only at upper and negative only at lower bounds.", "quantifier": "every state", "why_tests_cant": "all active sets", "anchors": ["src/polish.c:get_ypol_from_yred", "src/polish.c:form_Ared", "algebra/builtin/vector.c:OSQPVectorf_ew_bound_vec"]}
{"id": "C48", "title": "NULL handling", "statement": "Every public function called with a NULL solver (or one whose setup failed early) returns an error code without touching memory.", "quantifier": "every public function and every partially built solver", "why_tests_cant": "found false for osqp_update_settings, osqp_cold_start and osqp_solve after a failed factorisation", "anchors": ["src/osqp_api.c"]}
{"id": "C49", "title": "Error messages", "statement": "osqp_error_message returns a message for every integer error code.", "quantifier": "every integer", "why_tests_cant": "must hold for all integers; found false at 0 and below", "anchors": ["src/osqp_api.c:osqp_error_message", "src/error.c"]}
{"id": "C50", "title": "Cleanup after any allocation failure frees every block exactly once", "statement": "For every point at which an allocation in osqp_setup fails, osqp_setup returns an error and osqp_cleanup on what it left behind frees every block that was allocated exactly once.", "quantifier": "every allocation failure point and settings", "why_tests_cant": "crash points: a test cannot enumerate them for all settings; found false where a view is made before the check", "anchors": ["src/osqp_api.c:osqp_setup", "src/osqp_api.c:osqp_cleanup"]}
{"id": "C51", "title": "Time accounting", "statement": "The reported run time is setup (first solve) or update time plus solve plus polish time of this call; update time accumulates over the updates since the last solve.", "quantifier": "every history of calls and clock", "why_tests_cant": "histories of unbounded length; found false: stale polish time", "anchors": ["src/osqp_api.c:osqp_solve", "src/osqp_api.c:osqp_update_data_vec"]}
{"id": "C52", "title": "Adaptive rho interval", "statement": "With time based adaptation the interval chosen is a positive multiple of the check interval and at least it.", "quantifier": "every clock", "why_tests_cant": "depends on the clock; found false (minimum instead of maximum)", "anchors": ["src/osqp_api.c:osqp_solve"]}
{"id": "C53", "title": "rho adaptation only on schedule and only on large change", "statement": "osqp_solve changes rho only at iterations allowed by the adaptation setting, and only if the estimate differs from the current value by more than the tolerance factor; the new value is the estimate.", "quantifier": "every run", "why_tests_cant": "for every schedule", "anchors": ["src/auxil.c:adapt_rho", "src/osqp_api.c:osqp_solve"]}
{"id": "C54", "title": "osqp_update_rho", "statement": "osqp_update_rho rejects nonpositive values changing nothing, and otherwise sets rho to the value clamped to the safe range, keeping problem data and iterates.", "quantifier": "every state and value", "why_tests_cant": "all values", "anchors": ["src/osqp_api.c:osqp_update_rho"]}
{"id": "C55", "title": "Cold start", "statement": "osqp_cold_start sets x, y, z to zero and changes nothing else.", "quantifier": "every state", "why_tests_cant": "frame condition", "anchors": ["src/osqp_api.c:osqp_cold_start"]}
{"id": "C56", "title": "Diagonal and zero matrix constructors", "statement": "OSQPCscMatrix_identity, _diag_scalar, _diag_vec and _zeros return well-formed CSC matrices that are zero except for the k-th diagonal holding the given values.", "quantifier": "every size, offset and values", "why_tests_cant": "all sizes and offsets", "anchors": ["src/osqp_api.c:OSQPCscMatrix_diag_scalar", "src/osqp_api.c:OSQPCscMatrix_diag_vec", "src/osqp_api.c:OSQPCscMatrix_zeros", "src/osqp_api.c:OSQPCscMatrix_identity"]}
{"id": "C57", "title": "Symmetric expansion and stacking", "statement": "Expanding an upper triangular matrix gives the full symmetric matrix, and vertical stacking gives the stacked matrix.", "quantifier": "every matrix", "why_tests_cant": "unbounded sizes and patterns", "anchors": ["algebra/_common/csc_utils.c:triu_to_csc", "algebra/_common/csc_utils.c:vstack"]}
{"id": "C58", "title": "Reduced KKT operator of the indirect solvers", "statement": "The operator, right-hand side and preconditioner used by the indirect solvers are P + sigma*I + A'*diag(rho)*A, the matching eliminated right-hand side, and the diagonal of that matrix; a solve through the conjugate-gradient interface returns an x together with A*x (rho*(A*x - b2) when polishing), and when its own stopping test ends it, x solves the KKT system of the step up to the tolerance in use, which never grows during a solve and never falls below 1e-7.", "quantifier": "every problem and vector, every behaviour of the library's iteration", "why_tests_cant": "unbounded sizes and patterns", "anchors": ["algebra/_common/reduced_kkt.c", "algebra/mkl/lin_sys/indirect/mkl-cg_interface.c"]}
{"id": "C59", "title": "Scaled infinite bounds stay infinite", "statement": "A bound that the user gives as infinite (at least OSQP_INFTY in absolute value) is treated as infinite after scaling.", "quantifier": "every problem and number of scaling passes", "why_tests_cant": "depends on accumulated scaling; found false for several passes", "anchors": ["src/scaling.c:scale_data", "src/auxil.c:set_rho_vec"]}
{"id": "C60", "title": "Constants written by code generation", "statement": "The decimal text written by code generation for a floating-point value reads back as the same value.", "quantifier": "every value", "why_tests_cant": "must hold for all values; found false for small magnitudes", "anchors": ["src/codegen.c:write_vecf"]}
{"id": "C61", "title": "No call leaves its arrays", "statement": "For arguments of the advertised sizes, neither osqp_setup nor any later call in any history reads or writes outside an array or through NULL, whatever the numbers are (NaN and infinities included), and every loop ends.", "quantifier": "every history of calls, every number system, clock and interrupt schedule", "why_tests_cant": "memory safety over unbounded histories", "anchors": ["src/osqp_api.c"]}
{"id": "C62", "title": "Status text matches the status value", "statement": "After every history of calls the status text in the info structure is the text belonging to the status value.", "quantifier": "every history of calls", "why_tests_cant": "histories of unbounded length", "anchors": ["src/auxil.c:update_status", "src/osqp_api.c"]}
{"id": "C63", "title": "Convex problems are never refused", "statement": "In exact arithmetic osqp_setup and the update calls never fail on a convex problem with valid data and settings.", "quantifier": "every convex problem, scaling and settings", "why_tests_cant": "a statement about all positive semidefinite matrices", "anchors": ["src/osqp_api.c:osqp_setup", "algebra/_common/lin_sys/qdldl/qdldl_interface.c"]}
{"id": "C64", "title": "Reading the solution does not change the solver", "statement": "osqp_get_solution changes nothing but the user's structure: the iterates used by the next solve are kept.", "quantifier": "every state", "why_tests_cant": "histories; found false when the status is infeasible or non-convex", "anchors": ["src/osqp_api.c:osqp_get_solution", "src/auxil.c:store_solution"]}
{"id": "C65", "title": "A point reported as solved is a minimiser of a convex problem", "statement": "If osqp_setup accepts a problem and osqp_solve reports it solved to high accuracy, the problem is convex and the point is (approximately) a minimiser; a problem whose P is not positive semidefinite is rejected or reported as non-convex.", "quantifier": "every problem data accepted by osqp_setup", "why_tests_cant": "must hold for every matrix P; found false because only P + sigma*I + A'*rho*A is tested", "anchors": ["src/osqp_api.c:osqp_setup", "algebra/_common/lin_sys/qdldl/qdldl_interface.c:LDL_factor"]}
{"id": "C66", "title": "Iterates never move away from the solutions", "statement": "On a convex problem, between two changes of rho, each iteration does not increase the weighted distance of (x, z + y/rho) to any primal-dual solution, and decreases it by a fixed multiple of the step it takes.", "quantifier": "every convex problem, every solution, every iterate, every relaxation in (0, 2)", "why_tests_cant": "a statement about every problem and every iterate; convergence of the method rests on it", "anchors": ["src/osqp_api.c:osqp_solve", "src/auxil.c:update_x", "src/auxil.c:update_z", "src/auxil.c:update_y"]}
{"id": "C67", "title": "Solvable problems are solved", "statement": "For every convex problem with a primal-dual solution and fixed rho, in exact arithmetic, with a positive absolute tolerance and periodic tests on the user's problem, there is a number of iterations N such that a solve with max_iter at least N that is neither interrupted nor out of time ends with a verdict and not at the iteration limit. If the duality gap is tested, the sum of the sizes of the bounds must be below 1e15 times the tolerance, because the test ignores multipliers smaller than 1e-15.", "quantifier": "every convex problem with a solution, all settings in range", "why_tests_cant": "liveness over unboundedly many iterations", "anchors": ["src/osqp_api.c:osqp_solve", "src/auxil.c:check_termination"]}
{"id": "C68", "title": "A solved point is nearly feasible and nearly optimal", "statement": "When osqp_solve reports a convex problem solved, the returned x violates no constraint by more than the primal tolerance, and its objective exceeds that of any feasible point by at most an explicit amount that goes to zero with the tolerances.", "quantifier": "every convex problem, every feasible competitor, every call history", "why_tests_cant": "quantifies over all feasible points and all problems; a test compares with one reference solution", "anchors": ["src/osqp_api.c:osqp_solve", "src/auxil.c:check_termination", "src/auxil.c:update_info"]}
{"id": "C69", "title": "A scheduled termination test never misses an outcome", "statement": "If at an iteration where a test is due the iterate meets the tolerances, or is a certificate of primal or dual infeasibility within the tolerances, or has a residual above 1e30, the solve ends at that iteration with the matching status; in particular a solve warm started at an optimum stops at its first test.", "quantifier": "every problem, every iteration, every call history", "why_tests_cant": "completeness of the test over all iterates; tests only see that some run stops", "anchors": ["src/osqp_api.c:osqp_solve", "src/auxil.c:check_termination", "src/auxil.c:is_primal_infeasible", "src/auxil.c:is_dual_infeasible"]}
{"id": "C70", "title": "The generated solver starts as the solver", "statement": "After any history of calls osqp_codegen with accepted options writes a workspace file in which no name is defined twice, and the structure its static initialisers describe in the generated program has the solver's problem data, settings, scaling, rho vectors, factors and iterates.", "quantifier": "every history of calls, every accepted combination of options", "why_tests_cant": "quantifies over all histories and option combinations; tests compile a few generated programs; found false when profiling, printing or derivatives are enabled in the generated code", "anchors": ["src/codegen.c:write_workspace", "src/codegen.c:write_linsys", "src/osqp_api.c:osqp_codegen"]}
{"id": "C71", "title": "Solving and polishing any number of times gives back all memory", "statement": "After a successful osqp_setup, any number of calls of osqp_solve with or without polishing, whatever allocation requests are refused on the way, does nothing undefined and osqp_cleanup then frees every block exactly once.", "quantifier": "every sequence of solves, every refusal of an allocation request", "why_tests_cant": "quantifies over all sequences and failure points; found false where polishing returns early after it has made its linear system", "anchors": ["src/polish.c:polish", "src/polish.c:iterative_refinement", "src/polish.c:get_ypol_from_yred", "src/osqp_api.c:osqp_cleanup"]}
{"id": "C72", "title": "Gradients describe how the solution moves", "statement": "At an optimal solution where the optimality conditions are regular (nonzero equality multipliers, nonsingular Jacobian), with weights dx and dy that are zero where the multiplier is negative, osqp_adjoint_derivative_compute followed by osqp_adjoint_derivative_get_mat and osqp_adjoint_derivative_get_vec returns the gradients of sum dx_j x_j + sum dy_i y_i with respect to P, A, q, l and u: along every differentiable family of problems, the derivative of that sum is what the gradients predict, up to an explicit small multiple of the speed of the solution.", "quantifier": "every problem, scaling, call history, weights, matrix pattern and direction of change", "why_tests_cant": "a statement about derivatives along all directions for all problems; a test compares finite differences at one point", "anchors": ["src/derivative.c:adjoint_derivative_compute", "src/derivative.c:adjoint_derivative_get_mat", "src/derivative.c:adjoint_derivative_get_vec", "algebra/_common/lin_sys/qdldl/qdldl_interface.c:adjoint_derivative_linsys_solver_qdldl"]}
{"id": "C73", "title": "dy is the derivative with respect to the dual solution", "statement": "osqp_adjoint_derivative_compute takes in dy the derivative of the user's loss with respect to the dual solution y, whatever the sign of its entries.", "quantifier": "every problem and every dy", "why_tests_cant": "quantifies over all active sets; found false: entries of dy on constraints with a negative multiplier count with the opposite sign", "anchors": ["src/osqp_api.c:osqp_adjoint_derivative_compute", "src/derivative.c:adjoint_derivative_compute"]}
{"id": "C74", "title": "Derivative calls stay in bounds", "statement": "On any solver set up successfully, after any history of calls, the three derivative functions with arrays of the problem's size read and write only inside the solver's and the caller's arrays, and return 0; without a solver they return an error and write nothing.", "quantifier": "every history of calls, every array content", "why_tests_cant": "memory safety over all histories and active sets; found false when no solution structure was allocated", "anchors": ["src/osqp_api.c:osqp_adjoint_derivative_compute", "src/osqp_api.c:osqp_adjoint_derivative_get_mat", "src/osqp_api.c:osqp_adjoint_derivative_get_vec"]}
{"id": "C75", "title": "A derivative call that returns 0 has computed the gradient", "statement": "If osqp_adjoint_derivative_compute returns 0 then the gradients read afterwards are numbers and are the gradients.", "quantifier": "every solved problem, every failure of an inner step", "why_tests_cant": "quantifies over all failure points; found false: the status of the inner linear solve is ignored, and equality constraints with a zero multiplier give NaN", "anchors": ["src/derivative.c:adjoint_derivative_compute", "algebra/_common/lin_sys/qdldl/qdldl_interface.c:adjoint_derivative_linsys_solver_qdldl"]}
{"id": "C76", "title": "Derivative calls survive running out of memory", "statement": "After a successful osqp_setup, any sequence of osqp_solve and derivative calls, whatever allocation requests are refused on the way, does nothing undefined and gives back all memory, and a derivative call refused memory it needs returns an error.", "quantifier": "every sequence of calls, every branch, every refusal of an allocation request", "why_tests_cant": "quantifies over all sequences and failure points; found false: none of the requests made in derivative.c is checked, and the failure of the linear system, which checks all of its own, is ignored", "anchors": ["src/derivative.c:adjoint_derivative_compute", "src/derivative.c:adjoint_derivative_get_mat", "src/derivative.c:adjoint_derivative_get_vec", "algebra/_common/lin_sys/qdldl/qdldl_interface.c:adjoint_derivative_qdldl", "src/osqp_api.c:osqp_setup", "src/osqp_api.c:osqp_cleanup"]}
{"id": "C77", "title": "osqp_update_rho accepts only what osqp_setup accepts", "statement": "If osqp_update_rho returns 0, osqp_setup with the same data and the new rho is not refused as non-convex; the linear systems solved afterwards are solved exactly.", "quantifier": "every session and every rho", "why_tests_cant": "quantifies over all matrices and all rho; found false: the number of positive pivots is checked by osqp_setup and osqp_update_data_mat but not by osqp_update_rho", "anchors": ["src/osqp_api.c:osqp_update_rho", "algebra/_common/lin_sys/qdldl/qdldl_interface.c:update_linsys_solver_rho_vec_qdldl"]}
{"id": "C78", "title": "The verdict is a comparison of the numbers the machine computed", "statement": "In binary64 as in any arithmetic, osqp_solve on a fresh status reports solved only for an iterate whose computed residuals and duality gap pass the comparisons with the computed tolerances, solved inaccurate only for one that passes them with tolerances ten times as large and fails the strict ones, maximum iterations reached only for one that fails both, non-convex only for a computed residual above 1e30, and an infeasibility status only with a certificate that passed the computed test; that iterate is the one returned, and the residuals, gap and objectives reported are the numbers compared; no scheduled test misses such an iterate.", "quantifier": "every number system, every input including NaN and infinities, every history of calls", "why_tests_cant": "a relation between every output bit of the report and every rounding on the way, over all inputs and histories; a test sees one run", "anchors": ["src/osqp_api.c:osqp_solve", "src/auxil.c:check_termination", "src/auxil.c:update_info", "src/auxil.c:compute_prim_tol", "src/auxil.c:compute_dual_tol", "src/auxil.c:store_solution", "src/auxil.c:is_primal_infeasible", "src/auxil.c:is_dual_infeasible"]}
{"id": "C79", "title": "A session can be repeated", "statement": "The same osqp_setup and the same calls with the same arguments, on two machines that compute alike but whose clocks differ, give after every call the same return code, status, solution, settings, residuals, objectives and counts, provided no solve is interrupted or out of time and the interval at which rho is adapted is not chosen by the clock. Where a time limit is hit or the clock chooses the interval, results differ.", "quantifier": "every problem, every sequence of calls, every pair of clocks, every number system", "why_tests_cant": "a relation between two executions over all sessions and clock readings; a test repeats one session on one machine", "anchors": ["src/osqp_api.c:osqp_setup", "src/osqp_api.c:osqp_solve", "src/auxil.c:compute_rho_estimate", "src/auxil.c:update_info"]}
{"id": "C80", "title": "A reused solver solves like a fresh one", "statement": "A solver with any history that is given all data of a new problem with the same sparsity pattern, a rho and a cold start solves it like a solver freshly set up with it: same return code, status, solution, certificates, residuals, objectives, iterations and number of changes of rho.", "quantifier": "every history of calls, every pair of problems with one pattern, every number system", "why_tests_cant": "a relation between two solvers over all histories; found false with scaling, when rho follows the KKT error, and for the integral of the duality gap and the status of polishing", "anchors": ["src/osqp_api.c:osqp_update_data_mat", "src/osqp_api.c:osqp_update_data_vec", "src/osqp_api.c:osqp_update_rho", "src/osqp_api.c:osqp_cold_start", "src/osqp_api.c:osqp_solve", "src/auxil.c:reset_info"]}
{"id": "C81", "title": "Every call other than solve stores and returns exactly the stated numbers", "statement": "On any solver obtained by a successful osqp_setup and any calls: osqp_warm_start stores the first entries of the arrays given, multiplied by the scaling, and z = A x; osqp_cold_start stores zeros; osqp_get_solution writes the iterate in the user's units and OSQP_NAN for the certificates, or OSQP_NAN for the point and the normalised certificate, and only the first n or m cells; osqp_update_data_vec stores the vectors given times the scaling or refuses when a lower bound compares greater than its upper bound; osqp_update_data_mat replaces exactly the entries named (a scaled solver replaces them in the problem taken back to the user's units and then holds the scaled problem and scaling osqp_setup computes for the result); osqp_update_rho stores rho cut to its range or refuses; osqp_update_settings replaces every field but the documented exceptions (and device, linsys_solver, allocate_solution) or refuses. Nothing else the user can see changes. All this number for number in the arithmetic of the machine. Reading a solution twice gives the same arrays; a certificate read again and a warm start read back may differ in the last bit.", "quantifier": "every problem, every history of calls, every argument of the right size, every number system (binary64, NaN and infinities included)", "why_tests_cant": "tests compare with a tolerance and on a handful of values; the statement is equality of the stored numbers for all histories and arguments", "anchors": ["src/osqp_api.c:osqp_warm_start", "src/osqp_api.c:osqp_cold_start", "src/osqp_api.c:osqp_get_solution", "src/osqp_api.c:osqp_update_data_vec", "src/osqp_api.c:osqp_update_data_mat", "src/osqp_api.c:osqp_update_rho", "src/osqp_api.c:osqp_update_settings", "src/auxil.c:store_solution"]}
{"id": "C82", "title": "The past matters to a solve only through what is stored", "statement": "Two histories of one solver (any calls, but no matrix update of a scaled solver) that end with the same stored problem, the same settings, the same status and the same number of changes of rho, with warm starting switched off or with the same iterate, lead the next osqp_solve to the same return code, status, solution, certificates, residuals, objectives and counts, unless rho follows the KKT error, is a single number given outside its range, or a time limit or interrupt strikes. So changing q, l and u, solving and changing them back leaves no trace. Solving twice in a row without an update between can give a different report, because the second solve starts from the status of the first.", "quantifier": "every problem, every pair of histories of calls, every number system", "why_tests_cant": "a relation between two executions over all pairs of histories; tests compare one pair with a tolerance", "anchors": ["src/osqp_api.c:osqp_solve", "src/osqp_api.c:osqp_cold_start", "src/osqp_api.c:osqp_update_data_vec", "src/auxil.c:check_termination", "src/auxil.c:cold_start"]}
{"id": "C83", "title": "The relative KKT error reported belongs to the point reported", "statement": "After an osqp_solve that reached a verdict, info->rel_kkt_error is the largest of the primal residual, the dual residual and the duality gap reported beside it.", "quantifier": "every problem, every history of calls, every number system", "why_tests_cant": "a relation between reported numbers over all histories and outcomes of polishing; found false after a rejected polishing, where the error is that of the point not returned, for a negative gap, whose magnitude is not counted, and at a time limit, where the gap is replaced and the error is not", "anchors": ["src/auxil.c:update_info", "src/polish.c:polish", "src/osqp_api.c:osqp_solve"]}
{"id": "C84", "title": "The rho estimate reported balances the residuals of the last iterate", "statement": "After an osqp_solve that reached a verdict on a problem with constraints, info->rho_estimate is the rho in use times the square root of the quotient of the relative primal and dual residuals of the last iterate (before polishing), unless the time limit cut the solve short; always, NaN and infinite residuals included, it is 1e-6, 1e6 or a number between them.", "quantifier": "every problem, every history of calls, every number system", "why_tests_cant": "an equality between a reported number and the last iterate over all inputs and histories, NaN included; tests do not look at the estimate", "anchors": ["src/auxil.c:compute_rho_estimate", "src/auxil.c:update_info", "src/osqp_api.c:osqp_solve"]}
