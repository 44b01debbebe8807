{
 "claims": [
  {
   "property": "C01",
   "status": "proved",
   "theorems": [
    "C01_setup_codes",
    "C01_nan_data_refuted"
   ],
   "note": "Exact exit code for every number system. With NaN data the comparisons are all false and the data pass: C01_nan_data_refuted gives a run ending in 'solved' with a NaN solution."
  },
  {
   "property": "C02",
   "status": "proved",
   "theorems": [
    "C02_setup_settings",
    "C02_nan_setting_refuted",
    "C02_defaults"
   ],
   "note": "Exact arithmetic: exactly the documented ranges, and the defaults are accepted. In binary64 a NaN passes (C02_nan_setting_refuted)."
  },
  {
   "property": "C03",
   "status": "proved",
   "theorems": [
    "C03_update_settings"
   ],
   "note": ""
  },
  {
   "property": "C04",
   "status": "proved",
   "theorems": [
    "C04_matvec",
    "C04_transpose_matvec",
    "C04_symmetric_matvec"
   ],
   "note": ""
  },
  {
   "property": "C05",
   "status": "proved",
   "theorems": [
    "C05_products_in_bounds",
    "C05_norms_in_bounds",
    "C05_gram_diag_in_bounds",
    "C05_is_eq",
    "C05_copy",
    "C05_diagonal"
   ],
   "note": "For every scalar type, so NaN and infinities are covered."
  },
  {
   "property": "C06",
   "status": "proved",
   "theorems": [
    "C06_column_norms",
    "C06_row_norms",
    "C06_symmetric_row_norms"
   ],
   "note": ""
  },
  {
   "property": "C07",
   "status": "proved",
   "theorems": [
    "C07_left_scaling",
    "C07_right_scaling",
    "C07_scalar_scaling",
    "C07_scalings_total"
   ],
   "note": ""
  },
  {
   "property": "C08",
   "status": "proved",
   "theorems": [
    "C08_row_selection",
    "C08_row_selection_dense"
   ],
   "note": ""
  },
  {
   "property": "C09",
   "status": "proved",
   "theorems": [
    "C09_triplet_to_csc",
    "C09_triplet_to_csc_dense",
    "C09_triplet_to_csr_refuted"
   ],
   "note": "CSC conversion proved for every scalar type. The CSR variant is refuted (it overruns its pointer array when rows > columns); no library function calls it."
  },
  {
   "property": "C10",
   "status": "proved",
   "theorems": [
    "C10_symmetric_permutation",
    "C10_symmetric_permutation_total",
    "C10_inverse_permutation"
   ],
   "note": ""
  },
  {
   "property": "C11",
   "status": "proved",
   "theorems": [
    "C11_assembled",
    "C11_factorised",
    "C11_factorised_user"
   ],
   "note": ""
  },
  {
   "property": "C12",
   "status": "proved",
   "theorems": [
    "C12_incremental"
   ],
   "note": ""
  },
  {
   "property": "C13",
   "status": "proved",
   "theorems": [
    "C13_step",
    "C13_minimises"
   ],
   "note": ""
  },
  {
   "property": "C14",
   "status": "proved",
   "theorems": [
    "C14_scaling_factors",
    "C14_setup_factors"
   ],
   "note": ""
  },
  {
   "property": "C15",
   "status": "proved",
   "theorems": [
    "C15_setup_scales_the_data"
   ],
   "note": ""
  },
  {
   "property": "C16",
   "status": "proved",
   "theorems": [
    "C16_unscaling_restores"
   ],
   "note": ""
  },
  {
   "property": "C17",
   "status": "proved",
   "theorems": [
    "C17_units",
    "C17_returned"
   ],
   "note": ""
  },
  {
   "property": "C18",
   "status": "proved",
   "theorems": [
    "C18_update_data_vec"
   ],
   "note": ""
  },
  {
   "property": "C19",
   "status": "proved",
   "theorems": [
    "C19_rejected_update_data_vec"
   ],
   "note": ""
  },
  {
   "property": "C20",
   "status": "partial",
   "theorems": [
    "C20_rejected_update_refuted",
    "C20_rejected_update_reads"
   ],
   "note": "False as stated (C20_rejected_update_refuted). True for every status other than primal infeasible (C20_rejected_update_reads)."
  },
  {
   "property": "C21",
   "status": "proved",
   "theorems": [
    "C21_update_data_mat"
   ],
   "note": ""
  },
  {
   "property": "C22",
   "status": "proved",
   "theorems": [
    "C22_histories",
    "C22_stored_problem",
    "C22_only_calls_and_codes_matter",
    "C22_sessions_continue"
   ],
   "note": ""
  },
  {
   "property": "C23",
   "status": "proved",
   "theorems": [
    "C23_bounds_ordered"
   ],
   "note": ""
  },
  {
   "property": "C24",
   "status": "proved",
   "theorems": [
    "C24_sizes_constant"
   ],
   "note": ""
  },
  {
   "property": "C25",
   "status": "proved",
   "theorems": [
    "C25_warm_start_round_trip",
    "C25_warm_start"
   ],
   "note": ""
  },
  {
   "property": "C26",
   "status": "proved",
   "theorems": [
    "C26_rho_range"
   ],
   "note": ""
  },
  {
   "property": "C27",
   "status": "partial",
   "theorems": [
    "C27_setup",
    "C27_new_bounds",
    "C27_history",
    "C27_kind_refuted"
   ],
   "note": "Proved after setup, after any accepted change of bounds, and over histories without a matrix update under scaling. False after a matrix update with scaling (C27_kind_refuted)."
  },
  {
   "property": "C28",
   "status": "partial",
   "theorems": [
    "C28_inverse",
    "C28_scalar_rho_refuted"
   ],
   "note": "Factorised system always in sync (C11_factorised). z-update inverse in sync unless a scalar rho outside [1e-6,1e6] is given (C28_scalar_rho_refuted)."
  },
  {
   "property": "C29",
   "status": "proved",
   "theorems": [
    "C29_within"
   ],
   "note": ""
  },
  {
   "property": "C30",
   "status": "proved",
   "theorems": [
    "C30_iterate",
    "C30_returned"
   ],
   "note": ""
  },
  {
   "property": "C31",
   "status": "proved",
   "theorems": [
    "C31_fixed_kkt",
    "C31_kkt_fixed",
    "C31_solve"
   ],
   "note": ""
  },
  {
   "property": "C32",
   "status": "proved",
   "theorems": [
    "C32_objective"
   ],
   "note": ""
  },
  {
   "property": "C33",
   "status": "proved",
   "theorems": [
    "C33_solved",
    "C33_last",
    "C33_scaled"
   ],
   "note": "Exact arithmetic. With scaled_termination on, the tolerances are met by the scaled problem (C33_scaled)."
  },
  {
   "property": "C34",
   "status": "proved",
   "theorems": [
    "C34_certificate"
   ],
   "note": ""
  },
  {
   "property": "C35",
   "status": "proved",
   "theorems": [
    "C35_certificate"
   ],
   "note": ""
  },
  {
   "property": "C36",
   "status": "partial",
   "theorems": [
    "C36_huge",
    "C36_refuted"
   ],
   "note": "False as stated (C36_refuted: a convex LP with q = 1e31 is reported non-convex). C36_huge says what the status does mean; C63_solve that it is never caused by the factorisation of a convex problem."
  },
  {
   "property": "C37",
   "status": "proved",
   "theorems": [
    "C37_inaccurate"
   ],
   "note": "C37_inaccurate for solved; the 10x versions for the certificates are part of C34_certificate and C35_certificate."
  },
  {
   "property": "C38",
   "status": "partial",
   "theorems": [
    "C38_status_refuted",
    "C38_unsolved_until_solve"
   ],
   "note": "False as stated (C38_status_refuted). The status is unsolved from setup or a data update until the next solve (C38_unsolved_until_solve)."
  },
  {
   "property": "C39",
   "status": "proved",
   "theorems": [
    "C39_max_iter",
    "C39_count"
   ],
   "note": "Hypothesis: the status before the call is unsolved, i.e. setup or a data update came since the last solve; without it the property is false (C38_status_refuted)."
  },
  {
   "property": "C40",
   "status": "proved",
   "theorems": [
    "C40_goes_on"
   ],
   "note": ""
  },
  {
   "property": "C41",
   "status": "partial",
   "theorems": [
    "C41_polished",
    "C41_residual_refuted",
    "C41_info"
   ],
   "note": "Proved when the time limit did not strike (C41_info) and for polished solutions (C41_polished); false at the time limit (C41_residual_refuted)."
  },
  {
   "property": "C42",
   "status": "proved",
   "theorems": [
    "C42_handler_restored"
   ],
   "note": ""
  },
  {
   "property": "C43",
   "status": "proved",
   "theorems": [
    "C43_get_solution",
    "C43_get_solution_twice",
    "C43_flag"
   ],
   "note": ""
  },
  {
   "property": "C44",
   "status": "proved",
   "theorems": [
    "C44_primal_certificate",
    "C44_dual_certificate"
   ],
   "note": ""
  },
  {
   "property": "C45",
   "status": "proved",
   "theorems": [
    "C45_marker_refuted"
   ],
   "note": "The property is false; the refutation is what is proved."
  },
  {
   "property": "C46",
   "status": "partial",
   "theorems": [
    "C46_accepted",
    "C46_rejected",
    "C46_complete",
    "C46_polish_refuted"
   ],
   "note": "False as stated (C46_polish_refuted): the polished residual that was negligible before may be large. Proved instead: the exact rule (C46_accepted), what is kept otherwise and why (C46_rejected), and when polishing succeeds (C46_complete)."
  },
  {
   "property": "C47",
   "status": "proved",
   "theorems": [
    "C47_complementary",
    "C47_system"
   ],
   "note": "Exact arithmetic."
  },
  {
   "property": "C48",
   "status": "proved",
   "theorems": [
    "C48_null_checked",
    "C48_null_refuted"
   ],
   "note": "Proved for every function that checks; refuted for osqp_update_settings(NULL) and osqp_cold_start."
  },
  {
   "property": "C49",
   "status": "proved",
   "theorems": [
    "C49_positive_codes",
    "C49_unknown_codes",
    "C49_nonpositive_refuted"
   ],
   "note": "Proved for positive codes, refuted for 0 and below."
  },
  {
   "property": "C50",
   "status": "partial",
   "theorems": [
    "C50_balanced",
    "C50_any_failure",
    "C50_codes",
    "C50_success",
    "C50_refuted",
    "C50_refuted_silent",
    "C50_refuted_permutation"
   ],
   "note": "As stated false: C50_refuted (fifteen requests whose refusal makes osqp_setup follow a NULL pointer), C50_refuted_silent (thirteen whose refusal goes unnoticed), C50_refuted_permutation (AMD out of memory: the first solve reads an uninitialised permutation). True for every other request (C50_balanced), and for every allocator osqp_cleanup is balanced unless osqp_setup has crashed (C50_any_failure)."
  },
  {
   "property": "C51",
   "status": "partial",
   "theorems": [
    "C51_run_time_refuted",
    "C51_times",
    "C51_one_solve"
   ],
   "note": "False as stated (C51_run_time_refuted: the polish time can be that of an earlier solve). Everything else is proved for any sequence of calls, and all of it when the data changed since the last solve (C51_times)."
  },
  {
   "property": "C52",
   "status": "partial",
   "theorems": [
    "C52_interval_refuted",
    "C52_setup",
    "C52_interval"
   ],
   "note": "The interval chosen by setup is proved (C52_setup). The time-based choice is false as stated (C52_interval_refuted); what it does instead is C52_interval."
  },
  {
   "property": "C53",
   "status": "proved",
   "theorems": [
    "C53_next"
   ],
   "note": ""
  },
  {
   "property": "C54",
   "status": "proved",
   "theorems": [
    "C54_update_rho"
   ],
   "note": ""
  },
  {
   "property": "C55",
   "status": "proved",
   "theorems": [
    "C55_cold_start"
   ],
   "note": ""
  },
  {
   "property": "C56",
   "status": "proved",
   "theorems": [
    "C56_diag_scalar",
    "C56_identity",
    "C56_diag_vec",
    "C56_zeros"
   ],
   "note": ""
  },
  {
   "property": "C57",
   "status": "proved",
   "theorems": [
    "C57_symmetric_expansion",
    "C57_stacking",
    "C57_wrong_shape"
   ],
   "note": ""
  },
  {
   "property": "C58",
   "status": "proved",
   "theorems": [
    "C58_operator",
    "C58_rhs",
    "C58_diagonal",
    "C58_diagonal_positive",
    "C58_eliminates",
    "C58_solve",
    "C58_precond_init",
    "C58_precond_update_rho",
    "C58_precond_update_matrices",
    "C58_precond_update_settings"
   ],
   "note": "Exact arithmetic. The vector and matrix kernels are those of algebra/builtin (the MKL and CUDA builds have their own behind the same names). The library's dcg is an arbitrary oracle except for C58_solve's residual assumption; the diagonal theorem needs matrices without repeated entries."
  },
  {
   "property": "C59",
   "status": "partial",
   "theorems": [
    "C59_infinite_bound_refuted",
    "C59_infinite_bound",
    "C59_free_row"
   ],
   "note": "False as stated (C59_infinite_bound_refuted). True while the row factor exceeds 1e-4, in particular for at most one scaling pass (C59_infinite_bound, C59_free_row)."
  },
  {
   "property": "C60",
   "status": "partial",
   "theorems": [
    "C60_roundtrip",
    "C60_error",
    "C60_refuted"
   ],
   "note": "As stated false: C60_refuted (2^-70 is written as 0). True for 0, for |x| >= 2^-14 and for every number that is itself the reading of such a text (C60_roundtrip); otherwise the error is at most 10^-20 and occurs once (C60_error). Assumes that printf and the compiler round correctly."
  },
  {
   "property": "C61",
   "status": "proved",
   "theorems": [
    "C61_calls_in_bounds",
    "C61_setup_in_bounds"
   ],
   "note": ""
  },
  {
   "property": "C62",
   "status": "proved",
   "theorems": [
    "C62_status_text"
   ],
   "note": ""
  },
  {
   "property": "C63",
   "status": "proved",
   "theorems": [
    "C63_update",
    "C63_rho",
    "C63_convex_accepted",
    "C63_polish",
    "C63_solve"
   ],
   "note": ""
  },
  {
   "property": "C64",
   "status": "proved",
   "theorems": [
    "C64_read_refuted"
   ],
   "note": "False as stated (C64_read_refuted); C43_get_solution says exactly what is kept (everything, when a solution is reported)."
  },
  {
   "property": "C65",
   "status": "partial",
   "theorems": [
    "C65_setup_partial",
    "C65_update_partial",
    "C65_refused_partial",
    "C65_nonconvex_refuted"
   ],
   "note": "False as stated (C65_nonconvex_refuted): only P + sigma I + A' rho A is tested. Proved instead: what is accepted (by osqp_setup, or by osqp_update_data_mat after any calls) is convex up to exactly these penalty terms, in the user's units, and with scaling off negative curvature of sigma or more in the null space of A is always refused."
  },
  {
   "property": "C66",
   "status": "proved",
   "theorems": [
    "C66_fejer"
   ],
   "note": ""
  },
  {
   "property": "C67",
   "status": "proved",
   "theorems": [
    "C67_comes_to_verdict",
    "C67_finite_bounds",
    "C67_no_gap_test"
   ],
   "note": "Exact arithmetic, fixed penalty (adaptive_rho disabled), exact linear-system solves, eps_abs > 0, tests on the user's problem. C67_comes_to_verdict has a bound on the iterates' z as a premise when the gap is tested; C67_finite_bounds and C67_no_gap_test need none. The verdict may be any of the four, because with positive tolerances an iterate can also pass an infeasibility test. Adaptive penalties are not covered."
  },
  {
   "property": "C68",
   "status": "proved",
   "theorems": [
    "C68_quality"
   ],
   "note": ""
  },
  {
   "property": "C69",
   "status": "proved",
   "theorems": [
    "C69_solved",
    "C69_huge",
    "C69_primal",
    "C69_dual",
    "C69_optimum"
   ],
   "note": ""
  },
  {
   "property": "C70",
   "status": "partial",
   "theorems": [
    "C70_same",
    "C70_codes",
    "C70_misplaced",
    "C70_refuted_options",
    "C70_refuted_small"
   ],
   "note": "As stated false: C70_refuted_options (profiling, printing or derivatives in the generated code shift the last two initialisers of the workspace), C70_refuted_small (a small number is written as 0). True without these three options and for numbers that survive the text (C70_same). QDLDL's factors are an oracle of the right sizes. Not modelled: the copying of source files, the header, the example program and file errors."
  },
  {
   "property": "C71",
   "status": "partial",
   "theorems": [
    "C71_sessions",
    "C71_refuted_leak",
    "C71_refuted_crash"
   ],
   "note": "As stated false: C71_refuted_leak, C71_refuted_crash. True if the requests not checked and those polishing makes after its linear system exists are granted (C71_sessions). osqp_adjoint_derivative's requests are not modelled."
  },
  {
   "property": "C72",
   "status": "proved",
   "theorems": [
    "C72_gradient",
    "C72_path"
   ],
   "note": "For dy that vanishes where y < 0 (see C73), exact arithmetic, k >= 1/100. The error term is 10^-12 (1 + 1/k) times the speed of the solution."
  },
  {
   "property": "C73",
   "status": "partial",
   "theorems": [
    "C73_documented_refuted",
    "C73_signed"
   ],
   "note": "False as stated (C73_documented_refuted); C73_signed says what the functions return instead."
  },
  {
   "property": "C74",
   "status": "partial",
   "theorems": [
    "C74_in_bounds",
    "C74_null",
    "C74_no_solution_refuted"
   ],
   "note": "False without a solution structure (C74_no_solution_refuted); true with one. Memory is taken as granted here; C76 is about refused requests."
  },
  {
   "property": "C75",
   "status": "partial",
   "theorems": [
    "C75_failure_refuted",
    "C75_multiplier_refuted"
   ],
   "note": "False as stated (C75_failure_refuted, C75_multiplier_refuted); the part that holds is C72."
  },
  {
   "property": "C76",
   "status": "partial",
   "theorems": [
    "C76_sessions",
    "C76_refuted_crash",
    "C76_refuted_rhs",
    "C76_refuted_silent"
   ],
   "note": "False as stated (C76_refuted_crash, C76_refuted_rhs, C76_refuted_silent); C76_sessions proves it when the requests nobody checks are granted and without the error report. The linear system of the derivative gives everything back under any refusal."
  },
  {
   "property": "C77",
   "status": "partial",
   "theorems": [
    "C77_rho_refuted",
    "C77_exact_partial"
   ],
   "note": "False as stated (C77_rho_refuted): update_linsys_solver_rho_vec_qdldl only asks for no zero pivot, osqp_setup for n positive ones. C77_exact_partial: an accepted change leaves a regular system that is solved exactly."
  },
  {
   "property": "C78",
   "status": "proved",
   "theorems": [
    "C78_solved",
    "C78_inaccurate",
    "C78_max_iter",
    "C78_non_convex",
    "C78_primal",
    "C78_dual",
    "C78_count",
    "C78_never_missed",
    "C78_certificates"
   ],
   "note": "The solve must start with status unsolved (C38 is false otherwise) and a time limit that strikes leaves stale residuals (C41_refuted), hence the time_over alternatives. The environment is any for which the factorisation oracle returns arrays of the right length."
  },
  {
   "property": "C79",
   "status": "proved",
   "theorems": [
    "C79_repeatable",
    "C79_setup",
    "C79_limit_refuted",
    "C79_interval_refuted"
   ],
   "note": "Conditional as stated; C79_limit_refuted and C79_interval_refuted show that the conditions on the time limit and the interval are needed. The times themselves, and the estimate of rho after a failed solve, are not compared."
  },
  {
   "property": "C80",
   "status": "partial",
   "theorems": [
    "C80_reuse",
    "C80_integral_refuted",
    "C80_polish_refuted",
    "C80_kkt_error_refuted",
    "C80_scaled_refuted"
   ],
   "note": "False as stated: C80_scaled_refuted, C80_kkt_error_refuted, C80_integral_refuted, C80_polish_refuted. C80_reuse proves the rest without scaling, for at least one constraint, with an allocated solution on both sides or neither, and penalties whose reciprocals are not zeros."
  },
  {
   "property": "C81",
   "status": "proved",
   "theorems": [
    "C81_warm_start",
    "C81_warm_start_forgets",
    "C81_cold_start",
    "C81_get_solution",
    "C81_reread",
    "C81_certificate_reread_refuted",
    "C81_round_trip_refuted",
    "C81_update_vectors",
    "C81_update_matrices",
    "C81_update_rho",
    "C81_update_settings"
   ],
   "note": "Exact for every call and number system. What osqp_update_data_mat stores in a scaled solver is stated as equal to what osqp_setup stores for the problem in the user's units with the new entries. Two natural strengthenings are false in binary64: C81_certificate_reread_refuted and C81_round_trip_refuted."
  },
  {
   "property": "C82",
   "status": "proved",
   "theorems": [
    "C82_again",
    "C82_twice_refuted"
   ],
   "note": "For solvers with at least one constraint and penalties whose reciprocals are not zeros. Starting from different statuses the reports can differ: C82_twice_refuted."
  },
  {
   "property": "C83",
   "status": "partial",
   "theorems": [
    "C83_error_partial",
    "C83_rejected_refuted",
    "C83_magnitude_refuted",
    "C83_time_refuted"
   ],
   "note": "False as stated: C83_rejected_refuted (after a rejected polishing the error is that of the rejected point), C83_magnitude_refuted (a negative gap counts as below zero), C83_time_refuted (at a time limit the gap is replaced and the error is not). C83_error_partial proves it with the signed gap, unless polishing was rejected or the time limit cut the solve short."
  },
  {
   "property": "C84",
   "status": "proved",
   "theorems": [
    "C84_estimate",
    "C84_range"
   ],
   "note": "The formula for at least one constraint; the range for all. With no constraints the primal residual used is whatever the workspace holds, so no formula is claimed."
  }
 ]
}