(** Properties that are false of the code: one run of the model in binary64 arithmetic for each, found by the problem named in the
    statement.  [calls E cs s0 = Some (codes, s)]: the calls cs made one after the other return the exit codes and leave the solver s.
    The literal problems and settings are defined in Runs.v. *)
From Coq Require Import ZArith List Bool Lia String SpecFloat.
From Verif Require Import Num Arr Csc Vec Types Linsys Scaling Validate Auxil Polish Api LinsysFacts History ExEnv Runs.
Import ListNotations.
Open Scope Z_scope.

(** The environments used (exact natural-order factorisation, three clocks, no interrupt) satisfy the assumptions of the theorems. *)
Example runs_env_ok : env_ok fE /\ env_ok tickE /\ env_ok secE.
Proof. repeat split; apply exEnv_ok. Qed.

(** C45 is false: the value written where there is nothing to report is an ordinary number. *)
Theorem C45_marker_refuted : is_nan (OSQP_NAN F64) = false /\ neqb (OSQP_NAN F64) (nofZ 2143289344) = true.
Proof. exact marker_number. Qed.
Print Assumptions C45_marker_refuted.

(** C02 is false in binary64: a relaxation parameter that is not a number passes the range check, and the first iterate is not a number. *)
Theorem C02_nan_setting_refuted : exists s0 g' s, osqp_setup fE g0 (Some fP) (Some fq) (Some fA) (Some fl) (Some fu) 3 2 (Some nan_alpha) = Some (0, Some s0, g') /\
  calls fE [CSolve] s0 = Some ([0], s) /\ is_nan (hd0 (w_x (sv_work s))) = true.
Proof. exact nan_settings. Qed.
Print Assumptions C02_nan_setting_refuted.

(** C01 and C33 are false in binary64: data that are not numbers pass the checks.  With the duality gap check off the solver then reports
    "solved" with both residuals 0 and returns a solution that is not a number. *)
Theorem C01_nan_data_refuted : exists s0 g' s, osqp_setup fE g0 (Some (one (nofZ 1))) (Some [S754_nan : F64]) (Some (one (nofZ 1))) (Some [nofZ (-1)]) (Some [nofZ 1]) 1 1 (Some no_gap) = Some (0, Some s0, g') /\
  calls fE [CSolve] s0 = Some ([0], s) /\ i_status_val (sv_info s) = OSQP_SOLVED /\ neqb (i_prim_res (sv_info s)) n0 = true /\ neqb (i_dual_res (sv_info s)) n0 = true /\ is_nan (hd0 (sx s)) = true.
Proof. exact nan_solved. Qed.
Print Assumptions C01_nan_data_refuted.

(** C20 is false: after a rejected update of the bounds (exit code 1) osqp_get_solution returns a different infeasibility certificate
    (the rejected bounds instead of the certificate: its first entry changes sign). *)
Theorem C20_rejected_update_refuted : exists s0 g' s s', osqp_setup fE g0 (Some iP) (Some iq) (Some iA) (Some il) (Some iu) 2 1 (Some fst0) = Some (0, Some s0, g') /\
  calls fE [CSolve] s0 = Some ([0], s) /\ calls fE [CUpdVec None (Some bad_l) (Some bad_u)] s = Some ([OSQP_DATA_VALIDATION_ERROR], s') /\
  i_status_val (sv_info s) = OSQP_PRIMAL_INFEASIBLE /\ i_status_val (sv_info s') = OSQP_PRIMAL_INFEASIBLE /\
  nltb (hd0 (get_cert s)) n0 = true /\ neqb (hd0 (get_cert s')) (nofZ 1) = true.
Proof. exact rejected_update_cert. Qed.
Print Assumptions C20_rejected_update_refuted.

(** C27 is false after osqp_update_data_mat: the row kinds, and with them the penalties, are those of the old scaling. *)
Theorem C27_kind_refuted : exists s0 g' s, osqp_setup fE g0 (Some (one (nofZ 1))) (Some [nofZ 1]) (Some (one (nofZ 1))) (Some [nofZ 0]) (Some [nlit 1 (-3)]) 1 1 (Some fst0) = Some (0, Some s0, g') /\
  calls fE [CUpdMat None None 0 (Some [nofZ 1000000]) None 0; CSolve] s0 = Some ([0; 0], s) /\ w_constr_type (sv_work s) = Some [0] /\
  nltb (nsub (hd0 (d_u (w_data (sv_work s)))) (hd0 (d_l (w_data (sv_work s))))) (OSQP_RHO_TOL F64) = true.
Proof. exact stale_kind. Qed.
Print Assumptions C27_kind_refuted.

(** C65 is false: minimise -x^2/2 over -1 <= 10 x <= 1 is accepted, and x = 0, the worst feasible point, is reported as solved. *)
Theorem C65_nonconvex_refuted : exists s0 g' s, osqp_setup fE g0 (Some (one (nofZ (-1)))) (Some [nofZ 0]) (Some (one (nofZ 10))) (Some [nofZ (-1)]) (Some [nofZ 1]) 1 1 (Some unscaled) = Some (0, Some s0, g') /\
  calls fE [CSolve] s0 = Some ([0], s) /\ i_status_val (sv_info s) = OSQP_SOLVED /\ neqb (hd0 (sx s)) n0 = true.
Proof. exact nonconvex_solved. Qed.
Print Assumptions C65_nonconvex_refuted.

(** C38 is false: after a cold start and a single iteration the status still says "solved" although the reported primal residual exceeds 1
    (the tolerance is 0.001). *)
Theorem C38_status_refuted : exists s0 g' s, osqp_setup fE g0 (Some fP) (Some fq) (Some fA) (Some fl) (Some fu) 3 2 (Some fst0) = Some (0, Some s0, g') /\
  calls fE [CSolve; CCold; CUpdSettings (Some one_iter); CSolve] s0 = Some ([0; 0; 0; 0], s) /\
  i_status_val (sv_info s) = OSQP_SOLVED /\ i_iter (sv_info s) = 1 /\ nltb (nofZ 1) (i_prim_res (sv_info s)) = true.
Proof. exact stale_status. Qed.
Print Assumptions C38_status_refuted.

(** C41 is false at the time limit: the reported iteration and residual belong to the iterate before the one returned. *)
Theorem C41_residual_refuted : exists s0 g' s, osqp_setup tickE g0 (Some (one (nofZ 1))) (Some [nofZ 1]) (Some (one (nofZ 1))) (Some [nofZ 5]) (Some [nofZ 6]) 1 1 (Some limited) = Some (0, Some s0, g') /\
  calls tickE [CSolve] s0 = Some ([0], s) /\ i_status_val (sv_info s) = OSQP_TIME_LIMIT_REACHED /\ i_iter (sv_info s) = 2 /\
  neqb (hd0 (sx s)) (hd0 (w_x (sv_work s))) = true /\ neqb (i_prim_res (sv_info s)) (c_absval (nsub (hd0 (w_x (sv_work s))) (hd0 (w_z (sv_work s))))) = false.
Proof. exact stale_residual. Qed.
Print Assumptions C41_residual_refuted.

(** C46 is false: a solved problem (tolerance 1e-10) is replaced by a polished point with dual residual above 0.9; the status stays "solved". *)
Theorem C46_polish_refuted : exists s0 g' s, osqp_setup fE g0 (Some pP) (Some pq) (Some pA) (Some pl) (Some pu) 2 2 (Some pst) = Some (0, Some s0, g') /\
  calls fE [CSolve] s0 = Some ([0], s) /\ i_status_val (sv_info s) = OSQP_SOLVED /\ i_status_polish (sv_info s) = OSQP_POLISH_SUCCESS /\ nltb (nlit 9 (-1)) (i_dual_res (sv_info s)) = true.
Proof. exact polish_worse. Qed.
Print Assumptions C46_polish_refuted.

(** C51 is false: the run time of a solve without polishing contains the polishing time of the solve before (update 0, solve 1, run time 2). *)
Theorem C51_run_time_refuted : exists s0 g' s, osqp_setup secE g0 (Some fP) (Some fq) (Some fA) (Some fl) (Some fu) 3 2 (Some polishing) = Some (0, Some s0, g') /\
  calls secE [CSolve; CUpdSettings (Some fst0); CSolve] s0 = Some ([0; 0; 0], s) /\ st_polishing (sv_settings s) = 0 /\
  neqb (i_update_time (sv_info s)) n0 = true /\ neqb (i_solve_time (sv_info s)) (nofZ 1) = true /\ neqb (i_run_time (sv_info s)) (nofZ 2) = true.
Proof. exact stale_polish_time. Qed.
Print Assumptions C51_run_time_refuted.

(** C52 is false: with time based adaptation and check interval 25 the interval chosen is 1. *)
Theorem C52_interval_refuted : exists s0 g' s, osqp_setup secE g0 (Some fP) (Some fq) (Some fA) (Some fl) (Some fu) 3 2 (Some timed) = Some (0, Some s0, g') /\
  calls secE [CSolve] s0 = Some ([0], s) /\ st_check_termination (sv_settings s) = 25 /\ st_adaptive_rho_interval (sv_settings s) = 1.
Proof. exact interval_one. Qed.
Print Assumptions C52_interval_refuted.

(** C59 is false: a row without bounds is treated as an inequality with finite bounds once its scaling factor is small. *)
Theorem C59_infinite_bound_refuted : exists s0 g', osqp_setup fE g0 (Some (one (nofZ 1))) (Some [nofZ 1]) (Some (one (nlit 1 10))) (Some [nlit (-1) 30]) (Some [nlit 1 30]) 1 1 (Some fst0) = Some (0, Some s0, g') /\
  w_constr_type (sv_work s0) = Some [0] /\ nltb (hd0 (d_u (w_data (sv_work s0)))) (nmul (OSQP_INFTY F64) (OSQP_MIN_SCALING F64)) = true.
Proof. exact infinite_row. Qed.
Print Assumptions C59_infinite_bound_refuted.

(** C64 is false: reading the solution of an infeasible problem throws away a warm start made after the solve. *)
Theorem C64_read_refuted : exists s0 g' s s', osqp_setup fE g0 (Some iP) (Some iq) (Some iA) (Some il) (Some iu) 2 1 (Some fst0) = Some (0, Some s0, g') /\
  calls fE [CSolve; CWarm (Some [nofZ 5]) None] s0 = Some ([0; 0], s) /\ calls fE [CGetSol (Some isol)] s = Some ([0], s') /\
  neqb (hd0 (w_x (sv_work s))) n0 = false /\ neqb (hd0 (w_x (sv_work s'))) n0 = true.
Proof. exact read_discards. Qed.
Print Assumptions C64_read_refuted.
