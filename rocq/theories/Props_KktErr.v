(** C83: the relative KKT error a solve reports.  E is any environment, K any number system: binary64 included. *)
From Coq Require Import ZArith List Bool.
From Verif Require Import Num Arr Csc Vec Types Linsys Scaling Validate Auxil Polish Api LinsysFacts History Trace Mid PassFacts ExEnv Runs SetupClaims KktErr MachineSpec MachineTerm MachineSolve MachineClaims MachineEx KktEx.
Import ListNotations.
Open Scope Z_scope.
Notation stat s := (i_status_val (sv_info s)).
Notation rho_range K := (nltb (OSQP_RHO_MIN K) (OSQP_RHO_MAX K) = true).

(** C83: unless polishing was tried and its point rejected, and unless the time limit cut the solve short of "solved", the error reported by a solve
    that reached a verdict is the largest of the dual residual, the primal residual and the signed gap reported beside it. *)
Theorem C83_error_partial : forall (K : NumOps) (E : Env K), env_ok E -> rho_range K -> forall P A q l u m n ust s fl s', lives E P A q l u m n ust s -> stat s = OSQP_UNSOLVED -> solve E s = Some (fl, s') ->
  stat s' <> OSQP_SIGINT /\ stat s' <> OSQP_UNSOLVED ->
  ~ (tr (st_polishing (sv_settings s')) = true /\ stat s' = OSQP_SOLVED /\ i_status_polish (sv_info s') = OSQP_POLISH_FAILED) ->
  i_rel_kkt_error (sv_info s') = greater (greater (i_dual_res (sv_info s')) (i_prim_res (sv_info s'))) (i_duality_gap (sv_info s')) \/
  exists k t t1, 1 <= k <= st_max_iter (sv_settings s) /\ iterate E s k t t1 /\ time_over E t1 = true /\ stat s' <> OSQP_SOLVED.
Proof. exact @machine_error. Qed.
Print Assumptions C83_error_partial.
Example C83_error_partial_ex : env_ok fE /\ rho_range F64 /\ (exists s s', ecase fst0 s s' /\ ~ rejected s' /\ nltb n0 (i_rel_kkt_error (sv_info s')) = true) /\
  (exists s s', ecase polishing s s' /\ polished s' /\ nltb n0 (i_rel_kkt_error (sv_info s')) = true).
Proof. exact (conj fE_ok (conj MM_F64 (conj e_plain e_polished))). Qed.

(** C83 is false after a rejected polishing: a solve ends "solved" with residuals and gap below 1e-8 and an error above 1e-6, that of the point it
    did not return. *)
Theorem C83_rejected_refuted : exists s s', ecase precise s s' /\ rejected s' /\ nltb (i_prim_res (sv_info s')) (nlit 1 (-8)) = true /\ nltb (i_dual_res (sv_info s')) (nlit 1 (-8)) = true /\
  nltb (i_duality_gap (sv_info s')) (nlit 1 (-8)) = true /\ nltb (nlit 1 (-6)) (i_rel_kkt_error (sv_info s')) = true.
Proof. exact e_rejected. Qed.
Print Assumptions C83_rejected_refuted.

(** C83 is false for the magnitude of the gap: a polished solution with a negative gap whose magnitude exceeds 1.9 times the error reported. *)
Theorem C83_magnitude_refuted : exists s s', ecase (set_st_polish_refine_iter 0 polishing) s s' /\ polished s' /\
  nltb (nmul (nlit 19 (-1)) (i_rel_kkt_error (sv_info s'))) (nopp (i_duality_gap (sv_info s'))) = true.
Proof. exact e_signed. Qed.
Print Assumptions C83_magnitude_refuted.

(** C83 is false when the time limit strikes: a solve ends "time limit reached" with residuals and gap below 121 and an error above 134. *)
Theorem C83_time_refuted : exists s0 g' s, osqp_setup tickE g0 (Some fP) (Some fq) (Some fA) (Some fl) (Some fu) 3 2 (Some hurried) = Some (0, Some s0, g') /\ calls tickE [CSolve] s0 = Some ([0], s) /\
  stat s = OSQP_TIME_LIMIT_REACHED /\ nltb (i_prim_res (sv_info s)) (nofZ 121) = true /\ nltb (i_dual_res (sv_info s)) (nofZ 121) = true /\ nltb (i_duality_gap (sv_info s)) (nofZ 121) = true /\
  nltb (nofZ 134) (i_rel_kkt_error (sv_info s)) = true.
Proof. exact e_time. Qed.
Print Assumptions C83_time_refuted.
