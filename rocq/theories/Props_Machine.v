(** C78: the verdicts of osqp_solve in the arithmetic of the machine.  E is any environment, K any number system: binary64 included. *)
From Coq Require Import ZArith List Bool.
From Verif Require Import Num Arr Csc Vec Types Linsys Scaling Validate Auxil Polish Api LinsysFacts History Trace Mid PassFacts ExEnv Runs SetupClaims MachineSpec MachineTerm MachineSolve MachineClaims MachineEx MachineFound FoundEx.
Import ListNotations.
Open Scope Z_scope.
Notation stat s := (i_status_val (sv_info s)).
Notation rho_range K := (nltb (OSQP_RHO_MIN K) (OSQP_RHO_MAX K) = true).
Notation X t := (w_x (sv_work t)). Notation Y t := (w_y (sv_work t)). Notation Zv t := (w_z (sv_work t)).
Notation D s := (w_data (sv_work s)). Notation SC s := (w_scaling (sv_work s)). Notation st s := (sv_settings s).

(** C78: "solved" is reported exactly for an iterate whose computed residuals and gap pass the comparisons with the computed tolerances; unless polishing
    replaced it, that iterate is the one returned and the residuals, gap and objectives reported are the computed ones. *)
Theorem C78_solved : forall (K : NumOps) (E : Env K), env_ok E -> rho_range K -> forall P A q l u m n ust s fl s', lives E P A q l u m n ust s -> stat s = OSQP_UNSOLVED -> solve E s = Some (fl, s') ->
  stat s' = OSQP_SOLVED -> exists k t t1 V, 1 <= k <= st_max_iter (st s) /\ iterate E s k t t1 /\ reads (st s) (D s) (SC s) (X t1) (Y t1) (Zv t1) V /\
    accepted (st s) m false V = true /\ exploded V = false /\
    (~ polished s' -> (reads (st s) (D s) (SC s) (X s') (Y s') (Zv s') V /\ reports_reading (sv_info s') V /\ (forall o, fl <= 0 -> sv_solution s' = Some o -> returned (st s) (SC s) (X s') (Y s') o)) /\
       X s' = X t1 /\ Y s' = Y t1 /\ Zv s' = Zv t1).
Proof. exact @machine_solved. Qed.
Print Assumptions C78_solved.
Example C78_solved_ex : env_ok fE /\ rho_range F64 /\ exists s s', fcase fP fA fq fl fu 3 2 fst0 OSQP_SOLVED s s' /\ (i_iter (sv_info s') =? 25) = true.
Proof. exact (conj fE_ok (conj MM_F64 f_solved)). Qed.

(** C78: "solved inaccurate", unless the time limit was hit, is reported after the last allowed iteration for an iterate that passes the same comparisons
    with both tolerances multiplied by ten and fails them with the tolerances of the settings. *)
Theorem C78_inaccurate : forall (K : NumOps) (E : Env K), env_ok E -> rho_range K -> forall P A q l u m n ust s fl s', lives E P A q l u m n ust s -> stat s = OSQP_UNSOLVED -> solve E s = Some (fl, s') ->
  stat s' = OSQP_SOLVED_INACCURATE -> exists k t t1, 1 <= k <= st_max_iter (st s) /\ iterate E s k t t1 /\
    (time_over E t1 = true \/ k = st_max_iter (st s) /\ exists V,
       (reads (st s) (D s) (SC s) (X s') (Y s') (Zv s') V /\ reports_reading (sv_info s') V /\ (forall o, fl <= 0 -> sv_solution s' = Some o -> returned (st s) (SC s) (X s') (Y s') o)) /\
       accepted (st s) m true V = true /\ accepted (st s) m false V = false /\ exploded V = false).
Proof. exact @machine_inaccurate. Qed.
Print Assumptions C78_inaccurate.
Example C78_inaccurate_ex : env_ok fE /\ rho_range F64 /\ exists s s', fcase fP fA fq fl fu 3 2 rough OSQP_SOLVED_INACCURATE s s' /\ any s s' = true.
Proof. exact (conj fE_ok (conj MM_F64 f_inaccurate)). Qed.

(** C78: "maximum iterations reached": the iterate returned is the last allowed one and fails even the relaxed comparisons. *)
Theorem C78_max_iter : forall (K : NumOps) (E : Env K), env_ok E -> rho_range K -> forall P A q l u m n ust s fl s', lives E P A q l u m n ust s -> stat s = OSQP_UNSOLVED -> solve E s = Some (fl, s') ->
  stat s' = OSQP_MAX_ITER_REACHED -> i_iter (sv_info s') = st_max_iter (st s) /\ exists t t1 V, iterate E s (st_max_iter (st s)) t t1 /\ time_over E t1 = false /\
    X s' = X t1 /\ Y s' = Y t1 /\ Zv s' = Zv t1 /\
    (reads (st s) (D s) (SC s) (X s') (Y s') (Zv s') V /\ reports_reading (sv_info s') V /\ (forall o, fl <= 0 -> sv_solution s' = Some o -> returned (st s) (SC s) (X s') (Y s') o)) /\
    accepted (st s) m true V = false /\ accepted (st s) m false V = false /\ exploded V = false.
Proof. exact @machine_max_iter. Qed.
Print Assumptions C78_max_iter.
Example C78_max_iter_ex : env_ok fE /\ rho_range F64 /\ exists s s', fcase fP fA fq fl fu 3 2 one_iter OSQP_MAX_ITER_REACHED s s' /\ any s s' = true.
Proof. exact (conj fE_ok (conj MM_F64 f_max_iter)). Qed.

(** C78: "problem non convex": a computed residual of the iterate compared greater than 1e30. *)
Theorem C78_non_convex : forall (K : NumOps) (E : Env K), env_ok E -> rho_range K -> forall P A q l u m n ust s fl s', lives E P A q l u m n ust s -> stat s = OSQP_UNSOLVED -> solve E s = Some (fl, s') ->
  stat s' = OSQP_NON_CVX -> exists k t t1, 1 <= k <= st_max_iter (st s) /\ iterate E s k t t1 /\
    (time_over E t1 = true \/ exists V, reads (st s) (D s) (SC s) (X t1) (Y t1) (Zv t1) V /\ exploded V = true).
Proof. exact @machine_ncvx. Qed.
Print Assumptions C78_non_convex.
Example C78_non_convex_ex : env_ok fE /\ rho_range F64 /\ exists s s', fcase (one (nofZ 0)) (one (nofZ 1)) [nlit 1 31] [nofZ 0] [nofZ 1] 1 1 short OSQP_NON_CVX s s' /\ any s s' = true.
Proof. exact (conj fE_ok (conj MM_F64 f_ncvx)). Qed.

(** C78: "primal infeasible" ("inaccurate": with ten times the tolerance): the certificate returned is a vector that passed the computed infeasibility
    test, times the reciprocal of its largest magnitude. *)
Theorem C78_primal : forall (K : NumOps) (E : Env K), env_ok E -> rho_range K -> forall P A q l u m n ust s fl s', lives E P A q l u m n ust s -> stat s = OSQP_UNSOLVED -> solve E s = Some (fl, s') ->
  forall loose : bool, stat s' = (if loose then OSQP_PRIMAL_INFEASIBLE_INACCURATE else OSQP_PRIMAL_INFEASIBLE) ->
    fl = 0 /\ exists v, pcert (st s) (D s) (SC s) loose v /\ forall o, sv_solution s' = Some o -> holds (so_prim_inf_cert o) (normalised v).
Proof. exact @machine_pinf. Qed.
Print Assumptions C78_primal.
Example C78_primal_ex : env_ok fE /\ rho_range F64 /\ exists s s', fcase iP iA iq il iu 2 1 fst0 OSQP_PRIMAL_INFEASIBLE s s' /\ (match sv_solution s' with Some _ => true | None => false end) = true.
Proof. exact (conj fE_ok (conj MM_F64 f_pinf)). Qed.

(** C78: "dual infeasible", likewise. *)
Theorem C78_dual : forall (K : NumOps) (E : Env K), env_ok E -> rho_range K -> forall P A q l u m n ust s fl s', lives E P A q l u m n ust s -> stat s = OSQP_UNSOLVED -> solve E s = Some (fl, s') ->
  forall loose : bool, stat s' = (if loose then OSQP_DUAL_INFEASIBLE_INACCURATE else OSQP_DUAL_INFEASIBLE) ->
    fl = 0 /\ exists v, dcert (st s) (D s) (SC s) loose v /\ forall o, sv_solution s' = Some o -> holds (so_dual_inf_cert o) (normalised v).
Proof. exact @machine_dinf. Qed.
Print Assumptions C78_dual.
Example C78_dual_ex : env_ok fE /\ rho_range F64 /\ exists s s', fcase (one (nofZ 0)) (one (nofZ 1)) [nofZ (-1)] [nofZ 0] [nlit 1 30] 1 1 fst0 OSQP_DUAL_INFEASIBLE s s' /\ (match sv_solution s' with Some _ => true | None => false end) = true.
Proof. exact (conj fE_ok (conj MM_F64 f_dinf)). Qed.

(** C78: the number of iterations: between one and max_iter; fewer only on an interrupt, a time out, a failed refactorisation or a verdict of a scheduled
    test; the count reported is the number made (one less after a time out). *)
Theorem C78_count : forall (K : NumOps) (E : Env K), env_ok E -> rho_range K -> forall P A q l u m n ust s fl s', lives E P A q l u m n ust s -> stat s = OSQP_UNSOLVED -> solve E s = Some (fl, s') ->
  exists k t t1, 1 <= k <= st_max_iter (st s) /\ iterate E s k t t1 /\
    (k < st_max_iter (st s) -> stop_requested E t1 = true /\ stat s' = OSQP_SIGINT \/ time_over E t1 = true \/ stat s' = OSQP_UNSOLVED /\ fl = 1 \/
       scheduled (st s) k = true /\ (stat s' = OSQP_NON_CVX \/ stat s' = OSQP_SOLVED \/ stat s' = OSQP_PRIMAL_INFEASIBLE \/ stat s' = OSQP_DUAL_INFEASIBLE)) /\
    (stat s' <> OSQP_SIGINT /\ stat s' <> OSQP_UNSOLVED -> i_iter (sv_info s') = (if time_over E t1 then k - 1 else k)).
Proof. exact @machine_count. Qed.
Print Assumptions C78_count.
Example C78_count_ex : env_ok fE /\ rho_range F64 /\ exists s s', fcase fP fA fq fl fu 3 2 fst0 OSQP_SOLVED s s' /\ (i_iter (sv_info s') =? 25) = true.
Proof. exact (conj fE_ok (conj MM_F64 f_solved)). Qed.

(** C78: a scheduled test never misses: an iterate that passes the comparisons there ends the solve as solved, one with a residual beyond 1e30 as non-convex. *)
Theorem C78_never_missed : forall (K : NumOps) (E : Env K), env_ok E -> rho_range K -> forall P A q l u m n ust s fl s', lives E P A q l u m n ust s -> stat s = OSQP_UNSOLVED -> solve E s = Some (fl, s') ->
  forall k t t1, iterate E s k t t1 -> scheduled (st s) k = true -> stop_requested E t1 = false -> time_over E t1 = false ->
    exists V, reads (st s) (D s) (SC s) (X t1) (Y t1) (Zv t1) V /\ (exploded V = true -> stat s' = OSQP_NON_CVX /\ i_iter (sv_info s') = k) /\
      (exploded V = false -> accepted (st s) m false V = true -> stat s' = OSQP_SOLVED /\ i_iter (sv_info s') = k).
Proof. exact @machine_found. Qed.
Print Assumptions C78_never_missed.
Example C78_never_missed_ex : env_ok fE /\ rho_range F64 /\ exists s s' t t1, fcase fP fA fq fl fu 3 2 coarse OSQP_SOLVED s s' /\ iterate fE s 1 t t1 /\
  scheduled (st s) 1 = true /\ stop_requested fE t1 = false /\ time_over fE t1 = false.
Proof. exact (conj fE_ok (conj MM_F64 f_found)). Qed.

(** C78: a scheduled test never misses, all verdicts: what it finds is decided by the reading V of the iterate and by the last changes dy and dx of y and x.
    With no residual beyond 1e30: if V passes the comparisons the solve ends as solved; if the primal residual does not and dy is a certificate, as primal
    infeasible; if the dual residual does not and dx is a certificate, as dual infeasible, or as primal infeasible when the primal residual is too large as well. *)
Theorem C78_certificates : forall (K : NumOps) (E : Env K), env_ok E -> rho_range K -> @neqb K n0 n0 = true ->
  forall P A q l u m n ust s fl s', lives E P A q l u m n ust s -> stat s = OSQP_UNSOLVED -> solve E s = Some (fl, s') ->
  forall k t t1 V, iterate E s k t t1 -> scheduled (st s) k = true -> stop_requested E t1 = false -> time_over E t1 = false ->
    measured (st s) (D s) (SC s) (X t1) (Y t1) (Zv t1) V ->
    let ends v := stat s' = v /\ i_iter (sv_info s') = k in
    let close := m = 0 \/ below (st s) false (r_prim V) (r_pnorm V) = true in
    (exploded V = true -> ends OSQP_NON_CVX) /\ (exploded V = false ->
      (accepted (st s) m false V = true -> ends OSQP_SOLVED) /\
      (~ close -> certifies_infeasible (st s) (D s) (SC s) (w_delta_y (sv_work t1)) -> ends OSQP_PRIMAL_INFEASIBLE) /\
      (below (st s) false (r_dual V) (r_dnorm V) = false -> certifies_unbounded (st s) (D s) (SC s) (w_delta_x (sv_work t1)) ->
         ends OSQP_DUAL_INFEASIBLE \/ ~ close /\ ends OSQP_PRIMAL_INFEASIBLE)).
Proof. exact @machine_certified. Qed.
Print Assumptions C78_certificates.
Example C78_certificates_ex1 : env_ok fE /\ rho_range F64 /\ @neqb F64 n0 n0 = true /\ exists s s' t t1 V, fcase iP iA iq il iu 2 1 fst0 OSQP_PRIMAL_INFEASIBLE s s' /\ tested 49 s t t1 V /\
  below (st s) false (r_prim V) (r_pnorm V) = false /\ certifies_infeasible (st s) (D s) (SC s) (w_delta_y (sv_work t1)).
Proof. exact (conj fE_ok (conj MM_F64 (conj eq_refl f_found_pinf))). Qed.
Example C78_certificates_ex2 : exists s s' t t1 V, fcase (one (nofZ 0)) (one (nofZ 1)) [nofZ (-1)] [nofZ 0] [nlit 1 30] 1 1 fst0 OSQP_DUAL_INFEASIBLE s s' /\ tested 24 s t t1 V /\
  below (st s) false (r_dual V) (r_dnorm V) = false /\ certifies_unbounded (st s) (D s) (SC s) (w_delta_x (sv_work t1)).
Proof. exact f_found_dinf. Qed.
Example C78_certificates_ex3 : exists s s' t t1 V, fcase fP fA fq fl fu 3 2 fst0 OSQP_SOLVED s s' /\ tested 24 s t t1 V /\ accepted (st s) 3 false V = true.
Proof. exact f_found_solved. Qed.
