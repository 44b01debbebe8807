(** How a solve ends, in exact arithmetic, for every problem, every history of calls that led to the solver, every clock, every
    pattern of interrupts and every linear-system oracle.

    The specifications used: [session E P A q l u m n ust s d] (s is what a setup of P, A, q, l, u and some history of calls left, and d is
    the problem the user has described by then), [qp_of d] and its [Pmul], [Amul], [Atmul], [ninf], [objective], [quad], [lin], [support],
    [feasible] (QpSpec.v), [solved_within], [infeasible_within], [unbounded_within], [drops] (TermSpec.v), [meets], [huge_at],
    [prim_small], [dual_small], [certifies_infeasible], [certifies_unbounded], [absent_l], [absent_u] (SolveUser.v), [trimmed] (SolveClaims.v),
    [ux], [uy], [uz] (the iterate in the user's units, Obs.v), [iterate E s k t t1] (iteration k of the solve started in s takes t to t1),
    [scheduled], [stop_requested], [time_over] (PassFacts.v). *)
From Coq Require Import ZArith Reals List Bool Lia Lra String.
From Verif Require Import Num Arr Csc CscSpec Vec Types Kkt Linsys LinsysFacts Validate Auxil Polish Api
  History RealVec RealStep Frame FrameSolve UserSpec Refine ExEnv Ldl LdlEnv Session ExReal Obs DataClaims ApiClaims KktClaims
  QpSpec AdmmSpec Mid Trace AdmmClaims PassFacts SolveEnd TermSpec TermFacts TermCheck TermSolve SolveClaims SolveUser SolveEx SolveRho.
Import ListNotations.
Open Scope Z_scope.
Notation stat s := (i_status_val (sv_info s)).

(** C33: after status "solved" the iterate returned meets the tolerances of the settings on the user's problem: primal residual, dual residual and, if
    asked for, duality gap; unless polishing replaced it. *)
Theorem C33_solved : forall E, env_ok E -> forall P A q l u m n ust s d fl s', session E P A q l u m n ust s d -> tests_users (sv_settings s) -> stat s = OSQP_UNSOLVED -> solve E s = Some (fl, s') ->
  stat s' = OSQP_SOLVED -> ~ polished s' ->
  meets (sv_settings s) (qp_of d) (uc s) (uE s) 1 (ux s') (uz s') (uy s') /\ solution_is m n fl s' (ux s') (uy s').
Proof. exact user_solved. Qed.
Print Assumptions C33_solved.
Example C33_solved_ex : env_ok rE /\ exists s d fl s', ex_run (yP 1) (yA 1 0) [(-1)%R] [(-5)%R; (-1)%R] [5%R; 1%R] (yst 1 10) OSQP_SOLVED s d fl s'.
Proof. split; [exact rE_ok|exact ex_solved]. Qed.

(** C33: polished or not, the last iterate before polishing met them. *)
Theorem C33_last : forall E, env_ok E -> forall P A q l u m n ust s d fl s', session E P A q l u m n ust s d -> tests_users (sv_settings s) -> stat s = OSQP_UNSOLVED -> solve E s = Some (fl, s') ->
  stat s' = OSQP_SOLVED -> exists k t t1, 1 <= k <= st_max_iter (sv_settings s) /\ iterate E s k t t1 /\
    meets (sv_settings s) (qp_of d) (uc s) (uE s) 1 (ux t1) (uz t1) (uy t1).
Proof. exact user_solved_last. Qed.
Print Assumptions C33_last.
Example C33_last_ex : env_ok rE /\ exists s d fl s', ex_run (yP 1) (yA 1 0) [(-1)%R] [(-5)%R; (-1)%R] [5%R; 1%R] (yst 1 10) OSQP_SOLVED s d fl s'.
Proof. split; [exact rE_ok|exact ex_solved]. Qed.

(** C33: with scaled_termination the same holds of the scaled problem and iterate. *)
Theorem C33_scaled : forall E, env_ok E -> forall P A q l u m n ust s d fl s', session E P A q l u m n ust s d -> ~ tests_users (sv_settings s) -> stat s = OSQP_UNSOLVED -> solve E s = Some (fl, s') ->
  stat s' = OSQP_SOLVED -> ~ polished s' ->
  meets (sv_settings s) (qp_of (w_data (sv_work s))) 1 (fun _ => 1%R) 1 (rnth (w_x (sv_work s'))) (rnth (w_z (sv_work s'))) (rnth (w_y (sv_work s'))).
Proof. exact stored_solved. Qed.
Print Assumptions C33_scaled.
Example C33_scaled_ex : exists s d fl s', session rE rP rA (Some rq) (Some rl) (Some ru) 3 2 vst s d /\ ~ tests_users (sv_settings s) /\ stat s = OSQP_UNSOLVED /\ solve rE s = Some (fl, s') /\ stat s' = OSQP_SOLVED /\ ~ polished s'.
Proof. exact ex_stored. Qed.

(** C37: "solved inaccurate" is reported at the iteration limit only, for an iterate that fails the tolerances and meets ten times them (or after the
    time limit, where the test may run on the residuals of the iterate before: C41). *)
Theorem C37_inaccurate : forall E, env_ok E -> forall P A q l u m n ust s d fl s', session E P A q l u m n ust s d -> tests_users (sv_settings s) -> stat s = OSQP_UNSOLVED -> solve E s = Some (fl, s') ->
  stat s' = OSQP_SOLVED_INACCURATE -> exists k t t1, 1 <= k <= st_max_iter (sv_settings s) /\ iterate E s k t t1 /\
    (time_over E t1 = true \/ k = st_max_iter (sv_settings s) /\ meets (sv_settings s) (qp_of d) (uc s) (uE s) 10 (ux s') (uz s') (uy s') /\
      ~ meets (sv_settings s) (qp_of d) (uc s) (uE s) 1 (ux s') (uz s') (uy s')).
Proof. exact user_inaccurate. Qed.
Print Assumptions C37_inaccurate.
Example C37_inaccurate_ex : env_ok rE /\ exists s d fl s', ex_run (yP 1) (yA 1 0) [(-1)%R] [(-5)%R; (-1)%R] [5%R; 1%R] (yst (/ 10) 1) OSQP_SOLVED_INACCURATE s d fl s'.
Proof. split; [exact rE_ok|exact ex_inaccurate]. Qed.

(** C39: "maximum iterations reached" means that all max_iter iterations were made, that the iterate returned is the last one and that it
    does not meet ten times the tolerances. *)
Theorem C39_max_iter : forall E, env_ok E -> forall P A q l u m n ust s d fl s', session E P A q l u m n ust s d -> tests_users (sv_settings s) -> stat s = OSQP_UNSOLVED -> solve E s = Some (fl, s') ->
  stat s' = OSQP_MAX_ITER_REACHED -> i_iter (sv_info s') = st_max_iter (sv_settings s) /\ ~ meets (sv_settings s) (qp_of d) (uc s) (uE s) 10 (ux s') (uz s') (uy s') /\
    exists t t1, iterate E s (st_max_iter (sv_settings s)) t t1 /\ time_over E t1 = false /\ ux s' = ux t1 /\ uz s' = uz t1 /\ uy s' = uy t1.
Proof. exact user_max_iter. Qed.
Print Assumptions C39_max_iter.
Example C39_max_iter_ex : env_ok rE /\ exists s d fl s', ex_run (yP 1) (yA 1 0) [(-1)%R] [(-5)%R; (-1)%R] [5%R; 1%R] (yst (/ 1000) 1) OSQP_MAX_ITER_REACHED s d fl s'.
Proof. split; [exact rE_ok|exact ex_max_iter]. Qed.

(** C34, C37: after status "primal infeasible" ("inaccurate": with ten times the tolerance) the certificate v returned has norm 1, is an approximate
    Farkas certificate, and every feasible point (none, if A'v = 0) lies outside a ball whose radius v proves. *)
Theorem C34_certificate : forall E, env_ok E -> forall P A q l u m n ust s d fl s', session E P A q l u m n ust s d -> tests_users (sv_settings s) -> stat s = OSQP_UNSOLVED -> solve E s = Some (fl, s') ->
  forall f, (stat s' = OSQP_PRIMAL_INFEASIBLE /\ f = 1%R \/ stat s' = OSQP_PRIMAL_INFEASIBLE_INACCURATE /\ f = 10%R) -> fl <= 0 /\
    forall o, sv_solution s' = Some o -> let v := rnth (so_prim_inf_cert o) in
      infeasible_within (qp_of d) (f * st_eps_prim_inf (sv_settings s)) v /\ ninf m v = 1%R /\
      forall x, feasible (qp_of d) x -> (- support (qp_of d) v / (f * st_eps_prim_inf (sv_settings s)) < norm1 n x)%R.
Proof. exact user_pinf. Qed.
Print Assumptions C34_certificate.
Example C34_certificate_ex : env_ok rE /\ exists s d fl s', ex_run (yP 1) (yA 1 1) [0%R] [1%R; (-2)%R] [2%R; (-1)%R] (yst (/ 1000) 10) OSQP_PRIMAL_INFEASIBLE s d fl s'.
Proof. split; [exact rE_ok|exact ex_pinf]. Qed.

(** C35, C37: after status "dual infeasible" the certificate v returned has norm 1 and is an approximate direction of unboundedness: moving by r v from a
    feasible point violates each present bound by at most r times the tolerance, and the objective obeys the bound stated. *)
Theorem C35_certificate : forall E, env_ok E -> forall P A q l u m n ust s d fl s', session E P A q l u m n ust s d -> tests_users (sv_settings s) -> stat s = OSQP_UNSOLVED -> solve E s = Some (fl, s') ->
  forall f, (stat s' = OSQP_DUAL_INFEASIBLE /\ f = 1%R \/ stat s' = OSQP_DUAL_INFEASIBLE_INACCURATE /\ f = 10%R) -> fl <= 0 /\
    forall o, sv_solution s' = Some o -> let v := rnth (so_dual_inf_cert o) in let e := (f * st_eps_dual_inf (sv_settings s))%R in
      unbounded_within (absent_l s d) (absent_u s d) (qp_of d) e v /\ ninf n v = 1%R /\
      forall x r, feasible_but (absent_l s d) (absent_u s d) (qp_of d) x -> (0 <= r)%R ->
        (forall i, 0 <= i < m -> (~ absent_l s d i -> rnth (d_l d) i - r * e <= Amul (qp_of d) (fun j => x j + r * v j) i)%R /\
           (~ absent_u s d i -> Amul (qp_of d) (fun j => x j + r * v j) i <= rnth (d_u d) i + r * e)%R) /\
        (objective (qp_of d) (fun j => x j + r * v j) <= objective (qp_of d) x + r * (lin (qp_of d) v + e * norm1 n x) + r ^ 2 / 2 * e * norm1 n v)%R.
Proof. exact user_dinf. Qed.
Print Assumptions C35_certificate.
Example C35_certificate_ex : env_ok rE /\ exists s d fl s', ex_run (yP 0) (yA 1 0) [(-1)%R] [0%R; (-1)%R] [(10 ^ 30)%R; 1%R] (yst (/ 1000) 10) OSQP_DUAL_INFEASIBLE s d fl s'.
Proof. split; [exact rE_ok|exact ex_dinf]. Qed.

(** C36: what the status "problem non convex" of a solve does say: some residual of the iterate exceeds 1e30. *)
Theorem C36_huge : forall E, env_ok E -> forall P A q l u m n ust s d fl s', session E P A q l u m n ust s d -> tests_users (sv_settings s) -> stat s = OSQP_UNSOLVED -> solve E s = Some (fl, s') ->
  stat s' = OSQP_NON_CVX -> exists k t t1, 1 <= k <= st_max_iter (sv_settings s) /\ iterate E s k t t1 /\
    (time_over E t1 = true \/ (10 ^ 30 < ninf m (fun j => Amul (qp_of d) (ux t1) j - uz t1 j))%R \/
     (10 ^ 30 < ninf n (fun j => rnth (d_q d) j + Pmul (qp_of d) (ux t1) j + Atmul (qp_of d) (uy t1) j))%R).
Proof. exact user_ncvx. Qed.
Print Assumptions C36_huge.
Example C36_huge_ex : env_ok rE /\ exists s d fl s', ex_run (yP 0) (yA 1 0) [(10 ^ 31)%R] [(-1)%R; (-1)%R] [1%R; 1%R] (yst (/ 1000) 10) OSQP_NON_CVX s d fl s'.
Proof. split; [exact rE_ok|exact ex_ncvx]. Qed.

(** C36: it does not say that the problem is non-convex: minimise 1e31 x subject to -1 <= x <= 1. *)
Theorem C36_refuted : ~ (forall E, env_ok E -> exact_ldl E -> forall P A q l u m n ust s d fl s', session E P A q l u m n ust s d -> tests_users (sv_settings s) ->
  stat s = OSQP_UNSOLVED -> solve E s = Some (fl, s') -> stat s' = OSQP_NON_CVX -> ~ convex d).
Proof. exact ncvx_refuted. Qed.
Print Assumptions C36_refuted.

(** C41, C32: the residuals, objective, dual objective, duality gap and iteration count reported are those of the last iterate, which is the one returned
    (unless polishing replaced it, or the time limit struck: C41_refuted). *)
Theorem C41_info : forall E, env_ok E -> forall P A q l u m n ust s d fl s', session E P A q l u m n ust s d -> tests_users (sv_settings s) -> stat s = OSQP_UNSOLVED -> solve E s = Some (fl, s') ->
  final (stat s') -> ~ polished s' -> exists k t t1, 1 <= k <= st_max_iter (sv_settings s) /\ iterate E s k t t1 /\ (time_over E t1 = true \/
    i_iter (sv_info s') = k /\ i_prim_res (sv_info s') = ninf m (fun j => Amul (qp_of d) (ux t1) j - uz t1 j)%R /\
    i_dual_res (sv_info s') = ninf n (fun j => rnth (d_q d) j + Pmul (qp_of d) (ux t1) j + Atmul (qp_of d) (uy t1) j)%R /\
    (has_solution (sv_info s') = true -> ux s' = ux t1 /\ uz s' = uz t1 /\ uy s' = uy t1 /\ exists v, trimmed (uc s) (uE s) m (rnth (d_l d)) (rnth (d_u d)) (uy t1) v /\
       i_obj_val (sv_info s') = objective (qp_of d) (ux t1) /\ i_dual_obj_val (sv_info s') = (- / 2 * quad (qp_of d) (ux t1) - support (qp_of d) v)%R /\
       i_duality_gap (sv_info s') = (i_obj_val (sv_info s') - i_dual_obj_val (sv_info s'))%R)).
Proof. exact user_info. Qed.
Print Assumptions C41_info.
Example C41_info_ex : env_ok rE /\ exists s d fl s', ex_run (yP 1) (yA 1 0) [(-1)%R] [(-5)%R; (-1)%R] [5%R; 1%R] (yst 1 10) OSQP_SOLVED s d fl s' /\ has_solution (sv_info s') = true.
Proof. exact info_case. Qed.

(** C32: in particular the objective, dual objective and duality gap reported are those of the point returned: the objective is x'Px/2 + q'x, the dual
    objective -x'Px/2 minus the support function of the bounds at the multipliers with the parts that belong to infinite bounds dropped. *)
Theorem C32_objective : forall E, env_ok E -> forall P A q l u m n ust s d fl s', session E P A q l u m n ust s d -> tests_users (sv_settings s) -> stat s = OSQP_UNSOLVED -> solve E s = Some (fl, s') ->
  final (stat s') -> ~ polished s' -> has_solution (sv_info s') = true -> exists k t t1, 1 <= k <= st_max_iter (sv_settings s) /\ iterate E s k t t1 /\ (time_over E t1 = true \/
    i_obj_val (sv_info s') = objective (qp_of d) (ux s') /\
    exists v, trimmed (uc s) (uE s) m (rnth (d_l d)) (rnth (d_u d)) (uy s') v /\
    i_dual_obj_val (sv_info s') = (- / 2 * quad (qp_of d) (ux s') - support (qp_of d) v)%R /\
    i_duality_gap (sv_info s') = (i_obj_val (sv_info s') - i_dual_obj_val (sv_info s'))%R).
Proof. exact user_objective. Qed.
Print Assumptions C32_objective.
Example C32_objective_ex : env_ok rE /\ exists s d fl s', ex_run (yP 1) (yA 1 0) [(-1)%R] [(-5)%R; (-1)%R] [5%R; 1%R] (yst 1 10) OSQP_SOLVED s d fl s' /\ has_solution (sv_info s') = true.
Proof. exact info_case. Qed.

(** C39, C40: a solve makes at least one and at most max_iter iterations; it stops before the limit only on an interrupt, on a time out, on a failed
    refactorisation, or with a verdict of a scheduled termination test; the iteration count reported is the number of iterations made (one less after a time out). *)
Theorem C39_count : forall E, env_ok E -> forall P A q l u m n ust s d fl s', session E P A q l u m n ust s d -> tests_users (sv_settings s) -> stat s = OSQP_UNSOLVED -> solve E s = Some (fl, s') ->
  exists k t t1, 1 <= k <= st_max_iter (sv_settings s) /\ iterate E s k t t1 /\
    (k < st_max_iter (sv_settings s) -> stop_requested E t1 = true /\ stat s' = OSQP_SIGINT \/ time_over E t1 = true \/ stat s' = OSQP_UNSOLVED /\ fl = 1 \/
       scheduled (sv_settings s) k = true /\ decided (stat s')) /\
    (final (stat s') -> i_iter (sv_info s') = (if time_over E t1 then k - 1 else k)).
Proof. exact user_count. Qed.
Print Assumptions C39_count.
Example C39_count_ex : env_ok rE /\ exists s d fl s', ex_run (yP 1) (yA 1 0) [(-1)%R] [(-5)%R; (-1)%R] [5%R; 1%R] (yst (/ 1000) 1) OSQP_MAX_ITER_REACHED s d fl s'.
Proof. split; [exact rE_ok|exact ex_max_iter]. Qed.

(** C69: a scheduled test never misses an outcome. If the iterate meets the tolerances, the solve ends there as solved; *)
Theorem C69_solved : forall E, env_ok E -> forall P A q l u m n ust s d fl s', session E P A q l u m n ust s d -> tests_users (sv_settings s) -> stat s = OSQP_UNSOLVED -> solve E s = Some (fl, s') ->
  forall k t t1, iterate E s k t t1 -> scheduled (sv_settings s) k = true -> stop_requested E t1 = false -> time_over E t1 = false ->
    ~ huge_at m n d t1 -> meets (sv_settings s) (qp_of d) (uc s) (uE s) 1 (ux t1) (uz t1) (uy t1) -> stat s' = OSQP_SOLVED /\ i_iter (sv_info s') = k.
Proof. exact user_found_solved. Qed.
Print Assumptions C69_solved.
Example C69_solved_ex : exists s d fl s' t t1, ready 0 1 1 0 (-1) (-5) (-1) 5 1 1 10 s d /\ solve rE s = Some (fl, s') /\ iterate rE s 1 t t1 /\
  scheduled (sv_settings s) 1 = true /\ stop_requested rE t1 = false /\ time_over rE t1 = false /\ ~ huge_at 2 1 d t1 /\ meets (sv_settings s) (qp_of d) (uc s) (uE s) 1 (ux t1) (uz t1) (uy t1).
Proof. exact found_solved. Qed.

(** C69: if a residual exceeds 1e30 the solve ends there as non-convex; *)
Theorem C69_huge : forall E, env_ok E -> forall P A q l u m n ust s d fl s', session E P A q l u m n ust s d -> tests_users (sv_settings s) -> stat s = OSQP_UNSOLVED -> solve E s = Some (fl, s') ->
  forall k t t1, iterate E s k t t1 -> scheduled (sv_settings s) k = true -> stop_requested E t1 = false -> time_over E t1 = false ->
    huge_at m n d t1 -> stat s' = OSQP_NON_CVX /\ i_iter (sv_info s') = k.
Proof. exact user_found_huge. Qed.
Print Assumptions C69_huge.
Example C69_huge_ex : exists s d fl s' t t1, ready 0 0 1 0 (10 ^ 31) (-1) (-1) 1 1 (/ 1000) 10 s d /\ solve rE s = Some (fl, s') /\ iterate rE s 1 t t1 /\
  scheduled (sv_settings s) 1 = true /\ stop_requested rE t1 = false /\ time_over rE t1 = false /\ huge_at 2 1 d t1.
Proof. exact found_ncvx. Qed.

(** C69: if the primal residual is too large and the last step of the multipliers is a certificate of infeasibility, as primal infeasible; *)
Theorem C69_primal : forall E, env_ok E -> forall P A q l u m n ust s d fl s', session E P A q l u m n ust s d -> tests_users (sv_settings s) -> stat s = OSQP_UNSOLVED -> solve E s = Some (fl, s') ->
  forall k t t1, iterate E s k t t1 -> scheduled (sv_settings s) k = true -> stop_requested E t1 = false -> time_over E t1 = false ->
    ~ huge_at m n d t1 -> ~ prim_small m s d t1 -> certifies_infeasible m s d t t1 -> stat s' = OSQP_PRIMAL_INFEASIBLE /\ i_iter (sv_info s') = k.
Proof. exact user_found_pinf. Qed.
Print Assumptions C69_primal.
Example C69_primal_ex : exists s d fl s' t t1, ready 0 1 1 1 0 1 (-2) 2 (-1) (/ 1000) 10 s d /\ solve rE s = Some (fl, s') /\ iterate rE s 1 t t1 /\
  scheduled (sv_settings s) 1 = true /\ stop_requested rE t1 = false /\ time_over rE t1 = false /\ ~ huge_at 2 1 d t1 /\ ~ prim_small 2 s d t1 /\ certifies_infeasible 2 s d t t1.
Proof. exact found_pinf. Qed.

(** C69: else, if the dual residual is too large and the last step of x is a direction of unboundedness, as dual infeasible. *)
Theorem C69_dual : forall E, env_ok E -> forall P A q l u m n ust s d fl s', session E P A q l u m n ust s d -> tests_users (sv_settings s) -> stat s = OSQP_UNSOLVED -> solve E s = Some (fl, s') ->
  forall k t t1, iterate E s k t t1 -> scheduled (sv_settings s) k = true -> stop_requested E t1 = false -> time_over E t1 = false ->
    ~ huge_at m n d t1 -> (prim_small m s d t1 \/ ~ certifies_infeasible m s d t t1) -> ~ dual_small n s d t1 -> certifies_unbounded n s d t t1 ->
    stat s' = OSQP_DUAL_INFEASIBLE /\ i_iter (sv_info s') = k.
Proof. exact user_found_dinf. Qed.
Print Assumptions C69_dual.
Example C69_dual_ex : exists s d fl s' t t1, ready 0 0 1 0 (-1) 0 (-1) (10 ^ 30) 1 (/ 1000) 10 s d /\ solve rE s = Some (fl, s') /\ iterate rE s 1 t t1 /\
  scheduled (sv_settings s) 1 = true /\ stop_requested rE t1 = false /\ time_over rE t1 = false /\ ~ huge_at 2 1 d t1 /\ (prim_small 2 s d t1 \/ ~ certifies_infeasible 2 s d t t1) /\ ~ dual_small 1 s d t1 /\ certifies_unbounded 1 s d t t1.
Proof. exact found_dinf. Qed.

(** C69: a solve warm started at an optimum stops there, at the first scheduled test. *)
Theorem C69_optimum : forall E, env_ok E -> forall P A q l u m n ust s d fl s', session E P A q l u m n ust s d -> tests_users (sv_settings s) -> stat s = OSQP_UNSOLVED -> solve E s = Some (fl, s') ->
  exact_ldl E -> rho_in_range ust -> convex d -> tr (st_warm_starting (sv_settings s)) = true -> kkt (qp_of d) (ux s) (uz s) (uy s) ->
  meets (sv_settings s) (qp_of d) (uc s) (uE s) 1 (ux s) (uz s) (uy s) ->
  forall k t t1, iterate E s k t t1 -> scheduled (sv_settings s) k = true -> stop_requested E t1 = false -> time_over E t1 = false ->
    stat s' = OSQP_SOLVED /\ i_iter (sv_info s') = k.
Proof. exact user_from_optimum. Qed.
Print Assumptions C69_optimum.
Example C69_optimum_ex : exists s d t t1 s', session rE rP rA (Some rq) (Some rl) (Some ru) 3 2 wst s d /\ rdat d /\ tests_users (sv_settings s) /\ stat s = OSQP_UNSOLVED /\ tr (st_warm_starting (sv_settings s)) = true /\
  kkt (qp_of d) (ux s) (uz s) (uy s) /\ meets (sv_settings s) (qp_of d) (uc s) (uE s) 1 (ux s) (uz s) (uy s) /\ iterate rE s 1 t t1 /\ scheduled (sv_settings s) 1 = true /\ stop_requested rE t1 = false /\ time_over rE t1 = false /\
  solve rE s = Some (0, s') /\ stat s' = OSQP_SOLVED /\ has_solution (sv_info s') = true /\ ~ polished s' /\ sv_solution s' <> None /\
  kkt (qp_of d) (ux t) (uz t) (uy t).
Proof. exact ex_optimum_end. Qed.

(** C68: for a convex problem the point returned with status "solved" violates no constraint by more than the primal tolerance, and no feasible point is
    better by more than the dual tolerance times its distance plus the primal tolerance times the norm of the multipliers. *)
Theorem C68_quality : forall E, env_ok E -> forall P A q l u m n ust s d fl s', session E P A q l u m n ust s d -> tests_users (sv_settings s) -> stat s = OSQP_UNSOLVED -> solve E s = Some (fl, s') ->
  rho_in_range ust -> convex d -> stat s' = OSQP_SOLVED -> ~ polished s' ->
  let ep := (st_eps_abs (sv_settings s) + st_eps_rel (sv_settings s) * Rmax (ninf m (uz s')) (ninf m (Amul (qp_of d) (ux s'))))%R in
  let ed := (st_eps_abs (sv_settings s) + st_eps_rel (sv_settings s) * Rmax (Rmax (ninf n (rnth (d_q d))) (ninf n (Atmul (qp_of d) (uy s')))) (ninf n (Pmul (qp_of d) (ux s'))))%R in
  solution_is m n fl s' (ux s') (uy s') /\
  (forall i, 0 <= i < m -> (rnth (d_l d) i - ep <= Amul (qp_of d) (ux s') i <= rnth (d_u d) i + ep)%R) /\
  (forall x, feasible (qp_of d) x -> objective (qp_of d) (ux s') <= objective (qp_of d) x + ed * norm1 n (fun i => x i - ux s' i) + ep * norm1 m (uy s'))%R.
Proof. exact user_quality. Qed.
Print Assumptions C68_quality.
Example C68_quality_ex : env_ok rE /\ exists s d fl s', ex_run (yP 1) (yA 1 0) [(-1)%R] [(-5)%R; (-1)%R] [5%R; 1%R] (yst 1 10) OSQP_SOLVED s d fl s'.
Proof. split; [exact rE_ok|exact ex_solved]. Qed.

(** C43: the exit code of a solve: 0; or 1 after an interrupt or a failed refactorisation; or an error of polishing, with status "solved" and polishing on. *)
Theorem C43_flag : forall E, env_ok E -> forall P A q l u m n ust s d fl s', session E P A q l u m n ust s d -> stat s = OSQP_UNSOLVED -> solve E s = Some (fl, s') ->
  fl = 0 \/ (stat s' = OSQP_SIGINT \/ stat s' = OSQP_UNSOLVED) /\ fl = 1 \/ stat s' = OSQP_SOLVED /\ tr (st_polishing (sv_settings s)) = true.
Proof. exact session_flag. Qed.
Print Assumptions C43_flag.
Example C43_flag_ex : env_ok rE /\ exists s d fl s', ex_run (yP 1) (yA 1 0) [(-1)%R] [(-5)%R; (-1)%R] [5%R; 1%R] (yst 1 10) OSQP_SOLVED s d fl s'.
Proof. split; [exact rE_ok|exact ex_solved]. Qed.

(** C63: the refactorisations inside a solve never fail on a convex problem: the solve is never left "unsolved". *)
Theorem C63_solve : forall E, env_ok E -> forall P A q l u m n ust s d fl s', exact_ldl E -> session E P A q l u m n ust s d -> convex d -> stat s = OSQP_UNSOLVED -> solve E s = Some (fl, s') ->
  stat s' <> OSQP_UNSOLVED.
Proof. exact session_convex. Qed.
Print Assumptions C63_solve.
Example C63_solve_ex : env_ok rE /\ exact_ldl rE /\ exists s d t t1 t2 t3, session rE rP rA (Some rq) (Some rl) (Some ru) 3 2 ast s d /\ iterate rE s 1 t t1 /\ iterate rE s 2 t2 t3 /\
  st_adaptive_rho (sv_settings s) = ADAPTIVE_RHO_ITERATIONS /\ st_adaptive_rho_interval (sv_settings s) = 1.
Proof. split; [exact rE_ok|]. split; [exact rE_exact|exact ex_adapting]. Qed.

(** C53: between two iterations the penalty changes only if adaptation is enabled and the iteration just made is a multiple of the interval, and then it
    becomes the old one times the square root of the ratio of the relative residuals, clipped to [1e-6, 1e6], provided this differs from the old one by more than the tolerance factor. *)
Theorem C53_next : forall E, env_ok E -> forall P A q l u m n ust s d k t t1 t2 t3, session E P A q l u m n ust s d -> 0 < m -> iterate E s k t t1 -> iterate E s (k + 1) t2 t3 ->
  let st := sv_settings s in let old := st_rho (sv_settings t) in let new := st_rho (sv_settings t2) in
  new = old \/
  st_adaptive_rho st <> ADAPTIVE_RHO_DISABLED /\
  new = balanced_rho (qp_of (w_data (sv_work s))) old (rnth (w_x (sv_work t1))) (rnth (w_z (sv_work t1))) (rnth (w_y (sv_work t1))) /\
  (old * st_adaptive_rho_tolerance st < new \/ new < old / st_adaptive_rho_tolerance st)%R /\
  (let i := st_adaptive_rho_interval (sv_settings t2) in i <> 0 /\ Z.rem k i = 0 /\ (st_adaptive_rho st <> ADAPTIVE_RHO_TIME -> i = st_adaptive_rho_interval st)).
Proof. exact rho_next. Qed.
Print Assumptions C53_next.
Example C53_next_ex : exists s d t t1 t2 t3, session rE rP rA (Some rq) (Some rl) (Some ru) 3 2 ast s d /\ iterate rE s 1 t t1 /\ iterate rE s 2 t2 t3 /\
  st_adaptive_rho (sv_settings s) = ADAPTIVE_RHO_ITERATIONS /\ st_adaptive_rho_interval (sv_settings s) = 1.
Proof. exact ex_adapting. Qed.

(** C40: an iteration at which no test is scheduled never ends the solve of a convex problem, unless there is an interrupt or a time out. *)
Theorem C40_goes_on : forall E, env_ok E -> forall P A q l u m n ust s d k t t1, exact_ldl E -> session E P A q l u m n ust s d -> convex d -> iterate E s k t t1 -> k < st_max_iter (sv_settings s) ->
  stop_requested E t1 = false -> time_over E t1 = false -> scheduled (sv_settings s) k = false -> exists t2 t3, iterate E s (k + 1) t2 t3.
Proof. exact goes_on. Qed.
Print Assumptions C40_goes_on.
Example C40_goes_on_ex : exists s d t t1 t2 t3, session rE rP rA (Some rq) (Some rl) (Some ru) 3 2 ast s d /\ iterate rE s 1 t t1 /\ iterate rE s 2 t2 t3 /\
  st_adaptive_rho (sv_settings s) = ADAPTIVE_RHO_ITERATIONS /\ st_adaptive_rho_interval (sv_settings s) = 1.
Proof. exact ex_adapting. Qed.
