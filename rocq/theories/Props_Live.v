(** C67: a solvable problem is not left undecided, in exact arithmetic, for every problem, every history of calls that led to the
    solver and every linear-system oracle that solves its systems.

    The specifications used: [session], [qp_of], [kkt] as in Props_Solve.v; [decided v]: v is one of solved, primal infeasible, dual
    infeasible, non convex (TermSolve.v); [undisturbed E s]: during a solve started in s no interrupt is pending and the time limit is not
    reached (Live.v); [tests_users st]: the tests are made on the user's problem, not on the scaled one (SolveClaims.v);
    [gap_testable m s b]: if the duality gap is tested, the numbers b_i are not infinite and their sum times 1e-15 (the size below which
    the gap test ignores a multiplier) is below the tolerance; [z_within E m s b]: if the gap is tested, the scaled |z_i| of every iterate
    stay below b_i (Live.v); [row_size s d i]: the larger of the two bounds of row i, scaled (LiveEx.v).

    The conclusion is "decided", not "solved": with tolerances that are not zero an iterate may also pass an infeasibility test. *)
From Coq Require Import ZArith Reals List Bool Lia Lra String.
From Verif Require Import Num Arr Csc Types Linsys LinsysFacts Validate Auxil Api History RealVec LdlEnv ExReal Session KktClaims QpSpec Mid TermSolve SolveClaims SolveEx Live LiveEx.
Import ListNotations.
Open Scope Z_scope.
Notation stat s := (i_status_val (sv_info s)).

(** C67: with a fixed penalty, if the problem has a primal-dual solution, then for every large enough max_iter a solve that is not
    interrupted and not out of time ends with a verdict instead of at the iteration limit. *)
Theorem C67_comes_to_verdict : forall E, env_ok E -> exact_ldl E -> forall P A q l u m n ust s d xs zs ys b,
  session E P A q l u m n ust s d -> convex d -> rho_in_range ust -> st_adaptive_rho (sv_settings s) = ADAPTIVE_RHO_DISABLED -> tests_users (sv_settings s) -> stat s = OSQP_UNSOLVED ->
  0 < st_check_termination (sv_settings s) -> (0 < st_eps_abs (sv_settings s))%R -> kkt (qp_of d) xs zs ys -> gap_testable m s b ->
  exists N, forall mi, N <= mi -> exists s1 fl s', run E (CUpdSettings (Some (set_st_max_iter mi (sv_settings s)))) s = Some (0, HSolver s1) /\ solve E s1 = Some (fl, s') /\
    (undisturbed E s1 -> z_within E m s1 b -> decided (stat s')).
Proof. exact comes_to_verdict. Qed.
Print Assumptions C67_comes_to_verdict.

(** C67, without a condition on the iterates: the bounds of the rows take the place of b. *)
Theorem C67_finite_bounds : forall E, env_ok E -> exact_ldl E -> forall P A q l u m n ust s d xs zs ys,
  session E P A q l u m n ust s d -> convex d -> rho_in_range ust -> st_adaptive_rho (sv_settings s) = ADAPTIVE_RHO_DISABLED -> tests_users (sv_settings s) -> stat s = OSQP_UNSOLVED ->
  0 < st_check_termination (sv_settings s) -> (0 < st_eps_abs (sv_settings s))%R -> kkt (qp_of d) xs zs ys -> gap_testable m s (row_size s d) ->
  exists N, forall mi, N <= mi -> exists s1 fl s', run E (CUpdSettings (Some (set_st_max_iter mi (sv_settings s)))) s = Some (0, HSolver s1) /\ solve E s1 = Some (fl, s') /\
    (undisturbed E s1 -> decided (stat s')).
Proof. exact comes_to_verdict_finite. Qed.
Print Assumptions C67_finite_bounds.
(** With max_iter = 1 this solve ends at the iteration limit, and nothing disturbs it or a longer one. *)
Example C67_finite_bounds_ex : env_ok rE /\ exact_ldl rE /\ exists s d xs zs ys,
  session rE (yP 1) (yA 1 0) (Some [(-1)%R]) (Some [(-5)%R; (-1)%R]) (Some [5%R; 1%R]) 2 1 (yst (/ 1000) 1) s d /\ convex d /\ rho_in_range (yst (/ 1000) 1) /\
  st_adaptive_rho (sv_settings s) = ADAPTIVE_RHO_DISABLED /\ tests_users (sv_settings s) /\ stat s = OSQP_UNSOLVED /\ 0 < st_check_termination (sv_settings s) /\ (0 < st_eps_abs (sv_settings s))%R /\
  kkt (qp_of d) xs zs ys /\ tr (st_check_dualgap (sv_settings s)) = true /\ gap_testable 2 s (row_size s d) /\ (row_size s d 0 = 5%R /\ row_size s d 1 = 1%R) /\
  (exists fl s', solve rE s = Some (fl, s') /\ stat s' = OSQP_MAX_ITER_REACHED) /\
  (forall mi s1, run rE (CUpdSettings (Some (set_st_max_iter mi (sv_settings s)))) s = Some (0, HSolver s1) -> undisturbed rE s1).
Proof. exact (conj rE_ok (conj rE_exact ex_live)). Qed.

(** C67, duality gap not tested: no condition on bounds or iterates is left. *)
Theorem C67_no_gap_test : forall E, env_ok E -> exact_ldl E -> forall P A q l u m n ust s d xs zs ys,
  session E P A q l u m n ust s d -> convex d -> rho_in_range ust -> st_adaptive_rho (sv_settings s) = ADAPTIVE_RHO_DISABLED -> tests_users (sv_settings s) -> stat s = OSQP_UNSOLVED ->
  0 < st_check_termination (sv_settings s) -> (0 < st_eps_abs (sv_settings s))%R -> kkt (qp_of d) xs zs ys -> tr (st_check_dualgap (sv_settings s)) = false ->
  exists N, forall mi, N <= mi -> exists s1 fl s', run E (CUpdSettings (Some (set_st_max_iter mi (sv_settings s)))) s = Some (0, HSolver s1) /\ solve E s1 = Some (fl, s') /\
    (undisturbed E s1 -> decided (stat s')).
Proof. exact comes_to_verdict_no_gap. Qed.
Print Assumptions C67_no_gap_test.
(** The example above after osqp_update_settings has switched the gap test off. *)
Example C67_no_gap_test_ex : exists s d xs zs ys,
  session rE (yP 1) (yA 1 0) (Some [(-1)%R]) (Some [(-5)%R; (-1)%R]) (Some [5%R; 1%R]) 2 1 (yst (/ 1000) 1) s d /\ convex d /\ rho_in_range (yst (/ 1000) 1) /\
  st_adaptive_rho (sv_settings s) = ADAPTIVE_RHO_DISABLED /\ tests_users (sv_settings s) /\ stat s = OSQP_UNSOLVED /\ 0 < st_check_termination (sv_settings s) /\ (0 < st_eps_abs (sv_settings s))%R /\
  kkt (qp_of d) xs zs ys /\ tr (st_check_dualgap (sv_settings s)) = false.
Proof. exact ex_live_no_gap. Qed.

(** An example for the first theorem: b is 5, 1. *)
Example C67_comes_to_verdict_ex : exists s d, session rE (yP 1) (yA 1 0) (Some [(-1)%R]) (Some [(-5)%R; (-1)%R]) (Some [5%R; 1%R]) 2 1 (yst (/ 1000) 1) s d /\
  gap_testable 2 s (row_size s d) /\ z_within rE 2 s (row_size s d) /\ row_size s d 0 = 5%R /\ row_size s d 1 = 1%R.
Proof. exact ex_live_within. Qed.
