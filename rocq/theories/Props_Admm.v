(** Properties C13, C17, C29, C30, C31, C66: the iterations of osqp_solve.
    [iterate E s k t t'] (Mid.v): a solve started in s reaches its k-th iteration in state t and that iteration's update leads to t'.
    Specifications used: QpSpec.v ([qp], [kkt], [minimiser], [feasible], [objective], [ncone]: the conditions a user knows from a
    textbook; [qp_of d] reads a problem off its data), RealStep.v ([admm1]: one ADMM iteration written with dense matrices),
    AdmmSpec.v ([augmented]: the augmented Lagrangian), AdmmClaims.v ([within], [wdist], [wmoved]), UserSpec.v ([ux], [uz], [uy]: the
    iterate in the user's units), Session.v ([session E P A q l u m n ust s d]: a session started by osqp_setup and continued by any
    calls, whose user has by now supplied the problem d). *)
From Coq Require Import ZArith Reals List Bool Lia Lra String.
From Verif Require Import Num Arr ArrFacts RSum Csc CscSpec CscFacts CscFacts2 CscExamples Vec VecFacts Types Kkt KktSpec KktDense Linsys LinsysFacts LinsysSolve Scaling Validate Auxil Polish Api
  Inv RecSimp InvStep InvApi InvScale InvSolve ValidFacts InvUpd InvSetup History RealVec RealStep Frame FrameSolve ProbSpec ScaleReal FrameUpd UserSpec Refine ExEnv Ldl LdlEnv Session ExReal DataFacts Obs DataClaims ApiClaims KktClaims
  QpSpec AdmmSpec Mid Trace AdmmClaims PassFacts TermSpec TermSolve SolveClaims SolveUser SolveEx.
Import ListNotations.
Open Scope Z_scope.

(** C13: with an exact linear solver, every iteration of a solve of a convex problem is one ADMM iteration for the stored problem:
    the linear-system half step, relaxation by alpha, projection on the bounds and dual update; and delta_x and delta_y hold the
    steps of x and y. *)
Theorem C13_step : forall E, env_ok E -> forall P A q l u m n ust, exact_ldl E -> forall s d k t t',
  session E P A q l u m n ust s d -> convex d -> rho_in_range ust -> iterate E s k t t' ->
  (exists xt zt, admm1 (d_n (w_data (sv_work s))) (d_m (w_data (sv_work s))) (sdns (d_P (w_data (sv_work s)))) (dns (d_A (w_data (sv_work s))))
      (rnth (d_q (w_data (sv_work s)))) (rnth (d_l (w_data (sv_work s)))) (rnth (d_u (w_data (sv_work s)))) (st_sigma (sv_settings s)) (st_alpha (sv_settings s)) (rho_at (sv_settings t) (sv_work t))
      (rnth (w_x (sv_work t))) (rnth (w_z (sv_work t))) (rnth (w_y (sv_work t))) (rnth (w_x (sv_work t'))) (rnth (w_z (sv_work t'))) (rnth (w_y (sv_work t'))) xt zt) /\
    (forall i, 0 <= i < n -> rnth (w_delta_x (sv_work t')) i = (rnth (w_x (sv_work t')) i - rnth (w_x (sv_work t)) i)%R) /\
    (forall i, 0 <= i < m -> rnth (w_delta_y (sv_work t')) i = (rnth (w_y (sv_work t')) i - rnth (w_y (sv_work t)) i)%R).
Proof. exact iterate_step. Qed.
Print Assumptions C13_step.
Example C13_step_ex : env_ok rE /\ exact_ldl rE /\ rho_in_range rst /\
  exists s d t t', session rE rP rA (Some rq) (Some rl) (Some ru) 3 2 rst s d /\ convex d /\ iterate rE s 1 t t'.
Proof. exact ex_first. Qed.

(** C13: the half step minimises the augmented Lagrangian over all of R^n. *)
Theorem C13_minimises : forall E, env_ok E -> forall P A q l u m n ust, exact_ldl E -> forall s d k t t',
  session E P A q l u m n ust s d -> convex d -> rho_in_range ust -> iterate E s k t t' ->
  let p := qp_of (w_data (sv_work s)) in let al := st_alpha (sv_settings s) in
  exists xt, (forall i, 0 <= i < n -> rnth (w_x (sv_work t')) i = (al * xt i + (1 - al) * rnth (w_x (sv_work t)) i)%R) /\
    forall v, (augmented p (st_sigma (sv_settings s)) (rho_at (sv_settings t) (sv_work t)) (rnth (w_x (sv_work t))) (rnth (w_z (sv_work t))) (rnth (w_y (sv_work t))) xt <=
      augmented p (st_sigma (sv_settings s)) (rho_at (sv_settings t) (sv_work t)) (rnth (w_x (sv_work t))) (rnth (w_z (sv_work t))) (rnth (w_y (sv_work t))) v)%R.
Proof. exact iterate_minimises. Qed.
Print Assumptions C13_minimises.
Example C13_minimises_ex : env_ok rE /\ exact_ldl rE /\ rho_in_range rst /\
  exists s d t t', session rE rP rA (Some rq) (Some rl) (Some ru) 3 2 rst s d /\ convex d /\ iterate rE s 1 t t'.
Proof. exact ex_first. Qed.

(** C17: whatever scaling a session holds, the problem the solver works on is the user's problem after the change of variables
    x = D xs, z = zs / E, y = E ys / c with positive c, D, E: the same points are feasible, optimal or KKT points, and the objective
    is multiplied by c. *)
Theorem C17_units : forall E, env_ok E -> forall P A q l u m n ust s d, session E P A q l u m n ust s d ->
  let p := qp_of (w_data (sv_work s)) in
  (0 < uc s)%R /\ (forall i, 0 <= i < n -> (0 < uD s i)%R) /\ (forall i, 0 <= i < m -> (0 < uE s i)%R) /\
  forall xs zs ys, let x := fun i => (uD s i * xs i)%R in let z := fun i => (zs i / uE s i)%R in let y := fun i => (uE s i * ys i / uc s)%R in
    objective p xs = (uc s * objective (qp_of d) x)%R /\ (feasible p xs <-> feasible (qp_of d) x) /\ (minimiser p xs <-> minimiser (qp_of d) x) /\
    (kkt p xs zs ys <-> kkt (qp_of d) x z y).
Proof. exact session_units. Qed.
Print Assumptions C17_units.
Example C17_units_ex : env_ok rE /\ exists s d, session rE rP rA (Some rq) (Some rl) (Some ru) 3 2 rst s d /\ st_scaling (sv_settings s) = 10.
Proof. exact ex_scaled. Qed.

(** C17: what a solve hands back is the iterate in the user's units. *)
Theorem C17_returned : forall E, env_ok E -> forall P A q l u m n ust s d fl s' o, session E P A q l u m n ust s d ->
  i_status_val (sv_info s) = OSQP_UNSOLVED -> solve E s = Some (fl, s') -> fl <= 0 -> has_solution (sv_info s') = true -> sv_solution s' = Some o ->
  (forall i, 0 <= i < n -> rnth (so_x o) i = ux s' i) /\ (forall i, 0 <= i < m -> rnth (so_y o) i = uy s' i).
Proof. exact solution_state. Qed.
Print Assumptions C17_returned.
Example C17_returned_ex : exists s d s' o, session rE rP rA (Some rq) (Some rl) (Some ru) 3 2 wst s d /\ i_status_val (sv_info s) = OSQP_UNSOLVED /\
  solve rE s = Some (0, s') /\ has_solution (sv_info s') = true /\ sv_solution s' = Some o.
Proof. exact ex_returned. Qed.

(** C29: in any number system (reals or IEEE doubles), after every iteration of every solve each z_i is one of its bounds or strictly
    between them. *)
Theorem C29_within : forall (K : NumOps) (E : Env K), env_ok E -> nltb (OSQP_RHO_MIN K) (OSQP_RHO_MAX K) = true ->
  forall g P q A l u m n st s0 g' s k t t', data_readable P q A l u m n -> osqp_setup E g P q A l u m n st = Some (0, Some s0, g') -> reach E s0 s ->
  iterate E s k t t' -> w_data (sv_work t') = w_data (sv_work s) /\
  forall i, 0 <= i < d_m (w_data (sv_work t')) ->
    within (znth n0 (d_l (w_data (sv_work t'))) i) (znth n0 (d_u (w_data (sv_work t'))) i) (znth n0 (w_z (sv_work t')) i).
Proof. exact @iterate_within. Qed.
Print Assumptions C29_within.
Example C29_within_ex : data_readable (Some rP) (Some rq) (Some rA) (Some rl) (Some ru) 3 2 /\ exists g s0 g' t t',
  osqp_setup rE g (Some rP) (Some rq) (Some rA) (Some rl) (Some ru) 3 2 (Some rst) = Some (0, Some s0, g') /\ reach rE s0 s0 /\ iterate rE s0 1 t t'.
Proof. exact ex_within. Qed.

(** C30: after every iteration y is complementary to z: y_i > 0 only where z_i is the upper bound, y_i < 0 only where z_i is the
    lower bound; both for the stored problem and in the user's units. *)
Theorem C30_iterate : forall E, env_ok E -> forall P A q l u m n ust s d k t t',
  session E P A q l u m n ust s d -> rho_in_range ust -> iterate E s k t t' ->
  (forall i, 0 <= i < m -> ncone (rnth (d_l (w_data (sv_work s))) i) (rnth (d_u (w_data (sv_work s))) i) (rnth (w_z (sv_work t')) i) (rnth (w_y (sv_work t')) i)) /\
  (forall i, 0 <= i < m -> ncone (rnth (d_l d) i) (rnth (d_u d) i) (uz t' i) (uy t' i)).
Proof. exact iterate_cone. Qed.
Print Assumptions C30_iterate.
Example C30_iterate_ex : env_ok rE /\ exact_ldl rE /\ rho_in_range rst /\
  exists s d t t', session rE rP rA (Some rq) (Some rl) (Some ru) 3 2 rst s d /\ convex d /\ iterate rE s 1 t t'.
Proof. exact ex_first. Qed.

(** C30: the point a solve is left with, unless polishing replaced it. *)
Theorem C30_returned : forall E, env_ok E -> forall P A q l u m n ust s d fl s',
  session E P A q l u m n ust s d -> rho_in_range ust -> solve E s = Some (fl, s') -> has_solution (sv_info s') = true -> ~ polished s' ->
  forall i, 0 <= i < m -> ncone (rnth (d_l d) i) (rnth (d_u d) i) (uz s' i) (uy s' i).
Proof. exact solve_cone. Qed.
Print Assumptions C30_returned.
Example C30_returned_ex : rho_in_range wst /\ exists s d fl s', session rE rP rA (Some rq) (Some rl) (Some ru) 3 2 wst s d /\
  solve rE s = Some (fl, s') /\ has_solution (sv_info s') = true /\ ~ polished s'.
Proof. exact ex_unpolished. Qed.

(** C31: an iteration of a convex problem that leaves x, z, y where they were has found a KKT point, and x is a minimiser. *)
Theorem C31_fixed_kkt : forall E, env_ok E -> forall P A q l u m n ust, exact_ldl E -> forall s d k t t',
  session E P A q l u m n ust s d -> convex d -> rho_in_range ust -> iterate E s k t t' ->
  (forall i, 0 <= i < n -> ux t' i = ux t i) -> (forall i, 0 <= i < m -> uz t' i = uz t i) -> (forall i, 0 <= i < m -> uy t' i = uy t i) ->
  kkt (qp_of d) (ux t) (uz t) (uy t) /\ minimiser (qp_of d) (ux t).
Proof. exact iterate_fixed_kkt. Qed.
Print Assumptions C31_fixed_kkt.
Example C31_fixed_kkt_ex : exists s d t t', session rE rP rA (Some rq) (Some rl) (Some ru) 3 2 wst s d /\ convex d /\ rho_in_range wst /\ iterate rE s 1 t t' /\
  kkt (qp_of d) (ux t) (uz t) (uy t) /\ (forall i, 0 <= i < 2 -> ux t' i = ux t i) /\ (forall i, 0 <= i < 3 -> uz t' i = uz t i) /\ (forall i, 0 <= i < 3 -> uy t' i = uy t i).
Proof. exact ex_fixed. Qed.

(** C31: conversely an iteration started at a KKT point does not move. *)
Theorem C31_kkt_fixed : forall E, env_ok E -> forall P A q l u m n ust, exact_ldl E -> forall s d k t t',
  session E P A q l u m n ust s d -> convex d -> rho_in_range ust -> iterate E s k t t' -> kkt (qp_of d) (ux t) (uz t) (uy t) ->
  (forall i, 0 <= i < n -> ux t' i = ux t i) /\ (forall i, 0 <= i < m -> uz t' i = uz t i) /\ (forall i, 0 <= i < m -> uy t' i = uy t i).
Proof. exact iterate_kkt_fixed. Qed.
Print Assumptions C31_kkt_fixed.
Example C31_kkt_fixed_ex : exists s d t t', session rE rP rA (Some rq) (Some rl) (Some ru) 3 2 wst s d /\ convex d /\ rho_in_range wst /\ iterate rE s 1 t t' /\
  kkt (qp_of d) (ux t) (uz t) (uy t) /\ (forall i, 0 <= i < 2 -> ux t' i = ux t i) /\ (forall i, 0 <= i < 3 -> uz t' i = uz t i) /\ (forall i, 0 <= i < 3 -> uy t' i = uy t i).
Proof. exact ex_fixed. Qed.

(** C31: a solve warm-started at a KKT point gives that point back, however many iterations it makes. *)
Theorem C31_solve : forall E, env_ok E -> forall P A q l u m n ust, exact_ldl E -> forall s d fl s',
  session E P A q l u m n ust s d -> convex d -> rho_in_range ust -> tr (st_warm_starting (sv_settings s)) = true -> kkt (qp_of d) (ux s) (uz s) (uy s) ->
  solve E s = Some (fl, s') -> has_solution (sv_info s') = true -> ~ polished s' ->
  (forall i, 0 <= i < n -> ux s' i = ux s i) /\ (forall i, 0 <= i < m -> uz s' i = uz s i) /\ (forall i, 0 <= i < m -> uy s' i = uy s i).
Proof. exact solve_at_kkt. Qed.
Print Assumptions C31_solve.
Example C31_solve_ex : exists s d fl s', session rE rP rA (Some rq) (Some rl) (Some ru) 3 2 wst s d /\ convex d /\ rho_in_range wst /\ tr (st_warm_starting (sv_settings s)) = true /\
  kkt (qp_of d) (ux s) (uz s) (uy s) /\ solve rE s = Some (fl, s') /\ has_solution (sv_info s') = true /\ ~ polished s'.
Proof. exact ex_solve_kkt. Qed.

(** C66: from the second iteration on, no iteration moves away from any KKT point, measured in the metric of the current penalties;
    the distance drops by at least alpha (2 - alpha) times the squared length of the half step. *)
Theorem C66_fejer : forall E, env_ok E -> forall P A q l u m n ust, exact_ldl E -> forall s d k t t' xs zs ys,
  session E P A q l u m n ust s d -> convex d -> rho_in_range ust -> iterate E s k t t' -> 2 <= k -> kkt (qp_of d) xs zs ys ->
  let D := wdist (uc s) (uD s) (uE s) n m (st_sigma (sv_settings s)) (rho_at (sv_settings t) (sv_work t)) in let al := st_alpha (sv_settings s) in
  exists xt : Z -> R, (forall i, 0 <= i < n -> ux t' i = (al * xt i + (1 - al) * ux t i)%R) /\
    (D (ux t') (uz t') (uy t') xs zs ys + al * (2 - al) * wmoved (uD s) (uE s) n m (st_sigma (sv_settings s)) (rho_at (sv_settings t) (sv_work t)) xt (Amul (qp_of d) xt) (ux t) (uz t) <=
     D (ux t) (uz t) (uy t) xs zs ys)%R.
Proof. exact iterate_fejer. Qed.
Print Assumptions C66_fejer.
Example C66_fejer_ex : exists s d t t' xs zs ys, session rE rP rA (Some rq) (Some rl) (Some ru) 3 2 nst s d /\ convex d /\ rho_in_range nst /\ iterate rE s 2 t t' /\ kkt (qp_of d) xs zs ys.
Proof. exact ex_fejer. Qed.
