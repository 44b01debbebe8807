(** C72 - C75: differentiation through the solution.

    Specification: DerivSpec.v ([direction]: how the data may move; [tangent]: the optimality conditions differentiated; [predicted]: the first-order change a gradient predicts; [conditioned]: the
    Jacobian of the optimality conditions is bounded below), DerivPath.v ([solution_path]: a differentiable family of problems with differentiable, strictly complementary solutions),
    DerivReach.v ([regular]: what is asked of the solution, [returns_gradient] and [follows_paths]: what the three functions have to return, [deriv_state]: the derivative data of a solver with
    n variables and m constraints, as setup made them or as earlier calls left them, [mat_of]: a well-formed matrix of the given size). *)
From Coq Require Import ZArith Reals List Bool Lia Lra SpecFloat.
From Verif Require Import Num Arr ArrFacts Csc CscSpec Vec Types Linsys LinsysFacts Auxil Api LdlEnv Inv InvApi InvSetup History RealVec UserSpec Refine Session ExReal SolveEx QpSpec ValidFacts SetupClaims Runs
  Deriv DerivSpec DerivMain DerivPath DerivReach DerivEx.
Import ListNotations.
Open Scope Z_scope.

(** C72: at a regular optimal solution, when dy is zero on the constraints with a negative multiplier, osqp_adjoint_derivative_compute returns 0 and the matrices and vectors that the two get functions
    then write are the gradients of sum dx_j x_j + sum dy_i y_i, up to 10^-12 (1 + 1/k) times the size of the movement of the solution. *)
Theorem C72_gradient : forall E, env_ok E -> exact_ldl E -> forall P A q l u m n ust s d so dd dx dy k, session E P A q l u m n ust s d -> sv_solution s = Some so -> deriv_state E m n dd ->
  n <= rlen dx -> m <= rlen dy -> regular (qp_of d) (rnth (so_x so)) (rnth (so_y so)) (rnth dx) (rnth dy) k -> (forall i, 0 <= i < m -> (rnth (so_y so) i < 0)%R -> rnth dy i = 0%R) ->
  returns_gradient E s dd (qp_of d) (rnth (so_x so)) (rnth (so_y so)) dx dy (rnth dy) (/ 10 ^ 12 * (1 + / k))%R.
Proof. exact session_gradient_dy. Qed.
Print Assumptions C72_gradient.
(** the demo problem at its optimum (0.3, 0.7), an equality, an inactive constraint and an active upper bound; dx = (1, 0), dy = (0, 0, 1); the active bound may move *)
Example C72_gradient_ex : env_ok rE /\ exact_ldl rE /\ exists s d so dd, session rE rP rA (Some rq) (Some rl) (Some ru) 3 2 wst s d /\ sv_solution s = Some so /\ deriv_state rE 3 2 dd /\
  2 <= rlen exdx /\ 3 <= rlen (exdy 0) /\ regular (qp_of d) (rnth (so_x so)) (rnth (so_y so)) (rnth exdx) (rnth (exdy 0)) (/ 100) /\
  (forall i, 0 <= i < 3 -> (rnth (so_y so) i < 0)%R -> rnth (exdy 0) i = 0%R) /\
  direction (qp_of d) up2 /\ tangent (qp_of d) up2 (rnth (so_x so)) (rnth (so_y so)) upx upy.
Proof.
  split; [exact rE_ok|]. split; [exact rE_exact|]. destruct (ex_ready 0 (or_introl eq_refl)) as (s & d & so & dd & H1 & H2 & H3 & H4 & H5 & H6 & H7 & _ & _ & _ & _ & H8 & H9 & _).
  exists s, d, so, dd. specialize (H7 eq_refl). auto 10.
Qed.

(** C72: stated with families of problems instead of directions. *)
Theorem C72_path : forall E, env_ok E -> exact_ldl E -> forall P A q l u m n ust s d so dd dx dy k, session E P A q l u m n ust s d -> sv_solution s = Some so -> deriv_state E m n dd ->
  n <= rlen dx -> m <= rlen dy -> regular (qp_of d) (rnth (so_x so)) (rnth (so_y so)) (rnth dx) (rnth dy) k -> (forall i, 0 <= i < m -> (rnth (so_y so) i < 0)%R -> rnth dy i = 0%R) ->
  follows_paths E s dd d (rnth (so_x so)) (rnth (so_y so)) dx dy (rnth dy) (/ 10 ^ 12 * (1 + / k))%R.
Proof. exact session_path_dy. Qed.
Print Assumptions C72_path.
(** the bound u_3 = 0.7 + t, with the solutions (0.3 - t, 0.7 + t) and multipliers (-2.9 + 3t, 0, 0.2 - 4t) *)
Example C72_path_ex : env_ok rE /\ exact_ldl rE /\ exists s d so dd, session rE rP rA (Some rq) (Some rl) (Some ru) 3 2 wst s d /\ sv_solution s = Some so /\ deriv_state rE 3 2 dd /\
  2 <= rlen exdx /\ 3 <= rlen (exdy 0) /\ regular (qp_of d) (rnth (so_x so)) (rnth (so_y so)) (rnth exdx) (rnth (exdy 0)) (/ 100) /\
  (forall i, 0 <= i < 3 -> (rnth (so_y so) i < 0)%R -> rnth (exdy 0) i = 0%R) /\
  solution_path (pathp d) pathx pathy up2 upx upy /\ same_qp (pathp d 0) (qp_of d) /\ (forall j, 0 <= j < 2 -> pathx 0 j = rnth (so_x so) j) /\ (forall i, 0 <= i < 3 -> pathy 0 i = rnth (so_y so) i).
Proof.
  split; [exact rE_ok|]. split; [exact rE_exact|]. destruct (ex_ready 0 (or_introl eq_refl)) as (s & d & so & dd & H1 & H2 & H3 & H4 & H5 & H6 & H7 & _ & _ & _ & _ & _ & _ & H8 & H9 & H10 & H11 & _).
  exists s, d, so, dd. specialize (H7 eq_refl). auto 12.
Qed.

(** C73 is false: at a regular solution with a negative multiplier the functions do not return the gradient of sum dx_j x_j + sum dy_i y_i. *)
Theorem C73_documented_refuted : ~ (forall E, env_ok E -> exact_ldl E -> forall P A q l u m n ust s d so dd dx dy k, session E P A q l u m n ust s d -> sv_solution s = Some so -> deriv_state E m n dd ->
  n <= rlen dx -> m <= rlen dy -> regular (qp_of d) (rnth (so_x so)) (rnth (so_y so)) (rnth dx) (rnth dy) k ->
  returns_gradient E s dd (qp_of d) (rnth (so_x so)) (rnth (so_y so)) dx dy (rnth dy) (/ 10 ^ 12 * (1 + / k))%R).
Proof. exact dy_refuted. Qed.
Print Assumptions C73_documented_refuted.
(** C73, what they return: the gradient of sum dx_j x_j + sum dy_i |y_i|, that is, with dy_i counted negatively where y_i < 0. *)
Theorem C73_signed : forall E, env_ok E -> exact_ldl E -> forall P A q l u m n ust s d so dd dx dy k, session E P A q l u m n ust s d -> sv_solution s = Some so -> deriv_state E m n dd ->
  n <= rlen dx -> m <= rlen dy -> regular (qp_of d) (rnth (so_x so)) (rnth (so_y so)) (rnth dx) (rnth dy) k ->
  returns_gradient E s dd (qp_of d) (rnth (so_x so)) (rnth (so_y so)) dx dy (fun i => if Rlt_dec (rnth (so_y so) i) 0 then -1 * rnth dy i else 1 * rnth dy i)%R (/ 10 ^ 12 * (1 + / k))%R.
Proof. exact session_gradient_signed. Qed.
Print Assumptions C73_signed.
(** dy = (1, 0, 1); the first multiplier is negative *)
Example C73_signed_ex : env_ok rE /\ exact_ldl rE /\ exists s d so dd, session rE rP rA (Some rq) (Some rl) (Some ru) 3 2 wst s d /\ sv_solution s = Some so /\ deriv_state rE 3 2 dd /\
  2 <= rlen exdx /\ 3 <= rlen (exdy 1) /\ regular (qp_of d) (rnth (so_x so)) (rnth (so_y so)) (rnth exdx) (rnth (exdy 1)) (/ 100) /\ (rnth (so_y so) 0 < 0)%R /\
  direction (qp_of d) up2 /\ tangent (qp_of d) up2 (rnth (so_x so)) (rnth (so_y so)) upx upy.
Proof.
  split; [exact rE_ok|]. split; [exact rE_exact|]. destruct (ex_ready 1 (or_intror eq_refl)) as (s & d & so & dd & H1 & H2 & H3 & H4 & H5 & H6 & _ & H7 & _ & _ & _ & H8 & H9 & _).
  exists s, d, so, dd. auto 10.
Qed.

(** C74: on every solver that has a solution structure, after any history of calls and whatever the numbers, the three functions stay within the solver's and the caller's arrays, return 0, and write
    only the values of the matrices and the first n or m entries of the vectors. *)
Theorem C74_in_bounds : forall (K : NumOps) (E : Env K), env_ok E -> nltb (OSQP_RHO_MIN K) (OSQP_RHO_MAX K) = true ->
  forall g P q A l u m n st s0 g' s dd so, data_readable P q A l u m n -> osqp_setup E g P q A l u m n st = Some (0, Some s0, g') -> reach E s0 s -> deriv_state E m n dd -> sv_solution s = Some so ->
    (forall dx dy, n <= zlen dx -> m <= zlen dy -> exists dd', osqp_adjoint_derivative_compute E (Some (s, dd)) dx dy = Some (0, Some dd')) /\
    (forall dP dA, mat_of n n dP -> mat_of m n dA -> exists px ax, osqp_adjoint_derivative_get_mat (Some (s, dd)) dP dA = Some (0, (set_x dP px, set_x dA ax)) /\ zlen px = zlen (cx dP) /\ zlen ax = zlen (cx dA)) /\
    (forall dq dl du, n <= zlen dq -> m <= zlen dl -> m <= zlen du ->
      exists dq' dl' du', osqp_adjoint_derivative_get_vec (Some (s, dd)) dq dl du = Some (0, (dq', dl', du')) /\ zlen dq' = zlen dq /\ zlen dl' = zlen dl /\ zlen du' = zlen du /\
        (forall i, n <= i < zlen dq -> znth n0 dq' i = znth n0 dq i) /\ (forall i, m <= i < zlen dl -> znth n0 dl' i = znth n0 dl i) /\ (forall i, m <= i < zlen du -> znth n0 du' i = znth n0 du i)).
Proof. exact (@deriv_calls_safe). Qed.
Print Assumptions C74_in_bounds.
(** the demo problem in binary64, solved and differentiated once *)
Example C74_in_bounds_ex : env_ok fE /\ nltb (OSQP_RHO_MIN F64) (OSQP_RHO_MAX F64) = true /\ data_readable (Some fP) (Some fq) (Some fA) (Some fl) (Some fu) 3 2 /\
  exists s0 g' s so dd, osqp_setup fE g0 (Some fP) (Some fq) (Some fA) (Some fl) (Some fu) 3 2 (Some fst0) = Some (0, Some s0, g') /\ reach fE s0 s /\ deriv_state fE 3 2 dd /\ sv_solution s = Some so /\
  0 < dv_n_ineq_l dd /\ 0 < dv_n_eq dd /\ mat_of 2 2 fP /\ mat_of 3 2 fA.
Proof. exact (conj fE_ok (conj MM_F64 (conj fdata_readable safe_case))). Qed.
(** C74: without a solver they return OSQP_WORKSPACE_NOT_INIT_ERROR and write nothing. *)
Theorem C74_null : forall (K : NumOps) (E : Env K) dx dy dP dA dq dl du,
  osqp_adjoint_derivative_compute E None dx dy = Some (OSQP_WORKSPACE_NOT_INIT_ERROR, None) /\
  @osqp_adjoint_derivative_get_mat K None dP dA = Some (OSQP_WORKSPACE_NOT_INIT_ERROR, (dP, dA)) /\
  @osqp_adjoint_derivative_get_vec K None dq dl du = Some (OSQP_WORKSPACE_NOT_INIT_ERROR, (dq, dl, du)).
Proof. exact (@deriv_null). Qed.
Print Assumptions C74_null.
(** C74 is false without a solution structure: with allocate_solution = 0, which osqp_setup accepts, the call reads through a NULL pointer. *)
Theorem C74_no_solution_refuted : exists s0 g' s, osqp_setup fE g0 (Some fP) (Some fq) (Some fA) (Some fl) (Some fu) 3 2 (Some no_sol) = Some (0, Some s0, g') /\ calls fE [CSolve] s0 = Some ([0], s) /\
  osqp_adjoint_derivative_compute fE (Some (s, deriv_init fE 2 3)) fdx fdy = None.
Proof. exact null_solution. Qed.
Print Assumptions C74_no_solution_refuted.

(** C75 is false: when AMD has no memory for the ordering of the adjoint system the call returns 0 all the same, and the gradients read afterwards are zero although the true ones are not. *)
Theorem C75_failure_refuted : exists s0 g' s dd dq dl du dd' dq' dl' du', osqp_setup fE g0 (Some fP) (Some fq) (Some fA) (Some fl) (Some fu) 3 2 (Some fst0) = Some (0, Some s0, g') /\ calls fE [CSolve] s0 = Some ([0], s) /\
  i_status_val (sv_info s) = OSQP_SOLVED /\
  osqp_adjoint_derivative_compute fE (Some (s, deriv_init fE 2 3)) fdx fdy = Some (0, Some dd) /\ osqp_adjoint_derivative_get_vec (Some (s, dd)) (zrep 2 n0) (zrep 3 n0) (zrep 3 n0) = Some (0, (dq, dl, du)) /\
  osqp_adjoint_derivative_compute (no_amd fE) (Some (s, deriv_init (no_amd fE) 2 3)) fdx fdy = Some (0, Some dd') /\ osqp_adjoint_derivative_get_vec (Some (s, dd')) (zrep 2 n0) (zrep 3 n0) (zrep 3 n0) = Some (0, (dq', dl', du')) /\
  nltb (nlit 9 (-1)) (hd0 dl) = true /\ forallb zerob dl' = true /\ forallb zerob du' = true /\ forallb zerob dq' = true.
Proof. exact amd_lost. Qed.
Print Assumptions C75_failure_refuted.
(** C75 is false: minimising x^2/2 subject to x = 0 the multiplier is zero, the call returns 0 and the gradient with respect to the bound is NaN (it is 1). *)
Theorem C75_multiplier_refuted : exists s0 g' s dd dq dl du, osqp_setup fE g0 (Some e1) (Some [nofZ 0]) (Some e1) (Some [nofZ 0]) (Some [nofZ 0]) 1 1 (Some unscaled) = Some (0, Some s0, g') /\ calls fE [CSolve] s0 = Some ([0], s) /\
  i_status_val (sv_info s) = OSQP_SOLVED /\
  osqp_adjoint_derivative_compute fE (Some (s, deriv_init fE 1 1)) [nofZ 1] [n0] = Some (0, Some dd) /\ osqp_adjoint_derivative_get_vec (Some (s, dd)) (zrep 1 n0) (zrep 1 n0) (zrep 1 n0) = Some (0, (dq, dl, du)) /\
  is_nan (hd0 du) = true.
Proof. exact nan_gradient. Qed.
Print Assumptions C75_multiplier_refuted.
