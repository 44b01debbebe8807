(** What polishing does for the user's problem, in exact arithmetic, for every problem, every history of calls that led to the solver, every clock, every
    pattern of interrupts and every linear-system oracle.

    The specifications used: those of Props_Solve.v and, from PolishSpec.v, [presid], [dresid] (the primal and the dual residual), [improves] (what counts as an
    improvement), [on_lower], [on_upper] (the constraints taken to be active), [newton], [newtons] (the regularised Newton steps), [recovered], [polish_of] (what
    polishing makes of a point), [gw], [hw] (the weights the scaling of the data gives to constraints and variables: 1 without scaling); [active] and [polish_point]
    are in PolishUser.v. [polished s'] says that polishing was on and reported success. *)
From Coq Require Import ZArith Reals List Bool Lia Lra String.
From Verif Require Import Num Arr Csc CscSpec Vec Types Kkt Linsys LinsysFacts Validate Auxil Polish Api
  History RealVec RealStep Frame FrameSolve UserSpec Refine ExEnv Ldl LdlEnv Session ExReal Obs DataClaims ApiClaims KktClaims
  QpSpec AdmmSpec PolishSpec Mid Trace AdmmClaims PassFacts SolveEnd TermSpec TermFacts TermCheck TermSolve SolveClaims SolveUser PolishUser SolveEx PolishEx.
Import ListNotations.
Open Scope Z_scope.
Notation stat s := (i_status_val (sv_info s)).
Notation pres d t := (presid (qp_of d) (ux t) (uz t)).
Notation dres d t := (dresid (qp_of d) (ux t) (uy t)).
Notation steps s := (S (Z.to_nat (st_polish_refine_iter (sv_settings s)))).

(** C46: a polished point is returned in place of the last iterate only if it improves on it: both residuals fell, or one fell and the other had been below 1e-10. *)
Theorem C46_accepted : forall E, env_ok E -> forall P A q l u m n ust s d fl s', session E P A q l u m n ust s d -> stat s = OSQP_UNSOLVED -> solve E s = Some (fl, s') -> tests_users (sv_settings s) ->
  polished s' -> exists k t t1, 1 <= k <= st_max_iter (sv_settings s) /\ iterate E s k t t1 /\
    meets (sv_settings s) (qp_of d) (uc s) (uE s) 1 (ux t1) (uz t1) (uy t1) /\ improves (pres d t1) (dres d t1) (pres d s') (dres d s') /\ solution_is m n fl s' (ux s') (uy s').
Proof. exact user_accepted. Qed.
Print Assumptions C46_accepted.
Example C46_accepted_ex : env_ok rE /\ exists s d fl s', ex_polish (yP 1) (yA 1 1) [(-1)%R] [(-5)%R; (/ 2)%R] [5%R; (/ 2)%R] (ystp 1 2 1) s d fl s' /\ polished s'.
Proof. split; [exact rE_ok|exact ex_accepted]. Qed.

(** C46: otherwise the last iterate and its residuals are kept, and the polish status says why: the candidate did not improve, no constraint is active, or (never
    with an exact factorisation of a convex problem) the factorisation failed; only then is an error returned. *)
Theorem C46_rejected : forall E, env_ok E -> forall P A q l u m n ust s d fl s', session E P A q l u m n ust s d -> stat s = OSQP_UNSOLVED -> solve E s = Some (fl, s') -> tests_users (sv_settings s) ->
  tr (st_polishing (sv_settings s)) = true -> stat s' = OSQP_SOLVED -> ~ polished s' ->
  exists k t t1, 1 <= k <= st_max_iter (sv_settings s) /\ iterate E s k t t1 /\ ux s' = ux t1 /\ uz s' = uz t1 /\ uy s' = uy t1 /\ i_prim_res (sv_info s') = pres d s' /\ i_dual_res (sv_info s') = dres d s' /\
    (i_status_polish (sv_info s') = OSQP_POLISH_FAILED /\ fl = 0 /\
       (exists x z y, polish_point E (qp_of d) (st_sigma (sv_settings s)) (gw (uc s) (uE s)) (hw (uc s) (uD s)) (uz t1) (uy t1) (steps s) x z y /\
          ~ improves (pres d t1) (dres d t1) (presid (qp_of d) x z) (dresid (qp_of d) x y)) \/
     i_status_polish (sv_info s') = OSQP_POLISH_NO_ACTIVE_SET_FOUND /\ fl = 0 /\ (forall i, 0 <= i < m -> ~ active s d t1 i) \/
     i_status_polish (sv_info s') = OSQP_POLISH_LINSYS_ERROR /\ fl = OSQP_NONCVX_ERROR /\ ~ (exact_ldl E /\ convex d)).
Proof. exact user_rejected. Qed.
Print Assumptions C46_rejected.
Example C46_rejected_ex : env_ok rE /\ exists s d fl s', ex_polish (yP 1) (yA 1 1) [(-1)%R] [(-5)%R; (-5)%R] [5%R; 5%R] (ystp 1 2 1) s d fl s' /\ ~ polished s'.
Proof. split; [exact rE_ok|exact ex_rejected]. Qed.

(** C46: with an exact factorisation and a convex problem this is exact: polishing succeeds if and only if some constraint is active at the last iterate and what the
    Newton steps make of it improves. *)
Theorem C46_complete : forall E, env_ok E -> forall P A q l u m n ust s d fl s', session E P A q l u m n ust s d -> stat s = OSQP_UNSOLVED -> solve E s = Some (fl, s') -> tests_users (sv_settings s) ->
  exact_ldl E -> convex d -> tr (st_polishing (sv_settings s)) = true -> stat s' = OSQP_SOLVED -> exists k t t1, 1 <= k <= st_max_iter (sv_settings s) /\ iterate E s k t t1 /\
    (polished s' <-> (exists i, 0 <= i < m /\ active s d t1 i) /\
       exists x z y, polish_of (qp_of d) (st_sigma (sv_settings s)) (gw (uc s) (uE s)) (hw (uc s) (uD s)) (uz t1) (uy t1) (steps s) x z y /\
         improves (pres d t1) (dres d t1) (presid (qp_of d) x z) (dresid (qp_of d) x y)).
Proof. exact user_polish_complete. Qed.
Print Assumptions C46_complete.
Example C46_complete_ex : env_ok rE /\ exact_ldl rE /\ (exists s d fl s', ex_polish (yP 1) (yA 1 1) [(-1)%R] [(-5)%R; (/ 2)%R] [5%R; (/ 2)%R] (ystp 1 2 1) s d fl s' /\ polished s') /\
  exists s d fl s', ex_polish (yP 1) (yA 1 1) [(-1)%R] [(-5)%R; (-5)%R] [5%R; 5%R] (ystp 1 2 1) s d fl s' /\ ~ polished s'.
Proof. split; [exact rE_ok|]. split; [exact rE_exact|]. split; [exact ex_accepted|exact ex_rejected]. Qed.

(** C47: a polished solution is complementary: z lies within the bounds, and a multiplier is positive only at its upper and negative only at its lower bound. *)
Theorem C47_complementary : forall E, env_ok E -> forall P A q l u m n ust s d fl s', session E P A q l u m n ust s d -> stat s = OSQP_UNSOLVED -> solve E s = Some (fl, s') -> tests_users (sv_settings s) ->
  polished s' -> forall i, 0 <= i < m -> ncone (rnth (d_l d) i) (rnth (d_u d) i) (uz s' i) (uy s' i).
Proof. exact user_polished_cone. Qed.
Print Assumptions C47_complementary.
Example C47_complementary_ex : env_ok rE /\ exists s d fl s', ex_polish (yP 1) (yA 1 1) [(-1)%R] [(-5)%R; (/ 2)%R] [5%R; (/ 2)%R] (ystp 1 2 1) s d fl s' /\ polished s'.
Proof. split; [exact rE_ok|exact ex_accepted]. Qed.

(** C47: it comes from the Newton steps for the problem with the constraints active at the last iterate held at their bounds and the others left out. *)
Theorem C47_system : forall E, env_ok E -> forall P A q l u m n ust s d fl s', session E P A q l u m n ust s d -> stat s = OSQP_UNSOLVED -> solve E s = Some (fl, s') -> tests_users (sv_settings s) ->
  exact_ldl E -> polished s' -> exists k t t1, 1 <= k <= st_max_iter (sv_settings s) /\ iterate E s k t t1 /\
    polish_of (qp_of d) (st_sigma (sv_settings s)) (gw (uc s) (uE s)) (hw (uc s) (uD s)) (uz t1) (uy t1) (steps s) (ux s') (uz s') (uy s').
Proof. exact user_polished_system. Qed.
Print Assumptions C47_system.
Example C47_system_ex : env_ok rE /\ exact_ldl rE /\ exists s d fl s', ex_polish (yP 1) (yA 1 1) [(-1)%R] [(-5)%R; (/ 2)%R] [5%R; (/ 2)%R] (ystp 1 2 1) s d fl s' /\ polished s'.
Proof. split; [exact rE_ok|]. split; [exact rE_exact|exact ex_accepted]. Qed.

(** C41, C32: the residuals, objective, dual objective and duality gap reported with a polished solution are those of the polished point. *)
Theorem C41_polished : forall E, env_ok E -> forall P A q l u m n ust s d fl s', session E P A q l u m n ust s d -> stat s = OSQP_UNSOLVED -> solve E s = Some (fl, s') -> tests_users (sv_settings s) ->
  polished s' -> i_prim_res (sv_info s') = pres d s' /\ i_dual_res (sv_info s') = dres d s' /\ i_obj_val (sv_info s') = objective (qp_of d) (ux s') /\
    (exists v, trimmed (uc s) (uE s) m (rnth (d_l d)) (rnth (d_u d)) (uy s') v /\ i_dual_obj_val (sv_info s') = (- / 2 * quad (qp_of d) (ux s') - support (qp_of d) v)%R) /\
    i_duality_gap (sv_info s') = (i_obj_val (sv_info s') - i_dual_obj_val (sv_info s'))%R.
Proof. exact user_polished_info. Qed.
Print Assumptions C41_polished.
Example C41_polished_ex : env_ok rE /\ exists s d fl s', ex_polish (yP 1) (yA 1 1) [(-1)%R] [(-5)%R; (/ 2)%R] [5%R; (/ 2)%R] (ystp 1 2 1) s d fl s' /\ polished s'.
Proof. split; [exact rE_ok|exact ex_accepted]. Qed.

(** C63: polishing never fails on a convex problem. *)
Theorem C63_polish : forall E, env_ok E -> forall P A q l u m n ust s d fl s', session E P A q l u m n ust s d -> stat s = OSQP_UNSOLVED -> solve E s = Some (fl, s') -> tests_users (sv_settings s) ->
  exact_ldl E -> convex d -> tr (st_polishing (sv_settings s)) = true -> stat s' = OSQP_SOLVED -> fl = 0 /\ i_status_polish (sv_info s') <> OSQP_POLISH_LINSYS_ERROR.
Proof. exact user_polish_noerror. Qed.
Print Assumptions C63_polish.
Example C63_polish_ex : env_ok rE /\ exact_ldl rE /\ exists s d fl s', ex_polish (yP 1) (yA 1 1) [(-1)%R] [(-5)%R; (/ 2)%R] [5%R; (/ 2)%R] (ystp 1 2 1) s d fl s' /\ polished s'.
Proof. split; [exact rE_ok|]. split; [exact rE_exact|exact ex_accepted]. Qed.
