(** C82: solving again. *)
From Coq Require Import ZArith String List Bool.
From Verif Require Import Num Csc CscSpec Types Validate Auxil Api Linsys LinsysFacts Inv InvApi InvSetup ValidFacts History ExEnv Runs SetupClaims MachineClaims TwinKer TwinHist TwinClaims TwinReset TwinEx TwinAgain AgainEx.
Import ListNotations.
Open Scope Z_scope.

(** C82: two histories of one solver (any calls, but no matrix update of a scaled solver) that end with the same stored problem, settings, status and number of changes of rho, with warm starting off
    or the same iterate, solve alike: the same code, status, solution, certificates, residuals, objectives and counts. *)
Theorem C82_again : forall (K : NumOps) (E : Env K), env_ok E -> @neqb K n0 n0 = true -> nltb (OSQP_RHO_MIN K) (OSQP_RHO_MAX K) = true -> forall (P A : csc K) q l u m n ust g (s0 s t : solver K) g',
  data_readable (Some P) q (Some A) l u m n -> osqp_setup E g (Some P) q (Some A) l u m n (Some ust) = Some (0, Some s0, g') -> later E s0 s -> later E s0 t ->
  w_data (sv_work t) = w_data (sv_work s) -> sv_settings t = sv_settings s -> i_status_val (sv_info t) = i_status_val (sv_info s) -> i_rho_updates (sv_info t) = i_rho_updates (sv_info s) ->
  st_warm_starting (sv_settings s) = 0 \/ w_x (sv_work t) = w_x (sv_work s) /\ w_y (sv_work t) = w_y (sv_work s) /\ w_z (sv_work t) = w_z (sv_work s) ->
  0 < m -> (st_rho_is_vec (sv_settings s) = 0 -> clamp (st_rho ust) = st_rho ust) -> st_adaptive_rho (sv_settings s) <> ADAPTIVE_RHO_KKT_ERROR -> signs (st_rho (sv_settings s)) -> unhurried E s -> unhurried E t ->
  exists fl s' t', run E CSolve s = Some (fl, HSolver s') /\ run E CSolve t = Some (fl, HSolver t') /\ same_outcome fl s' t'.
Proof. exact (fun K E => again E). Qed.
Print Assumptions C82_again.
Example C82_again_ex : env_ok (clockE n0) /\ data_readable (Some fP) (Some fq) (Some fA) (Some fl) (Some fu) 3 2 /\ two_ways coldly /\ two_ways (set_st_rho_is_vec 0 coldly) /\ clamp (st_rho coldly) = st_rho coldly.
Proof. exact (conj (exEnv_ok _ _) (conj fdata_readable both_ways)). Qed.

(** C82 without the condition on the status: with warm starting off the same solver is solved once and twice.  Both times it reports inaccurate primal infeasibility after 30 iterations,
    the first time with an infinite objective, the second time with a finite one. *)
Theorem C82_twice_refuted : exists t t', ends fE iP iq iA il iu 2 1 brief [CSolve] t /\ ends fE iP iq iA il iu 2 1 brief [CSolve; CSolve] t' /\ w_data (sv_work t') = w_data (sv_work t) /\ sv_settings t' = sv_settings t /\
  st_warm_starting (sv_settings t) = 0 /\ i_rho_updates (sv_info t') = i_rho_updates (sv_info t) /\ i_status_val (sv_info t) = OSQP_PRIMAL_INFEASIBLE_INACCURATE /\ i_status_val (sv_info t') = OSQP_PRIMAL_INFEASIBLE_INACCURATE /\
  i_iter (sv_info t') = i_iter (sv_info t) /\ i_obj_val (sv_info t) = OSQP_INFTY F64 /\ nltb (i_obj_val (sv_info t')) (nofZ 1) = true.
Proof. exact twice_differs. Qed.
Print Assumptions C82_twice_refuted.
