(** C84: the estimate of rho a solve reports.  E is any environment, K any number system: binary64 included. *)
From Coq Require Import ZArith List Bool.
From Verif Require Import Num Arr Csc Vec Types Linsys Scaling Validate Auxil Polish Api LinsysFacts History Trace Mid PassFacts ExEnv Runs SetupClaims KktErr MachineSpec MachineTerm MachineSolve MachineClaims MachineEx KktEx.
Import ListNotations.
Open Scope Z_scope.
Notation stat s := (i_status_val (sv_info s)).
Notation rho_range K := (nltb (OSQP_RHO_MIN K) (OSQP_RHO_MAX K) = true).
Notation D s := (w_data (sv_work s)).

(** C84: with at least one constraint, unless the time limit cut the solve short of "solved", the estimate reported is the rho in use times the square
    root of the quotient of the two relative residuals of the last iterate of the stored problem, kept between 1e-6 and 1e6. *)
Theorem C84_estimate : forall (K : NumOps) (E : Env K), env_ok E -> rho_range K -> forall P A q l u m n ust s fl s', lives E P A q l u m n ust s -> stat s = OSQP_UNSOLVED -> solve E s = Some (fl, s') ->
  stat s' <> OSQP_SIGINT /\ stat s' <> OSQP_UNSOLVED -> m <> 0 ->
  exists k t t1, 1 <= k <= st_max_iter (sv_settings s) /\ iterate E s k t t1 /\ (time_over E t1 = true /\ stat s' <> OSQP_SOLVED \/ exists ax px aty,
    (exists b, csc_Axpy (d_A (D s)) (w_x (sv_work t1)) b n1 n0 = Some ax) /\ (exists b, csc_Axpy_sym_triu (d_P (D s)) (w_x (sv_work t1)) b n1 n0 = Some px) /\
    (exists b, csc_Atxpy (d_A (D s)) (w_y (sv_work t1)) b n1 n0 = Some aty) /\
    i_rho_estimate (sv_info s') = balance (st_rho (sv_settings s')) (d_q (D s)) (w_z (sv_work t1)) ax px aty).
Proof. exact @machine_estimate. Qed.
Print Assumptions C84_estimate.
Example C84_estimate_ex : env_ok fE /\ rho_range F64 /\ (exists s s', ecase fst0 s s' /\ e_between s' = true) /\ 3 <> 0.
Proof. exact (conj fE_ok (conj MM_F64 (conj e_estimate (fun H : 3 = 0 => eq_ind 3 (fun z => match z with 3 => True | _ => False end) I 0 H)))). Qed.

(** C84: whatever the residuals, NaN and infinities included, the estimate reported is 1e-6, 1e6 or a number between them. *)
Theorem C84_range : forall (K : NumOps) (E : Env K), env_ok E -> rho_range K -> forall P A q l u m n ust s fl s', lives E P A q l u m n ust s -> stat s = OSQP_UNSOLVED -> solve E s = Some (fl, s') ->
  stat s' <> OSQP_SIGINT /\ stat s' <> OSQP_UNSOLVED -> let r := i_rho_estimate (sv_info s') in
  r = nlit 1 (-6) \/ r = nlit 1 6 \/ nltb (nlit 1 (-6)) r = true /\ nltb r (nlit 1 6) = true.
Proof. exact @machine_estimate_range. Qed.
Print Assumptions C84_range.
Example C84_range_ex : env_ok fE /\ rho_range F64 /\ exists s s', ecase fst0 s s' /\ e_between s' = true.
Proof. exact (conj fE_ok (conj MM_F64 e_estimate)). Qed.
