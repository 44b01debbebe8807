(** Properties C02 (defaults), C20 (what remains true), C38 (before the first solve), C51, C52 and C59 (what remains true).
    Specifications used: SetupClaims.v ([chosen_interval]: the interval osqp_setup picks; [calls_ok E s0 log s]: the calls in log, latest first, were made on s0
    one after the other, all returned 0, and left s; [pending log]: the updates since the last solve in log; [new_data log]: no solve in log since osqp_setup
    or the last data update; [total E ks]: the sum of the clock readings numbered ks), ValidFacts.v ([settings_ok], [data_readable]), UserSpec.v ([new_vec], [all_le]),
    Session.v ([session]), KktClaims.v. *)
From Coq Require Import ZArith Reals String List Bool Lia Lra.
From Verif Require Import Num Arr ArrFacts RSum Csc CscSpec CscFacts CscFacts2 CscExamples Vec VecFacts Types Kkt KktSpec Linsys LinsysFacts LinsysSolve Scaling Validate Auxil Polish Api
  Inv RecSimp InvStep InvApi InvScale InvSolve ValidFacts InvUpd InvSetup History RealVec RealStep Frame FrameSolve ProbSpec ScaleReal FrameUpd UserSpec Refine ExEnv Ldl LdlEnv Session ExReal DataFacts Obs DataClaims KktClaims
  TimeFacts Runs SetupClaims.
Import ListNotations.
Open Scope Z_scope.

(** C02: the settings written by osqp_set_default_settings are accepted, by osqp_setup and by osqp_update_settings, in real and in binary64 arithmetic. *)
Theorem C02_defaults : settings_ok true (default_settings (K := Rops)) /\
  validate_settings (Some (default_settings (K := Rops))) true = false /\ validate_settings (Some (default_settings (K := Rops))) false = false /\
  validate_settings (Some (default_settings (K := F64))) true = false /\ validate_settings (Some (default_settings (K := F64))) false = false.
Proof. exact defaults_accepted. Qed.
Print Assumptions C02_defaults.

(** C38: after osqp_setup, and after every accepted update of the data, the status is "unsolved" until the next solve. *)
Theorem C38_unsolved_until_solve : forall (K : NumOps) (E : Env K), env_ok E -> nltb (OSQP_RHO_MIN K) (OSQP_RHO_MAX K) = true ->
  forall g P q A l u m n ust s0 g' log s, data_readable P q A l u m n -> osqp_setup E g P q A l u m n (Some ust) = Some (0, Some s0, g') ->
  calls_ok E s0 log s -> new_data log = true -> i_status_val (sv_info s) = OSQP_UNSOLVED.
Proof. exact (@status_log). Qed.
Print Assumptions C38_unsolved_until_solve.
Example C38_unsolved_until_solve_ex : exists s0 g' s, osqp_setup secE g0 (Some fP) (Some fq) (Some fA) (Some fl) (Some fu) 3 2 (Some polishing) = Some (0, Some s0, g') /\
  env_ok secE /\ nltb (OSQP_RHO_MIN F64) (OSQP_RHO_MAX F64) = true /\ data_readable (Some fP) (Some fq) (Some fA) (Some fl) (Some fu) 3 2 /\
  calls_ok secE s0 [CUpdRho (nofZ 1); CUpdVec (Some [nofZ 2; nofZ 1]) None None; CSolve] s.
Proof. destruct timed_case as (s0 & g' & s & s' & H1 & H2 & _). exists s0, g', s. split; [exact H1|]. split; [apply exEnv_ok|]. split; [exact MM_F64|]. split; [exact fdata_readable|exact H2]. Qed.

(** C51: the times reported by a solve that returns 0, after any sequence of calls.  The solve time is one clock reading.  The update time is the sum of one
    reading for every update since the last solve.  The run time is solve time + polish time + (setup time for the first solve, update time for later ones).
    The polish time is this solve's own reading, or what was there before; that is 0 when the data changed since the last solve.
    (It is stale otherwise: C51_run_time_refuted.) *)
Theorem C51_times : forall (K : NumOps) (E : Env K), env_ok E -> nltb (OSQP_RHO_MIN K) (OSQP_RHO_MAX K) = true ->
  forall g P q A l u m n ust s0 g' log s s', data_readable P q A l u m n -> osqp_setup E g P q A l u m n (Some ust) = Some (0, Some s0, g') ->
  calls_ok E s0 log s -> run E CSolve s = Some (0, HSolver s') ->
  exists ks ksol, length ks = pending log /\ i_solve_time (sv_info s') = env_clock E ksol /\ i_setup_time (sv_info s') = i_setup_time (sv_info s0) /\
    i_update_time (sv_info s') = total E ks /\
    i_run_time (sv_info s') = nadd (nadd (if existsb is_solve log then total E ks else i_setup_time (sv_info s0)) (i_solve_time (sv_info s'))) (i_polish_time (sv_info s')) /\
    (i_polish_time (sv_info s') = i_polish_time (sv_info s) \/
      tr (st_polishing (sv_settings s)) = true /\ i_status_val (sv_info s') = OSQP_SOLVED /\ exists k, i_polish_time (sv_info s') = env_clock E k) /\
    (new_data log = true -> i_polish_time (sv_info s) = n0).
Proof. exact (@run_time_log). Qed.
Print Assumptions C51_times.
Example C51_times_ex : exists s0 g' s s', osqp_setup secE g0 (Some fP) (Some fq) (Some fA) (Some fl) (Some fu) 3 2 (Some polishing) = Some (0, Some s0, g') /\
  calls_ok secE s0 [CUpdRho (nofZ 1); CUpdVec (Some [nofZ 2; nofZ 1]) None None; CSolve] s /\ run secE CSolve s = Some (0, HSolver s') /\
  pending [CUpdRho (nofZ 1); CUpdVec (Some [nofZ 2; nofZ 1]) None None; @CSolve F64] = 2%nat /\ new_data [CUpdRho (nofZ 1); CUpdVec (Some [nofZ 2; nofZ 1]) None None; @CSolve F64] = true /\
  neqb (i_run_time (sv_info s')) (nofZ 4) = true /\ neqb (i_polish_time (sv_info s')) n1 = true.
Proof. exact timed_case. Qed.

(** C51: the same for a single solve from any solver with 0 <= check_termination: whatever its exit code, the settings keep the update interval
    (see C52_interval); with exit code 0 the times add up. *)
Theorem C51_one_solve : forall (K : NumOps) (E : Env K) (s s' : solver K), 0 <= st_check_termination (sv_settings s) -> run E CSolve s = Some (0, HSolver s') ->
  i_run_time (sv_info s') = nadd (nadd (if tr (w_first_run (sv_work s)) then i_setup_time (sv_info s) else if w_clear_update_time (sv_work s) =? 1 then n0 else i_update_time (sv_info s))
    (i_solve_time (sv_info s'))) (i_polish_time (sv_info s')).
Proof. exact one_solve_time. Qed.
Print Assumptions C51_one_solve.
Example C51_one_solve_ex : exists s s', 0 <= st_check_termination (sv_settings s) /\ run secE CSolve s = Some (0, HSolver s').
Proof.
  destruct timed_case as (s0 & g' & s & s' & H1 & H2 & H3 & _). exists s, s'. split; [|exact H3].
  exact (kp_ct _ _ _ _ (kept_all secE (exEnv_ok _ _) MM_F64 _ _ _ _ _ _ _ _ _ _ _ _ _ fdata_readable H1 H2)).
Qed.

(** C52: the settings of a new solver are the user's, with rho brought into its range and the interval chosen as documented: the user's if not 0;
    else 4 times check_termination (100 if that is 0) for iteration-based adaptation, 1 for error-based adaptation. *)
Theorem C52_setup : forall (K : NumOps) (E : Env K), env_ok E -> nltb (OSQP_RHO_MIN K) (OSQP_RHO_MAX K) = true ->
  forall g P q A l u m n ust s g', data_readable P q A l u m n -> osqp_setup E g P q A l u m n (Some ust) = Some (0, Some s, g') ->
  sv_settings s = set_st_adaptive_rho_interval
    (if st_adaptive_rho_interval ust =? 0 then
       if st_adaptive_rho ust =? ADAPTIVE_RHO_ITERATIONS then (if st_check_termination ust =? 0 then 100 else 4 * st_check_termination ust)
       else if st_adaptive_rho ust =? ADAPTIVE_RHO_KKT_ERROR then 1 else 0
     else st_adaptive_rho_interval ust)
    (set_st_rho (c_min (c_max (st_rho ust) (OSQP_RHO_MIN K)) (OSQP_RHO_MAX K)) ust).
Proof. exact (@setup_settings). Qed.
Print Assumptions C52_setup.
Example C52_setup_ex : exists s g', data_readable (Some fP) (Some fq) (Some fA) (Some fl) (Some fu) 3 2 /\
  osqp_setup secE g0 (Some fP) (Some fq) (Some fA) (Some fl) (Some fu) 3 2 (Some polishing) = Some (0, Some s, g') /\ st_adaptive_rho_interval (sv_settings s) = 50.
Proof.
  destruct timed_case as (s0 & g' & s & s' & H1 & H2 & _). exists s0, g'. split; [exact fdata_readable|]. split; [exact H1|].
  rewrite (C52_setup _ secE (exEnv_ok _ _) MM_F64 _ _ _ _ _ _ _ _ _ _ _ fdata_readable H1). reflexivity.
Qed.

(** C52: a solve changes the interval only in time-based mode, once, from 0 to 1 (never to the multiple of check_termination the code aims at). *)
Theorem C52_interval : forall (K : NumOps) (E : Env K), env_ok E -> nltb (OSQP_RHO_MIN K) (OSQP_RHO_MAX K) = true ->
  forall g P q A l u m n ust s0 g' log s fl s', data_readable P q A l u m n -> osqp_setup E g P q A l u m n (Some ust) = Some (0, Some s0, g') ->
  calls_ok E s0 log s -> run E CSolve s = Some (fl, HSolver s') ->
  st_adaptive_rho_interval (sv_settings s') = st_adaptive_rho_interval (sv_settings s) \/
  st_adaptive_rho (sv_settings s) = ADAPTIVE_RHO_TIME /\ st_adaptive_rho_interval (sv_settings s) = 0 /\ st_adaptive_rho_interval (sv_settings s') = 1.
Proof. exact (@interval_log). Qed.
Print Assumptions C52_interval.
Example C52_interval_ex : exists s0 g' s, osqp_setup secE g0 (Some fP) (Some fq) (Some fA) (Some fl) (Some fu) 3 2 (Some timed) = Some (0, Some s0, g') /\
  calls_ok secE s0 [CSolve] s /\ st_adaptive_rho_interval (sv_settings s0) = 0 /\ st_adaptive_rho_interval (sv_settings s) = 1.
Proof. exact interval_case. Qed.

(** C59: what remains true.  A bound given as infinite is held as infinite (beyond 1e26, the threshold used by the solver) as long as the scaling factor of its row exceeds 1e-4;
    with at most one scaling pass that is always so.  (C59_infinite_bound_refuted: not in general.) *)
Theorem C59_infinite_bound : forall E, env_ok E -> forall P A q l u m n ust s d i, session E P A q l u m n ust s d -> 0 <= i < m ->
  st_scaling ust <= 1 \/ (/ 10 ^ 4 < uE s i)%R ->
  ((10 ^ 30 <= rnth (d_u d) i)%R -> (10 ^ 26 < rnth (d_u (w_data (sv_work s))) i)%R) /\
  ((rnth (d_l d) i <= - 10 ^ 30)%R -> (rnth (d_l (w_data (sv_work s))) i < - 10 ^ 26)%R).
Proof. exact infinite_bound. Qed.
Print Assumptions C59_infinite_bound.
(** C59: and osqp_setup gives a row without bounds the smallest penalty, 1e-6. *)
Theorem C59_free_row : forall E, env_ok E -> forall g P q A m n ust s g' i l u, data_readable (Some P) q (Some A) (Some l) (Some u) m n ->
  osqp_setup E g (Some P) q (Some A) (Some l) (Some u) m n (Some ust) = Some (0, Some s, g') -> 0 <= i < m ->
  st_scaling ust <= 1 \/ (/ 10 ^ 4 < uE s i)%R -> tr (st_rho_is_vec ust) = true -> (rnth l i <= - 10 ^ 30)%R -> (10 ^ 30 <= rnth u i)%R ->
  rho_at (sv_settings s) (sv_work s) i = (/ 10 ^ 6)%R.
Proof. exact infinite_row. Qed.
Print Assumptions C59_free_row.
Example C59_free_row_ex : data_readable (Some rP) (Some rq) (Some rA) (Some free_l) (Some free_u) 3 2 /\
  (exists s g', osqp_setup rE (mkworld 0%nat 0%nat 0 0 []) (Some rP) (Some rq) (Some rA) (Some free_l) (Some free_u) 3 2 (Some one_pass) = Some (0, Some s, g')) /\
  st_scaling one_pass = 1 /\ tr (st_rho_is_vec one_pass) = true /\ (rnth free_l 0 <= - 10 ^ 30)%R /\ (10 ^ 30 <= rnth free_u 0)%R.
Proof. destruct free_case as (H1 & H2). split; [exact H1|]. split; [exact H2|]. split; [reflexivity|]. split; [reflexivity|]. split; apply Rle_refl. Qed.

(** C20: what remains true.  Unless the last status is primal infeasible, a rejected osqp_update_data_vec does not change what osqp_get_solution returns. *)
Theorem C20_rejected_update_reads : forall E, env_ok E -> forall P A q0 l0 u0 m n ust s d q l u l' u' o, session E P A q0 l0 u0 m n ust s d -> vec_arg n q -> vec_arg m l -> vec_arg m u ->
  new_vec m l (d_l d) l' -> new_vec m u (d_u d) u' -> ~ all_le m l' u' -> solok n m o ->
  i_status_val (sv_info s) <> OSQP_PRIMAL_INFEASIBLE -> i_status_val (sv_info s) <> OSQP_PRIMAL_INFEASIBLE_INACCURATE ->
  exists s' s1 s2 o', osqp_update_data_vec E (HSolver s) q l u = Some (OSQP_DATA_VALIDATION_ERROR, HSolver s') /\
    osqp_get_solution (HSolver s) (Some o) = Some (0, HSolver s1, Some o') /\ osqp_get_solution (HSolver s') (Some o) = Some (0, HSolver s2, Some o').
Proof. exact rejected_same_reads. Qed.
Print Assumptions C20_rejected_update_reads.
Example C20_rejected_update_reads_ex : exists s d l' u', session rE rP rA (Some rq) (Some rl) (Some ru) 3 2 rst s d /\ vec_arg 3 (Some [2; 0; 0]%R) /\
  new_vec 3 (Some [2; 0; 0]%R) (d_l d) l' /\ new_vec 3 None (d_u d) u' /\ ~ all_le 3 l' u' /\ i_status_val (sv_info s) = OSQP_UNSOLVED.
Proof. exact rejected_case. Qed.
