(** C79 and C80: repeating a session, and reusing a solver. *)
From Coq Require Import ZArith String List Bool.
From Verif Require Import Num Csc CscSpec Types Validate Auxil Api Linsys LinsysFacts Inv InvApi TwinInit InvSetup ValidFacts History ExEnv Runs SetupClaims MachineClaims TwinKer TwinHist TwinClaims TwinReset TwinEx.
Import ListNotations.
Open Scope Z_scope.

(** Two machines that compute alike: the same ordering, factorisation and triangular solves; their clocks may show anything. *)
Local Notation machines E E' := (env_sim E E' /\ env_ok E /\ env_ok E').
Local Notation arithmetic K := (@neqb K n0 n0 = true /\ nltb (OSQP_RHO_MIN K) (OSQP_RHO_MAX K) = true).

(** C79: the same set-up and the same calls, whose solves are cut short by neither an interrupt nor a time limit and adapt rho at an interval the clock does not
    choose, give on both machines the same return codes, statuses, solutions, settings, residuals, objectives and counts after every call. *)
Theorem C79_repeatable : forall (K : NumOps) (E E' : Env K), machines E E' -> arithmetic K -> forall g g' P q A l u m n ust cs s s' g1 g1',
  data_readable P q A l u m n -> osqp_setup E g P q A l u m n (Some ust) = Some (0, Some s, g1) -> osqp_setup E' g' P q A l u m n (Some ust) = Some (0, Some s', g1') ->
  fits E cs s -> fits E' cs s' -> exists outs t t', play E cs s = Some (outs, t) /\ play E' cs s' = Some (outs, t').
Proof. exact (fun K E E' M N => repeatable E E' (proj1 M) (proj1 (proj2 M)) (proj2 (proj2 M)) (proj1 N) (proj2 N)). Qed.
Print Assumptions C79_repeatable.
Example C79_repeatable_ex : machines (clockE n0) (clockE (nofZ 7)) /\ arithmetic F64 /\ data_readable (Some fP) (Some fq) (Some fA) (Some fl) (Some fu) 3 2 /\ exists s s' g g',
  osqp_setup (clockE n0) g0 (Some fP) (Some fq) (Some fA) (Some fl) (Some fu) 3 2 (Some fst0) = Some (0, Some s, g) /\
  osqp_setup (clockE (nofZ 7)) g0 (Some fP) (Some fq) (Some fA) (Some fl) (Some fu) 3 2 (Some fst0) = Some (0, Some s', g') /\ fits (clockE n0) session1 s /\ fits (clockE (nofZ 7)) session1 s' /\
  neqb (i_setup_time (sv_info s)) (i_setup_time (sv_info s')) = false.
Proof. exact (conj (conj (clock_sim _ _) (conj (exEnv_ok _ _) (exEnv_ok _ _))) (conj (conj NZ_F64 MM_F64) (conj fdata_readable two_clocks))). Qed.

(** C79: osqp_setup itself, accepted or refused, for every input. *)
Theorem C79_setup : forall (K : NumOps) (E E' : Env K), machines E E' -> arithmetic K -> forall g g' P q A l u m n st, data_readable P q A l u m n ->
  exists fl so g1 so' g1', osqp_setup E g P q A l u m n st = Some (fl, so, g1) /\ osqp_setup E' g' P q A l u m n st = Some (fl, so', g1') /\ option_map seen so' = option_map seen so.
Proof. exact (fun K E E' M N => setup_repeatable E E' (proj1 M) (proj1 (proj2 M)) (proj2 (proj2 M)) (proj2 N)). Qed.
Print Assumptions C79_setup.
Example C79_setup_ex : machines (clockE n0) (clockE (nofZ 7)) /\ arithmetic F64 /\ data_readable (Some gP) (Some gq) (Some gA) (Some gl) (Some gu) 3 2.
Proof. exact (conj (conj (clock_sim _ _) (conj (exEnv_ok _ _) (exEnv_ok _ _))) (conj (conj NZ_F64 MM_F64) gdata_readable)). Qed.

(** C79 without the condition on the time limit: one machine solves the problem, the other runs out of time. *)
Theorem C79_limit_refuted : exists t t', ends fE (one (nofZ 1)) [nofZ 1] (one (nofZ 1)) [nofZ 5] [nofZ 6] 1 1 limited [CSolve] t /\ ends tickE (one (nofZ 1)) [nofZ 1] (one (nofZ 1)) [nofZ 5] [nofZ 6] 1 1 limited [CSolve] t' /\
  i_status_val (sv_info t) = OSQP_SOLVED /\ i_status_val (sv_info t') = OSQP_TIME_LIMIT_REACHED.
Proof. exact limit_differs. Qed.
Print Assumptions C79_limit_refuted.

(** C79 without the condition on the interval: the clock writes the settings. *)
Theorem C79_interval_refuted : exists t t', ends fE fP fq fA fl fu 3 2 timed [CSolve] t /\ ends secE fP fq fA fl fu 3 2 timed [CSolve] t' /\
  st_adaptive_rho_interval (sv_settings t) = 0 /\ st_adaptive_rho_interval (sv_settings t') = 1.
Proof. exact interval_differs. Qed.
Print Assumptions C79_interval_refuted.

(** C80: a solver with any history, without scaling, given all of a new problem of the same pattern, a rho and a cold start, each call returning 0, whose settings are then those of a
    solver freshly set up with that problem, solves like the fresh one: the same code, status, solution, certificates, residuals, objectives and counts. *)
Theorem C80_reuse : forall (K : NumOps) (E E' : Env K), machines E E' -> arithmetic K -> forall (P P' A A' : csc K) q l u m n ust (s t : solver K) q' l' u' rho ust' g s' g',
  lives E P A q l u m n ust s -> alike P P' -> alike A A' -> data_readable (Some P') (Some q') (Some A') (Some l') (Some u') m n ->
  osqp_setup E' g (Some P') (Some q') (Some A') (Some l') (Some u') m n (Some ust') = Some (0, Some s', g') ->
  calls E (new_data P' A' q' l' u' rho) s = Some ([0; 0; 0; 0], t) -> sv_settings t = sv_settings s' ->
  0 < m -> tr (st_scaling ust) = false -> tr (st_allocate_solution ust) = tr (st_allocate_solution ust') -> st_adaptive_rho ust' <> ADAPTIVE_RHO_KKT_ERROR ->
  (tr (st_rho_is_vec ust') = false -> clamp (st_rho ust') = st_rho ust') -> signs (st_rho (sv_settings t)) -> unhurried E t -> unhurried E' s' ->
  exists fl t1 t1', run E CSolve t = Some (fl, HSolver t1) /\ run E' CSolve s' = Some (fl, HSolver t1') /\ same_outcome fl t1 t1'.
Proof. exact (fun K E E' M N => reset_solve E E' (proj1 M) (proj1 (proj2 M)) (proj2 (proj2 M)) (proj1 N) (proj2 N)). Qed.
Print Assumptions C80_reuse.
Example C80_reuse_ex : machines (clockE n0) (clockE (nofZ 7)) /\ arithmetic F64 /\ alike fP gP /\ alike fA gA /\ data_readable (Some gP) (Some gq) (Some gA) (Some gl) (Some gu) 3 2 /\
  (exists s t s' g', lives (clockE n0) fP fA (Some fq) (Some fl) (Some fu) 3 2 unscaled s /\ i_status_val (sv_info s) = OSQP_SOLVED /\
    osqp_setup (clockE (nofZ 7)) g0 (Some gP) (Some gq) (Some gA) (Some gl) (Some gu) 3 2 (Some unscaled) = Some (0, Some s', g') /\
    calls (clockE n0) (new_data gP gA gq gl gu (st_rho fst0)) s = Some ([0; 0; 0; 0], t) /\ sv_settings t = sv_settings s' /\ signs (st_rho (sv_settings t)) /\ unhurried (clockE n0) t /\ unhurried (clockE (nofZ 7)) s') /\
  tr (st_scaling unscaled) = false /\ st_adaptive_rho unscaled <> ADAPTIVE_RHO_KKT_ERROR /\ tr (st_rho_is_vec unscaled) = true.
Proof. exact (conj (conj (clock_sim _ _) (conj (exEnv_ok _ _) (exEnv_ok _ _))) (conj (conj NZ_F64 MM_F64) (conj alike_P (conj alike_A (conj gdata_readable (conj used_and_fresh unscaled_facts)))))). Qed.

(** C80 for the integral of the gap: it is never set back to zero. *)
Theorem C80_integral_refuted : exists t t', ends fE fP fq fA fl fu 3 2 unscaled (CSolve :: to_second ++ [CSolve]) t /\ ends fE gP gq gA gl gu 3 2 unscaled [CSolve] t' /\
  i_status_val (sv_info t) = OSQP_SOLVED /\ i_status_val (sv_info t') = OSQP_SOLVED /\
  nltb (nofZ 1) (i_primdual_int (sv_info t')) = true /\ nltb (nofZ 50) (i_primdual_int (sv_info t)) = true /\ nltb (i_primdual_int (sv_info t')) (nofZ 2) = true.
Proof. exact integral_differs. Qed.
Print Assumptions C80_integral_refuted.

(** C80 for the status of polishing: with polishing off the used solver still reports the success of an earlier polishing. *)
Theorem C80_polish_refuted : exists t t', ends fE fP fq fA fl fu 3 2 (set_st_polishing 1 unscaled) (CSolve :: CUpdSettings (Some unscaled) :: to_second ++ [CSolve]) t /\ ends fE gP gq gA gl gu 3 2 unscaled [CSolve] t' /\
  st_polishing (sv_settings t) = 0 /\ i_status_polish (sv_info t) = OSQP_POLISH_SUCCESS /\ i_status_polish (sv_info t') = OSQP_POLISH_NOT_PERFORMED.
Proof. exact polish_differs. Qed.
Print Assumptions C80_polish_refuted.

(** C80 when rho follows the KKT error: the error of the earlier solve decides about the first adaptation. *)
Theorem C80_kkt_error_refuted : exists t t', ends fE fP fq fA fl fu 3 2 by_error (CSolve :: to_second ++ [CSolve]) t /\ ends fE gP gq gA gl gu 3 2 by_error [CSolve] t' /\
  i_iter (sv_info t) = 30 /\ i_iter (sv_info t') = 25 /\ i_rho_updates (sv_info t) = 0 /\ i_rho_updates (sv_info t') = 1.
Proof. exact kkt_differs. Qed.
Print Assumptions C80_kkt_error_refuted.

(** C80 with scaling: the scaling of the first problem is kept, and the solution found is another one. *)
Theorem C80_scaled_refuted : exists t t', ends fE fP fq fA fl fu 3 2 fst0 (CSolve :: to_second ++ [CSolve]) t /\ ends fE gP gq gA gl gu 3 2 fst0 [CSolve] t' /\
  i_status_val (sv_info t) = OSQP_SOLVED /\ i_status_val (sv_info t') = OSQP_SOLVED /\ neqb (hd0 (sx t)) (hd0 (sx t')) = false.
Proof. exact scaled_differs. Qed.
Print Assumptions C80_scaled_refuted.
