(** Properties C01-C03, C25, C26, C42-C45, C48, C49, C54, C55, C62: single calls of the interface.
    Specifications used: InvApi.v ([status_text]), ValidFacts.v ([data_readable]: the arrays have the advertised sizes, [data_ok]: the conditions on the data),
    ApiClaims.v ([settings_in_range], [settings_replaced], [pinf_status], [dinf_status]), Obs.v ([ux], [uy], [uz]: the iterate in the
    user's units, [reports], [marker], [filled], [shown], [after_read], [warmed]), Session.v ([session]). *)
From Coq Require Import ZArith Reals List Bool Lia Lra String.
From Verif Require Import Num Arr ArrFacts RSum Csc CscSpec CscFacts CscFacts2 CscExamples Vec VecFacts Types Kkt KktSpec Linsys LinsysFacts LinsysSolve Scaling Validate Auxil Polish Api
  Inv RecSimp InvStep InvApi InvScale InvSolve ValidFacts InvUpd InvSetup History RealVec RealStep Frame FrameSolve ProbSpec ScaleReal FrameUpd UserSpec Refine ExEnv Ldl LdlEnv Session ExReal DataFacts Obs DataClaims ApiClaims.
Import ListNotations.
Open Scope Z_scope.

(** C01: the exit code of osqp_setup tells exactly which check failed, in every number system; a rejected call builds nothing and
    changes nothing.  (A failed factorisation leaves its profiler section open.) *)
Theorem C01_setup_codes : forall (K : NumOps) (E : Env K), env_ok E -> nltb (OSQP_RHO_MIN K) (OSQP_RHO_MAX K) = true ->
  forall g P q A l u m n st, data_readable P q A l u m n ->
    exists fl so g', osqp_setup E g P q A l u m n st = Some (fl, so, g') /\
      (fl = OSQP_DATA_VALIDATION_ERROR <-> ~ data_ok P q A l u m n) /\
      (fl = OSQP_SETTINGS_VALIDATION_ERROR <-> data_ok P q A l u m n /\ ~ exists ust, st = Some ust /\ settings_ok true ust) /\
      (fl = OSQP_NO_ERROR \/ fl = OSQP_NONCVX_ERROR <-> data_ok P q A l u m n /\ exists ust, st = Some ust /\ settings_ok true ust) /\
      (fl <> OSQP_NO_ERROR -> fl <> OSQP_NONCVX_ERROR -> so = None /\ g' = g) /\
      (fl = OSQP_NO_ERROR -> exists s, so = Some s /\ i_status_val (sv_info s) = OSQP_UNSOLVED /\ g_handler g' = g_handler g /\ g_sections g' = g_sections g) /\
      (fl = OSQP_NONCVX_ERROR -> exists s, so = Some s /\ i_status_val (sv_info s) = OSQP_NON_CVX /\ g_handler g' = g_handler g /\ g_sections g' = SEC_SETUP :: g_sections g).
Proof. exact @setup_codes. Qed.
Print Assumptions C01_setup_codes.
Example C01_setup_codes_ex : data_readable (Some rP) (Some rq) (Some rA) (Some rl) (Some ru) 3 2 /\ data_ok (Some rP) (Some rq) (Some rA) (Some rl) (Some ru) 3 2 /\
  data_readable (Some rP) (Some rq) (Some rA) (Some ru) (Some rl) 3 2 /\ ~ data_ok (Some rP) (Some rq) (Some rA) (Some ru) (Some rl) 3 2.
Proof.
  split; [exact rdata_readable|]. split; [exact rdata_ok|]. split.
  - destruct rdata_readable. constructor; auto.
  - intros []. specialize (va_b ru rl 1 eq_refl eq_refl ltac:(lia)). change (znth n0 rl 1) with 0%R in va_b. change (znth n0 ru 1) with (7/10)%R in va_b.
    assert (@nltb Rops 0%R (7/10)%R = true) by (apply Rltb_iff; lra). congruence.
Qed.

(** C02: in exact arithmetic the settings are rejected exactly when one of them is out of its documented range. *)
Theorem C02_setup_settings : forall E, env_ok E -> forall g P q A l u m n st, data_readable P q A l u m n -> data_ok P q A l u m n ->
  exists fl so g', osqp_setup E g P q A l u m n st = Some (fl, so, g') /\
    (fl = OSQP_SETTINGS_VALIDATION_ERROR <-> ~ exists ust, st = Some ust /\ settings_in_range true ust) /\
    (fl = OSQP_SETTINGS_VALIDATION_ERROR -> so = None /\ g' = g).
Proof. exact setup_settings_code. Qed.
Print Assumptions C02_setup_settings.
Example C02_setup_settings_ex : settings_in_range true rst /\ ~ settings_in_range true (set_st_alpha 2%R rst).
Proof. split; [apply settings_ok_R, rst_ok|]. intros []. destruct sg_alpha. unfold rst in *. cbn in *. lra. Qed.

(** C03 (and C17 for settings): osqp_update_settings either replaces exactly the updatable settings, or rejects and changes nothing. *)
Theorem C03_update_settings : forall E, env_ok E -> forall P A q0 l0 u0 m n ust s d new, session E P A q0 l0 u0 m n ust s d ->
  exists fl s', osqp_update_settings (HSolver s) new = Some (fl, HSolver s') /\ session E P A q0 l0 u0 m n ust s' d /\
    ((exists st, new = Some st /\ settings_in_range false st) -> fl = 0 /\
       forall st, new = Some st -> settings_replaced (sv_settings s) st (sv_settings s') /\ sv_work s' = sv_work s /\ sv_info s' = sv_info s /\ sv_solution s' = sv_solution s /\ sv_world s' = sv_world s) /\
    (~ (exists st, new = Some st /\ settings_in_range false st) -> fl = OSQP_SETTINGS_VALIDATION_ERROR /\ s' = s).
Proof. exact update_settings_claim. Qed.
Print Assumptions C03_update_settings.
Example C03_update_settings_ex : (exists s d, session rE rP rA (Some rq) (Some rl) (Some ru) 3 2 rst s d) /\ settings_in_range false rst /\ ~ settings_in_range false (set_st_max_iter 0 rst).
Proof.
  split; [destruct r_start as (s & d & H & _); eauto|]. split.
  - assert (H : settings_in_range true rst) by (apply settings_ok_R, rst_ok). destruct H. constructor; auto; try discriminate; try (destruct sg_adaptive; split; auto; discriminate).
  - intros []. cbn in *. lia.
Qed.

(** C25: osqp_warm_start followed by osqp_get_solution returns the given point, whatever the scaling. *)
Theorem C25_warm_start_round_trip : forall E, env_ok E -> forall P A q0 l0 u0 m n ust s d a b o,
  session E P A q0 l0 u0 m n ust s d -> n <= rlen a -> m <= rlen b -> solok n m o -> reports (i_status_val (sv_info s)) ->
  exists s1 s2 o', osqp_warm_start (HSolver s) (Some a) (Some b) = Some (0, HSolver s1) /\ osqp_get_solution (HSolver s1) (Some o) = Some (0, HSolver s2, Some o') /\
    filled n (rnth a) (so_x o) (so_x o') /\ filled m (rnth b) (so_y o) (so_y o').
Proof. exact warm_start_round_trip. Qed.
Print Assumptions C25_warm_start_round_trip.
(** C25: what warm starting sets: x, z = A x and y in the user's units, and nothing else but the warm start setting. *)
Theorem C25_warm_start : forall E, env_ok E -> forall P A q0 l0 u0 m n ust s d x y, session E P A q0 l0 u0 m n ust s d -> vec_arg n x -> vec_arg m y ->
  exists s', osqp_warm_start (HSolver s) x y = Some (0, HSolver s') /\ session E P A q0 l0 u0 m n ust s' d /\ warmed d x y s s'.
Proof. exact session_warm_start. Qed.
Print Assumptions C25_warm_start.
Definition rsol : solution Rops := mksolution (K := Rops) [0; 0]%R [0; 0; 0]%R [0; 0; 0]%R [0; 0]%R.
Lemma rsol_ok : solok 2 3 rsol. Proof. constructor; unfold zlen; cbn; lia. Qed.
Lemma r_start_unsolved : exists s d, session rE rP rA (Some rq) (Some rl) (Some ru) 3 2 rst s d /\ i_status_val (sv_info s) = OSQP_UNSOLVED.
Proof.
  destruct (session_start rE rE_ok rE_exact (mkworld 0%nat 0%nat 0 0 []) rP (Some rq) rA (Some rl) (Some ru) 3 2 rst rdata_readable rdata_ok rst_ok rP_psd) as (s & g & d & H & _ & HS).
  exists s, d. split; auto.
  destruct (setup_codes rE rE_ok MM_R (mkworld 0%nat 0%nat 0 0 []) (Some rP) (Some rq) (Some rA) (Some rl) (Some ru) 3 2 (Some rst) rdata_readable) as (fl & so & g' & Er & _ & _ & _ & _ & H5 & _).
  rewrite H in Er. injection Er as <- <- <-. destruct (H5 eq_refl) as (s' & [= <-] & HU & _). auto.
Qed.
Example C25_warm_start_ex : exists s d, session rE rP rA (Some rq) (Some rl) (Some ru) 3 2 rst s d /\ reports (i_status_val (sv_info s)) /\ solok 2 3 rsol /\
  2 <= rlen [1; 2]%R /\ 3 <= rlen [1; 2; 3]%R.
Proof.
  destruct r_start_unsolved as (s & d & H & HU). exists s, d. split; auto. split; [rewrite HU; unfold reports; intros HH; decompose [or] HH; discriminate|].
  split; [apply rsol_ok|]. unfold zlen. cbn. lia.
Qed.

(** C26: over any history, in every number system, rho is one of the limits or strictly between them. *)
Theorem C26_rho_range : forall (K : NumOps) (E : Env K), env_ok E -> nltb (OSQP_RHO_MIN K) (OSQP_RHO_MAX K) = true ->
  forall g P q A l u m n st s0 g' s, data_readable P q A l u m n -> osqp_setup E g P q A l u m n st = Some (0, Some s0, g') -> reach E s0 s ->
  let r := st_rho (sv_settings s) in
  r = OSQP_RHO_MIN K \/ r = OSQP_RHO_MAX K \/ nltb (OSQP_RHO_MIN K) r = true /\ nltb r (OSQP_RHO_MAX K) = true.
Proof. exact @reach_rho. Qed.
Print Assumptions C26_rho_range.
Example C26_rho_range_ex : nltb (OSQP_RHO_MIN F64) (OSQP_RHO_MAX F64) = true /\ exists g s g', data_readable (Some rP) (Some rq) (Some rA) (Some rl) (Some ru) 3 2 /\
  osqp_setup rE g (Some rP) (Some rq) (Some rA) (Some rl) (Some ru) 3 2 (Some rst) = Some (0, Some s, g') /\ reach rE s s.
Proof.
  split; [reflexivity|].
  destruct (session_start rE rE_ok rE_exact (mkworld 0%nat 0%nat 0 0 []) rP (Some rq) rA (Some rl) (Some ru) 3 2 rst rdata_readable rdata_ok rst_ok rP_psd) as (s & g & d & H & _).
  do 3 eexists. split; [apply rdata_readable|]. split; [exact H|]. constructor.
Qed.

(** C42: after any history the signal handler and the profiler section stack are those from before osqp_setup, in every number system
    and for every interrupt and clock. *)
Theorem C42_handler_restored : forall (K : NumOps) (E : Env K), env_ok E -> nltb (OSQP_RHO_MIN K) (OSQP_RHO_MAX K) = true ->
  forall g P q A l u m n st s0 g' s, data_readable P q A l u m n -> osqp_setup E g P q A l u m n st = Some (0, Some s0, g') -> reach E s0 s ->
  g_handler (sv_world s) = g_handler g /\ g_sections (sv_world s) = g_sections g.
Proof. exact @reach_world. Qed.
Print Assumptions C42_handler_restored.
Example C42_handler_restored_ex : exists g s g', g_handler g = 42 /\ osqp_setup rE g (Some rP) (Some rq) (Some rA) (Some rl) (Some ru) 3 2 (Some rst) = Some (0, Some s, g').
Proof.
  destruct (session_start rE rE_ok rE_exact (mkworld 0%nat 0%nat 42 0 []) rP (Some rq) rA (Some rl) (Some ru) 3 2 rst rdata_readable rdata_ok rst_ok rP_psd) as (s & g & d & H & _).
  exists (mkworld 0%nat 0%nat 42 0 []), s, g. auto.
Qed.

(** C43: what osqp_get_solution writes for each status, and what it does to the solver. *)
Theorem C43_get_solution : forall E, env_ok E -> forall P A q0 l0 u0 m n ust s d o, session E P A q0 l0 u0 m n ust s d -> solok n m o ->
  exists s' o', osqp_get_solution (HSolver s) (Some o) = Some (0, HSolver s', Some o') /\ session E P A q0 l0 u0 m n ust s' d /\ shown s o o' /\ after_read s s' /\
    sv_settings s' = sv_settings s /\ sv_info s' = sv_info s /\ solok n m o'.
Proof. exact session_get_solution. Qed.
Print Assumptions C43_get_solution.
(** C43: reading a reported solution again returns the same numbers. *)
Theorem C43_get_solution_twice : forall E, env_ok E -> forall P A q0 l0 u0 m n ust s d o, session E P A q0 l0 u0 m n ust s d -> solok n m o -> reports (i_status_val (sv_info s)) ->
  exists s1 s2 o1, osqp_get_solution (HSolver s) (Some o) = Some (0, HSolver s1, Some o1) /\ osqp_get_solution (HSolver s1) (Some o1) = Some (0, HSolver s2, Some o1).
Proof. exact get_solution_twice. Qed.
Print Assumptions C43_get_solution_twice.

(** C44: a nonzero certificate is returned with largest entry 1 in absolute value, also when it is read again. *)
Theorem C44_primal_certificate : forall E, env_ok E -> forall P A q0 l0 u0 m n ust s d o, session E P A q0 l0 u0 m n ust s d -> solok n m o ->
  (0 < @vf_norm_inf Rops (w_delta_y (sv_work s)))%R -> pinf_status (i_status_val (sv_info s)) ->
  exists s1 s2 o1, osqp_get_solution (HSolver s) (Some o) = Some (0, HSolver s1, Some o1) /\
    is_maxabs (vals m (rnth (so_prim_inf_cert o1))) 1 /\ osqp_get_solution (HSolver s1) (Some o1) = Some (0, HSolver s2, Some o1).
Proof. exact certificate_normalised. Qed.
Print Assumptions C44_primal_certificate.
Theorem C44_dual_certificate : forall E, env_ok E -> forall P A q0 l0 u0 m n ust s d o, session E P A q0 l0 u0 m n ust s d -> solok n m o ->
  (0 < @vf_norm_inf Rops (w_delta_x (sv_work s)))%R -> dinf_status (i_status_val (sv_info s)) ->
  exists s1 s2 o1, osqp_get_solution (HSolver s) (Some o) = Some (0, HSolver s1, Some o1) /\
    is_maxabs (vals n (rnth (so_dual_inf_cert o1))) 1 /\ osqp_get_solution (HSolver s1) (Some o1) = Some (0, HSolver s2, Some o1).
Proof. exact dual_certificate_normalised. Qed.
Print Assumptions C44_dual_certificate.

(** C48: the functions that check their solver pointer, for NULL and for a solver without workspace. *)
Theorem C48_null_checked : forall (K : NumOps) (E : Env K) (h : handle K), h = HNull \/ h = HNoWork ->
  osqp_solve E h = Some (OSQP_WORKSPACE_NOT_INIT_ERROR, h) /\
  (forall sol, osqp_get_solution h sol = Some (OSQP_WORKSPACE_NOT_INIT_ERROR, h, sol)) /\
  (forall q l u, osqp_update_data_vec E h q l u = Some (OSQP_WORKSPACE_NOT_INIT_ERROR, h)) /\
  (forall Px Pi Pn Ax Ai An, osqp_update_data_mat E h Px Pi Pn Ax Ai An = Some (OSQP_WORKSPACE_NOT_INIT_ERROR, h)) /\
  (forall x y, osqp_warm_start h x y = Some (OSQP_WORKSPACE_NOT_INIT_ERROR, h)) /\
  (forall r, osqp_update_rho E h r = Some (OSQP_WORKSPACE_NOT_INIT_ERROR, h)) /\
  osqp_get_dimensions h = (-1, -1) /\ (h = HNoWork -> forall st, osqp_update_settings h st = Some (OSQP_WORKSPACE_NOT_INIT_ERROR, h)).
Proof. exact null_safe. Qed.
Print Assumptions C48_null_checked.
(** C48 is false for osqp_update_settings with NULL and for osqp_cold_start: they read through the pointer. *)
Theorem C48_null_refuted : forall K : NumOps, (forall st, @osqp_update_settings K HNull st = None) /\ @osqp_cold_start K HNull = None /\ @osqp_cold_start K HNoWork = None.
Proof. exact null_unsafe. Qed.
Print Assumptions C48_null_refuted.

(** C49: every positive code has its own text, from 12 on the one for unknown codes. *)
Theorem C49_positive_codes : forall code, 0 < code -> osqp_error_message code = Some (error_text code).
Proof. exact error_message_ok. Qed.
Print Assumptions C49_positive_codes.
Theorem C49_unknown_codes : forall code, 12 <= code -> osqp_error_message code = Some "Unknown error code."%string.
Proof. exact error_message_large. Qed.
Print Assumptions C49_unknown_codes.
(** C49 is false for 0 (the code of success) and below: the table is read before its start. *)
Theorem C49_nonpositive_refuted : forall code, code <= 0 -> osqp_error_message code = None.
Proof. exact error_message_bad. Qed.
Print Assumptions C49_nonpositive_refuted.
Example C49_codes_ex : osqp_error_message 4 = Some "KKT matrix factorization.
The problem seems to be non-convex."%string /\ osqp_error_message 1000 = Some "Unknown error code."%string.
Proof. split; reflexivity. Qed.

(** C54: osqp_update_rho. *)
Theorem C54_update_rho : forall E, env_ok E -> forall P A q0 l0 u0 m n ust s d r, session E P A q0 l0 u0 m n ust s d ->
  exists fl s', osqp_update_rho E (HSolver s) r = Some (fl, HSolver s') /\ session E P A q0 l0 u0 m n ust s' d /\
    ((r <= 0)%R -> fl = 1 /\ s' = s) /\
    ((0 < r)%R -> st_rho (sv_settings s') = Rmin (Rmax r (/ 10 ^ 6)) (10 ^ 6) /\ (exists r', sv_settings s' = set_st_rho r' (sv_settings s)) /\
       w_data (sv_work s') = w_data (sv_work s) /\ w_scaling (sv_work s') = w_scaling (sv_work s) /\ iter3 (sv_work s') = iter3 (sv_work s) /\ (exists t, sv_info s' = set_i_update_time t (sv_info s)) /\
       (exact_ldl E -> convex d -> fl = 0)).
Proof. exact session_update_rho. Qed.
Print Assumptions C54_update_rho.

(** C55: osqp_cold_start. *)
Theorem C55_cold_start : forall E, env_ok E -> forall P A q0 l0 u0 m n ust s d, session E P A q0 l0 u0 m n ust s d ->
  exists s', osqp_cold_start (HSolver s) = Some (HSolver s') /\ session E P A q0 l0 u0 m n ust s' d /\
    (forall i, ux s' i = 0%R) /\ (forall i, uy s' i = 0%R) /\ (forall i, uz s' i = 0%R) /\ sv_settings s' = sv_settings s /\ sv_info s' = sv_info s /\ sv_solution s' = sv_solution s /\
    exists vx vy vz, sv_work s' = set_w_x vx (set_w_y vy (set_w_z vz (sv_work s))).
Proof. exact session_cold_start. Qed.
Print Assumptions C55_cold_start.
Example C55_session_ex : exists s d, session rE rP rA (Some rq) (Some rl) (Some ru) 3 2 rst s d /\ convex d /\ solok 2 3 rsol.
Proof.
  destruct r_start as (s & d & H & U). exists s, d. split; auto. split; [|apply rsol_ok]. eapply init_convex; [exact U|apply rP_wf|reflexivity|apply rP_psd].
Qed.

(** C62: over any history the status text is the one of the status value, in every number system. *)
Theorem C62_status_text : forall (K : NumOps) (E : Env K), env_ok E -> nltb (OSQP_RHO_MIN K) (OSQP_RHO_MAX K) = true ->
  forall g P q A l u m n st s0 g' s, data_readable P q A l u m n -> osqp_setup E g P q A l u m n st = Some (0, Some s0, g') -> reach E s0 s ->
  1 <= i_status_val (sv_info s) <= 11 /\ i_status (sv_info s) = status_text (i_status_val (sv_info s)).
Proof. exact @reach_status_text. Qed.
Print Assumptions C62_status_text.
