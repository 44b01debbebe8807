(** Claims about single calls of the interface: validation, settings, rho, error texts, NULL pointers. *)
From Coq Require Import ZArith Reals List Bool Lia Lra String.
From Verif Require Import Num Arr ArrFacts RSum Csc CscSpec CscFacts CscFacts2 CscExamples Vec VecFacts Types Kkt KktSpec Linsys LinsysFacts LinsysSolve Scaling Validate Auxil Polish Api
  Inv RecSimp InvStep InvApi InvScale InvSolve ValidFacts InvUpd InvSetup History RealVec RealStep Frame FrameSolve ProbSpec ScaleReal FrameUpd UserSpec Refine ExEnv Ldl LdlEnv Session ExReal DataFacts Obs DataClaims.
Import ListNotations.
Open Scope Z_scope.

Section Setup.
  Context {K : NumOps} (E : Env K) (EO : env_ok E) (MM : nltb (OSQP_RHO_MIN K) (OSQP_RHO_MAX K) = true).

  (** The exit code of osqp_setup. *)
  Lemma setup_codes g P q A l u m n st : data_readable P q A l u m n ->
    exists fl so g', osqp_setup E g P q A l u m n st = Some (fl, so, g') /\
      (fl = OSQP_DATA_VALIDATION_ERROR <-> ~ data_ok P q A l u m n) /\
      (fl = OSQP_SETTINGS_VALIDATION_ERROR <-> data_ok P q A l u m n /\ ~ exists ust, st = Some ust /\ settings_ok true ust) /\
      (fl = OSQP_NO_ERROR \/ fl = OSQP_NONCVX_ERROR <-> data_ok P q A l u m n /\ exists ust, st = Some ust /\ settings_ok true ust) /\
      (fl <> OSQP_NO_ERROR -> fl <> OSQP_NONCVX_ERROR -> so = None /\ g' = g) /\
      (fl = OSQP_NO_ERROR -> exists s, so = Some s /\ i_status_val (sv_info s) = OSQP_UNSOLVED /\ g_handler g' = g_handler g /\ g_sections g' = g_sections g) /\
      (fl = OSQP_NONCVX_ERROR -> exists s, so = Some s /\ i_status_val (sv_info s) = OSQP_NON_CVX /\ g_handler g' = g_handler g /\ g_sections g' = SEC_SETUP :: g_sections g).
  Proof.
    intros HDR. destruct (osqp_setup_safe E EO MM g P q A l u m n st HDR) as ([[fl so] g'] & Er & HRes). exists fl, so, g'. split; auto. cbn [fst snd] in HRes.
    assert (VS : validate_settings st true = false <-> exists ust, st = Some ust /\ settings_ok true ust) by apply validate_settings_spec.
    unfold OSQP_DATA_VALIDATION_ERROR, OSQP_SETTINGS_VALIDATION_ERROR, OSQP_NONCVX_ERROR, OSQP_NO_ERROR in *.
    inversion HRes as [Hno|HD Hno|s g1 HD HV Hls Hst Hw Hsec Hhan HF E1 E2 E3|s g1 HD HV HI Dn Dm HF Hw HLF Hsec Hhan E1 E2 E3]; subst.
    - split; [tauto|]. split; [split; [discriminate|tauto]|]. split; [split; [intros [?|?]; discriminate|tauto]|]. split; [auto|]. split; discriminate.
    - assert (HN : ~ exists ust, st = Some ust /\ settings_ok true ust) by (rewrite <- VS; congruence).
      split; [split; [discriminate|tauto]|]. split; [tauto|]. split; [split; [intros [?|?]; discriminate|tauto]|]. split; [auto|]. split; discriminate.
    - assert (HY : exists ust, st = Some ust /\ settings_ok true ust) by (apply VS; auto).
      split; [split; [discriminate|tauto]|]. split; [split; [discriminate|tauto]|]. split; [split; tauto|]. split; [tauto|]. split; [discriminate|]. intros _. exists s. auto.
    - assert (HY : exists ust, st = Some ust /\ settings_ok true ust) by (apply VS; auto).
      split; [split; [discriminate|tauto]|]. split; [split; [discriminate|tauto]|]. split; [split; tauto|]. split; [tauto|]. split; [|discriminate]. intros _. exists s. split; auto. split; auto.
      destruct HY as (ust & -> & _). pose proof (HF ust eq_refl) as []; auto.
  Qed.

  (** rho after any history: one of the limits, or strictly between them. *)
  Lemma clamp_cases (r : K) : clamp r = OSQP_RHO_MIN K \/ clamp r = OSQP_RHO_MAX K \/
    nltb (OSQP_RHO_MIN K) (clamp r) = true /\ nltb (clamp r) (OSQP_RHO_MAX K) = true.
  Proof.
    unfold clamp, c_min, c_max. destruct (nltb (OSQP_RHO_MIN K) r) eqn:E1.
    - destruct (nltb r (OSQP_RHO_MAX K)) eqn:E2; auto.
    - rewrite MM. auto.
  Qed.
  Lemma reach_rho g P q A l u m n st s0 g' s : data_readable P q A l u m n -> osqp_setup E g P q A l u m n st = Some (0, Some s0, g') -> reach E s0 s ->
    let r := st_rho (sv_settings s) in
    r = OSQP_RHO_MIN K \/ r = OSQP_RHO_MAX K \/ nltb (OSQP_RHO_MIN K) r = true /\ nltb r (OSQP_RHO_MAX K) = true.
  Proof.
    intros HDR HS HR. destruct (osqp_setup_safe E EO MM g P q A l u m n st HDR) as (r & Er & HRes). rewrite HS in Er. injection Er as <-. cbn [fst snd] in HRes.
    inversion HRes as [| |? ? ? ? ? ? ? ? ? ? EE|s1 g1 HDO HV HI Dn Dm HF Hw HLF Hsec Hhan EE]; subst; try discriminate.
    destruct (reach_inv E EO MM s0 s HI HR) as (HI' & _). cbv zeta. rewrite <- (iv_rho _ HI'). apply clamp_cases.
  Qed.

  (** Text of the status; signal handler and profiler sections. *)
  Lemma reach_status_text g P q A l u m n st s0 g' s : data_readable P q A l u m n -> osqp_setup E g P q A l u m n st = Some (0, Some s0, g') -> reach E s0 s ->
    1 <= i_status_val (sv_info s) <= 11 /\ i_status (sv_info s) = status_text (i_status_val (sv_info s)).
  Proof.
    intros HDR HS HR. destruct (osqp_setup_safe E EO MM g P q A l u m n st HDR) as (r & Er & HRes). rewrite HS in Er. injection Er as <-. cbn [fst snd] in HRes.
    inversion HRes as [| |? ? ? ? ? ? ? ? ? ? EE|s1 g1 HDO HV HI Dn Dm HF Hw HLF Hsec Hhan EE]; subst; try discriminate.
    destruct (reach_inv E EO MM s0 s HI HR) as (HI' & _). apply HI'.
  Qed.
  Lemma reach_world g P q A l u m n st s0 g' s : data_readable P q A l u m n -> osqp_setup E g P q A l u m n st = Some (0, Some s0, g') -> reach E s0 s ->
    g_handler (sv_world s) = g_handler g /\ g_sections (sv_world s) = g_sections g.
  Proof.
    intros HDR HS HR. destruct (osqp_setup_safe E EO MM g P q A l u m n st HDR) as (r & Er & HRes). rewrite HS in Er. injection Er as <-. cbn [fst snd] in HRes.
    inversion HRes as [| |? ? ? ? ? ? ? ? ? ? EE|s1 g1 HDO HV HI Dn Dm HF Hw HLF Hsec Hhan EE]; subst; try discriminate.
    destruct (reach_inv E EO MM s0 s HI HR) as (_ & _ & R1 & R2). split; congruence.
  Qed.
End Setup.

(** The documented ranges of the settings, over the reals. *)
Record settings_in_range (setup : bool) (s : settings Rops) : Prop := {
  sg_linsys : setup = true -> st_linsys_solver s = OSQP_DIRECT_SOLVER;
  sg_alloc : setup = true -> st_allocate_solution s = 0 \/ st_allocate_solution s = 1;
  sg_verbose : st_verbose s = 0 \/ st_verbose s = 1;
  sg_profiler : 0 <= st_profiler_level s <= 2;
  sg_warm : st_warm_starting s = 0 \/ st_warm_starting s = 1;
  sg_scaling : setup = true -> 0 <= st_scaling s;
  sg_polishing : st_polishing s = 0 \/ st_polishing s = 1;
  sg_rho : setup = true -> (0 < st_rho s)%R;
  sg_rho_is_vec : setup = true -> st_rho_is_vec s = 0 \/ st_rho_is_vec s = 1;
  sg_sigma : setup = true -> (0 < st_sigma s)%R;
  sg_alpha : (0 < st_alpha s < 2)%R;
  sg_cg_max : 0 < st_cg_max_iter s;
  sg_cg_red : 0 < st_cg_tol_reduction s;
  sg_cg_frac : (0 < st_cg_tol_fraction s < 1)%R;
  sg_adaptive : (setup = true -> 0 <= st_adaptive_rho s) /\ st_adaptive_rho s <= 3;
  sg_interval : setup = true -> 0 <= st_adaptive_rho_interval s;
  sg_fraction : setup = true -> (0 < st_adaptive_rho_fraction s)%R;
  sg_tolerance : setup = true -> (1 <= st_adaptive_rho_tolerance s)%R;
  sg_max_iter : 0 < st_max_iter s;
  sg_eps_abs : (0 <= st_eps_abs s)%R;
  sg_eps_rel : (0 <= st_eps_rel s)%R;
  sg_eps : st_eps_rel s <> 0%R \/ st_eps_abs s <> 0%R;
  sg_eps_pinf : (0 < st_eps_prim_inf s)%R;
  sg_eps_dinf : (0 < st_eps_dual_inf s)%R;
  sg_scaled : st_scaled_termination s = 0 \/ st_scaled_termination s = 1;
  sg_check : 0 <= st_check_termination s;
  sg_gap : st_check_dualgap s = 0 \/ st_check_dualgap s = 1;
  sg_time : (0 < st_time_limit s)%R;
  sg_delta : (0 < st_delta s)%R;
  sg_refine : 0 <= st_polish_refine_iter s }.

Lemma neq_R (a : R) : @neqb Rops a n0 = false <-> a <> 0%R.
Proof. rewrite n0_R. cbn [neqb Rops]. unfold Reqb. destruct (Req_EM_T a 0); split; intros; congruence. Qed.
Lemma settings_ok_R b s : settings_ok b s <-> settings_in_range b s.
Proof.
  split; intros []; constructor; rewrite ?gt_ok_R, ?ge_ok_R, ?lt_ok_R, ?neq_R, ?n0_R, ?n1_R, ?nofZ_R in *; unfold ADAPTIVE_RHO_KKT_ERROR in *; auto.
Qed.

(** What osqp_update_settings takes from the new settings, and what it keeps. *)
Record settings_replaced (old new st : settings Rops) : Prop := {
  rp_verbose : st_verbose st = st_verbose new; rp_profiler : st_profiler_level st = st_profiler_level new; rp_warm : st_warm_starting st = st_warm_starting new;
  rp_polishing : st_polishing st = st_polishing new; rp_alpha : st_alpha st = st_alpha new;
  rp_cg1 : st_cg_max_iter st = st_cg_max_iter new; rp_cg2 : st_cg_tol_reduction st = st_cg_tol_reduction new;
  rp_cg3 : st_cg_tol_fraction st = st_cg_tol_fraction new; rp_cg4 : st_cg_precond st = st_cg_precond new;
  rp_max : st_max_iter st = st_max_iter new; rp_ea : st_eps_abs st = st_eps_abs new; rp_er : st_eps_rel st = st_eps_rel new;
  rp_ep : st_eps_prim_inf st = st_eps_prim_inf new; rp_ed : st_eps_dual_inf st = st_eps_dual_inf new;
  rp_scaled : st_scaled_termination st = st_scaled_termination new; rp_check : st_check_termination st = st_check_termination new; rp_gap : st_check_dualgap st = st_check_dualgap new;
  rp_time : st_time_limit st = st_time_limit new; rp_delta : st_delta st = st_delta new; rp_refine : st_polish_refine_iter st = st_polish_refine_iter new;
  rp_device : st_device st = st_device old; rp_linsys : st_linsys_solver st = st_linsys_solver old; rp_alloc : st_allocate_solution st = st_allocate_solution old;
  rp_scaling : st_scaling st = st_scaling old; rp_rho : st_rho st = st_rho old; rp_vec : st_rho_is_vec st = st_rho_is_vec old; rp_sigma : st_sigma st = st_sigma old;
  rp_ada : st_adaptive_rho st = st_adaptive_rho old; rp_int : st_adaptive_rho_interval st = st_adaptive_rho_interval old;
  rp_frac : st_adaptive_rho_fraction st = st_adaptive_rho_fraction old; rp_tol : st_adaptive_rho_tolerance st = st_adaptive_rho_tolerance old }.

Lemma update_settings_claim E (EO : env_ok E) P A q0 l0 u0 m n ust s d new : session E P A q0 l0 u0 m n ust s d ->
  exists fl s', osqp_update_settings (HSolver s) new = Some (fl, HSolver s') /\ session E P A q0 l0 u0 m n ust s' d /\
    ((exists st, new = Some st /\ settings_in_range false st) -> fl = 0 /\
       forall st, new = Some st -> settings_replaced (sv_settings s) st (sv_settings s') /\ sv_work s' = sv_work s /\ sv_info s' = sv_info s /\ sv_solution s' = sv_solution s /\ sv_world s' = sv_world s) /\
    (~ (exists st, new = Some st /\ settings_in_range false st) -> fl = OSQP_SETTINGS_VALIDATION_ERROR /\ s' = s).
Proof.
  intros HS. destruct (session_update_settings E EO P A q0 l0 u0 m n ust s d new HS) as (fl & s' & Er & HS' & HC). exists fl, s'. split; auto. split; auto.
  assert (EQ : (exists st, new = Some st /\ settings_in_range false st) <-> (exists st, new = Some st /\ settings_ok false st)).
  { split; intros (st & H1 & H2); exists st; split; auto; apply settings_ok_R; auto. }
  rewrite EQ. split; intros H.
  - destruct HC as [(_ & -> & HC)|(HN & _)]; [|contradiction]. split; auto. intros st Est. rewrite (HC st Est). rs. split; [|auto]. destruct (sv_settings s), st; constructor; reflexivity.
  - destruct HC as [(HN & _)|(_ & -> & ->)]; [contradiction|auto].
Qed.

(** Error texts. *)
(** The text that belongs to each error code (the comments of osqp_api_constants.h:73-88). *)
Definition error_text (code : Z) : string :=
  if code =? 1 then "Problem data validation."%string else
  if code =? 2 then "Solver settings validation."%string else
  if code =? 3 then "Linear system solver initialization."%string else
  if code =? 4 then "KKT matrix factorization.
The problem seems to be non-convex."%string else
  if code =? 5 then "Memory allocation."%string else
  if code =? 6 then "Solver workspace not initialized."%string else
  if code =? 7 then "Algebra libraries not loaded."%string else
  if code =? 8 then "Unable to open file for writing."%string else
  if code =? 9 then "Invalid defines for codegen"%string else
  if code =? 10 then "Vector/matrix not initialized."%string else
  if code =? 11 then "Function not implemented."%string else "Unknown error code."%string.
Lemma error_message_ok code : 0 < code -> osqp_error_message code = Some (error_text code).
Proof.
  intros H. destruct (Z_le_gt_dec 12 code) as [H12|H12].
  - unfold osqp_error_message, OSQP_LAST_ERROR_PLACE, error_text. replace (code >=? 12) with true by lia. replace (code =? 1) with false by lia.
    replace (code =? 2) with false by lia. replace (code =? 3) with false by lia. replace (code =? 4) with false by lia. replace (code =? 5) with false by lia.
    replace (code =? 6) with false by lia. replace (code =? 7) with false by lia. replace (code =? 8) with false by lia. replace (code =? 9) with false by lia.
    replace (code =? 10) with false by lia. replace (code =? 11) with false by lia. reflexivity.
  - assert (Hc : code = 1 \/ code = 2 \/ code = 3 \/ code = 4 \/ code = 5 \/ code = 6 \/ code = 7 \/ code = 8 \/ code = 9 \/ code = 10 \/ code = 11) by lia.
    repeat destruct Hc as [->|Hc]; try subst code; reflexivity.
Qed.
Lemma error_message_large code : 12 <= code -> osqp_error_message code = Some "Unknown error code."%string.
Proof. intros H. unfold osqp_error_message, OSQP_LAST_ERROR_PLACE. replace (code >=? 12) with true by lia. reflexivity. Qed.
Lemma error_message_bad code : code <= 0 -> osqp_error_message code = None.
Proof. intros H. unfold osqp_error_message, OSQP_LAST_ERROR_PLACE. replace (code >=? 12) with false by lia. unfold zget. replace (code - 1 <? 0) with true by lia. reflexivity. Qed.

(** Handles without a workspace. *)
Lemma null_safe (K : NumOps) (E : Env K) (h : handle K) : h = HNull \/ h = HNoWork ->
  osqp_solve E h = Some (OSQP_WORKSPACE_NOT_INIT_ERROR, h) /\
  (forall sol, osqp_get_solution h sol = Some (OSQP_WORKSPACE_NOT_INIT_ERROR, h, sol)) /\
  (forall q l u, osqp_update_data_vec E h q l u = Some (OSQP_WORKSPACE_NOT_INIT_ERROR, h)) /\
  (forall Px Pi Pn Ax Ai An, osqp_update_data_mat E h Px Pi Pn Ax Ai An = Some (OSQP_WORKSPACE_NOT_INIT_ERROR, h)) /\
  (forall x y, osqp_warm_start h x y = Some (OSQP_WORKSPACE_NOT_INIT_ERROR, h)) /\
  (forall r, osqp_update_rho E h r = Some (OSQP_WORKSPACE_NOT_INIT_ERROR, h)) /\
  osqp_get_dimensions h = (-1, -1) /\ (h = HNoWork -> forall st, osqp_update_settings h st = Some (OSQP_WORKSPACE_NOT_INIT_ERROR, h)).
Proof. intros [-> | ->]; repeat split; discriminate. Qed.
Lemma null_unsafe (K : NumOps) : (forall st, @osqp_update_settings K HNull st = None) /\ @osqp_cold_start K HNull = None /\ @osqp_cold_start K HNoWork = None.
Proof. repeat split. Qed.

(** Certificates. *)
Definition pinf_status (v : Z) : Prop := v = OSQP_PRIMAL_INFEASIBLE \/ v = OSQP_PRIMAL_INFEASIBLE_INACCURATE.
Definition dinf_status (v : Z) : Prop := v = OSQP_DUAL_INFEASIBLE \/ v = OSQP_DUAL_INFEASIBLE_INACCURATE.
Lemma store_solution_delta (s : solver Rops) o : post (store_solution s (Some o)) (fun r =>
  (pinf_status (i_status_val (sv_info s)) -> w_delta_y (sv_work (fst r)) = vf_mult_scalar (w_delta_y (sv_work s)) (ndiv n1 (vf_norm_inf (w_delta_y (sv_work s))))) /\
  (dinf_status (i_status_val (sv_info s)) -> w_delta_x (sv_work (fst r)) = vf_mult_scalar (w_delta_x (sv_work s)) (ndiv n1 (vf_norm_inf (w_delta_x (sv_work s)))))).
Proof.
  unfold store_solution. destruct (has_solution _) eqn:Eh.
  - apply post_bind. intros [[x y] w1] _. apply has_solution_iff in Eh. walk. split; intros HH; exfalso; apply Eh; unfold pinf_status, dinf_status in HH; tauto.
  - do 2 walk1. eapply post_bindP; [apply cold_start_post|]. intros w1 ->. rs.
    set (bp := _ || _). set (bd := _ || _).
    assert (Hp : pinf_status (i_status_val (sv_info s)) <-> bp = true) by (subst bp; unfold pinf_status; rewrite orb_true_iff, !Z.eqb_eq; tauto).
    assert (Hd : dinf_status (i_status_val (sv_info s)) <-> bd = true) by (subst bd; unfold dinf_status; rewrite orb_true_iff, !Z.eqb_eq; tauto).
    assert (Hx : bp = true -> bd = true -> False).
    { intros H1 H2. apply Hp in H1. apply Hd in H2. unfold pinf_status, dinf_status, OSQP_PRIMAL_INFEASIBLE, OSQP_PRIMAL_INFEASIBLE_INACCURATE, OSQP_DUAL_INFEASIBLE, OSQP_DUAL_INFEASIBLE_INACCURATE in *. lia. }
    clearbody bp bd.
    eapply post_bindP with (P := fun r => (bp = true -> w_delta_y (fst r) = vf_mult_scalar (w_delta_y (sv_work s)) (ndiv n1 (vf_norm_inf (w_delta_y (sv_work s))))) /\ (bp = false -> w_delta_x (fst r) = w_delta_x (sv_work s))).
    { destruct bp; walk; split; auto; discriminate. }
    intros [w2 o2] (A1 & A2). cbn [fst] in *.
    eapply post_bindP with (P := fun r => (bd = true -> w_delta_x (fst r) = vf_mult_scalar (w_delta_x w2) (ndiv n1 (vf_norm_inf (w_delta_x w2)))) /\ (bd = false -> w_delta_y (fst r) = w_delta_y w2)).
    { destruct bd; walk; split; auto; discriminate. }
    intros [w3 o3] (B1 & B2). cbn [fst] in *. apply post_ret. cbn [fst]. rs. rewrite Hp, Hd. split; intros HH.
    + rewrite B2 by (destruct bd; auto; exfalso; auto). auto.
    + rewrite B1 by auto. rewrite A2 by (destruct bp; auto; exfalso; auto). auto.
Qed.

(** A nonzero certificate is normalised, and reading it again returns the same numbers. *)
Lemma maxabs_scaled n (f : Z -> R) e : is_maxabs (vals n f) e -> (0 < e)%R -> is_maxabs (vals n (fun i => f i / e)%R) 1.
Proof.
  intros (H1 & H2 & H3) He. assert (Ha : forall v, Rabs (v / e) = (Rabs v / e)%R) by (intros v; unfold Rdiv; rewrite Rabs_mult, (Rabs_right (/ e)); auto; apply Rle_ge, Rlt_le, Rinv_0_lt_compat; auto).
  split; [lra|]. split.
  - intros v (i & Hi & ->). rewrite Ha. apply (Rmult_le_reg_r e); auto. unfold Rdiv. rewrite Rmult_assoc, Rinv_l by lra. rewrite Rmult_1_r, Rmult_1_l. apply H2. exists i. auto.
  - right. destruct H3 as [H3|(v & (i & Hi & ->) & ->)]; [lra|]. exists (f i / Rabs (f i))%R. split; [exists i; auto|]. rewrite Ha. unfold Rdiv. rewrite Rinv_r; auto. lra.
Qed.
Lemma filled_vals n f old new : filled n f old new -> n <= rlen old -> forall S, is_maxabs (vals n f) S -> is_maxabs (vals n (rnth new)) S.
Proof. intros (_ & H & _) _ S. apply is_maxabs_ext. intros v. split; intros (i & Hi & ->); exists i; (split; [auto|]); rewrite H; auto. Qed.
Lemma filled_twice n f (a b c : list R) : n <= rlen a -> filled n f a b -> filled n f b c -> c = b.
Proof.
  intros Hn (L1 & V1 & O1) (L2 & V2 & O2). apply rlist_ext; [lia|]. intros i Hi. destruct (Z.lt_ge_cases i n); [rewrite V1, V2 by lia|rewrite O2 by lia]; auto.
Qed.
Lemma maxabs_unique n f e e' : is_maxabs (vals n f) e -> is_maxabs (vals n f) e' -> e = e'.
Proof. apply is_maxabs_unique. Qed.

Section Cert.
  Variable E : Env Rops.
  Hypothesis EO : env_ok E.
  Variables (P A : csc Rops) (q0 l0 u0 : option (list R)) (m n : Z) (ust : settings Rops).
  Notation ses := (session E P A q0 l0 u0 m n ust).

  Theorem certificate_normalised s d o : ses s d -> solok n m o -> (0 < @vf_norm_inf Rops (w_delta_y (sv_work s)))%R -> pinf_status (i_status_val (sv_info s)) ->
    exists s1 s2 o1, osqp_get_solution (HSolver s) (Some o) = Some (0, HSolver s1, Some o1) /\
      is_maxabs (vals m (rnth (so_prim_inf_cert o1))) 1 /\ osqp_get_solution (HSolver s1) (Some o1) = Some (0, HSolver s2, Some o1).
  Proof.
    intros HS HO Hp HP. destruct (session_get_solution E EO _ _ _ _ _ _ _ _ s d o HS HO) as (s1 & o1 & E1 & HS1 & SH1 & AR & Est & Ein & HO1).
    destruct (session_get_solution E EO _ _ _ _ _ _ _ _ s1 d o1 HS1 HO1) as (s2 & o2 & E2 & HS2 & SH2 & _). exists s1, s2, o1. split; auto.
    destruct (session_size E EO _ _ _ _ _ _ _ _ _ _ HS) as (En & Em). destruct (session_size E EO _ _ _ _ _ _ _ _ _ _ HS1) as (En1 & Em1).
    destruct (session_facts E EO _ _ _ _ _ _ _ _ _ _ HS) as (HI & _). pose proof (wo_len _ _ (iv_w _ HI)) as HL. destruct HL. pose proof HO as [].
    assert (HN : ~ reports (i_status_val (sv_info s))) by (intros H; apply H; unfold pinf_status in HP; tauto).
    pose proof E1 as E1'. unfold osqp_get_solution in E1'. destruct (store_solution s (Some o)) as [[s1' o1']|] eqn:Est1; [|discriminate]. injection E1' as -> ->.
    destruct (store_solution_delta s o _ Est1) as (HD & _). specialize (HD HP). cbn [fst] in HD.
    destruct (sh_none _ _ _ SH1 HN) as (X1 & Y1). destruct (sh_pinf _ _ _ SH1 HP) as (D1 & e1 & M1 & C1).
    
    assert (HN1 : ~ reports (i_status_val (sv_info s1))) by (rewrite Ein; auto). assert (HP1 : pinf_status (i_status_val (sv_info s1))) by (rewrite Ein; auto).
    destruct (sh_none _ _ _ SH2 HN1) as (X2 & Y2). destruct (sh_pinf _ _ _ SH2 HP1) as (D2 & e2 & M2 & C2).
    rewrite En, Em, En1, Em1 in *. 
    pose proof (vf_norm_inf_spec (w_delta_y (sv_work s))) as HM. change (car Rops) with R in *. rewrite ln_dy in HM.
    assert (e1 = @vf_norm_inf Rops (w_delta_y (sv_work s))) by (eapply maxabs_unique; eauto). subst e1. set (e := @vf_norm_inf Rops (w_delta_y (sv_work s))) in *.
    assert (N1 : is_maxabs (vals m (fun i => rnth (w_delta_y (sv_work s)) i / e)%R) 1) by (apply maxabs_scaled; auto).
    assert (V1 : forall i, 0 <= i < m -> rnth (w_delta_y (sv_work s1)) i = (rnth (w_delta_y (sv_work s)) i / e)%R).
    { intros i Hi. rewrite HD. unfold vf_mult_scalar. rewrite rnth_map by lia. fix_R. unfold Rdiv. fold e. ring. }
    assert (e2 = 1%R).
    { eapply maxabs_unique; [exact M2|]. eapply is_maxabs_ext; [|exact N1]. intros v. split; intros (i & Hi & ->); exists i; (split; [auto|]); rewrite V1; auto. }
    subst e2. split; [eapply filled_vals; [exact C1|lia|auto]|]. rewrite E2. destruct o1 as [x1 y1 p1 d1], o2 as [x2 y2 p2 d2]. cbn [so_x so_y so_prim_inf_cert so_dual_inf_cert] in *.
    assert (C2' : filled _ (fun i => rnth (w_delta_y (sv_work s)) i / e)%R _ _) by (eapply filled_eq; [exact C2|reflexivity|intros i Hi; cbv beta; rewrite V1 by auto; unfold Rdiv; rewrite Rinv_1; ring]).
    rewrite (filled_twice _ _ _ _ _ sk_x X1 X2), (filled_twice _ _ _ _ _ sk_y Y1 Y2). rewrite (filled_twice _ _ _ _ _ sk_dc D1 D2), (filled_twice _ _ _ _ _ sk_pc C1 C2'). reflexivity.
  Qed.

  Theorem dual_certificate_normalised s d o : ses s d -> solok n m o -> (0 < @vf_norm_inf Rops (w_delta_x (sv_work s)))%R -> dinf_status (i_status_val (sv_info s)) ->
    exists s1 s2 o1, osqp_get_solution (HSolver s) (Some o) = Some (0, HSolver s1, Some o1) /\
      is_maxabs (vals n (rnth (so_dual_inf_cert o1))) 1 /\ osqp_get_solution (HSolver s1) (Some o1) = Some (0, HSolver s2, Some o1).
  Proof.
    intros HS HO Hp HP. destruct (session_get_solution E EO _ _ _ _ _ _ _ _ s d o HS HO) as (s1 & o1 & E1 & HS1 & SH1 & AR & Est & Ein & HO1).
    destruct (session_get_solution E EO _ _ _ _ _ _ _ _ s1 d o1 HS1 HO1) as (s2 & o2 & E2 & HS2 & SH2 & _). exists s1, s2, o1. split; auto.
    destruct (session_size E EO _ _ _ _ _ _ _ _ _ _ HS) as (En & Em). destruct (session_size E EO _ _ _ _ _ _ _ _ _ _ HS1) as (En1 & Em1).
    destruct (session_facts E EO _ _ _ _ _ _ _ _ _ _ HS) as (HI & _). pose proof (wo_len _ _ (iv_w _ HI)) as HL. destruct HL. pose proof HO as [].
    assert (HN : ~ reports (i_status_val (sv_info s))) by (intros H; apply H; unfold dinf_status in HP; tauto).
    pose proof E1 as E1'. unfold osqp_get_solution in E1'. destruct (store_solution s (Some o)) as [[s1' o1']|] eqn:Est1; [|discriminate]. injection E1' as -> ->.
    destruct (store_solution_delta s o _ Est1) as (_ & HD). specialize (HD HP). cbn [fst] in HD.
    destruct (sh_none _ _ _ SH1 HN) as (X1 & Y1). destruct (sh_dinf _ _ _ SH1 HP) as (D1 & e1 & M1 & C1).
    assert (HN1 : ~ reports (i_status_val (sv_info s1))) by (rewrite Ein; auto). assert (HP1 : dinf_status (i_status_val (sv_info s1))) by (rewrite Ein; auto).
    destruct (sh_none _ _ _ SH2 HN1) as (X2 & Y2). destruct (sh_dinf _ _ _ SH2 HP1) as (D2 & e2 & M2 & C2).
    rewrite En, Em, En1, Em1 in *. 
    pose proof (vf_norm_inf_spec (w_delta_x (sv_work s))) as HM. change (car Rops) with R in *. rewrite ln_dx in HM.
    assert (e1 = @vf_norm_inf Rops (w_delta_x (sv_work s))) by (eapply maxabs_unique; eauto). subst e1. set (e := @vf_norm_inf Rops (w_delta_x (sv_work s))) in *.
    assert (N1 : is_maxabs (vals n (fun i => rnth (w_delta_x (sv_work s)) i / e)%R) 1) by (apply maxabs_scaled; auto).
    assert (V1 : forall i, 0 <= i < n -> rnth (w_delta_x (sv_work s1)) i = (rnth (w_delta_x (sv_work s)) i / e)%R).
    { intros i Hi. rewrite HD. unfold vf_mult_scalar. rewrite rnth_map by lia. fix_R. unfold Rdiv. fold e. ring. }
    assert (e2 = 1%R).
    { eapply maxabs_unique; [exact M2|]. eapply is_maxabs_ext; [|exact N1]. intros v. split; intros (i & Hi & ->); exists i; (split; [auto|]); rewrite V1; auto. }
    subst e2. split; [eapply filled_vals; [exact C1|lia|auto]|]. rewrite E2. destruct o1 as [x1 y1 p1 d1], o2 as [x2 y2 p2 d2]. cbn [so_x so_y so_prim_inf_cert so_dual_inf_cert] in *.
    assert (C2' : filled _ (fun i => rnth (w_delta_x (sv_work s)) i / e)%R _ _) by (eapply filled_eq; [exact C2|reflexivity|intros i Hi; cbv beta; rewrite V1 by auto; unfold Rdiv; rewrite Rinv_1; ring]).
    rewrite (filled_twice _ _ _ _ _ sk_x X1 X2), (filled_twice _ _ _ _ _ sk_y Y1 Y2). rewrite (filled_twice _ _ _ _ _ sk_pc D1 D2), (filled_twice _ _ _ _ _ sk_dc C1 C2'). reflexivity.
  Qed.
End Cert.

(** The exit codes of osqp_setup over the reals, with the ranges spelled out. *)
Lemma setup_settings_code E (EO : env_ok E) g P q A l u m n st : data_readable P q A l u m n -> data_ok P q A l u m n ->
  exists fl so g', osqp_setup E g P q A l u m n st = Some (fl, so, g') /\
    (fl = OSQP_SETTINGS_VALIDATION_ERROR <-> ~ exists ust, st = Some ust /\ settings_in_range true ust) /\
    (fl = OSQP_SETTINGS_VALIDATION_ERROR -> so = None /\ g' = g).
Proof.
  intros HR HD. destruct (setup_codes E EO MM_R g P q A l u m n st HR) as (fl & so & g' & Er & _ & H2 & _ & H4 & _). exists fl, so, g'. split; auto.
  split; [rewrite H2|intros ->; apply H4; discriminate]. split; [intros (_ & HN) (ust & H5 & H6)|intros HN; split; auto; intros (ust & H5 & H6)]; [apply HN|apply HN]; exists ust; split; auto; apply settings_ok_R; auto.
Qed.

(** A convex problem stays convex in the user's data. *)
Lemma init_convex P A q l u m n d : user_init P A q l u m n d -> wf P -> cn P = n -> psd n (sdns P) -> convex d.
Proof.
  intros (En & _ & HC & _) W En' HP x. rewrite En. specialize (HP x).
  replace (qform 0 n (sdns (d_P d)) x) with (qform 0 n (sdns P) x); auto. unfold qform. apply zsum_ext. intros i Hi. apply zsum_ext. intros j Hj. do 2 f_equal.
  unfold sdns. destruct (i <=? j); symmetry; apply copy_dns; auto; lia.
Qed.
