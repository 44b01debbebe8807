(** Properties C14-C16, C18, C19, C21-C24, C63: the stored problem over any history of calls.
    Specifications used: CscSpec.v ([dns], [sdns], [rnth], [is_maxabs]), ProbSpec.v, ScaleReal.v ([slim], [equilibrates], [ruiz]),
    UserSpec.v ([new_vec], [new_vals], [count_ok], [all_le], [user_init], [user_step], [hist]), DataFacts.v ([stored]),
    Session.v ([session]: osqp_setup returned 0 and any calls followed; [d] is the problem as the user knows it, [s] the solver).
    [uc], [uD], [uE] are the scaling factors c, D, E held by the solver (1 when scaling is off). *)
From Coq Require Import ZArith Reals List Bool Lia Lra String.
From Verif Require Import Num Arr ArrFacts RSum Csc CscSpec CscFacts CscFacts2 CscExamples Vec VecFacts Types Kkt KktSpec Linsys LinsysFacts LinsysSolve Scaling Validate Auxil Polish Api
  Inv RecSimp InvStep InvApi InvScale InvSolve ValidFacts InvUpd InvSetup History RealVec RealStep Frame FrameSolve ProbSpec ScaleReal FrameUpd UserSpec Refine ExEnv Ldl LdlEnv Session ExReal DataFacts Obs DataClaims.
Import ListNotations.
Open Scope Z_scope.

(** C14: over any session the factors are positive, the stored inverses are their reciprocals, and they stay within
    (1e-2)^k .. (1e2)^k (cost: 1e-4, 1e4) where k is the number of passes asked for. *)
Theorem C14_scaling_factors : forall E, env_ok E -> forall P A q l u m n ust s d, session E P A q l u m n ust s d ->
  if st_scaling ust =? 0 then uc s = 1%R /\ (forall i, uD s i = 1%R) /\ (forall i, uE s i = 1%R)
  else exists sc, w_scaling (sv_work s) = Some sc /\ uc s = sc_c sc /\ (forall i, uD s i = rnth (sc_D sc) i) /\ (forall i, uE s i = rnth (sc_E sc) i) /\
    sc_cinv sc = (/ uc s)%R /\ (forall i, 0 <= i < n -> rnth (sc_Dinv sc) i = (/ uD s i)%R) /\ (forall i, 0 <= i < m -> rnth (sc_Einv sc) i = (/ uE s i)%R) /\
    let k := Z.to_nat (st_scaling ust) in
    ((/ 10 ^ 4) ^ k <= uc s <= (10 ^ 4) ^ k)%R /\
    (forall i, 0 <= i < n -> ((/ 10 ^ 2) ^ k <= uD s i <= (10 ^ 2) ^ k)%R) /\ (forall i, 0 <= i < m -> ((/ 10 ^ 2) ^ k <= uE s i <= (10 ^ 2) ^ k)%R).
Proof. exact session_units. Qed.
Print Assumptions C14_scaling_factors.
Example C14_scaling_factors_ex : exists s d, session rE rP rA (Some rq) (Some rl) (Some ru) 3 2 rst s d /\ st_scaling rst = 10.
Proof. destruct r_start as (s & d & H & _). eauto. Qed.

(** C14: after osqp_setup, and after every accepted osqp_update_data_mat, the factors are those of the documented
    equilibration passes for the problem just given. *)
Theorem C14_setup_factors : forall E g P q A l u m n ust s g', env_ok E -> data_readable (Some P) q (Some A) l u m n ->
  osqp_setup E g (Some P) q (Some A) l u m n (Some ust) = Some (0, Some s, g') ->
  exists d, user_init P A q l u m n d /\ session E P A q l u m n ust s d /\ units_for (d_q d) d s.
Proof. exact setup_session. Qed.
Print Assumptions C14_setup_factors.
Example C14_setup_factors_ex : exists g s g', data_readable (Some rP) (Some rq) (Some rA) (Some rl) (Some ru) 3 2 /\
  osqp_setup rE g (Some rP) (Some rq) (Some rA) (Some rl) (Some ru) 3 2 (Some rst) = Some (0, Some s, g').
Proof.
  destruct (session_start rE rE_ok rE_exact (mkworld 0%nat 0%nat 0 0 []) rP (Some rq) rA (Some rl) (Some ru) 3 2 rst rdata_readable rdata_ok rst_ok rP_psd) as (s & g & d & H & _).
  do 3 eexists. split; [apply rdata_readable|exact H].
Qed.

(** C15: after osqp_setup the stored data are c D P D, c D q, E A D, E l, E u for the arguments. *)
Theorem C15_setup_scales_the_data : forall E g P q A l u m n ust s g', env_ok E ->
  data_readable (Some P) (Some q) (Some A) (Some l) (Some u) m n ->
  osqp_setup E g (Some P) (Some q) (Some A) (Some l) (Some u) m n (Some ust) = Some (0, Some s, g') ->
  let ds := w_data (sv_work s) in
  d_n ds = n /\ d_m ds = m /\
  (forall i j, 0 <= i < n -> 0 <= j < n -> sdns (d_P ds) i j = (uc s * uD s i * sdns P i j * uD s j)%R) /\
  (forall i j, 0 <= i < m -> 0 <= j < n -> dns (d_A ds) i j = (uE s i * dns A i j * uD s j)%R) /\
  (forall i, 0 <= i < n -> rnth (d_q ds) i = (uc s * uD s i * rnth q i)%R) /\
  (forall i, 0 <= i < m -> rnth (d_l ds) i = (uE s i * rnth l i)%R) /\
  (forall i, 0 <= i < m -> rnth (d_u ds) i = (uE s i * rnth u i)%R).
Proof. exact setup_stored. Qed.
Print Assumptions C15_setup_scales_the_data.
Example C15_setup_scales_the_data_ex : exists g s g', data_readable (Some rP) (Some rq) (Some rA) (Some rl) (Some ru) 3 2 /\
  osqp_setup rE g (Some rP) (Some rq) (Some rA) (Some rl) (Some ru) 3 2 (Some rst) = Some (0, Some s, g').
Proof. exact C14_setup_factors_ex. Qed.

(** C16: undoing the scaling of any solver in use gives the user's problem back, field by field. *)
Theorem C16_unscaling_restores : forall E P A q l u m n ust s d, env_ok E -> session E P A q l u m n ust s d ->
  tr (st_scaling (sv_settings s)) = true -> exists w', unscale_data (sv_work s) = Some w' /\ w_data w' = d.
Proof. exact session_unscale. Qed.
Print Assumptions C16_unscaling_restores.
Example C16_unscaling_restores_ex : exists s d, session rE rP rA (Some rq) (Some rl) (Some ru) 3 2 rst s d /\ tr (st_scaling (sv_settings s)) = true.
Proof.
  destruct r_start as (s & d & H & _). exists s, d. split; auto. pose proof (session_units rE rE_ok _ _ _ _ _ _ _ _ _ _ H) as HU.
  destruct (session_facts rE rE_ok _ _ _ _ _ _ _ _ _ _ H) as (_ & _ & _ & HK & _). destruct H as [g s0 g' d0 H1 H2 H3 H4 H5].
  destruct (osqp_setup_safe rE rE_ok MM_R g (Some rP) (Some rq) (Some rA) (Some rl) (Some ru) 3 2 (Some rst) H1) as (r & Er & HRes). rewrite H2 in Er. injection Er as <-. cbn [fst snd] in HRes.
  inversion HRes as [| |? ? ? ? ? ? ? ? ? ? EE|s1 g1 HDO HV HI0 Dn Dm HF Hw HLF Hsec Hhan EE]; subst; try discriminate.
  destruct (hist_ref rE rE_ok s0 d0 s d HI0 H4 H5) as (_ & _ & RC). destruct (reach_inv rE rE_ok MM_R s0 s HI0 RC) as (_ & F & _).
  destruct (HF rst eq_refl) as [_ Hst _ _ _ _ _ _ _ _ _ _ _ _]. unfold tr. rewrite (fr_sc _ _ F), Hst. unfold setup_adaptive_rho.
  repeat match goal with |- context [if ?b then _ else _] => destruct b end; reflexivity.
Qed.

(** C18: osqp_update_data_vec with ordered resulting bounds: the user's problem has exactly the new vectors, iterates and
    units are kept and the status is unsolved. *)
Theorem C18_update_data_vec : forall E, env_ok E -> forall P A q0 l0 u0 m n ust s d q l u q' l' u',
  session E P A q0 l0 u0 m n ust s d -> vec_arg n q -> vec_arg m l -> vec_arg m u ->
  new_vec n q (d_q d) q' -> new_vec m l (d_l d) l' -> new_vec m u (d_u d) u' -> all_le m l' u' ->
  exists fl s', osqp_update_data_vec E (HSolver s) q l u = Some (fl, HSolver s') /\
    session E P A q0 l0 u0 m n ust s' (set_d_q q' (set_d_l l' (set_d_u u' d))) /\ iter3 (sv_work s') = iter3 (sv_work s) /\
    w_scaling (sv_work s') = w_scaling (sv_work s) /\ i_status_val (sv_info s') = OSQP_UNSOLVED /\ (exact_ldl E -> convex d -> fl = 0).
Proof. exact update_vec_accepted. Qed.
Print Assumptions C18_update_data_vec.
(** C19: otherwise it is rejected, and the problem, the settings, the status, the iterates, rho, ... are untouched: only
    two scratch vectors and the timing fields change. *)
Theorem C19_rejected_update_data_vec : forall E, env_ok E -> forall P A q0 l0 u0 m n ust s d q l u l' u',
  session E P A q0 l0 u0 m n ust s d -> vec_arg n q -> vec_arg m l -> vec_arg m u ->
  new_vec m l (d_l d) l' -> new_vec m u (d_u d) u' -> ~ all_le m l' u' ->
  exists s', osqp_update_data_vec E (HSolver s) q l u = Some (OSQP_DATA_VALIDATION_ERROR, HSolver s') /\ session E P A q0 l0 u0 m n ust s' d /\
    exists t c lt ut, s' = set_sv_info (set_i_update_time t (sv_info s)) (set_sv_work (set_w_z_prev lt (set_w_delta_y ut (set_w_clear_update_time c (sv_work s)))) s).
Proof. exact update_vec_rejected. Qed.
Print Assumptions C19_rejected_update_data_vec.
Example C18_update_data_vec_ex : exists s d, session rE rP rA (Some rq) (Some rl) (Some ru) 3 2 rst s d /\
  vec_arg 2 (Some [5; 6]%R) /\ vec_arg 3 (Some [0; 0; 0]%R) /\ vec_arg 3 (@None (list R)) /\ all_le 3 [0; 0; 0]%R ru /\ ~ all_le 3 [2; 0; 0]%R ru.
Proof.
  destruct r_start as (s & d & H & _). exists s, d. split; auto. split; [intros v [= <-]; unfold zlen; cbn; lia|]. split; [intros v [= <-]; unfold zlen; cbn; lia|]. split; [discriminate|]. split.
  - intros i Hi. assert (Hc : i = 0 \/ i = 1 \/ i = 2) by lia. destruct Hc as [-> |[-> | ->]]; unfold rnth, znth, ru; simpl; lra.
  - intros HN. specialize (HN 0 ltac:(lia)). unfold rnth, znth, ru in HN. simpl in HN. lra.
Qed.

(** C21: osqp_update_data_mat. *)
Theorem C21_update_data_mat : forall E, env_ok E -> forall P A q0 l0 u0 m n ust s d Px Pidx Pn Ax Aidx An,
  session E P A q0 l0 u0 m n ust s d -> mat_arg (nnz (d_P d)) Pn Px Pidx -> mat_arg (nnz (d_A d)) An Ax Aidx ->
  exists fl s', osqp_update_data_mat E (HSolver s) Px Pidx Pn Ax Aidx An = Some (fl, HSolver s') /\
    (count_ok (nnz (d_P d)) Pn Pidx -> count_ok (nnz (d_A d)) An Aidx ->
       exists P' A', new_vals (d_P d) P' Px Pidx Pn /\ new_vals (d_A d) A' Ax Aidx An /\
         session E P A q0 l0 u0 m n ust s' (set_d_A A' (set_d_P P' d)) /\ iter3 (sv_work s') = iter3 (sv_work s) /\ sv_settings s' = sv_settings s /\
         i_status_val (sv_info s') = OSQP_UNSOLVED /\ (exact_ldl E -> convex (set_d_A A' (set_d_P P' d)) -> fl = 0) /\
         units_for (d_q d) (set_d_A A' (set_d_P P' d)) s') /\
    (~ count_ok (nnz (d_P d)) Pn Pidx -> fl = 1) /\ (count_ok (nnz (d_P d)) Pn Pidx -> ~ count_ok (nnz (d_A d)) An Aidx -> fl = 2) /\
    (~ (count_ok (nnz (d_P d)) Pn Pidx /\ count_ok (nnz (d_A d)) An Aidx) -> session E P A q0 l0 u0 m n ust s' d /\
       exists t c, s' = set_sv_info (set_i_update_time t (sv_info s)) (set_sv_work (set_w_clear_update_time c (sv_work s)) s)).
Proof. exact session_update_mat. Qed.
Print Assumptions C21_update_data_mat.
Example C21_update_data_mat_ex : exists s d, session rE rP rA (Some rq) (Some rl) (Some ru) 3 2 rst s d /\
  @mat_arg Rops (nnz (d_P d)) 2 (Some [5; 6]%R) (Some [0; 2]) /\ @mat_arg Rops (nnz (d_A d)) 0 None None /\
  count_ok (nnz (d_P d)) 2 (Some [0; 2]) /\ count_ok (nnz (d_A d)) 0 None /\ ~ count_ok (nnz (d_P d)) 4 (Some [0; 1; 2; 0]).
Proof.
  destruct r_start as (s & d & H & _ & _ & (_ & _ & HP & _) & (_ & _ & HA & _) & _). exists s, d. split; auto. rewrite HP, HA. change (nnz rP) with 3. change (nnz rA) with 4.
  split; [|split; [|split; [|split]]].
  - intros _. cbn [Z.eqb]. split; [intros v [= <-]; unfold zlen; cbn; lia|]. intros e [= <-]. split; [unfold zlen; cbn; lia|]. intros i Hi. assert (Hc : i = 0 \/ i = 1) by lia. change (nnz rP) with 3. destruct Hc as [-> | ->]; [change (znth 0 [0; 2] 0) with 0|change (znth 0 [0; 2] 1) with 2]; lia.
  - intros _. split; discriminate.
  - split; [lia|discriminate].
  - split; [lia|auto].
  - intros [HN _]. lia.
Qed.

(** C22: every solver that can be reached holds, in its units, the problem obtained from the original data by the updates
    alone; that problem depends only on the calls and their exit codes. *)
Theorem C22_histories : forall E g P q A l u m n ust s0 g' s, env_ok E -> data_readable (Some P) q (Some A) l u m n ->
  osqp_setup E g (Some P) q (Some A) l u m n (Some ust) = Some (0, Some s0, g') -> reach E s0 s ->
  exists d0 d, user_init P A q l u m n d0 /\ hist E s0 d0 s d /\ session E P A q l u m n ust s d.
Proof. exact reach_session. Qed.
Print Assumptions C22_histories.
Theorem C22_stored_problem : forall E, env_ok E -> forall P A q l u m n ust s d, session E P A q l u m n ust s d -> stored s d (uc s) (uD s) (uE s).
Proof. exact session_stored. Qed.
Print Assumptions C22_stored_problem.
Theorem C22_only_calls_and_codes_matter : forall c d fl d1 d2, user_step c d fl d1 -> user_step c d fl d2 -> d1 = d2.
Proof. exact user_step_unique. Qed.
Print Assumptions C22_only_calls_and_codes_matter.
Theorem C22_sessions_continue : forall E, env_ok E -> forall P A q l u m n ust s d c, session E P A q l u m n ust s d -> args_ok c s ->
  exists fl s' d', run E c s = Some (fl, HSolver s') /\ user_step c d fl d' /\ session E P A q l u m n ust s' d'.
Proof. exact session_step. Qed.
Print Assumptions C22_sessions_continue.
(** A session with an update, a solve and a warm start. *)
Example C22_histories_ex : exists s d, session rE rP rA (Some rq) (Some rl) (Some ru) 3 2 rst s d /\ taken 2 [5; 6]%R (d_q d).
Proof.
  destruct r_start as (s & d & H & U). pose proof U as (Un & Um & _).
  destruct (session_update_vec rE rE_ok _ _ _ _ _ _ _ _ s d (Some [5; 6]%R) None None H) as (fl & s1 & q' & l' & u' & _ & Q & L & V & HA & _);
    [intros v [= <-]; unfold zlen; cbn; lia|discriminate|discriminate|].
  cbn [new_vec] in L, V. subst l' u'.
  destruct (HA (proj2 (session_bounds rE _ _ _ _ _ _ _ _ s d rE_ok H))) as (H1 & _).
  destruct (session_step rE rE_ok _ _ _ _ _ _ _ _ s1 _ CSolve H1 I) as (fl2 & s2 & d2 & _ & U2 & H2). cbn [user_step] in U2. subst d2.
  destruct (session_size rE rE_ok _ _ _ _ _ _ _ _ _ _ H2) as (S1 & S2).
  destruct (session_step rE rE_ok _ _ _ _ _ _ _ _ s2 _ (CWarm (Some [1; 1]%R) None) H2) as (fl3 & s3 & d3 & _ & U3 & H3).
  { cbn [args_ok]. rewrite S1, S2. split; [intros v [= <-]; unfold zlen; cbn; lia|discriminate]. }
  cbn [user_step] in U3. subst d3. exists s3. eexists. split; [exact H3|]. exact Q.
Qed.

(** C23 *)
Theorem C23_bounds_ordered : forall E P A q l u m n ust s d, env_ok E -> session E P A q l u m n ust s d ->
  (forall i, 0 <= i < m -> (rnth (d_l (w_data (sv_work s))) i <= rnth (d_u (w_data (sv_work s))) i)%R) /\
  (forall i, 0 <= i < m -> (rnth (d_l d) i <= rnth (d_u d) i)%R).
Proof. exact session_bounds. Qed.
Print Assumptions C23_bounds_ordered.

(** C24: for every number system. *)
Theorem C24_sizes_constant : forall (K : NumOps) (E : Env K) g P q A l u m n st s0 g' s, env_ok E -> nltb (OSQP_RHO_MIN K) (OSQP_RHO_MAX K) = true ->
  data_readable P q A l u m n -> osqp_setup E g P q A l u m n st = Some (0, Some s0, g') -> reach E s0 s ->
  osqp_get_dimensions (HSolver s) = (n, m) /\ dok (w_data (sv_work s)) /\ lens n m (tr (st_scaling (sv_settings s))) (sv_work s) /\
  same_pat (d_P (w_data (sv_work s0))) (d_P (w_data (sv_work s))) /\ same_pat (d_A (w_data (sv_work s0))) (d_A (w_data (sv_work s))).
Proof. exact reach_sizes. Qed.
Print Assumptions C24_sizes_constant.
Example C24_sizes_constant_ex : nltb (OSQP_RHO_MIN Rops) (OSQP_RHO_MAX Rops) = true /\ nltb (OSQP_RHO_MIN F64) (OSQP_RHO_MAX F64) = true.
Proof. split; [apply MM_R|reflexivity]. Qed.

(** C61: no call on a solver that was set up leaves its arrays, whatever the numbers are. *)
Theorem C61_calls_in_bounds : forall (K : NumOps) (E : Env K) g P q A l u m n st s0 g' s c, env_ok E -> nltb (OSQP_RHO_MIN K) (OSQP_RHO_MAX K) = true ->
  data_readable P q A l u m n -> osqp_setup E g P q A l u m n st = Some (0, Some s0, g') -> reach E s0 s -> args_ok c s ->
  exists fl s', run E c s = Some (fl, HSolver s').
Proof. exact reach_run_safe. Qed.
Print Assumptions C61_calls_in_bounds.
Theorem C61_setup_in_bounds : forall (K : NumOps) (E : Env K), env_ok E -> nltb (OSQP_RHO_MIN K) (OSQP_RHO_MAX K) = true ->
  forall g P q A l u m n st, data_readable P q A l u m n -> exists r, osqp_setup E g P q A l u m n st = Some r.
Proof. exact setup_total. Qed.
Print Assumptions C61_setup_in_bounds.

(** C63: a convex problem is never refused (exact arithmetic, exact factorisation). *)
Theorem C63_convex_accepted : forall E, env_ok E -> exact_ldl E -> forall g P q A l u m n ust,
  data_readable (Some P) q (Some A) l u m n -> data_ok (Some P) q (Some A) l u m n -> settings_ok true ust -> psd n (sdns P) ->
  exists s g', osqp_setup E g (Some P) q (Some A) l u m n (Some ust) = Some (0, Some s, g').
Proof. exact setup_convex. Qed.
Print Assumptions C63_convex_accepted.
Example C63_convex_accepted_ex : env_ok rE /\ exact_ldl rE /\ data_readable (Some rP) (Some rq) (Some rA) (Some rl) (Some ru) 3 2 /\
  data_ok (Some rP) (Some rq) (Some rA) (Some rl) (Some ru) 3 2 /\ settings_ok true rst /\ psd 2 (sdns rP).
Proof. exact (conj rE_ok (conj rE_exact (conj rdata_readable (conj rdata_ok (conj rst_ok rP_psd))))). Qed.
