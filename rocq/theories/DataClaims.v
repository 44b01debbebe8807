(** Consequences of the session theorems, in the form in which they are claimed, and sessions of the example problem. *)
From Coq Require Import ZArith Reals List Bool Lia Lra String.
From Verif Require Import Num Arr ArrFacts RSum Csc CscSpec CscFacts CscFacts2 CscExamples Vec VecFacts Types Kkt KktSpec Linsys LinsysFacts LinsysSolve Scaling Validate Auxil Polish Api
  Inv RecSimp InvStep InvApi InvScale InvSolve ValidFacts InvUpd InvSetup History RealVec RealStep Frame FrameSolve ProbSpec ScaleReal FrameUpd UserSpec Refine ExEnv Ldl LdlEnv Session ExReal DataFacts Obs.
Import ListNotations.
Open Scope Z_scope.

(** A solver right after osqp_setup is a session with the problem that was passed. *)
Lemma setup_session E g P q A l u m n ust s g' : env_ok E -> data_readable (Some P) q (Some A) l u m n ->
  osqp_setup E g (Some P) q (Some A) l u m n (Some ust) = Some (0, Some s, g') ->
  exists d, user_init P A q l u m n d /\ session E P A q l u m n ust s d /\ units_for (d_q d) d s.
Proof.
  intros EO H1 HS. destruct (setup_ref E EO g _ _ _ _ _ _ _ _ s g' H1 HS) as (HI & P0 & A0 & d0 & EP & EA & UI & RF & UF). injection EP as <-. injection EA as <-.
  exists d0. split; auto. split; auto. econstructor; eauto. constructor.
Qed.

(** Every solver reachable from a successful osqp_setup is in a session whose problem is obtained from the original
    data by the updates alone, and that problem is determined by the calls and their exit codes. *)
Lemma reach_session E g P q A l u m n ust s0 g' s : env_ok E -> data_readable (Some P) q (Some A) l u m n ->
  osqp_setup E g (Some P) q (Some A) l u m n (Some ust) = Some (0, Some s0, g') -> reach E s0 s ->
  exists d0 d, user_init P A q l u m n d0 /\ hist E s0 d0 s d /\ session E P A q l u m n ust s d.
Proof.
  intros EO H1 HS HR. destruct (setup_ref E EO g _ _ _ _ _ _ _ _ s0 g' H1 HS) as (HI & P0 & A0 & d0 & EP & EA & UI & RF & _). injection EP as <-. injection EA as <-.
  destruct (reach_hist E EO s0 d0 s HI RF HR) as (d & HH). exists d0, d. split; auto. split; auto. econstructor; eauto.
Qed.

(** Setup: the stored problem in terms of the arguments. *)
Lemma setup_stored E g P q A l u m n ust s g' : env_ok E -> data_readable (Some P) (Some q) (Some A) (Some l) (Some u) m n ->
  osqp_setup E g (Some P) (Some q) (Some A) (Some l) (Some u) m n (Some ust) = Some (0, Some s, g') ->
  let ds := w_data (sv_work s) in
  d_n ds = n /\ d_m ds = m /\
  (forall i j, 0 <= i < n -> 0 <= j < n -> sdns (d_P ds) i j = (uc s * uD s i * sdns P i j * uD s j)%R) /\
  (forall i j, 0 <= i < m -> 0 <= j < n -> dns (d_A ds) i j = (uE s i * dns A i j * uD s j)%R) /\
  (forall i, 0 <= i < n -> rnth (d_q ds) i = (uc s * uD s i * rnth q i)%R) /\
  (forall i, 0 <= i < m -> rnth (d_l ds) i = (uE s i * rnth l i)%R) /\
  (forall i, 0 <= i < m -> rnth (d_u ds) i = (uE s i * rnth u i)%R).
Proof.
  intros EO H1 HS. destruct (setup_session E g P (Some q) A (Some l) (Some u) m n ust s g' EO H1 HS) as (d & (U1 & U2 & U3 & U4 & U5 & U6 & U7) & SE & _).
  destruct (session_stored E EO _ _ _ _ _ _ _ _ _ _ SE) as [Sn Sm _ _ _ SP SA Sq Sl Su].
  destruct (session_facts E EO _ _ _ _ _ _ _ _ _ _ SE) as (_ & _ & _ & _ & _ & _ & HDO & _).
  destruct HDO as [Hn Hm _ (P0 & EP & Pm & Pn & HT) (A0 & EA & Am & An) _]. injection EP as <-. injection EA as <-.
  pose proof (dr_P _ _ _ _ _ _ _ H1 P eq_refl) as WP. pose proof (dr_A _ _ _ _ _ _ _ H1 A eq_refl) as WA.
  rewrite U1, U2 in *. cbv zeta. split; auto. split; auto.
  split. { intros i j Hi Hj. rewrite SP by auto. unfold sdns. destruct (i <=? j); rewrite (copy_dns P (d_P d)); auto; lia. }
  split. { intros i j Hi Hj. rewrite SA by auto. rewrite (copy_dns A (d_A d)); auto; lia. }
  split; [|split]; intros i Hi.
  - rewrite Sq by auto. destruct (U5 q eq_refl) as (_ & ->); auto.
  - rewrite Sl by auto. destruct (U6 l eq_refl) as (_ & ->); auto.
  - rewrite Su by auto. destruct (U7 u eq_refl) as (_ & ->); auto.
Qed.

(** Undoing the scaling of a session gives back the user's problem, field for field. *)
Lemma session_unscale E P A q l u m n ust s d : env_ok E -> session E P A q l u m n ust s d -> tr (st_scaling (sv_settings s)) = true ->
  exists w', unscale_data (sv_work s) = Some w' /\ w_data w' = d.
Proof.
  intros EO HS Es. destruct (session_facts E EO _ _ _ _ _ _ _ _ _ _ HS) as (HI & HR & _).
  pose proof (units_pos _ _ HR) as (PC & PD & PE). pose proof (rf_sc _ _ HR) as HX. pose proof (rf_sb _ _ HR) as HB.
  destruct (wo_sc _ _ (iv_w _ HI) Es) as (sc & Ew & _). unfold uc, uD, uE, uscal in *. rewrite Es, Ew in *. destruct (HX sc eq_refl) as (SO & SG & SI).
  destruct (unscale_data_real (sv_work s) sc d) as (w' & E1 & ->); auto; [apply HR|apply (wo_d _ _ (iv_w _ HI))|change (car Rops) with R in *; lra|intros i Hi; specialize (PD i Hi); lra|intros i Hi; specialize (PE i Hi); lra|].
  exists (set_w_data d (sv_work s)). split; auto.
Qed.

Lemma session_bounds E P A q l u m n ust s d : env_ok E -> session E P A q l u m n ust s d ->
  (forall i, 0 <= i < m -> (rnth (d_l (w_data (sv_work s))) i <= rnth (d_u (w_data (sv_work s))) i)%R) /\
  (forall i, 0 <= i < m -> (rnth (d_l d) i <= rnth (d_u d) i)%R).
Proof.
  intros EO HS. destruct (session_facts E EO _ _ _ _ _ _ _ _ _ _ HS) as (HI & HR & _ & _ & En & Em & _).
  pose proof (rf_le _ _ HR) as HL. destruct (session_stored E EO _ _ _ _ _ _ _ _ _ _ HS) as [_ _ _ _ PE _ _ _ Sl Su]. rewrite Em in *. split; auto.
  intros i Hi. rewrite Sl, Su by auto. apply Rmult_le_compat_l; [specialize (PE i Hi); lra|apply HL; auto].
Qed.

(** Sizes and patterns: the workspace of a reachable solver. *)
Lemma reach_sizes (K : NumOps) (E : Env K) g P q A l u m n st s0 g' s : env_ok E -> nltb (OSQP_RHO_MIN K) (OSQP_RHO_MAX K) = true ->
  data_readable P q A l u m n -> osqp_setup E g P q A l u m n st = Some (0, Some s0, g') -> reach E s0 s ->
  osqp_get_dimensions (HSolver s) = (n, m) /\ dok (w_data (sv_work s)) /\ lens n m (tr (st_scaling (sv_settings s))) (sv_work s) /\
  same_pat (d_P (w_data (sv_work s0))) (d_P (w_data (sv_work s))) /\ same_pat (d_A (w_data (sv_work s0))) (d_A (w_data (sv_work s))).
Proof.
  intros EO MM HDR HS HR. destruct (osqp_setup_safe E EO MM g P q A l u m n st HDR) as (r & Er & HRes). rewrite HS in Er. injection Er as <-. cbn [fst snd] in HRes.
  inversion HRes as [| |? ? ? ? ? ? ? ? ? ? EE|s1 g1 HDO HV HI Dn Dm HF Hw HLF Hsec Hhan EE]; subst; try discriminate.
  destruct (reach_inv E EO MM s0 s HI HR) as (HI' & F & _). destruct F as [F1 F2 F3 F4 _ _ _]. cbn [osqp_get_dimensions]. split; [congruence|].
  split; [apply HI'|]. split; [|auto]. rewrite <- F1, <- F2. apply (wo_len _ _ (iv_w _ HI')).
Qed.

(** No call leaves its arrays. *)
Lemma reach_run_safe (K : NumOps) (E : Env K) g P q A l u m n st s0 g' s c : env_ok E -> nltb (OSQP_RHO_MIN K) (OSQP_RHO_MAX K) = true ->
  data_readable P q A l u m n -> osqp_setup E g P q A l u m n st = Some (0, Some s0, g') -> reach E s0 s -> args_ok c s ->
  exists fl s', run E c s = Some (fl, HSolver s').
Proof.
  intros EO MM HDR HS HR HA. destruct (osqp_setup_safe E EO MM g P q A l u m n st HDR) as (r & Er & HRes). rewrite HS in Er. injection Er as <-. cbn [fst snd] in HRes.
  inversion HRes as [| |? ? ? ? ? ? ? ? ? ? EE|s1 g1 HDO HV HI Dn Dm HF Hw HLF Hsec Hhan EE]; subst; try discriminate.
  destruct (reach_inv E EO MM s0 s HI HR) as (HI' & _). destruct (run_safe E EO MM c s HI' HA) as ([fl h] & Ec & s' & Eh & _). cbn [snd] in Eh. subst h. eauto.
Qed.

Lemma setup_total (K : NumOps) (E : Env K) (EO : env_ok E) (MM : nltb (OSQP_RHO_MIN K) (OSQP_RHO_MAX K) = true) g P q A l u m n st :
  data_readable P q A l u m n -> exists r, osqp_setup E g P q A l u m n st = Some r.
Proof. intros H. destruct (osqp_setup_safe E EO MM g P q A l u m n st H) as (r & Er & _). eauto. Qed.

(** The two halves of [session_update_vec]. *)
Lemma update_vec_accepted E (EO : env_ok E) P A q0 l0 u0 m n ust s d q l u q' l' u' :
  session E P A q0 l0 u0 m n ust s d -> vec_arg n q -> vec_arg m l -> vec_arg m u ->
  new_vec n q (d_q d) q' -> new_vec m l (d_l d) l' -> new_vec m u (d_u d) u' -> all_le m l' u' ->
  exists fl s', osqp_update_data_vec E (HSolver s) q l u = Some (fl, HSolver s') /\
    session E P A q0 l0 u0 m n ust s' (set_d_q q' (set_d_l l' (set_d_u u' d))) /\ iter3 (sv_work s') = iter3 (sv_work s) /\
    w_scaling (sv_work s') = w_scaling (sv_work s) /\ i_status_val (sv_info s') = OSQP_UNSOLVED /\ (exact_ldl E -> convex d -> fl = 0).
Proof.
  intros HS Hq Hl Hu Q L U HA. destruct (session_update_vec E EO _ _ _ _ _ _ _ _ s d q l u HS Hq Hl Hu) as (fl & s' & q1 & l1 & u1 & Er & Q1 & L1 & U1 & H1 & _).
  rewrite (new_vec_unique _ _ _ _ _ Q Q1), (new_vec_unique _ _ _ _ _ L L1), (new_vec_unique _ _ _ _ _ U U1) in *. eauto.
Qed.
Lemma update_vec_rejected E (EO : env_ok E) P A q0 l0 u0 m n ust s d q l u l' u' :
  session E P A q0 l0 u0 m n ust s d -> vec_arg n q -> vec_arg m l -> vec_arg m u ->
  new_vec m l (d_l d) l' -> new_vec m u (d_u d) u' -> ~ all_le m l' u' ->
  exists s', osqp_update_data_vec E (HSolver s) q l u = Some (OSQP_DATA_VALIDATION_ERROR, HSolver s') /\ session E P A q0 l0 u0 m n ust s' d /\
    exists t c lt ut, s' = set_sv_info (set_i_update_time t (sv_info s)) (set_sv_work (set_w_z_prev lt (set_w_delta_y ut (set_w_clear_update_time c (sv_work s)))) s).
Proof.
  intros HS Hq Hl Hu L U HA. destruct (session_update_vec E EO _ _ _ _ _ _ _ _ s d q l u HS Hq Hl Hu) as (fl & s' & q1 & l1 & u1 & Er & Q1 & L1 & U1 & _ & H1).
  rewrite (new_vec_unique _ _ _ _ _ L L1), (new_vec_unique _ _ _ _ _ U U1) in *. destruct (H1 HA) as (-> & H2 & H3). eauto.
Qed.
