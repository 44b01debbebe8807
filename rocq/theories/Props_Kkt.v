(** Properties C11, C12, C27, C28: the linear system the solver factorises.
    Specifications used: KktSpec.v ([kktS]: the dense matrix [P + sigma I, A'; A, - diag d]), KktClaims.v ([reorders]: M is the upper
    triangle of the matrix after a permutation of rows and columns, [penalty]: the penalty a pair of bounds asks for, [kinds],
    [hist_keep], [rho_in_range]), CscSpec.v ([dns], [sdns], [rnth]), Session.v ([session]).
    [rho_at] reads the penalty of one row and [rinv_at] the inverse the z-update uses (RealStep.v). *)
From Coq Require Import ZArith Reals List Bool Lia Lra String.
From Verif Require Import Num Arr ArrFacts RSum Csc CscSpec CscFacts CscFacts2 CscExamples Vec VecFacts Types Kkt KktSpec KktDense Linsys LinsysFacts LinsysSolve Scaling Validate Auxil Polish Api
  Inv RecSimp InvStep InvApi InvScale InvSolve ValidFacts InvUpd InvSetup History RealVec RealStep Frame FrameSolve ProbSpec ScaleReal FrameUpd UserSpec Refine ExEnv Ldl LdlEnv Session ExReal DataFacts Obs DataClaims ApiClaims KktClaims.
Import ListNotations.
Open Scope Z_scope.

(** C11: forming the KKT matrix of any well-formed P (upper triangle) and A succeeds and gives the upper triangle of
    [P + sigma I, A'; A, - diag d], where d is the vector or the scalar given. *)
Theorem C11_assembled : forall jz jx (P A : csc Rops) sigma param2 sc mP mA mR, wf P -> triu P -> wf A -> cn A = cn P ->
  (forall w, param2 = Some w -> cm A <= zlen w) ->
  (forall t, mP = Some t -> nnz P <= zlen t) -> (forall t, mA = Some t -> nnz A <= zlen t) -> (forall t, mR = Some t -> cm A <= zlen t) ->
  exists M mP' mA' mR', @form_KKT Rops jz jx P A false sigma param2 sc mP mA mR = Some (M, mP', mA', mR') /\
    wf M /\ cm M = cm A + cn P /\ cn M = cm A + cn P /\ triu M /\
    forall i j, 0 <= i < cm A + cn P -> 0 <= j < cm A + cn P ->
      sdns M i j = kktS (cn P) (sdns P) (dns A) sigma (fun k => match param2 with Some w => rnth w k | None => sc end) i j.
Proof. exact form_KKT_dense. Qed.
Print Assumptions C11_assembled.
Example C11_assembled_ex : wf rP /\ triu rP /\ wf rA /\ cn rA = cn rP /\ cm rA = 3.
Proof.
  split; [exact rP_wf|]. split; [|split; [exact rA_wf|split; reflexivity]]. apply triub_ok. reflexivity.
Qed.

(** C11, C28: in any session the factorised matrix is, up to the fill-reducing permutation, the KKT matrix of the stored problem with
    the current penalties, and the inverse penalties kept by the linear solver are the inverses of the current ones. *)
Theorem C11_factorised : forall E, env_ok E -> forall P A q l u m n ust s d, session E P A q l u m n ust s d ->
  exists ls, w_linsys (sv_work s) = Some ls /\ let w := sv_work s in
    reorders (ls_fac ls) (ls_perm ls) (n + m) (kktS n (sdns (d_P (w_data w))) (dns (d_A (w_data w))) (st_sigma (sv_settings s)) (fun i => / rho_at (sv_settings s) w i)%R) /\
    (forall i, 0 <= i < m -> @rinv Rops ls i = (/ rho_at (sv_settings s) w i)%R).
Proof. exact session_kkt. Qed.
Print Assumptions C11_factorised.
Example C11_factorised_ex : env_ok rE /\ exists s d, session rE rP rA (Some rq) (Some rl) (Some ru) 3 2 rst s d.
Proof. split; [exact rE_ok|]. destruct r_start as (s & d & H & _). eauto. Qed.

(** C11: the same in terms of the matrices the user gave and later changed: cDPD + sigma I, EAD and - 1/rho. *)
Theorem C11_factorised_user : forall E, env_ok E -> forall P A q l u m n ust s d, session E P A q l u m n ust s d ->
  exists ls, w_linsys (sv_work s) = Some ls /\
    reorders (ls_fac ls) (ls_perm ls) (n + m)
      (kktS n (fun i j => uc s * uD s i * sdns (d_P d) i j * uD s j)%R (fun i j => uE s i * dns (d_A d) i j * uD s j)%R (st_sigma (sv_settings s)) (fun i => / rho_at (sv_settings s) (sv_work s) i)%R).
Proof. exact session_kkt_user. Qed.
Print Assumptions C11_factorised_user.
Example C11_factorised_user_ex : env_ok rE /\ exists s d, session rE rP rA (Some rq) (Some rl) (Some ru) 3 2 rst s d.
Proof. exact C11_factorised_ex. Qed.

(** C12: building a linear solver from scratch for the stored problem and penalties gives a matrix that represents the same dense
    matrix as the one maintained by the incremental updates, and the same inverse penalties. *)
Theorem C12_incremental : forall E, env_ok E -> forall P A q l u m n ust s d, session E P A q l u m n ust s d ->
  exists ls ls' res, w_linsys (sv_work s) = Some ls /\
    init_linsys_solver E (d_P (w_data (sv_work s))) (d_A (w_data (sv_work s))) (w_rho_vec (sv_work s)) (sv_settings s) false = Some res /\
    (res = (OSQP_NONCVX_ERROR, None) /\ LDL_factor E (ls_fac ls') n < 0 \/ res = (OSQP_NO_ERROR, Some ls') /\ LDL_factor E (ls_fac ls') n = 0) /\
    (forall i, 0 <= i < m -> @rinv Rops ls' i = @rinv Rops ls i) /\
    exists K, reorders (ls_fac ls) (ls_perm ls) (n + m) K /\ reorders (ls_fac ls') (ls_perm ls') (n + m) K.
Proof. exact session_fresh_kkt. Qed.
Print Assumptions C12_incremental.
(** The hypotheses hold after setup, a matrix update and a penalty update. *)
Example C12_incremental_ex : exists s d, session rE rP rA (Some rq) (Some rl) (Some ru) 3 2 rst s d /\
  exists s1 d1 fl s2 d2 fl2, run rE (CUpdMat None None 0 (Some [2]%R) (Some [3]) 1) s = Some (fl, HSolver s1) /\ run rE (CUpdRho 5%R) s1 = Some (fl2, HSolver s2) /\
    session rE rP rA (Some rq) (Some rl) (Some ru) 3 2 rst s1 d1 /\ session rE rP rA (Some rq) (Some rl) (Some ru) 3 2 rst s2 d2.
Proof.
  destruct r_start as (s & d & H & U). exists s, d. split; auto.
  assert (HA : args_ok (CUpdMat (K := Rops) None None 0 (Some [2]%R) (Some [3]) 1) s).
  { destruct (session_facts rE rE_ok _ _ _ _ _ _ _ _ _ _ H) as (HI & HR & _). destruct (rf_sb _ _ HR) as [_ _ _ (SA & _) _ _ _].
    destruct U as (_ & _ & _ & (_ & _ & HA & _) & _). cbn [args_ok]. split; [intros _; split; discriminate|].
    rewrite (same_pat_nnz _ _ SA), HA. change (nnz rA) with 4.
    intros _. cbn [Z.eqb]. split; [intros v [= <-]; unfold zlen; cbn; lia|]. intros e [= <-]. split; [unfold zlen; cbn; lia|]. intros k Hk. assert (k = 0) as -> by lia. change (znth 0 [3] 0) with 3. lia. }
  destruct (session_step rE rE_ok _ _ _ _ _ _ _ _ _ _ _ H HA) as (fl & s1 & d1 & R1 & _ & S1).
  destruct (session_step rE rE_ok _ _ _ _ _ _ _ _ _ _ (CUpdRho 5%R) S1 I) as (fl2 & s2 & d2 & R2 & _ & S2).
  exists s1, d1, fl, s2, d2, fl2. auto.
Qed.

(** C27: after osqp_setup with rho_is_vec, every row has the penalty its stored bounds ask for: 1e-6 if both are beyond +-1e26,
    1000 rho if they are less than 1e-4 apart, rho otherwise. *)
Theorem C27_setup : forall E, env_ok E -> forall g P q A l u m n ust s g', data_readable (Some P) q (Some A) l u m n ->
  osqp_setup E g (Some P) q (Some A) l u m n (Some ust) = Some (0, Some s, g') -> kinds s.
Proof. exact setup_kinds. Qed.
Print Assumptions C27_setup.
Example C27_setup_ex : exists g s g', data_readable (Some rP) (Some rq) (Some rA) (Some rl) (Some ru) 3 2 /\
  osqp_setup rE g (Some rP) (Some rq) (Some rA) (Some rl) (Some ru) 3 2 (Some rst) = Some (0, Some s, g') /\ tr (st_rho_is_vec rst) = true.
Proof.
  destruct (session_start rE rE_ok rE_exact (mkworld 0%nat 0%nat 0 0 []) rP (Some rq) rA (Some rl) (Some ru) 3 2 rst rdata_readable rdata_ok rst_ok rP_psd) as (s & g & d & H & _).
  do 3 eexists. split; [apply rdata_readable|split; [exact H|reflexivity]].
Qed.

(** C27: a successful change of bounds makes every penalty agree with its new bounds, whatever happened before. *)
Theorem C27_new_bounds : forall E, env_ok E -> forall P A q l u m n ust s d ql ll uu s', session E P A q l u m n ust s d -> args_ok (CUpdVec ql ll uu) s ->
  run E (CUpdVec ql ll uu) s = Some (0, HSolver s') -> (ll <> None \/ uu <> None) -> kinds s'.
Proof. exact updvec_kinds. Qed.
Print Assumptions C27_new_bounds.
Example C27_new_bounds_ex : exists s d, session rE rP rA (Some rq) (Some rl) (Some ru) 3 2 rst s d /\
  exists s', args_ok (CUpdVec (K := Rops) None (Some [1; 0; 0]%R) (Some [2; 1; 1]%R)) s /\ run rE (CUpdVec None (Some [1; 0; 0]%R) (Some [2; 1; 1]%R)) s = Some (0, HSolver s').
Proof.
  destruct r_start as (s & d & H & U). exists s, d. split; auto. destruct (session_size rE rE_ok _ _ _ _ _ _ _ _ _ _ H) as (En & Em).
  assert (A1 : vec_arg 3 (Some [1; 0; 0]%R)) by (intros v [= <-]; unfold zlen; cbn; lia). assert (A2 : vec_arg 3 (Some [2; 1; 1]%R)) by (intros v [= <-]; unfold zlen; cbn; lia).
  assert (A0 : vec_arg 2 (@None (list R))) by discriminate.
  destruct (update_vec_accepted rE rE_ok _ _ _ _ _ _ _ _ s d None (Some [1; 0; 0]%R) (Some [2; 1; 1]%R) (d_q d) [1; 0; 0]%R [2; 1; 1]%R H A0 A1 A2) as (fl & s' & R1 & _ & _ & _ & _ & HF).
  - reflexivity.
  - split; [reflexivity|auto].
  - split; [reflexivity|auto].
  - intros i Hi. assert (Hc : i = 0 \/ i = 1 \/ i = 2) by lia. destruct Hc as [-> |[-> | ->]]; unfold rnth, znth; simpl; lra.
  - exists s'. split; [cbn [args_ok]; rewrite En, Em; auto|]. cbn [run]. rewrite R1. rewrite (HF rE_exact); [reflexivity|]. eapply init_convex; [exact U|apply rP_wf|reflexivity|apply rP_psd].
Qed.

(** C27: so it does over any history without a change of matrices under scaling. *)
Theorem C27_history : forall E, env_ok E -> forall g P q A l u m n ust s0 g' s, data_readable (Some P) q (Some A) l u m n ->
  osqp_setup E g (Some P) q (Some A) l u m n (Some ust) = Some (0, Some s0, g') -> hist_keep E s0 s -> kinds s.
Proof. exact history_kinds. Qed.
Print Assumptions C27_history.
Example C27_history_ex : exists g s0 g' s, data_readable (Some rP) (Some rq) (Some rA) (Some rl) (Some ru) 3 2 /\
  osqp_setup rE g (Some rP) (Some rq) (Some rA) (Some rl) (Some ru) 3 2 (Some rst) = Some (0, Some s0, g') /\ hist_keep rE s0 s /\
  exists fl fl1 s1, run rE (CUpdRho 5%R) s0 = Some (fl, HSolver s1) /\ run rE CSolve s1 = Some (fl1, HSolver s).
Proof.
  destruct (session_start rE rE_ok rE_exact (mkworld 0%nat 0%nat 0 0 []) rP (Some rq) rA (Some rl) (Some ru) 3 2 rst rdata_readable rdata_ok rst_ok rP_psd) as (s & g & d & HS & _ & S0).
  destruct (session_step rE rE_ok _ _ _ _ _ _ _ _ _ _ (CUpdRho 5%R) S0 I) as (fl & s1 & d1 & R1 & _ & S1).
  destruct (session_step rE rE_ok _ _ _ _ _ _ _ _ _ _ CSolve S1 I) as (fl2 & s2 & d2 & R2 & _ & S2).
  exists (mkworld 0%nat 0%nat 0 0 []), s, g, s2. split; [apply rdata_readable|]. split; [exact HS|]. split.
  - refine (hk_S rE s s1 CSolve fl2 s2 _ I R2 I). exact (hk_S rE s s (CUpdRho 5%R) fl s1 (hk_0 rE s) I R1 I).
  - eauto.
Qed.

(** C28: if a scalar rho was given within [1e-6, 1e6], the inverse used to update z is the inverse of the penalty used to update y. *)
Theorem C28_inverse : forall E, env_ok E -> forall P A q l u m n ust s d, session E P A q l u m n ust s d -> rho_in_range ust ->
  forall i, 0 <= i < m -> rinv_at (sv_settings s) (sv_work s) i = (/ rho_at (sv_settings s) (sv_work s) i)%R.
Proof. exact session_rinv. Qed.
Print Assumptions C28_inverse.
Example C28_inverse_ex : exists s d, session rE rP rA (Some rq) (Some rl) (Some ru) 3 2 rst s d /\ rho_in_range rst.
Proof. destruct r_start as (s & d & H & _). exists s, d. split; auto. intros HN. discriminate. Qed.

(** C28 is false for a scalar rho outside that range, right after osqp_setup. *)
Theorem C28_scalar_rho_refuted : exists E P A q l u m n ust s d, env_ok E /\ session E P A q l u m n ust s d /\ 0 < m /\
  forall i, 0 <= i < m -> rinv_at (sv_settings s) (sv_work s) i <> (/ rho_at (sv_settings s) (sv_work s) i)%R.
Proof. exact scalar_rho_run. Qed.
Print Assumptions C28_scalar_rho_refuted.
