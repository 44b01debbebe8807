(** A concrete problem in exact arithmetic, its session, and how sessions grow. *)
From Coq Require Import ZArith Reals List Bool Lia Lra String.
From Verif Require Import Num Arr ArrFacts RSum Csc CscSpec CscFacts CscFacts2 CscExamples Vec Types Kkt Linsys LinsysFacts LinsysSolve Scaling Validate Auxil Polish Api
  Inv RecSimp InvStep InvApi InvSolve ValidFacts InvUpd InvSetup History RealVec RealStep ProbSpec UserSpec Refine ExEnv Ldl LdlEnv Session.
Import ListNotations.
Open Scope Z_scope.

Section Grow.
  Variable E : Env Rops.
  Hypothesis EO : env_ok E.

  (** Every call with arrays of the right size continues a session. *)
  Lemma session_step P A q l u m n ust s d c : session E P A q l u m n ust s d -> args_ok c s ->
    exists fl s' d', run E c s = Some (fl, HSolver s') /\ user_step c d fl d' /\ session E P A q l u m n ust s' d'.
  Proof.
    intros HS HA. destruct (session_facts E EO _ _ _ _ _ _ _ _ _ _ HS) as (HI & HR & _).
    destruct (run_safe E EO MM_R c s HI HA) as ([fl h] & Er & s' & Eh & _). cbn [snd] in Eh. subst h.
    destruct (run_ref E c d s fl s' HI HR HA Er) as (d' & US & _).
    exists fl, s', d'. split; auto. split; auto. destruct HS as [g s0 g' d0 H1 H2 H3 H4 H5]. econstructor; eauto. econstructor; eauto.
  Qed.
  Lemma session_start (EX : exact_ldl E) g P q A l u m n ust : data_readable (Some P) q (Some A) l u m n -> data_ok (Some P) q (Some A) l u m n -> settings_ok true ust ->
    psd n (sdns P) -> exists s g' d, osqp_setup E g (Some P) q (Some A) l u m n (Some ust) = Some (0, Some s, g') /\ user_init P A q l u m n d /\ session E P A q l u m n ust s d.
  Proof.
    intros H1 H2 H3 H4. destruct (setup_convex E EO EX g P q A l u m n ust H1 H2 H3 H4) as (s & g' & HS).
    destruct (setup_ref E EO g _ _ _ _ _ _ _ _ s g' H1 HS) as (HI & P0 & A0 & d0 & EP & EA & UI & RF & _). injection EP as <-. injection EA as <-.
    exists s, g', d0. split; auto. split; auto. econstructor; eauto. constructor.
  Qed.
  Lemma session_size P A q l u m n ust s d : session E P A q l u m n ust s d -> d_n (w_data (sv_work s)) = n /\ d_m (w_data (sv_work s)) = m.
  Proof.
    intros HS. destruct (session_facts E EO _ _ _ _ _ _ _ _ _ _ HS) as (HI & HR & _ & _ & En & Em & _). destruct (rf_sb _ _ HR) as [Bn Bm _ _ _ _ _]. split; congruence.
  Qed.
End Grow.

(** minimise 1/2 x'Px + q'x with P = [4 1; 1 2], q = (1, 1), subject to x1 + x2 = 1, 0 <= x <= 0.7 *)
Definition rP : csc Rops := mkcsc (K := Rops) 2 2 [0; 1; 3] [0; 0; 1] [4; 1; 2]%R 3 (-1).
Definition rA : csc Rops := mkcsc (K := Rops) 3 2 [0; 2; 4] [0; 1; 0; 2] [1; 1; 1; 1]%R 4 (-1).
Definition rq : list R := [1; 1]%R.
Definition rl : list R := [1; 0; 0]%R.
Definition ru : list R := [1; 7 / 10; 7 / 10]%R.
Definition rE : Env Rops := @exEnv Rops (fun _ => 0%R) (fun _ => false).
Definition rst : settings Rops := @default_settings Rops.

Lemma rE_ok : env_ok rE. Proof. apply exEnv_ok. Qed.
Lemma rE_exact : exact_ldl rE. Proof. apply exEnv_exact. Qed.
Lemma rP_wf : wf rP. Proof. apply wfb_ok. reflexivity. Qed.
Lemma rA_wf : wf rA. Proof. apply wfb_ok. reflexivity. Qed.

Lemma rdata_readable : data_readable (Some rP) (Some rq) (Some rA) (Some rl) (Some ru) 3 2.
Proof.
  constructor; try (intros v [= <-]; unfold zlen; cbn; lia); try (intros _; eexists; split; [reflexivity|unfold zlen; cbn; lia]).
  - intros P [= <-]. apply rP_wf.
  - intros A [= <-]. apply rA_wf.
Qed.
Lemma rdata_ok : data_ok (Some rP) (Some rq) (Some rA) (Some rl) (Some ru) 3 2.
Proof.
  constructor; [lia|lia|discriminate| | |].
  - exists rP. repeat split. intros j k Hj Hk. apply (triub_ok rP); [reflexivity|cbn [cn rP]; lia|auto].
  - exists rA. repeat split.
  - intros lv uv j [= <-] [= <-] Hj. assert (H : j = 0 \/ j = 1 \/ j = 2) by lia. destruct H as [-> |[-> | ->]]; cbn [nltb Rops]; unfold Rltb; match goal with |- context [Rlt_dec ?a ?b] => destruct (Rlt_dec a b) as [H|] end; auto; exfalso; unfold znth, rl, ru in H; simpl in H; lra.
Qed.
Lemma rlit_pos m e : 0 < m -> (0 < Rlit m e)%R.
Proof. intros H. unfold Rlit. apply Rmult_lt_0_compat; [apply IZR_lt; auto|]. apply powerRZ_lt. lra. Qed.
Lemma gt_ok_R (a x : R) : @gt_ok Rops a x <-> (a < x)%R.
Proof. unfold gt_ok. cbn [nleb Rops]. unfold Rleb. destruct (Rle_dec x a); split; intros; try discriminate; auto; lra. Qed.
Lemma ge_ok_R (a x : R) : @ge_ok Rops a x <-> (a <= x)%R.
Proof. unfold ge_ok. cbn [nltb Rops]. unfold Rltb. destruct (Rlt_dec x a); split; intros; try discriminate; auto; lra. Qed.
Lemma lt_ok_R (a x : R) : @lt_ok Rops a x <-> (a < x)%R.
Proof. unfold lt_ok. cbn [nleb Rops]. unfold Rleb. destruct (Rle_dec x a); split; intros; try discriminate; auto; lra. Qed.
Lemma rst_ok : settings_ok true rst.
Proof.
  unfold rst, default_settings.
  assert (L1 : (Rlit 16 (-1) < 2)%R) by (unfold Rlit, powerRZ; change (Pos.to_nat 1) with 1%nat; simpl pow; lra). assert (L2 : (Rlit 15 (-2) < 1)%R) by (unfold Rlit, powerRZ; change (Pos.to_nat 2) with 2%nat; simpl pow; lra).
  assert (L3 := fun m e H => Rlt_le _ _ (rlit_pos m e H)).
  constructor; cbn [st_linsys_solver st_allocate_solution st_verbose st_profiler_level st_warm_starting st_scaling st_polishing st_rho st_rho_is_vec st_sigma st_alpha
    st_cg_max_iter st_cg_tol_reduction st_cg_tol_fraction st_adaptive_rho st_adaptive_rho_interval st_adaptive_rho_fraction st_adaptive_rho_tolerance st_max_iter st_eps_abs st_eps_rel
    st_eps_prim_inf st_eps_dual_inf st_scaled_termination st_check_termination st_check_dualgap st_time_limit st_delta st_polish_refine_iter OSQP_RHO OSQP_SIGMA OSQP_ALPHA];
    unfold ADAPTIVE_RHO_KKT_ERROR, OSQP_CHECK_TERMINATION, OSQP_DIRECT_SOLVER, OSQP_RHO, OSQP_SIGMA, OSQP_ALPHA; rewrite ?gt_ok_R, ?ge_ok_R, ?lt_ok_R, ?n0_R, ?n1_R, ?nofZ_R; cbn [nlit Rops]; auto; try lia;
    try (intros _; apply rlit_pos; lia); try (split; [apply rlit_pos; lia|assumption]); try (apply rlit_pos; lia); try (apply L3; lia).
  - intros _. lra.
  - left. cbn [neqb Rops]. unfold Reqb. destruct (Req_EM_T _ _) as [H|]; auto. exfalso. pose proof (rlit_pos 1 (-3) ltac:(lia)). lra.
Qed.
Lemma rP_psd : psd 2 (sdns rP).
Proof.
  assert (S2 : forall f, zsum 0 2 f = (f 0%Z + f 1%Z)%R) by (intros f; rewrite (zsum_snoc 0 1), (zsum_snoc 0 0), zsum_nil by lia; cbn [Z.add]; idtac; ring).
  assert (S1 : forall a f, zsum a (a + 1) f = f a) by (intros a f; rewrite (zsum_snoc a a), zsum_nil by lia; lra).
  assert (D0 : forall i, dns rP i 0 = (if 0 =? i then 4 else 0)%R) by (intros i; unfold dns; change (colp rP 0) with 0; change (colp rP (0 + 1)) with (0 + 1); rewrite S1; reflexivity).
  assert (D1 : forall i, dns rP i 1 = ((if 0 =? i then 1 else 0) + (if 1 =? i then 2 else 0))%R).
  { intros i; unfold dns; change (colp rP 1) with 1; change (colp rP (1 + 1)) with 3. rewrite (zsum_snoc 1 2), (zsum_snoc 1 1), zsum_nil by lia. cbn [Z.add].
    change (rowi rP 1) with 0. change (rowi rP 2) with 1. change (valx rP 1) with 1%R. change (valx rP 2) with 2%R. lra. }
  intros x. unfold qform. rewrite !S2. unfold sdns. cbn [Z.leb Z.compare]. change (1 <=? 0) with false. cbv iota. rewrite ?D0, ?D1. change (0 =? 0) with true. change (1 =? 0) with false. change (0 =? 1) with false. change (1 =? 1) with true. cbv iota.
  pose proof (Rle_0_sqr (x 0%Z)). pose proof (Rle_0_sqr (x 1%Z)). pose proof (Rle_0_sqr (x 0%Z + x 1%Z)). unfold Rsqr in *. change (1 <=? 1) with true. cbv iota. nra.
Qed.

(** The session of the example starts. *)
Lemma r_start : exists s d, session rE rP rA (Some rq) (Some rl) (Some ru) 3 2 rst s d /\ user_init rP rA (Some rq) (Some rl) (Some ru) 3 2 d.
Proof.
  destruct (session_start rE rE_ok rE_exact (mkworld 0%nat 0%nat 0 0 []) rP (Some rq) rA (Some rl) (Some ru) 3 2 rst rdata_readable rdata_ok rst_ok rP_psd) as (s & g & d & _ & U & S).
  exists s, d. auto.
Qed.
