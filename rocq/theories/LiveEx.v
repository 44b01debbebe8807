(** Liveness for problems whose bounds are all finite, and a problem to which it applies. *)
From Coq Require Import ZArith Reals List Bool Lia Lra String.
From Verif Require Import Num Arr ArrFacts RSum Csc CscSpec CscFacts CscFacts2 Scatter Vec VecFacts Types Kkt KktSpec KktDense Linsys LinsysFacts LinsysSolve Scaling Validate Auxil Polish Api
  Inv RecSimp InvStep InvApi InvScale InvPolish InvSolve ValidFacts InvUpd InvSetup History RealVec RealStep Frame FrameSolve ProbSpec ScaleReal FrameUpd UserSpec Refine ExEnv Ldl LdlEnv Session ExReal DataFacts Obs DataClaims ApiClaims KktClaims
  QpSpec AdmmSpec Mid Trace AdmmClaims PassFacts SolveEnd TimeFacts TermSpec TermFacts TermCheck AtyFacts TermSolve SolveClaims SolveUser SolveEx SolveRho LiveSpec Live.
Import ListNotations.
Open Scope Z_scope.
Notation stat s := (i_status_val (sv_info s)).

Section Times.
  Context {K : NumOps}.
  Variable E : Env K.
  (** Inside a solve the flag of the first run and the reported setup time stay as they are. *)
  Lemma before_times (s : solver K) k f t : 0 <= st_check_termination (sv_settings s) -> before E s k f t ->
    w_first_run (sv_work t) = w_first_run (sv_work s) /\ i_setup_time (sv_info t) = i_setup_time (sv_info s) /\ w_rho_update_from_solve (sv_work t) = 1 /\
    st_check_termination (sv_settings t) = st_check_termination (sv_settings s).
  Proof.
    intros Hc HB. induction HB as [t H|k f t t' f' H IH Hk HP].
    - destruct (begin_times s t H) as (W & S & T & _). unfold wflag in W. injection W as W1 W2 W3. rewrite S. auto.
    - destruct IH as (I1 & I2 & I3 & I4). pose proof (before_ge _ _ _ _ _ H) as Hge.
      pose proof (tfr_pass E t k f ltac:(lia) ltac:(lia) I3 _ HP) as [T W (Q1 & Q2 & _)]. cbn [outS] in *. unfold wflag in W. unfold tinfo in T. injection W as W1 W2 W3. injection T as T1 T2 T3.
      repeat split; congruence.
  Qed.
  Lemma iterate_times (s : solver K) k t t1 : 0 <= st_check_termination (sv_settings s) -> iterate E s k t t1 ->
    w_first_run (sv_work t1) = w_first_run (sv_work s) /\ i_setup_time (sv_info t1) = i_setup_time (sv_info s).
  Proof.
    intros Hc (f & HB & _ & HT). destruct (before_times s k f t Hc HB) as (B1 & B2 & _).
    pose proof (tfr_admm E t _ HT) as [T W _]. unfold wflag in W. unfold tinfo in T. injection W as W1 W2 W3. injection T as T1 T2 T3. split; congruence.
  Qed.
End Times.

(** The larger of the sizes of a row's bounds, in the units of the scaled problem. *)
Definition row_size (s : solver Rops) (d : data Rops) (i : Z) : R := (uE s i * Rmax (Rabs (rnth (d_l d) i)) (Rabs (rnth (d_u d) i)))%R.

Lemma between_size l u z : (l <= z <= u)%R -> (Rabs z <= Rmax (Rabs l) (Rabs u))%R.
Proof. intros H. unfold Rabs, Rmax. repeat (destruct (Rcase_abs _) || destruct (Rle_dec _ _)); lra. Qed.

Section Finite.
  Variable E : Env Rops.
  Hypothesis EO : env_ok E.
  Hypothesis EX : exact_ldl E.
  Variables (P A : csc Rops) (q0 l0 u0 : option (list R)) (m n : Z) (ust : settings Rops).
  Notation ses := (session E P A q0 l0 u0 m n ust).

  Lemma finite_within s d : ses s d -> rho_in_range ust -> z_within E m s (row_size s d).
  Proof.
    intros HS HR _ k t t1 i HI Hi. destruct (iterate_cone E EO _ _ _ _ _ _ _ _ s d k t t1 HS HR HI) as (_ & HC). destruct (HC i Hi) as (HB & _).
    destruct (session_facts E EO _ _ _ _ _ _ _ _ _ _ HS) as (_ & HRf & _ & _ & _ & Dm & _). pose proof (sq_E _ _ _ _ _ (ref_scaled_qp d s HRf)) as PE. cbn [q_m qp_of] in PE. rewrite Dm in PE. specialize (PE i Hi).
    unfold row_size. rewrite Rabs_mult, (Rabs_right (uE s i)) by lra. apply Rmult_le_compat_l; [lra|]. apply between_size; auto.
  Qed.

  Theorem comes_to_verdict_finite s d xs zs ys : ses s d -> convex d -> rho_in_range ust -> st_adaptive_rho (sv_settings s) = ADAPTIVE_RHO_DISABLED -> tests_users (sv_settings s) -> stat s = OSQP_UNSOLVED ->
    0 < st_check_termination (sv_settings s) -> (0 < st_eps_abs (sv_settings s))%R -> kkt (qp_of d) xs zs ys -> gap_testable m s (row_size s d) ->
    exists N, forall mi, N <= mi -> exists s1 fl s', run E (CUpdSettings (Some (set_st_max_iter mi (sv_settings s)))) s = Some (0, HSolver s1) /\ solve E s1 = Some (fl, s') /\
      (undisturbed E s1 -> decided (stat s')).
  Proof.
    intros HS HC HRR HOff HT HU Hck Heps HK HGT.
    destruct (comes_to_verdict E EO EX P A q0 l0 u0 m n ust s d xs zs ys (row_size s d) HS HC HRR HOff HT HU Hck Heps HK HGT) as (N & HN).
    exists N. intros mi Hmi. destruct (HN mi Hmi) as (s1 & fl & s' & H1 & H2 & H3). exists s1, fl, s'. split; [auto|]. split; [auto|]. intros HQ. apply H3; auto.
    destruct (session_update_settings E EO P A q0 l0 u0 m n ust s d (Some (set_st_max_iter mi (sv_settings s))) HS) as (fl1 & s2 & ER & HS1 & HX).
    pose proof (eq_trans (eq_sym H1) ER) as EQ. injection EQ as <- <-.
    assert (EU : row_size s1 d = row_size s d).
    { destruct HX as [(_ & _ & HX)|(_ & HX & _)]; [|discriminate HX]. rewrite (HX _ eq_refl), set_max_replace. reflexivity. }
    rewrite <- EU. apply finite_within; auto.
  Qed.

  Theorem comes_to_verdict_no_gap s d xs zs ys : ses s d -> convex d -> rho_in_range ust -> st_adaptive_rho (sv_settings s) = ADAPTIVE_RHO_DISABLED -> tests_users (sv_settings s) -> stat s = OSQP_UNSOLVED ->
    0 < st_check_termination (sv_settings s) -> (0 < st_eps_abs (sv_settings s))%R -> kkt (qp_of d) xs zs ys -> tr (st_check_dualgap (sv_settings s)) = false ->
    exists N, forall mi, N <= mi -> exists s1 fl s', run E (CUpdSettings (Some (set_st_max_iter mi (sv_settings s)))) s = Some (0, HSolver s1) /\ solve E s1 = Some (fl, s') /\
      (undisturbed E s1 -> decided (stat s')).
  Proof.
    intros HS HC HRR HOff HT HU Hck Heps HK HG. apply comes_to_verdict_finite with (1 := HS) (9 := HK); auto. intros H. rewrite HG in H. discriminate H.
  Qed.
End Finite.

(** Nothing disturbs a first solve in the example environment, whose clock stands still. *)
Lemma rE_undisturbed s : 0 <= st_check_termination (sv_settings s) -> w_first_run (sv_work s) = 1 -> i_setup_time (sv_info s) = 0%R -> (0 < st_time_limit (sv_settings s))%R -> undisturbed rE s.
Proof.
  intros Hc HF HT HL k t t1 HI. split; [reflexivity|]. destruct (iterate_times rE s k t t1 Hc HI) as (F & T). unfold time_over, clock_read. rewrite F, T, HF, HT.
  assert (HTL : st_time_limit (sv_settings t1) = st_time_limit (sv_settings s)).
  { destruct HI as (f & HB & _ & HA). pose proof (sf_st _ _ (before_sfr rE s k f t HB)) as (r0 & x0 & ES). pose proof (admm_step_post rE t t1 HA) as HX. cbv beta in HX. destruct HX as (X1 & _). rewrite X1, ES. reflexivity. }
  rewrite HTL. change (tr 1) with true. cbv iota. unfold rE, exEnv. cbn [env_clock nadd Rops nleb]. apply andb_false_iff. right. unfold Rleb. destruct (Rle_dec _ _) as [H|]; auto. exfalso. lra.
Qed.

(** min x^2/2 - x with -5 <= x <= 5: one iteration is not enough for eps_abs = 1/1000 (SolveEx.ex_max_iter), some number is. *)
Lemma ex_live : exists s d xs zs ys,
  session rE (yP 1) (yA 1 0) (Some [(-1)%R]) (Some [(-5)%R; (-1)%R]) (Some [5%R; 1%R]) 2 1 (yst (/ 1000) 1) s d /\ convex d /\ rho_in_range (yst (/ 1000) 1) /\
  st_adaptive_rho (sv_settings s) = ADAPTIVE_RHO_DISABLED /\ tests_users (sv_settings s) /\ stat s = OSQP_UNSOLVED /\ 0 < st_check_termination (sv_settings s) /\ (0 < st_eps_abs (sv_settings s))%R /\
  kkt (qp_of d) xs zs ys /\ tr (st_check_dualgap (sv_settings s)) = true /\ gap_testable 2 s (row_size s d) /\ (row_size s d 0 = 5%R /\ row_size s d 1 = 1%R) /\
  (exists fl s', solve rE s = Some (fl, s') /\ stat s' = OSQP_MAX_ITER_REACHED) /\
  (forall mi s1, run rE (CUpdSettings (Some (set_st_max_iter mi (sv_settings s)))) s = Some (0, HSolver s1) -> undisturbed rE s1).
Proof.
  destruct (slack_start (/ 1000) 1) as (s & d & t & t1 & fl & s' & HR & HF & HSv); [lra|lia|].
  exists s, d, (fun _ => 1%R), (fun i => if i =? 0 then 1%R else 0%R), (fun _ => 0%R). pose proof (rd_set _ _ _ _ _ _ _ _ _ _ _ _ _ HR) as ES.
  destruct (ready_none _ _ _ _ _ _ _ _ _ _ _ s d HR) as (Uc & _ & UE).
  split; [exact (rd_ses _ _ _ _ _ _ _ _ _ _ _ _ _ HR)|]. split; [exact (rd_cvx _ _ _ _ _ _ _ _ _ _ _ _ _ HR)|]. split; [apply y_in_range|].
  split; [rewrite ES; reflexivity|]. split; [eapply ready_tests; eauto|]. split; [exact (rd_stat _ _ _ _ _ _ _ _ _ _ _ _ _ HR)|]. split; [rewrite ES; reflexivity|]. split; [rewrite ES; unfold ystp; rs; lra|].
  destruct (rd_l _ _ _ _ _ _ _ _ _ _ _ _ _ HR) as (L0 & L1). destruct (rd_u _ _ _ _ _ _ _ _ _ _ _ _ _ HR) as (U0 & U1). pose proof (rd_n _ _ _ _ _ _ _ _ _ _ _ _ _ HR) as En. pose proof (rd_m _ _ _ _ _ _ _ _ _ _ _ _ _ HR) as Em.
  assert (R2 : forall i, 0 <= i < 2 -> i = 0 \/ i = 1) by lia.
  split.
  { constructor; cbn [q_n q_m qp_of]; rewrite ?En, ?Em.
    - intros j Hj. assert (j = 0) by lia. subst j. cbn [q_q qp_of]. rewrite (rd_q _ _ _ _ _ _ _ _ _ _ _ _ _ HR), (rd_P _ _ _ _ _ _ _ _ _ _ _ _ _ HR), (rd_At _ _ _ _ _ _ _ _ _ _ _ _ _ HR). ring.
    - intros i Hi. destruct (rd_A _ _ _ _ _ _ _ _ _ _ _ _ _ HR (fun _ => 1%R)) as (A0 & A1). destruct (R2 i Hi) as [-> | ->]; [rewrite A0|rewrite A1]; cbn [Z.eqb]; ring.
    - intros i Hi. cbn [q_l q_u qp_of]. destruct (R2 i Hi) as [-> | ->]; [rewrite L0, U0|rewrite L1, U1]; cbn [Z.eqb]; unfold ncone; repeat split; intros; lra. }
  split; [rewrite ES; reflexivity|].
  assert (S0 : row_size s d 0 = 5%R /\ row_size s d 1 = 1%R).
  { unfold row_size. rewrite !UE, L0, L1, U0, U1. split; cases. }
  split.
  { intros _. destruct S0 as (S0 & S1). pose proof big26. split.
    - intros i Hi. destruct (R2 i Hi) as [-> | ->]; rewrite ?S0, ?S1; lra.
    - unfold sumn. rewrite z2, S0, S1, Uc, ES. unfold ystp. rs. assert (H15 : (/ 10 ^ 15 <= / 10000)%R). { apply Rinv_le_contravar; [lra|]. change (10 ^ 15)%R with (10 ^ (4 + 11))%R. rewrite pow_add. pose proof (pow_R1_Rle 10 11 ltac:(lra)). simpl (10 ^ 4)%R. lra. } lra. }
  split; [exact S0|].
  split.
  { exists fl, s'. split; [auto|].
    destruct (slack_one (/ 1000) 1 s d t t1 fl s' eq_refl HR HF HSv) as [(_ & H)|[(_ & H)|(H & _)]]; auto; rewrite (slack_meets _ _ _ _ _ _ _ HR HF) in H; lra. }
  intros mi s1 HRun. destruct (session_update_settings rE rE_ok _ _ _ _ _ _ _ _ s d (Some (set_st_max_iter mi (sv_settings s))) (rd_ses _ _ _ _ _ _ _ _ _ _ _ _ _ HR)) as (fl1 & s2 & ER & HS1 & HX).
  pose proof (eq_trans (eq_sym HRun) ER) as EQ. injection EQ as <- <-. destruct HX as [(_ & _ & HX)|(_ & HX & _)]; [|discriminate HX]. specialize (HX _ eq_refl). rewrite set_max_replace in HX. subst s1.
  apply rE_undisturbed; rs; rewrite ?ES.
  - unfold ystp. rs. lia.
  - exact (rd_first _ _ _ _ _ _ _ _ _ _ _ _ _ HR).
  - exact (rd_time _ _ _ _ _ _ _ _ _ _ _ _ _ HR).
  - unfold ystp. rs. unfold rst, default_settings. cbn [st_time_limit nlit Rops]. pose proof (rlit_pos 1 10 ltac:(lia)). lra.
Qed.

Lemma ex_live_within : exists s d, session rE (yP 1) (yA 1 0) (Some [(-1)%R]) (Some [(-5)%R; (-1)%R]) (Some [5%R; 1%R]) 2 1 (yst (/ 1000) 1) s d /\
  gap_testable 2 s (row_size s d) /\ z_within rE 2 s (row_size s d) /\ row_size s d 0 = 5%R /\ row_size s d 1 = 1%R.
Proof.
  destruct ex_live as (s & d & xs & zs & ys & H1 & _ & H2 & _ & _ & _ & _ & _ & _ & _ & H3 & H4 & _). exists s, d. split; [auto|]. split; [auto|]. split; [eapply finite_within; eauto; apply rE_ok|auto].
Qed.

Lemma ex_live_no_gap : exists s d xs zs ys,
  session rE (yP 1) (yA 1 0) (Some [(-1)%R]) (Some [(-5)%R; (-1)%R]) (Some [5%R; 1%R]) 2 1 (yst (/ 1000) 1) s d /\ convex d /\ rho_in_range (yst (/ 1000) 1) /\
  st_adaptive_rho (sv_settings s) = ADAPTIVE_RHO_DISABLED /\ tests_users (sv_settings s) /\ stat s = OSQP_UNSOLVED /\ 0 < st_check_termination (sv_settings s) /\ (0 < st_eps_abs (sv_settings s))%R /\
  kkt (qp_of d) xs zs ys /\ tr (st_check_dualgap (sv_settings s)) = false.
Proof.
  destruct ex_live as (s & d & xs & zs & ys & H1 & H2 & H3 & H4 & H5 & H6 & H7 & H8 & H9 & _).
  set (ns := set_st_check_dualgap 0 (sv_settings s)).
  destruct (session_update_settings rE rE_ok _ _ _ _ _ _ _ _ s d (Some ns) H1) as (fl & s1 & ER & HS1 & HX).
  assert (HE : s1 = set_sv_settings ns s).
  { destruct HX as [(_ & _ & HX)|(HX & _)].
    - rewrite (HX _ eq_refl). unfold ns. destruct (sv_settings s). reflexivity.
    - exfalso. apply HX. eexists. split; [reflexivity|]. destruct (session_facts rE rE_ok _ _ _ _ _ _ _ _ _ _ H1) as (_ & _ & _ & HK & _).
      destruct HK as [K1 K2 K3 K4 K5 K6 K7 K8 K9 K10 K11 K12 K13 K14 K15 K16 K17 K18 K19 K20 K21 K22 K23 K24 K25 K26 K27 K28 K29 K30]. unfold ns, keep_settings in *. rs_all.
      constructor; rs; auto; try discriminate. all: try (split; [discriminate|apply K15]). all: left; reflexivity. }
  exists s1, d, xs, zs, ys. rewrite HE in *. unfold ns. rs. repeat (split; [solve [auto]|]). reflexivity.
Qed.
