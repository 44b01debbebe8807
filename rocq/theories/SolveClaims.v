(** What osqp_solve reports in a session, in the user's units (exact arithmetic). *)
From Coq Require Import ZArith Reals List Bool Lia Lra String.
From Verif Require Import Num Arr ArrFacts RSum Csc CscSpec CscFacts CscFacts2 Scatter Vec VecFacts Types Kkt KktSpec KktDense Linsys LinsysFacts LinsysSolve Scaling Validate Auxil Polish Api
  Inv RecSimp InvStep InvApi InvScale InvPolish InvSolve ValidFacts InvUpd InvSetup History RealVec RealStep Frame FrameSolve ProbSpec ScaleReal FrameUpd UserSpec Refine ExEnv Ldl LdlEnv Session ExReal DataFacts Obs DataClaims ApiClaims KktClaims
  QpSpec AdmmSpec Mid Trace AdmmClaims PassFacts SolveEnd TermSpec TermFacts TermCheck AtyFacts TermSolve.
Import ListNotations.
Open Scope Z_scope.

(** The tests are made on the user's problem (as opposed to the scaled one). *)
Definition tests_users (st : settings Rops) : Prop := tr (st_scaling st) = true -> tr (st_scaled_termination st) = false.

(** v is what is left of the multipliers y when those that push against an absent bound, or are tiny, are dropped; both tests are made in the scaled units. *)
Definition trimmed (c : R) (E : Z -> R) (m : Z) (l u y v : Z -> R) : Prop :=
  forall i, 0 <= i < m -> exists a, drops_small (E i * l i) (E i * u i) (c * y i / E i) a /\ v i = (E i * a / c)%R.

(** Positive multiples of a certificate are certificates. *)
Lemma infeasible_scal p e v a : (0 < a)%R -> infeasible_within p e v -> infeasible_within p e (fun i => a * v i)%R.
Proof.
  intros Ha [A1 A2 A3]. assert (EN : ninf (q_m p) (fun i => a * v i)%R = (a * ninf (q_m p) v)%R) by (rewrite ninf_scal, Rabs_right; lra).
  constructor.
  - rewrite EN. apply Rmult_lt_0_compat; auto.
  - assert (ES : support p (fun i => a * v i)%R = (a * support p v)%R).
    { unfold support. rewrite <- sumn_scal. apply sumn_ext. intros i Hi. assert (EM : forall x, Rmax (a * x) 0 = (a * Rmax x 0)%R /\ Rmin (a * x) 0 = (a * Rmin x 0)%R).
      { intros x. unfold Rmax, Rmin. destruct (Rle_dec x 0) as [Hx|Hx], (Rle_dec (a * x) 0) as [Hy|Hy]; split; try ring; exfalso.
        - apply Hy. rewrite <- (Rmult_0_r a). apply Rmult_le_compat_l; lra. - apply Hy. rewrite <- (Rmult_0_r a). apply Rmult_le_compat_l; lra.
        - apply Hx. apply (Rmult_le_reg_l a); lra. - apply Hx. apply (Rmult_le_reg_l a); lra. }
      destruct (EM (v i)) as (-> & ->). ring. }
    rewrite ES. rewrite <- (Rmult_0_r a). apply Rmult_lt_compat_l; auto.
  - rewrite EN. erewrite ninf_ext; [|intros i Hi; unfold Atmul; apply mulR_scal]. rewrite ninf_scal, Rabs_right by lra.
    replace (e * (a * ninf (q_m p) v))%R with (a * (e * ninf (q_m p) v))%R by ring. apply Rmult_lt_compat_l; auto.
Qed.
Lemma unbounded_scal al au p e v a : (0 < a)%R -> unbounded_within al au p e v -> unbounded_within al au p e (fun i => a * v i)%R.
Proof.
  intros Ha [A1 A2 A3 A4]. assert (EN : ninf (q_n p) (fun i => a * v i)%R = (a * ninf (q_n p) v)%R) by (rewrite ninf_scal, Rabs_right; lra).
  assert (EQ : forall x, (e * (a * x))%R = (a * (e * x))%R) by (intros; ring).
  constructor.
  - rewrite EN. apply Rmult_lt_0_compat; auto.
  - assert (ES : lin p (fun i => a * v i)%R = (a * lin p v)%R) by (unfold lin; rewrite <- sumn_scal; apply sumn_ext; intros; ring).
    rewrite ES, <- (Rmult_0_r a). apply Rmult_lt_compat_l; auto.
  - rewrite EN, EQ. erewrite ninf_ext; [|intros i Hi; unfold Pmul; apply mulR_scal]. rewrite ninf_scal, Rabs_right by lra. apply Rmult_lt_compat_l; auto.
  - intros i Hi. rewrite EN, EQ. unfold Amul. rewrite mulR_scal. destruct (A4 i Hi) as (B1 & B2). fold (Amul p v i). split; intros H.
    + apply Rmult_le_compat_l; [lra|auto].
    + replace (- (a * (e * ninf (q_n p) v)))%R with (a * - (e * ninf (q_n p) v))%R by ring. apply Rmult_le_compat_l; [lra|auto].
Qed.
Lemma unbounded_abs (al au al' au' : Z -> Prop) p e v : (forall i, 0 <= i < q_m p -> al' i -> al i) -> (forall i, 0 <= i < q_m p -> au' i -> au i) -> unbounded_within al' au' p e v -> unbounded_within al au p e v.
Proof. intros H1 H2 [A1 A2 A3 A4]. constructor; auto. intros i Hi. destruct (A4 i Hi) as (B1 & B2). split; intros H; [apply B1|apply B2]; intros X; apply H; auto. Qed.

Section Claims.
  Variable E : Env Rops.
  Hypothesis EO : env_ok E.
  Variables (P A : csc Rops) (q0 l0 u0 : option (list R)) (m n : Z) (ust : settings Rops).
  Notation ses := (session E P A q0 l0 u0 m n ust).
  Notation stat s := (i_status_val (sv_info s)).

  Lemma session_aty s d : ses s d -> aty0 (sv_work s).
  Proof.
    intros [g s0 g' d0 HDR HS UI RF HH].
    assert (H0 : d_m (w_data (sv_work s0)) = m /\ (m = 0 -> w_Aty (sv_work s0) = zrep n n0)) by (eapply setup_aty; eauto).
    assert (HK : kz (sv_work s0) (sv_work s)).
    { clear - HH. induction HH as [|s d c fl s' d' HH IH HA HC HS]; [apply kz_refl|]. eapply kz_trans; [exact IH|]. eapply run_kz; eauto. }
    destruct H0 as (M0 & Z0). destruct HK as (K1 & K2). intros Hm i Hi. rewrite K2 by congruence. rewrite Z0 by congruence.
    unfold rnth. change (car Rops) with R. unfold znth, zget, zrep. destruct (i <? 0); [reflexivity|]. rewrite n0_R. 
    destruct (Nat.ltb_spec (Z.to_nat i) (Z.to_nat n)) as [Hl|Hl]; [rewrite nth_error_repeat by auto; reflexivity|].
    rewrite (proj2 (nth_error_None _ _)); [reflexivity|]. rewrite repeat_length. auto.
  Qed.

  Lemma ref_tunits s d : Inv s -> ref d s -> tests_users (sv_settings s) -> tunits (sv_settings s) (sv_work s) (qp_of d) (uc s) (uD s) (uE s).
  Proof.
    intros HI HR HT. pose proof (ref_scaled_qp d s HR) as SQ. constructor; auto.
    - intros HU. unfold unscaled_termination in HU. apply andb_true_iff in HU as (H1 & H2). unfold uc, uD, uE. pose proof (rf_sc _ _ HR) as HX.
      pose proof (rf_sb _ _ HR) as [Bn Bm _ _ _ _ _]. destruct (wo_sc _ _ (iv_w _ HI) H1) as (sc & Ew & _).
      unfold uscal in *. rewrite H1, Ew in *. destruct (HX sc eq_refl) as (S1 & _ & [I1 I2 I3]). exists sc. split; [auto|]. rewrite Bn, Bm. split; [auto|]. auto 10.
    - intros HU. unfold unscaled_termination in HU. unfold uc, uD, uE, uscal. destruct (tr (st_scaling (sv_settings s))) eqn:ES; [|auto].
      unfold tests_users in HT. rewrite (HT ES) in HU. discriminate.
  Qed.
  Lemma stored_tunits (s : solver Rops) : ~ tests_users (sv_settings s) -> tunits (sv_settings s) (sv_work s) (qp_of (w_data (sv_work s))) 1 (fun _ => 1%R) (fun _ => 1%R).
  Proof.
    intros HT. assert (HU : unscaled_termination (sv_settings s) = false).
    { unfold unscaled_termination, tests_users in *. destruct (tr (st_scaling _)), (tr (st_scaled_termination _)); try reflexivity. exfalso. apply HT. auto. }
    constructor; auto; [|intros X; rewrite X in HU; discriminate]. constructor; try lra; auto; intros; try lra; ring.
  Qed.

  Lemma tests_users_dec st : tests_users st \/ ~ tests_users st.
  Proof. unfold tests_users. destruct (tr (st_scaling st)), (tr (st_scaled_termination st)); auto; right; intros H; discriminate (H eq_refl). Qed.

  (** What is common to all the claims. *)
  Theorem solve_session s d Q c D Es fl s' : ses s d -> tunits (sv_settings s) (sv_work s) Q c D Es -> stat s = OSQP_UNSOLVED -> solve E s = Some (fl, s') ->
    exists k t t1, 1 <= k <= st_max_iter (sv_settings s) /\ iterate E s k t t1 /\ solved_as E s Q (qp_of d) c (uc s) D Es (uD s) (uE s) fl s' k t t1.
  Proof.
    intros HS HT HU HE. destruct (session_facts E EO _ _ _ _ _ _ _ _ _ _ HS) as (HI & HR & _).
    eapply solve_ends; eauto.
    - apply ref_scaled_qp; auto.
    - intros H1. pose proof (rf_sc _ _ HR) as HX. destruct (wo_sc _ _ (iv_w _ HI) H1) as (sc & Ew & _). exists sc. split; auto.
      unfold uc, uscal in *. rewrite H1, Ew in *. destruct (HX sc eq_refl) as (_ & _ & [I1 _ _]). auto.
    - intros H1. unfold uc, uscal. rewrite H1. auto.
    - eapply session_aty; eauto.
    - eapply max_iter_pos; eauto.
  Qed.

  (** Reading the result. *)
  Lemma finish_times_eq (s6 : solver Rops) : sv_settings (finish_times s6) = sv_settings s6 /\ stat (finish_times s6) = stat s6 /\ i_status_polish (sv_info (finish_times s6)) = i_status_polish (sv_info s6) /\
    iter3 (sv_work (finish_times s6)) = iter3 (sv_work s6) /\ core (sv_work (finish_times s6)) = core (sv_work s6) /\ deltas (sv_work (finish_times s6)) = deltas (sv_work s6) /\ res5 (sv_info (finish_times s6)) = res5 (sv_info s6) /\ i_iter (sv_info (finish_times s6)) = i_iter (sv_info s6).
  Proof. unfold finish_times. cbv zeta. destruct (tr (w_first_run (sv_work s6))); rs; repeat split; reflexivity. Qed.
  Lemma finish_times_inv (s6 : solver Rops) : Inv s6 -> Inv (finish_times s6).
  Proof.
    intros HI. assert (H : oks s6 (finish_times s6)); [|destruct H as ((H & _) & _); exact H].
    unfold finish_times. cbv zeta. destruct (tr (w_first_run (sv_work s6))); (apply oks_keeps; rs; auto; [split; [reflexivity|]; destruct (wo_len _ _ (iv_w _ HI)); constructor; rs; auto|apply HI|split; auto]).
  Qed.

  (** What the solution structure holds afterwards: the iterate, or the certificate, of the state before. *)
  Record result (e s' : solver Rops) (fl : Z) (d : data Rops) : Prop := {
    re_stat : stat s' = stat e;
    re_us : uscal s' = uscal e;
    re_iter : i_iter (sv_info s') = i_iter (sv_info e);
    re_last : has_solution (sv_info s') = true -> ~ polished s' -> iter3 (sv_work s') = iter3 (sv_work e);
    re_res : ~ polished s' -> res5 (sv_info s') = res5 (sv_info e);
    re_set : sv_settings s' = sv_settings e;
    re_fl : fl <> 0 -> stat e = OSQP_SOLVED /\ tr (st_polishing (sv_settings e)) = true;
    re_has : fl <= 0 -> sv_solution s' = None -> sv_solution e = None;
    re_sol : fl <= 0 -> forall o', sv_solution s' = Some o' -> exists s7 o, shown s7 o o' /\ stat s7 = stat e /\ w_data (sv_work s7) = w_data (sv_work e) /\ deltas (sv_work s7) = deltas (sv_work e) /\
      (has_solution (sv_info s') = true -> (forall i, ux s7 i = ux s' i) /\ (forall i, uy s7 i = uy s' i)) }.
  Lemma store_solution_some (s : solver Rops) o : post (store_solution s (Some o)) (fun r => snd r <> None).
  Proof. unfold store_solution. walk; discriminate. Qed.
  Lemma finished_result d e fl s' : Inv e -> ref d e -> finished E e fl s' -> result e s' fl d.
  Proof.
    intros HI HR HF. destruct HF as [s6 AP Hfl HS HP F1 F2 F3 F4|s6 r AP Hfl HI6 Hfl2 HST F1 F2 F3 F4]; destruct AP as [A1 A2 A3 A4 A5 A6 A7 _].
    - assert (PE : polished s' <-> polished s6) by (unfold polished; rewrite F2, F3; tauto).
      apply fixed_core, core_eq in A3 as (D6 & _ & _ & _ & _ & Sc6 & _).
      constructor; try (rewrite ?F1, ?F2, ?F3; auto; fail).
      + unfold uscal. rewrite F3, F1, A1, Sc6. auto.
      + intros _ HN. rewrite F1. apply A7. tauto.
      + intros HN. rewrite F2. apply A7. tauto.
      + intros H. exfalso. lia.
      + intros H. exfalso. lia.
    - destruct (finish_times_eq s6) as (T1 & T2 & T3 & T4 & T5 & T6 & T7 & T8). specialize (HI6 HI). pose proof (finish_times_inv s6 HI6) as HI7.
      apply fixed_core, core_eq in A3 as (D6 & _ & _ & _ & _ & Sc6 & _). apply core_eq in T5 as (D7 & _ & _ & _ & _ & Sc7 & _).
      assert (HR7 : ref d (finish_times s6)) by (eapply ref_same; [| | |exact HR]; congruence).
      pose proof (store_solution_post _ _ _ HST) as (S1 & S2 & _ & S4 & S5 & _ & _ & S8). apply fixed_core, core_eq in S5 as (D8 & _ & _ & _ & _ & Sc8 & _).
      assert (US7 : uscal (finish_times s6) = uscal e) by (unfold uscal; rewrite T1, A1, Sc7, Sc6; auto).
      assert (US : uscal s' = uscal (finish_times s6)) by (unfold uscal; rewrite F1, F3, S1, Sc8; auto).
      assert (PE : polished s' -> polished s6) by (unfold polished; rewrite F2, F3, S1, S2, T1, T2, T3; tauto).
      assert (PE' : polished s6 -> polished s') by (unfold polished; rewrite F2, F3, S1, S2, T1, T2, T3; tauto).
      assert (HH : has_solution (sv_info s') = has_solution (sv_info (finish_times s6))) by (rewrite F2, S2; auto).
      constructor.
      + rewrite F2, S2, T2. auto.
      + congruence.
      + rewrite F2, S2, T8. auto.
      + intros H1 H2. rewrite F1, S8 by congruence. rewrite T4. apply A7. tauto.
      + intros H2. rewrite F2, S2, T7. apply A7. tauto.
      + congruence.
      + auto.
      + intros _ Eo. rewrite F4 in Eo. rewrite <- A2. destruct (sv_solution s6) as [o|]; auto. exfalso. exact (store_solution_some _ _ _ HST Eo).
      + intros _ o' Eo. rewrite F4 in Eo. destruct (sv_solution s6) as [o|] eqn:E6.
        2:{ unfold store_solution in HST. injection HST as <-. discriminate. }
        assert (HO : solok (d_n (w_data (sv_work (finish_times s6)))) (d_m (w_data (sv_work (finish_times s6)))) o) by (rewrite D7; apply (iv_sol _ HI6); auto).
        destruct (store_solution_real d (finish_times s6) o HI7 HR7 HO) as (s8 & o8 & Er & _ & _ & SH & _). rewrite Er in HST. injection HST as <-. cbn [snd] in Eo. injection Eo as <-.
        exists (finish_times s6), o. split; [auto|]. split; [congruence|]. split; [congruence|]. split; [congruence|].
        intros H1. cbn [fst] in *. destruct (iter3_u s' (finish_times s6)) as (X1 & _ & X3); [congruence|rewrite F1; symmetry; apply S8; congruence|]. rewrite X1, X3. auto.
  Qed.

  (** ** The claims, for the units of whatever problem Q the tests are made on *)
  Section Units.
  Variables (s : solver Rops) (d : data Rops) (Q : qp) (c : R) (D Es : Z -> R) (fl : Z) (s' : solver Rops).
  Hypothesis HS : ses s d.
  Hypothesis HT : tunits (sv_settings s) (sv_work s) Q c D Es.
  Hypothesis HU : stat s = OSQP_UNSOLVED.
  Hypothesis HE : solve E s = Some (fl, s').
  Notation st := (sv_settings s).
  Notation X t := (unx D (rnth (w_x (sv_work t)))).
  Notation Zv t := (unz Es (rnth (w_z (sv_work t)))).
  Notation Y t := (uny c Es (rnth (w_y (sv_work t)))).

  (** The run: the last iteration k went from t to t1, and either it was not allowed to finish, or e is the state in which the status was settled. *)
  Lemma claim_run : exists k t t1, 1 <= k <= st_max_iter st /\ iterate E s k t t1 /\
    ((stop_requested E t1 = true /\ stat s' = OSQP_SIGINT /\ fl = 1 /\ sv_solution s' = sv_solution s) \/
     (stop_requested E t1 = false /\ time_over E t1 = false /\ stat s' = OSQP_UNSOLVED /\ fl = 1 /\ (0 <= st_adaptive_rho st < 4 -> exists t4 : solver Rops, sfr s t4 /\ rho_change t4 s' k)) \/
     (exists stale e, stop_requested E t1 = false /\ ending s Q (qp_of d) c (uc s) D Es (uD s) (uE s) (time_over E t1) stale (sv_work t1) e /\ result e s' fl d /\
        i_iter (sv_info s') = (if time_over E t1 then k - 1 else k) /\ (time_over E t1 = true \/ k = st_max_iter st \/ scheduled st k = true /\ decided (stat s')))).
  Proof.
    destruct (solve_session s d Q c D Es fl s' HS HT HU HE) as (k & t & t1 & Hk & HIt & HA). exists k, t, t1. split; [auto|]. split; [auto|].
    destruct HA as [A1 A2 A3 A4|A1 A2 A3 A4 A5 A0|timed stale e A1 A2 A3 A4 A5 A6 A7]; [left; auto|right; left; auto|right; right]. subst timed.
    exists stale, e. split; [auto|]. split; [auto|]. pose proof (en_good _ _ _ _ _ _ _ _ _ _ _ _ _ A3) as (IE & FE & _).
    destruct (session_facts E EO _ _ _ _ _ _ _ _ _ _ HS) as (HI & HR & _).
    assert (HRe : ref d e). { destruct FE as [F1 F2 F3 F4 F5]. eapply ref_same; [exact F1|exact F2| |exact HR]. apply same_st_keep in F4. apply F4. }
    pose proof (finished_result d e fl s' IE HRe A4) as RE. split; [auto|]. rewrite (re_iter _ _ _ _ RE), (re_stat _ _ _ _ RE). auto.
  Qed.

  (** The exit code, and the solution structure stays allocated. *)
  Lemma claim_flag : fl = 0 \/ (stat s' = OSQP_SIGINT \/ stat s' = OSQP_UNSOLVED) /\ fl = 1 \/ stat s' = OSQP_SOLVED /\ tr (st_polishing st) = true.
  Proof.
    destruct claim_run as (k & t & t1 & Hk & HIt & [(_ & X1 & X2 & _)|[(_ & _ & X1 & X2 & _)|(stale & e & _ & HN & RE & _)]]); [auto..|].
    destruct (Z.eq_dec fl 0) as [?|HF]; [auto|]. apply (re_fl _ _ _ _ RE) in HF as (F1 & F2). right. right. rewrite (re_stat _ _ _ _ RE). split; [auto|].
    pose proof (en_good _ _ _ _ _ _ _ _ _ _ _ _ _ HN) as (_ & [_ _ _ F4 _] & _). destruct F4 as (? & ? & F4). rewrite F4 in F2. exact F2.
  Qed.
  (** The refactorisations made while adapting rho never fail on a convex problem. *)
  Lemma claim_convex : exact_ldl E -> convex d -> stat s' <> OSQP_UNSOLVED.
  Proof.
    intros EX HC H1. destruct (solve_session s d Q c D Es fl s' HS HT HU HE) as (k & t & t1 & Hk & HIt & HA).
    assert (HS' : session E P A q0 l0 u0 m n ust s' d).
    { apply (session_call E P A q0 l0 u0 m n ust s d (CSolve (K := Rops)) fl s' d); auto; [exact I| |reflexivity]. unfold run, osqp_solve, on_solver. rewrite HE. reflexivity. }
    destruct HA as [A1 A2 A3 A4|A1 A2 A3 A4 A5 (ls & A6 & A7)|timed stale e A1 A2 A3 A4 A5 A6 A7]; [stc| |].
    - destruct (session_facts E EO _ _ _ _ _ _ _ _ _ _ HS') as (HI' & HR' & Hsg & _).
      destruct (convex_exact_w E EX _ _ (iv_w _ HI')) with (ls := ls) as (_ & Hfac & _); eauto using inv_rho_pos, ref_convex.
      pose proof (do_n _ (wo_d _ _ (iv_w _ HI'))). lia.
    - destruct (session_facts E EO _ _ _ _ _ _ _ _ _ _ HS) as (HI & HR & _). pose proof (en_good _ _ _ _ _ _ _ _ _ _ _ _ _ A3) as (IE & FE & _).
      assert (HRe : ref d e). { destruct FE as [F1 F2 F3 F4 F5]. eapply ref_same; [exact F1|exact F2| |exact HR]. apply same_st_keep in F4. apply F4. }
      pose proof (finished_result d e fl s' IE HRe A4) as RE. rewrite (re_stat _ _ _ _ RE) in H1. pose proof (en_range _ _ _ _ _ _ _ _ _ _ _ _ _ A3). stc.
  Qed.
  Lemma claim_kept : fl <= 0 -> sv_solution s <> None -> sv_solution s' <> None.
  Proof.
    intros Hfl HN. destruct (solve_session s d Q c D Es fl s' HS HT HU HE) as (k & t & t1 & Hk & HIt & HA).
    destruct HA as [A1 A2 A3 A4|A1 A2 A3 A4 A5 A0|timed stale e A1 A2 A3 A4 A5 A6 A7]; [lia..|]. pose proof (en_good _ _ _ _ _ _ _ _ _ _ _ _ _ A3) as (IE & FE & _).
    destruct (session_facts E EO _ _ _ _ _ _ _ _ _ _ HS) as (HI & HR & _).
    assert (HRe : ref d e). { destruct FE as [F1 F2 F3 F4 F5]. eapply ref_same; [exact F1|exact F2| |exact HR]. apply same_st_keep in F4. apply F4. }
    pose proof (re_has _ _ _ _ (finished_result d e fl s' IE HRe A4) Hfl) as RH. rewrite A5 in RH. auto.
  Qed.

  Definition final (v : Z) : Prop := v <> OSQP_SIGINT /\ v <> OSQP_UNSOLVED.
  Lemma claim_end : final (stat s') -> exists k t t1 stale e, 1 <= k <= st_max_iter st /\ iterate E s k t t1 /\ stop_requested E t1 = false /\
    ending s Q (qp_of d) c (uc s) D Es (uD s) (uE s) (time_over E t1) stale (sv_work t1) e /\ result e s' fl d /\
    i_iter (sv_info s') = (if time_over E t1 then k - 1 else k) /\ (time_over E t1 = true \/ k = st_max_iter st \/ scheduled st k = true /\ decided (stat s')).
  Proof.
    intros (F1 & F2). destruct claim_run as (k & t & t1 & Hk & HIt & [(A1 & A2 & A3 & A4)|[(A1 & A2 & A3 & A4)|(stale & e & A1 & A2 & A3 & A4 & A5)]]); [contradiction..|].
    exists k, t, t1, stale, e. auto 10.
  Qed.

  (** The state s' holds the point the test was made on. *)
  Lemma cutv_same w w' : w_data w' = w_data w -> iter3 w' = iter3 w -> cutv w' = cutv w.
  Proof. intros H1 H2. unfold cutv. unfold iter3 in H2. injection H2 as X1 X2 X3. rewrite H1, X2. auto. Qed.

  Lemma scaled_trim w : w_data w = w_data (sv_work s) -> trimmed c Es (q_m Q) (q_l Q) (q_u Q) (uny c Es (rnth (w_y w))) (uny c Es (cutv w)).
  Proof.
    intros HD i Hi. pose proof (tu_sq _ _ _ _ _ _ HT) as SQ. destruct SQ as [S1 S2 S3 S4 S5 S6 S7 S8 S9 S10].
    exists (cutv w i). cbn [q_l q_u q_m qp_of] in *. unfold uny. pose proof (S5 i ltac:(congruence)) as HEi.
    rewrite <- S9, <- S10 by congruence. replace (c * (Es i * rnth (w_y w) i / c) / Es i)%R with (rnth (w_y w) i) by (field; lra).
    split; [|reflexivity]. unfold cutv. rewrite HD. apply cut_drops.
  Qed.

  Lemma solve_data : w_data (sv_work s') = w_data (sv_work s).
  Proof. exact (sf_d _ _ (solve_sfr E s _ HE)). Qed.
  Lemma iterate_data k t t1 : iterate E s k t t1 -> w_data (sv_work t1) = w_data (sv_work s).
  Proof. intros H. destruct (iterate_facts E EO P A q0 l0 u0 m n ust s d k t t1 HS H) as (_ & _ & _ & _ & _ & H6 & _). auto. Qed.

  (** (x, z, y) passes the test with tolerances f times those of the settings. *)
  Definition passes (f : R) (x z y : Z -> R) : Prop :=
    exists v, trimmed c Es (q_m Q) (q_l Q) (q_u Q) y v /\ solved_within Q (f * st_eps_abs st) (f * st_eps_rel st) (tr (st_check_dualgap st)) x z y v.
  Definition fails (f : R) (x z y : Z -> R) : Prop :=
    exists v, trimmed c Es (q_m Q) (q_l Q) (q_u Q) y v /\ ~ solved_within Q (f * st_eps_abs st) (f * st_eps_rel st) (tr (st_check_dualgap st)) x z y v.

  Lemma passes_w ap w : w_data w = w_data (sv_work s) -> swithin st Q c D Es ap w -> passes (fac ap) (unx D (rnth (w_x w))) (unz Es (rnth (w_z w))) (uny c Es (rnth (w_y w))).
  Proof. intros HD H. exists (uny c Es (cutv w)). split; [apply scaled_trim; auto|]. unfold swithin in H. rewrite !(Rmult_comm (fac ap)). exact H. Qed.
  Lemma fails_w ap w : w_data w = w_data (sv_work s) -> ~ swithin st Q c D Es ap w -> fails (fac ap) (unx D (rnth (w_x w))) (unz Es (rnth (w_z w))) (uny c Es (rnth (w_y w))).
  Proof. intros HD H. exists (uny c Es (cutv w)). split; [apply scaled_trim; auto|]. unfold swithin in H. rewrite !(Rmult_comm (fac ap)). exact H. Qed.
  Lemma same_point w t : iter3 (sv_work t) = iter3 w -> unx D (rnth (w_x w)) = X t /\ unz Es (rnth (w_z w)) = Zv t /\ uny c Es (rnth (w_y w)) = Y t.
  Proof. intros H. unfold iter3 in H. injection H as X1 X2 X3. rewrite X1, X2, X3. auto. Qed.

  Ltac fin_tac := unfold final; stc.
  Ltac has_tac := apply has_solution_iff; unfold reports; stc.

  Theorem claim_solved : stat s' = OSQP_SOLVED -> ~ polished s' -> passes 1 (X s') (Zv s') (Y s').
  Proof.
    intros H1 H2. destruct (claim_end ltac:(fin_tac)) as (k & t & t1 & stale & e & Hk & HIt & _ & HN & RE & _).
    pose proof (re_last _ _ _ _ RE ltac:(has_tac) H2) as HL. rewrite (en_it _ _ _ _ _ _ _ _ _ _ _ _ _ HN) in HL. destruct (same_point _ _ HL) as (<- & <- & <-).
    apply (passes_w false); [eapply iterate_data; eauto|]. apply (en_solved _ _ _ _ _ _ _ _ _ _ _ _ _ HN). rewrite <- (re_stat _ _ _ _ RE). auto.
  Qed.

  (** Even when the returned point is a polished one, the iterate it was computed from passed the test. *)
  Theorem claim_solved_last : stat s' = OSQP_SOLVED -> exists k t t1, 1 <= k <= st_max_iter st /\ iterate E s k t t1 /\ passes 1 (X t1) (Zv t1) (Y t1).
  Proof.
    intros H1. destruct (claim_end ltac:(fin_tac)) as (k & t & t1 & stale & e & Hk & HIt & _ & HN & RE & _). exists k, t, t1. split; [auto|]. split; [auto|].
    apply (passes_w false); [eapply iterate_data; eauto|]. apply (en_solved _ _ _ _ _ _ _ _ _ _ _ _ _ HN). rewrite <- (re_stat _ _ _ _ RE). auto.
  Qed.

  Theorem claim_inaccurate : stat s' = OSQP_SOLVED_INACCURATE -> exists k t t1, 1 <= k <= st_max_iter st /\ iterate E s k t t1 /\
    (time_over E t1 = true \/ k = st_max_iter st /\ passes 10 (X s') (Zv s') (Y s') /\ fails 1 (X s') (Zv s') (Y s')).
  Proof.
    intros H1. destruct (claim_end ltac:(fin_tac)) as (k & t & t1 & stale & e & Hk & HIt & _ & HN & RE & _ & HC). exists k, t, t1. split; [auto|]. split; [auto|].
    assert (H2 : ~ polished s') by (unfold polished; stc).
    destruct (time_over E t1) eqn:ET; [auto|right]. split; [destruct HC as [HC|[HC|(_ & HC)]]; [discriminate|auto|unfold decided in HC; stc]|].
    assert (Hs : stale = false) by (destruct stale; auto; discriminate (en_nt _ _ _ _ _ _ _ _ _ _ _ _ _ HN eq_refl)).
    pose proof (re_last _ _ _ _ RE ltac:(has_tac) H2) as HL. rewrite (en_it _ _ _ _ _ _ _ _ _ _ _ _ _ HN) in HL. destruct (same_point _ _ HL) as (<- & <- & <-).
    destruct (en_inacc _ _ _ _ _ _ _ _ _ _ _ _ _ HN) as (B1 & B2); auto; [rewrite <- (re_stat _ _ _ _ RE); auto|].
    split; [apply (passes_w true)|apply (fails_w false)]; auto; eapply iterate_data; eauto.
  Qed.

  Theorem claim_max_iter : stat s' = OSQP_MAX_ITER_REACHED -> i_iter (sv_info s') = st_max_iter st /\ fails 10 (X s') (Zv s') (Y s') /\
    exists t t1, iterate E s (st_max_iter st) t t1 /\ time_over E t1 = false /\ iter3 (sv_work s') = iter3 (sv_work t1).
  Proof.
    intros H1. destruct (claim_end ltac:(fin_tac)) as (k & t & t1 & stale & e & Hk & HIt & _ & HN & RE & HI & HC).
    assert (H2 : ~ polished s') by (unfold polished; stc).
    destruct (en_max _ _ _ _ _ _ _ _ _ _ _ _ _ HN) as (B1 & B2); [rewrite <- (re_stat _ _ _ _ RE); auto|]. rewrite B1 in *.
    assert (k = st_max_iter st) as -> by (destruct HC as [HC|[HC|(_ & HC)]]; [discriminate|auto|unfold decided in HC; stc]).
    pose proof (re_last _ _ _ _ RE ltac:(has_tac) H2) as HL. rewrite (en_it _ _ _ _ _ _ _ _ _ _ _ _ _ HN) in HL.
    split; [auto|]. split; [|exists t, t1; auto]. destruct (same_point _ _ HL) as (<- & <- & <-). apply (fails_w true); auto. eapply iterate_data; eauto.
  Qed.

  (** The returned certificates. *)
  Lemma filled_cert (mm : Z) (v : Z -> R) e (a b : list R) : is_maxabs (vals mm v) e -> filled mm (fun i => v i / e)%R a b -> (0 < ninf mm v)%R ->
    (0 < / e)%R /\ (forall i, 0 <= i < mm -> rnth b i = (/ e * v i)%R) /\ ninf mm (rnth b) = 1%R.
  Proof.
    intros HM (F1 & F2 & _) HP. assert (Ee : e = ninf mm v) by (apply ninf_unique; auto). rewrite Ee in *. assert (Hi : (0 < / ninf mm v)%R) by (apply Rinv_0_lt_compat; auto).
    split; [auto|]. assert (F3 : forall i, 0 <= i < mm -> rnth b i = (/ ninf mm v * v i)%R) by (intros i Hi'; rewrite F2 by auto; unfold Rdiv; ring).
    split; [auto|]. rewrite (ninf_ext mm (rnth b) _ F3), ninf_scal, Rabs_right by lra. field. lra.
  Qed.

  Theorem claim_pinf f : (stat s' = OSQP_PRIMAL_INFEASIBLE /\ f = 1%R \/ stat s' = OSQP_PRIMAL_INFEASIBLE_INACCURATE /\ f = 10%R) -> fl <= 0 /\
    forall o, sv_solution s' = Some o -> infeasible_within Q (f * st_eps_prim_inf st) (rnth (so_prim_inf_cert o)) /\ ninf (q_m Q) (rnth (so_prim_inf_cert o)) = 1%R.
  Proof.
    intros H1. destruct (claim_end ltac:(fin_tac)) as (k & t & t1 & stale & e & Hk & HIt & _ & HN & RE & HI & HC).
    assert (Hfl : fl <= 0) by (destruct (Z.eq_dec fl 0) as [?|HF]; [lia|]; apply (re_fl _ _ _ _ RE) in HF as (HF & _); rewrite <- (re_stat _ _ _ _ RE) in HF; stc). split; [auto|]. intros o Ho.
    destruct (re_sol _ _ _ _ RE Hfl o Ho) as (s7 & o0 & SH & S7 & D7 & DL & _).
    assert (Em : d_m (w_data (sv_work s7)) = q_m Q).
    { rewrite D7, (en_data _ _ _ _ _ _ _ _ _ _ _ _ _ HN), (iterate_data k t t1 HIt). pose proof (sq_m _ _ _ _ _ (tu_sq _ _ _ _ _ _ HT)) as H. exact H. }
    assert (HW : infeasible_within Q (f * st_eps_prim_inf st) (rnth (w_delta_y (sv_work e)))).
    { rewrite (Rmult_comm f). destruct H1 as [(H1 & ->)|(H1 & ->)]; rewrite (re_stat _ _ _ _ RE) in H1; [rewrite Rmult_1_r; eapply en_pinf; eauto|eapply en_pinfi; eauto]. }
    assert (EDY : w_delta_y (sv_work s7) = w_delta_y (sv_work e)) by (unfold deltas in DL; congruence).
    destruct (sh_pinf _ _ _ SH) as (_ & e0 & M0 & F0); [rewrite S7, <- (re_stat _ _ _ _ RE); tauto|]. rewrite Em, EDY in *.
    destruct (filled_cert _ _ _ _ _ M0 F0 (iw_nz _ _ _ HW)) as (P0 & V0 & N0). split; [|auto].
    eapply infeasible_ext; [intros i Hi; symmetry; apply V0; auto|]. apply infeasible_scal; auto.
  Qed.

  Definition no_l (i : Z) : Prop := (Es i * q_l Q i <= - 10 ^ 26)%R.
  Definition no_u (i : Z) : Prop := (10 ^ 26 <= Es i * q_u Q i)%R.
  Theorem claim_dinf f : (stat s' = OSQP_DUAL_INFEASIBLE /\ f = 1%R \/ stat s' = OSQP_DUAL_INFEASIBLE_INACCURATE /\ f = 10%R) -> fl <= 0 /\
    forall o, sv_solution s' = Some o -> unbounded_within no_l no_u Q (f * st_eps_dual_inf st) (rnth (so_dual_inf_cert o)) /\ ninf (q_n Q) (rnth (so_dual_inf_cert o)) = 1%R.
  Proof.
    intros H1. destruct (claim_end ltac:(fin_tac)) as (k & t & t1 & stale & e & Hk & HIt & _ & HN & RE & HI & HC).
    assert (Hfl : fl <= 0) by (destruct (Z.eq_dec fl 0) as [?|HF]; [lia|]; apply (re_fl _ _ _ _ RE) in HF as (HF & _); rewrite <- (re_stat _ _ _ _ RE) in HF; stc). split; [auto|]. intros o Ho.
    destruct (re_sol _ _ _ _ RE Hfl o Ho) as (s7 & o0 & SH & S7 & D7 & DL & _). pose proof (iterate_data k t t1 HIt) as Dt.
    pose proof (tu_sq _ _ _ _ _ _ HT) as SQ.
    assert (En : d_n (w_data (sv_work s7)) = q_n Q).
    { rewrite D7, (en_data _ _ _ _ _ _ _ _ _ _ _ _ _ HN), Dt. pose proof (sq_n _ _ _ _ _ SQ) as H. exact H. }
    assert (HW : unbounded_within no_l no_u Q (f * st_eps_dual_inf st) (rnth (w_delta_x (sv_work e)))).
    { apply (unbounded_abs _ _ (absl (sv_work t1)) (absu (sv_work t1))).
      - intros i Hi. unfold absl, no_l. rewrite Dt, <- (sq_l _ _ _ _ _ SQ) by auto. auto.
      - intros i Hi. unfold absu, no_u. rewrite Dt, <- (sq_u _ _ _ _ _ SQ) by auto. auto.
      - rewrite (Rmult_comm f). destruct H1 as [(H1 & ->)|(H1 & ->)]; rewrite (re_stat _ _ _ _ RE) in H1; [rewrite Rmult_1_r; eapply en_dinf; eauto|eapply en_dinfi; eauto]. }
    assert (EDX : w_delta_x (sv_work s7) = w_delta_x (sv_work e)) by (unfold deltas in DL; congruence).
    destruct (sh_dinf _ _ _ SH) as (_ & e0 & M0 & F0); [rewrite S7, <- (re_stat _ _ _ _ RE); tauto|]. rewrite En, EDX in *.
    destruct (filled_cert _ _ _ _ _ M0 F0 (uw_nz _ _ _ _ _ HW)) as (P0 & V0 & N0). split; [|auto].
    eapply unbounded_ext; [intros i Hi; symmetry; apply V0; auto|]. apply unbounded_scal; auto.
  Qed.

  (** The non-convex status: some residual of the last iterate exceeds 1e30 (unless the time limit was hit). *)
  Definition huge_residual (x z y : Z -> R) : Prop :=
    (10 ^ 30 < ninf (q_m Q) (fun j => Amul Q x j - z j) \/ 10 ^ 30 < ninf (q_n Q) (fun j => q_q Q j + Pmul Q x j + Atmul Q y j))%R.
  Theorem claim_ncvx : stat s' = OSQP_NON_CVX -> exists k t t1, 1 <= k <= st_max_iter st /\ iterate E s k t t1 /\ (time_over E t1 = true \/ huge_residual (X t1) (Zv t1) (Y t1)).
  Proof.
    intros H1. destruct (claim_end ltac:(fin_tac)) as (k & t & t1 & stale & e & Hk & HIt & _ & HN & RE & HI & HC). exists k, t, t1. split; [auto|]. split; [auto|].
    destruct (time_over E t1) eqn:ET; [auto|right].
    assert (Hs : stale = false) by (destruct stale; auto; discriminate (en_nt _ _ _ _ _ _ _ _ _ _ _ _ _ HN eq_refl)).
    pose proof (en_ncvx _ _ _ _ _ _ _ _ _ _ _ _ _ HN) as HB. rewrite <- (re_stat _ _ _ _ RE) in HB. specialize (HB H1 Hs). unfold big in HB. rewrite (iterate_data k t t1 HIt) in HB.
    pose proof (tu_sq _ _ _ _ _ _ HT) as SQ. pose proof (sq_n _ _ _ _ _ SQ) as Sn. pose proof (sq_m _ _ _ _ _ SQ) as Sm. cbn [q_n q_m qp_of] in Sn, Sm. rewrite Sn, Sm in HB. exact HB.
  Qed.

  (** The residuals and objectives reported. *)
  Theorem claim_info : final (stat s') -> ~ polished s' -> exists k t t1, 1 <= k <= st_max_iter st /\ iterate E s k t t1 /\ (time_over E t1 = true \/
    i_iter (sv_info s') = k /\ i_prim_res (sv_info s') = ninf (q_m Q) (fun j => Amul Q (X t1) j - Zv t1 j)%R /\ i_dual_res (sv_info s') = ninf (q_n Q) (fun j => q_q Q j + Pmul Q (X t1) j + Atmul Q (Y t1) j)%R /\
    (has_solution (sv_info s') = true -> iter3 (sv_work s') = iter3 (sv_work t1) /\ exists v, trimmed (uc s) (uE s) (d_m d) (rnth (d_l d)) (rnth (d_u d)) (uy t1) v /\
       i_obj_val (sv_info s') = objective (qp_of d) (ux t1) /\ i_dual_obj_val (sv_info s') = (- / 2 * quad (qp_of d) (ux t1) - support (qp_of d) v)%R /\
       i_duality_gap (sv_info s') = (i_obj_val (sv_info s') - i_dual_obj_val (sv_info s'))%R)).
  Proof.
    intros H1 H2. destruct (claim_end H1) as (k & t & t1 & stale & e & Hk & HIt & _ & HN & RE & HI & HC). exists k, t, t1. split; [auto|]. split; [auto|].
    destruct (time_over E t1) eqn:ET; [auto|right].
    assert (Hs : stale = false) by (destruct stale; auto; discriminate (en_nt _ _ _ _ _ _ _ _ _ _ _ _ _ HN eq_refl)).
    pose proof (en_cur _ _ _ _ _ _ _ _ _ _ _ _ _ HN Hs) as HCu. pose proof (re_res _ _ _ _ RE H2) as R5. pose proof (en_it _ _ _ _ _ _ _ _ _ _ _ _ _ HN) as EI. pose proof (en_data _ _ _ _ _ _ _ _ _ _ _ _ _ HN) as ED.
    pose proof (iterate_data k t t1 HIt) as Dt. unfold res5 in R5. injection R5 as R1 R2 R3 R4 R5.
    pose proof (tu_sq _ _ _ _ _ _ HT) as SQ. pose proof (sq_n _ _ _ _ _ SQ) as Sn. pose proof (sq_m _ _ _ _ _ SQ) as Sm. cbn [q_n q_m qp_of] in Sn, Sm.
    assert (EI' := EI). unfold iter3 in EI'. injection EI' as X1 X2 X3.
    split; [auto|]. split; [rewrite R1, (cu_pr _ _ _ _ _ _ _ HCu), ED, Dt, Sm, X1, X3; auto|]. split; [rewrite R2, (cu_dr _ _ _ _ _ _ _ HCu), ED, Dt, Sn, X1, X2; auto|].
    intros HH. split; [rewrite (re_last _ _ _ _ RE HH H2); auto|].
    assert (HH' : has_solution (sv_info e) = true) by (apply has_solution_iff; rewrite <- (re_stat _ _ _ _ RE); apply has_solution_iff; auto).
    pose proof (en_rep _ _ _ _ _ _ _ _ _ _ _ _ _ HN Hs HH') as (B1 & B2 & B3).
    destruct (session_facts E EO _ _ _ _ _ _ _ _ _ _ HS) as (HIs & HR & _). destruct (iterate_facts E EO P A q0 l0 u0 m n ust s d k t t1 HS HIt) as (_ & _ & _ & _ & _ & _ & _ & US & _).
    destruct (uscal_all _ _ US) as (V1 & V2 & V3).
    exists (uny (uc s) (uE s) (cutv (sv_work e))). rewrite R3, R4, R5, B1, B2, B3, X1. fold (ux t1). 
    assert (EX : unx (uD s) (rnth (w_x (sv_work t1))) = ux t1) by (unfold ux, unx; rewrite V2; reflexivity). rewrite EX.
    split; [|split; [auto|split; [auto|unfold objective; lra]]].
    intros i Hi. pose proof (ref_scaled_qp d s HR) as [S1 S2 S3 S4 S5 S6 S7 S8 S9 S10]. cbn [q_l q_u q_m q_n qp_of] in *.
    exists (cutv (sv_work e) i). split; [|reflexivity]. rewrite <- S9, <- S10 by auto. unfold uy. rewrite V1, V3. specialize (S5 i Hi).
    replace (uc s * (uE s i * rnth (w_y (sv_work t1)) i / uc s) / uE s i)%R with (rnth (w_y (sv_work t1)) i) by (field; lra).
    unfold cutv. rewrite ED, Dt, X2. apply cut_drops.
  Qed.

  (** How far the iteration went. *)
  Theorem claim_count : exists k t t1, 1 <= k <= st_max_iter st /\ iterate E s k t t1 /\
    (k < st_max_iter st -> stop_requested E t1 = true /\ stat s' = OSQP_SIGINT \/ time_over E t1 = true \/ stat s' = OSQP_UNSOLVED /\ fl = 1 \/ scheduled st k = true /\ decided (stat s')) /\
    (final (stat s') -> i_iter (sv_info s') = (if time_over E t1 then k - 1 else k)).
  Proof.
    destruct claim_run as (k & t & t1 & Hk & HIt & [(A1 & A2 & A3 & A4)|[(A1 & A2 & A3 & A4)|(stale & e & A1 & A2 & A3 & A4 & A5)]]); exists k, t, t1; (split; [auto|]); (split; [auto|]).
    - split; [auto|]. unfold final. tauto.
    - split; [tauto|]. unfold final. tauto.
    - split; [|auto]. intros Hl. destruct A5 as [A5|[A5|A5]]; [auto|lia|auto].
  Qed.

  (** Every outcome found at a scheduled test is reported, at once. *)
  Theorem claim_found k t t1 v : iterate E s k t t1 -> scheduled st k = true -> stop_requested E t1 = false -> time_over E t1 = false ->
    answer s Q c D Es (sv_work t1) v -> stat s' = v /\ i_iter (sv_info s') = k.
  Proof.
    intros HIt Hsc HR HTm HAn. destruct (session_facts E EO _ _ _ _ _ _ _ _ _ _ HS) as (HI & HRf & _).
    edestruct (solve_found E EO s Q (qp_of d) c (uc s) D Es (uD s) (uE s) HI HT) as (e & (IE & FE & _) & HF & E1 & E2); try exact HE; eauto.
    - apply ref_scaled_qp; auto.
    - intros H1. pose proof (rf_sc _ _ HRf) as HX. destruct (wo_sc _ _ (iv_w _ HI) H1) as (sc & Ew & _). exists sc. split; auto.
      unfold uc, uscal in *. rewrite H1, Ew in *. destruct (HX sc eq_refl) as (_ & _ & [I1 _ _]). auto.
    - intros H1. unfold uc, uscal. rewrite H1. auto.
    - eapply session_aty; eauto.
    - assert (HRe : ref d e). { destruct FE as [F1 F2 F3 F4 F5]. eapply ref_same; [exact F1|exact F2| |exact HRf]. apply same_st_keep in F4. apply F4. }
      pose proof (finished_result d e fl s' IE HRe HF) as RE. rewrite (re_stat _ _ _ _ RE), (re_iter _ _ _ _ RE). auto.
  Qed.
  End Units.
End Claims.
