(** The verdicts of osqp_solve in every number system, for every history of calls: what the statuses say about the machine-level reading of the iterate
    returned. *)
From Coq Require Import ZArith List Bool Lia String.
From Verif Require Import Num Arr ArrFacts Csc CscSpec CscFacts CscFacts2 Scatter Vec Types Kkt Linsys Scaling Validate Auxil Polish Api
  VecFacts LinsysFacts LinsysSolve Inv InvStep InvApi InvScale InvPolish InvSolve ValidFacts InvUpd InvSetup History RecSimp Frame FrameSolve FrameUpd DataFacts Mid Trace PassFacts SolveEnd KktErr AtyFacts
  MachineSpec MachineTerm MachineInfo MachineSolve.
Import ListNotations.
Open Scope Z_scope.
Local Open Scope opt_scope.

Section Claims.
  Context {K : NumOps}.
  Variable E : Env K.

  (** s is a solver after a successful osqp_setup and any calls with arguments of the right sizes. *)
  Inductive lives (P A : csc K) (q l u : option (list K)) (m n : Z) (ust : settings K) (s : solver K) : Prop :=
  | lives_intro : forall g s0 g', data_readable (Some P) q (Some A) l u m n -> osqp_setup E g (Some P) q (Some A) l u m n (Some ust) = Some (0, Some s0, g') ->
      reach E s0 s -> lives P A q l u m n ust s.

  Hypothesis EO : env_ok E.
  Hypothesis MM : nltb (OSQP_RHO_MIN K) (OSQP_RHO_MAX K) = true.
  Notation stat t := (i_status_val (sv_info t)).

  Lemma run_max c (s : solver K) fl s' : run E c s = Some (fl, HSolver s') -> 0 < st_max_iter (sv_settings s) -> 0 < st_max_iter (sv_settings s').
  Proof.
    intros HC HS. destruct c; cbn [run] in HC.
    - unfold osqp_solve, on_solver in HC. destruct (solve E s) as [[f s1]|] eqn:Er; [|discriminate]. injection HC as _ <-.
      pose proof (sf_st _ _ (solve_sfr E s _ Er)) as Hk. cbn [snd] in Hk. rewrite (same_st_max _ _ Hk). auto.
    - unfold osqp_update_data_vec, on_solver in HC. destruct (update_data_vec E s q l u) as [[f s1]|] eqn:Er; [|discriminate]. injection HC as _ <-.
      destruct (update_data_vec_shape E s q l u _ Er) as (lt & ut & okb & H). destruct okb.
      + destruct (vs_acc _ _ _ _ _ _ _ _ H eq_refl) as (q' & _ & _ & _ & _ & _ & _ & _ & Es & _). cbn [snd] in Es. rewrite Es.
        destruct (_ && _); [|auto]. destruct (sv_settings s); exact HS.
      + destruct (vs_rej _ _ _ _ _ _ _ _ H eq_refl) as (_ & t & c & Es). cbn [snd] in Es. rewrite Es. exact HS.
    - unfold osqp_update_data_mat, on_solver in HC. destruct (update_data_mat E s Px Pidx Pn Ax Aidx An) as [[f s1]|] eqn:Er; [|discriminate]. injection HC as _ <-.
      destruct (update_data_mat_shape E s _ _ _ _ _ _ _ Er) as (nP & nA & _ & _ & [(_ & Es)|(_ & _ & t & c & w1 & P2 & A2 & w4 & ls & ls' & i & g & _ & _ & _ & _ & _ & _ & Es & _)]); cbn [snd] in Es; rewrite Es; [|exact HS].
      destruct (begin_update_eq s) as (t & c & ->). exact HS.
    - unfold osqp_update_rho, on_solver in HC. destruct (update_rho E s rho) as [[f s1]|] eqn:Er; [|discriminate]. injection HC as _ <-.
      pose proof (sf_st _ _ (proj1 (update_rho_post E s rho _ Er))) as Hk. cbn [snd] in Hk. rewrite (same_st_max _ _ Hk). auto.
    - unfold osqp_update_settings in HC. destruct (validate_settings new false) eqn:EV; [injection HC as _ <-; auto|]. destruct new as [st|]; [|discriminate].
      destruct (w_linsys (sv_work s)); [|discriminate]. injection HC as _ <-. rs.
      apply validate_settings_spec in EV as (st' & [= <-] & HV). exact (vs_max_iter _ _ HV).
    - unfold osqp_warm_start, on_solver in HC. destruct (warm_start s x y) as [[f s1]|] eqn:Er; [|discriminate]. injection HC as _ <-.
      assert (HP : post (warm_start s x y) (fun r => sv_settings (snd r) = sv_settings s \/ sv_settings (snd r) = set_st_warm_starting 1 (sv_settings s))).
      { unfold warm_start. cbv zeta. set (s1' := if negb _ then _ else s).
        assert (H1 : sv_settings s1' = sv_settings s \/ sv_settings s1' = set_st_warm_starting 1 (sv_settings s)) by (subst s1'; destruct (negb _); auto). clearbody s1'.
        do 4 (apply post_bind; intros ? ?). apply post_ret. cbn [snd]. rs. exact H1. }
      specialize (HP _ Er). cbn [snd] in HP. destruct HP as [-> | ->]; auto.
    - unfold osqp_cold_start in HC. destruct (cold_start (sv_work s)); [|discriminate]. injection HC as _ <-. exact HS.
    - unfold osqp_get_solution in HC. destruct sol as [o|]; [|injection HC as _ <-; auto].
      destruct (store_solution s (Some o)) as [[s1 o1]|] eqn:Er; [|discriminate]. injection HC as _ <-. destruct (store_solution_post s (Some o) _ Er) as (A1 & _). cbn [fst] in A1. rewrite A1. auto.
  Qed.

  Lemma lives_facts P A q l u m n ust s : lives P A q l u m n ust s ->
    Inv s /\ aty_zero (sv_work s) /\ 1 <= st_max_iter (sv_settings s) /\ d_m (w_data (sv_work s)) = m /\ d_n (w_data (sv_work s)) = n.
  Proof.
    intros [g s0 g' HDR HS RC].
    assert (HZ0 : aty_zero (sv_work s0)). { destruct (setup_aty E _ _ _ _ _ _ _ _ _ _ _ _ HS) as (EM & EZ). intros H. rewrite EZ by congruence. apply Forall_forall. intros x Hx. unfold zrep in Hx. apply repeat_spec in Hx. auto. }
    destruct (osqp_setup_safe E EO MM g (Some P) q (Some A) l u m n (Some ust) HDR) as (r & Er & HRes). rewrite HS in Er. injection Er as <-. cbn [fst snd] in HRes.
    inversion HRes as [| |? ? ? ? ? ? ? ? ? ? EE|s1 g1 HDO HV HI Dn Dm HF Hw HLF Hsec Hhan EE]; subst; try discriminate.
    destruct (reach_inv E EO MM s0 s HI RC) as (I1 & F & _).
    apply validate_settings_spec in HV as (st' & [= <-] & HV). destruct (HF ust eq_refl) as [_ Hst _ _ _ _ _ _ _ _ _ _ _ _].
    assert (HK0 : 0 < st_max_iter (sv_settings s0)).
    { rewrite Hst. replace (st_max_iter _) with (st_max_iter ust) by (unfold setup_adaptive_rho; repeat match goal with |- context [if ?b then _ else _] => destruct b end; destruct ust; reflexivity). apply HV. }
    assert (HK : 0 < st_max_iter (sv_settings s) /\ aty_zero (sv_work s)).
    { clear - HK0 HZ0 RC. induction RC as [|s c fl s' RC (IH1 & IH2) HA HC]; auto. split; [eapply run_max; eauto|]. eapply kz_zero; [|exact IH2]. eapply run_kz; eauto. }
    destruct HK. destruct F. split; [auto|]. split; [auto|]. split; [lia|]. split; congruence.
  Qed.

  (** ** The end of osqp_solve *)
  Lemma finish_times_eq (s6 : solver K) : sv_settings (finish_times s6) = sv_settings s6 /\ stat (finish_times s6) = stat s6 /\ i_status_polish (sv_info (finish_times s6)) = i_status_polish (sv_info s6) /\
    iter3 (sv_work (finish_times s6)) = iter3 (sv_work s6) /\ core (sv_work (finish_times s6)) = core (sv_work s6) /\ deltas (sv_work (finish_times s6)) = deltas (sv_work s6) /\ res5 (sv_info (finish_times s6)) = res5 (sv_info s6) /\ i_iter (sv_info (finish_times s6)) = i_iter (sv_info s6).
  Proof. unfold finish_times. cbv zeta. destruct (tr (w_first_run (sv_work s6))); rs; repeat split; reflexivity. Qed.

  Lemma to_raw_inv (a v r : list K) : vf_to_raw a v = Some r -> holds r v.
  Proof.
    unfold vf_to_raw, view_write. destruct (_ && _); [|discriminate]. intros [= <-]. cbn [Z.to_nat firstn app]. eexists. reflexivity.
  Qed.

  (** What store_solution puts into the solution structure. *)
  Definition stored (s : solver K) (o : solution K) : Prop :=
    (has_solution (sv_info s) = true -> returned (sv_settings s) (w_scaling (sv_work s)) (w_x (sv_work s)) (w_y (sv_work s)) o) /\
    (stat s = OSQP_PRIMAL_INFEASIBLE \/ stat s = OSQP_PRIMAL_INFEASIBLE_INACCURATE -> holds (so_prim_inf_cert o) (normalised (w_delta_y (sv_work s)))) /\
    (stat s = OSQP_DUAL_INFEASIBLE \/ stat s = OSQP_DUAL_INFEASIBLE_INACCURATE -> holds (so_dual_inf_cert o) (normalised (w_delta_x (sv_work s)))).
  Lemma store_stored (s : solver K) so : post (store_solution s so) (fun r => (so <> None -> snd r <> None) /\ forall o, snd r = Some o -> stored s o).
  Proof.
    unfold store_solution. destruct so as [so|]; [|apply post_ret; split; [auto|discriminate]].
    assert (HHS : has_solution (sv_info s) = true -> ~ (stat s = OSQP_PRIMAL_INFEASIBLE \/ stat s = OSQP_PRIMAL_INFEASIBLE_INACCURATE) /\ ~ (stat s = OSQP_DUAL_INFEASIBLE \/ stat s = OSQP_DUAL_INFEASIBLE_INACCURATE)).
    { unfold has_solution. intros H. split; intros [e|e]; rewrite e in H; discriminate. }
    destruct (has_solution (sv_info s)) eqn:EH.
    - destruct (HHS eq_refl) as (N1 & N2).
      eapply post_bindP with (P := fun r => exists W, (st_scaling (sv_settings s) <> 0 -> w_scaling (sv_work s) = Some W) /\
        holds (fst (fst r)) (if st_scaling (sv_settings s) =? 0 then w_x (sv_work s) else times (w_x (sv_work s)) (sc_D W)) /\
        holds (snd (fst r)) (if st_scaling (sv_settings s) =? 0 then w_y (sv_work s) else map (fun v => nmul v (sc_cinv W)) (times (w_y (sv_work s)) (sc_E W)))).
      { unfold tr. destruct (st_scaling (sv_settings s) =? 0) eqn:Es; cbn [negb].
        - apply post_bind. intros x Hx. apply post_bind. intros y Hy. apply post_ret. cbn [fst snd]. 
          exists (mkscaling n0 [] [] n0 [] []). split; [lia|]. split; eapply to_raw_inv; eauto.
        - destruct (w_scaling (sv_work s)) as [W|]; [|apply post_none]. cbv beta iota. apply post_bind. intros [ux uy] Hu. rs.
          unfold unscale_solution in Hu. destruct (vf_ew_prod _ (w_x _) _) as [ux'|] eqn:Eu; [|discriminate]. destruct (vf_ew_prod _ (w_y _) _) as [uy'|] eqn:Ev; [|discriminate]. injection Hu as <- <-. cbn [fst snd].
          apply ew_inv in Eu. apply ew_inv in Ev. subst ux' uy'.
          apply post_bind. intros x Hx. apply post_bind. intros y Hy. apply post_ret. cbn [fst snd]. exists W. split; [auto|]. split; eapply to_raw_inv; eauto. }
      intros [[x y] w1] (W & H1 & H2 & H3). cbn [fst snd] in *. rs. apply post_bind. intros pc _. apply post_bind. intros dc _. apply post_ret. cbn [snd]. split; [discriminate|]. intros o [= <-]. split; [|tauto].
      intros _. exists W. cbn [so_x so_y]. auto.
    - rs. apply post_bind. intros x _. apply post_bind. intros y _. eapply post_bindP; [apply cold_start_post|]. intros w1 ->. rs.
      set (fp := (stat s =? OSQP_PRIMAL_INFEASIBLE) || (stat s =? OSQP_PRIMAL_INFEASIBLE_INACCURATE)). set (fd := (stat s =? OSQP_DUAL_INFEASIBLE) || (stat s =? OSQP_DUAL_INFEASIBLE_INACCURATE)).
      assert (ND : fp = true -> fd = true -> False) by (subst fp fd; unfold OSQP_PRIMAL_INFEASIBLE, OSQP_PRIMAL_INFEASIBLE_INACCURATE, OSQP_DUAL_INFEASIBLE, OSQP_DUAL_INFEASIBLE_INACCURATE; lia).
      assert (CP : stat s = OSQP_PRIMAL_INFEASIBLE \/ stat s = OSQP_PRIMAL_INFEASIBLE_INACCURATE -> fp = true) by (subst fp; lia).
      assert (CD : stat s = OSQP_DUAL_INFEASIBLE \/ stat s = OSQP_DUAL_INFEASIBLE_INACCURATE -> fd = true) by (subst fd; lia).
      clearbody fp fd.
      eapply post_bindP with (P := fun r => (fp = false -> w_delta_x (fst r) = w_delta_x (sv_work s)) /\ (fp = true -> holds (so_prim_inf_cert (snd r)) (normalised (w_delta_y (sv_work s))))).
      { destruct fp; [|apply post_ret; cbn [fst snd]; rs; split; [auto|discriminate]].
        apply post_bind. intros pc Hp. rs. apply post_bind. intros dc _. apply post_ret. cbn [fst snd]. rs. split; [discriminate|]. intros _. rs_in Hp. eapply to_raw_inv in Hp. exact Hp. }
      intros [w2 so2] (A1 & A2). cbn [fst snd] in *.
      eapply post_bindP with (P := fun r => (fp = true -> holds (so_prim_inf_cert (snd r)) (normalised (w_delta_y (sv_work s)))) /\ (fd = true -> holds (so_dual_inf_cert (snd r)) (normalised (w_delta_x (sv_work s))))).
      { destruct fd; [|apply post_ret; cbn [fst snd]; split; [auto|discriminate]].
        assert (fp = false) by (destruct fp; auto; exfalso; auto). rs. rewrite A1 by auto.
        apply post_bind. intros dc Hp. rs. apply post_bind. intros pc _. apply post_ret. cbn [fst snd]. rs. split; [intros; exfalso; auto|]. intros _. eapply to_raw_inv in Hp. exact Hp. }
      intros [w3 so3] (B1 & B2). cbn [fst snd] in *. apply post_ret. cbn [snd]. split; [discriminate|]. intros o [= <-]. split; [congruence|]. split; auto.
  Qed.

  (** What the solver s' returned holds, from the state e before polishing. *)
  Record result (e s' : solver K) (fl : Z) : Prop := {
    re_stat : stat s' = stat e;
    re_iter : i_iter (sv_info s') = i_iter (sv_info e);
    re_last : has_solution (sv_info s') = true -> ~ polished s' -> iter3 (sv_work s') = iter3 (sv_work e);
    re_res : ~ polished s' -> res5 (sv_info s') = res5 (sv_info e);
    re_fl : fl <> 0 -> stat e = OSQP_SOLVED /\ tr (st_polishing (sv_settings e)) = true;
    re_has : fl <= 0 -> sv_solution s' = None -> sv_solution e = None;
    re_ret : fl <= 0 -> has_solution (sv_info s') = true -> forall o, sv_solution s' = Some o -> returned (sv_settings e) (w_scaling (sv_work e)) (w_x (sv_work s')) (w_y (sv_work s')) o;
    re_pc : fl <= 0 -> stat e = OSQP_PRIMAL_INFEASIBLE \/ stat e = OSQP_PRIMAL_INFEASIBLE_INACCURATE -> forall o, sv_solution s' = Some o -> holds (so_prim_inf_cert o) (normalised (w_delta_y (sv_work e)));
    re_dc : fl <= 0 -> stat e = OSQP_DUAL_INFEASIBLE \/ stat e = OSQP_DUAL_INFEASIBLE_INACCURATE -> forall o, sv_solution s' = Some o -> holds (so_dual_inf_cert o) (normalised (w_delta_x (sv_work e))) }.
  Lemma finished_result e fl s' : finished E e fl s' -> result e s' fl.
  Proof.
    intros HF. destruct HF as [s6 AP Hfl HS HP F1 F2 F3 F4|s6 r AP Hfl _ Hfl2 HST F1 F2 F3 F4]; destruct AP as [A1 A2 A3 A4 A5 A6 A7 _].
    - assert (PE : polished s' <-> polished s6) by (unfold polished; rewrite F2, F3; tauto).
      constructor; try (intros H; exfalso; lia); try (rewrite ?F1, ?F2, ?F3; auto; fail).
      + intros _ HN. rewrite F1. apply A7. tauto.
      + intros HN. rewrite F2. apply A7. tauto.
    - destruct (finish_times_eq s6) as (T1 & T2 & T3 & T4 & T5 & T6 & T7 & T8).
      pose proof (store_solution_post _ _ _ HST) as (S1 & S2 & _ & S4 & S5 & _ & _ & S8). destruct (store_stored _ _ _ HST) as (Q1 & Q2).
      apply fixed_core, core_eq in A3 as (_ & _ & _ & _ & _ & Sc6 & _). apply core_eq in T5 as (_ & _ & _ & _ & _ & Sc7 & _).
      assert (PE' : polished s6 -> polished s') by (unfold polished; rewrite F2, F3, S1, S2, T1, T2, T3; tauto).
      assert (HH : has_solution (sv_info s') = has_solution (sv_info (finish_times s6))) by (rewrite F2, S2; auto).
      unfold deltas in *.
      constructor.
      + rewrite F2, S2, T2. auto.
      + rewrite F2, S2, T8. auto.
      + intros H1 H2. rewrite F1, S8 by congruence. rewrite T4. apply A7. tauto.
      + intros H2. rewrite F2, S2, T7. apply A7. tauto.
      + auto.
      + intros _ Eo. rewrite F4 in Eo. rewrite <- A2. destruct (sv_solution s6) as [o|]; auto. exfalso. apply Q1; auto. discriminate.
      + intros _ H1 o Eo. rewrite F4 in Eo. destruct (Q2 o Eo) as (R1 & _ & _). rewrite HH in H1. specialize (R1 H1). rewrite T1, A1, Sc7, Sc6 in R1. specialize (S8 H1). unfold iter3 in S8. rewrite F1. injection S8 as X1 X2 X3. rewrite X1, X2. exact R1.
      + intros _ H1 o Eo. rewrite F4 in Eo. destruct (Q2 o Eo) as (_ & R1 & _). rewrite T2, A5 in R1. specialize (R1 H1). replace (w_delta_y (sv_work e)) with (w_delta_y (sv_work (finish_times s6))) by congruence. exact R1.
      + intros _ H1 o Eo. rewrite F4 in Eo. destruct (Q2 o Eo) as (_ & _ & R1). rewrite T2, A5 in R1. specialize (R1 H1). replace (w_delta_x (sv_work e)) with (w_delta_x (sv_work (finish_times s6))) by congruence. exact R1.
  Qed.

  (** ** The claims *)
  Section Solve.
  Variables (P A : csc K) (q l u : option (list K)) (m n : Z) (ust : settings K) (s : solver K) (fl : Z) (s' : solver K).
  Hypothesis HL : lives P A q l u m n ust s.
  Hypothesis HU : stat s = OSQP_UNSOLVED.
  Hypothesis HE : solve E s = Some (fl, s').
  Notation st := (sv_settings s).
  Notation D := (w_data (sv_work s)). Notation SC := (w_scaling (sv_work s)).
  Notation X t := (w_x (sv_work t)). Notation Y t := (w_y (sv_work t)). Notation Zv t := (w_z (sv_work t)).

  Definition final (v : Z) : Prop := v <> OSQP_SIGINT /\ v <> OSQP_UNSOLVED.
  Lemma claim_end : final (stat s') -> exists k t t1 stale V e, 1 <= k <= st_max_iter st /\ iterate E s k t t1 /\ stop_requested E t1 = false /\
    ending s (time_over E t1) stale V (sv_work t1) e /\ result e s' fl /\
    i_iter (sv_info s') = (if time_over E t1 then k - 1 else k) /\ (time_over E t1 = true \/ k = st_max_iter st \/ scheduled st k = true /\ decided (stat s')).
  Proof.
    intros (N1 & N2). destruct (lives_facts _ _ _ _ _ _ _ _ _ HL) as (HI & HA & HM & _).
    destruct (solve_ends E EO MM s HI HA fl s' HM HU HE) as (k & t & t1 & Hk & HIt & HX). exists k, t, t1.
    destruct HX as [| |timed stale V e H1 H2 H3 H4 H5 H6 H7 HKE]; [contradiction|contradiction|]. pose proof (finished_result e fl s' H4) as HR. exists stale, V, e.
    rewrite H2. split; [auto|]. split; [auto|]. split; [auto|]. split; [exact H3|]. split; [exact HR|]. split; [rewrite (re_iter _ _ _ HR); auto|].
    rewrite (re_stat _ _ _ HR). exact H7.
  Qed.

  Lemma ending_reads timed V t1 e : ending s timed false V (sv_work t1) e -> reads st D SC (X t1) (Y t1) (Zv t1) V.
  Proof.
    intros EN. destruct (en_cur _ _ _ _ _ _ EN eq_refl) as (W & C). apply cur_reads in C. destruct (good_dsc s e (en_good _ _ _ _ _ _ EN)) as (E1 & E2). rewrite E1, E2 in C.
    pose proof (en_it _ _ _ _ _ _ EN) as H. unfold iter3 in H. injection H as H1 H2 H3. rewrite H1, H2, H3 in C. exact C.
  Qed.
  Lemma ending_reports timed V t1 e : ending s timed false V (sv_work t1) e -> has_solution (sv_info e) = true -> reports_reading (sv_info e) V.
  Proof.
    intros EN HH. destruct (en_cur _ _ _ _ _ _ EN eq_refl) as (W & C). destruct (en_rep _ _ _ _ _ _ EN eq_refl HH) as (R1 & R2). destruct C. repeat split; auto.
  Qed.
  Lemma result_reports e V : result e s' fl -> ~ polished s' -> reports_reading (sv_info e) V -> reports_reading (sv_info s') V.
  Proof. intros HR NP H. pose proof (re_res _ _ _ HR NP) as R5. unfold res5 in R5. injection R5 as R1 R2 R3 R4 R5. unfold reports_reading. rewrite R1, R2, R3, R4, R5. exact H. Qed.
  Lemma result_returned timed stale V t1 e : ending s timed stale V (sv_work t1) e -> result e s' fl -> has_solution (sv_info s') = true -> fl <= 0 -> forall o, sv_solution s' = Some o -> returned st SC (X s') (Y s') o.
  Proof.
    intros EN HR HH Hf o Ho. pose proof (re_ret _ _ _ HR Hf HH o Ho) as H. pose proof (en_good _ _ _ _ _ _ EN) as HG. destruct (good_dsc s e HG) as (_ & E2). rewrite E2 in H.
    destruct HG as (_ & F & _). destruct (sf_st _ _ F) as (r & x & Est). rewrite Est in H. exact H.
  Qed.

  (** The iterate returned, when the solve was not cut short: it is the last one, with reading V, and V is what is reported. *)
  Definition last_read (V : reading) : Prop :=
    reads st D SC (X s') (Y s') (Zv s') V /\ reports_reading (sv_info s') V /\ (forall o, fl <= 0 -> sv_solution s' = Some o -> returned st SC (X s') (Y s') o).
  Lemma claim_last timed V t1 e : ending s timed false V (sv_work t1) e -> result e s' fl -> has_solution (sv_info s') = true -> ~ polished s' -> last_read V.
  Proof.
    intros EN HR HH NP. assert (HH' : has_solution (sv_info e) = true) by (unfold has_solution in *; rewrite <- (re_stat _ _ _ HR); exact HH).
    pose proof (ending_reads _ _ _ _ EN) as RD. pose proof (re_last _ _ _ HR HH NP) as LI. rewrite (en_it _ _ _ _ _ _ EN) in LI. unfold iter3 in LI. injection LI as L1 L2 L3.
    split; [rewrite L1, L2, L3; exact RD|]. split; [eapply result_reports; eauto using ending_reports|]. intros o Hf Ho. eapply result_returned; eauto.
  Qed.

  Lemma has_of v : (v = OSQP_SOLVED \/ v = OSQP_SOLVED_INACCURATE \/ v = OSQP_MAX_ITER_REACHED \/ v = OSQP_TIME_LIMIT_REACHED) -> stat s' = v -> has_solution (sv_info s') = true.
  Proof. intros H Hv. unfold has_solution. rewrite Hv. destruct H as [-> |[-> |[-> | ->]]]; reflexivity. Qed.
  Ltac fin H := unfold final; rewrite H; unfold OSQP_SOLVED, OSQP_SOLVED_INACCURATE, OSQP_PRIMAL_INFEASIBLE, OSQP_PRIMAL_INFEASIBLE_INACCURATE, OSQP_DUAL_INFEASIBLE, OSQP_DUAL_INFEASIBLE_INACCURATE,
    OSQP_MAX_ITER_REACHED, OSQP_TIME_LIMIT_REACHED, OSQP_NON_CVX, OSQP_SIGINT, OSQP_UNSOLVED; lia.
  Lemma npol : stat s' <> OSQP_SOLVED -> ~ polished s'.
  Proof. intros H (_ & H1 & _). contradiction. Qed.

  Lemma size_m : d_m D = m.
  Proof. apply (lives_facts _ _ _ _ _ _ _ _ _ HL). Qed.

  Theorem machine_solved : stat s' = OSQP_SOLVED -> exists k t t1 V, 1 <= k <= st_max_iter st /\ iterate E s k t t1 /\ reads st D SC (X t1) (Y t1) (Zv t1) V /\
    accepted st m false V = true /\ exploded V = false /\ (~ polished s' -> last_read V /\ X s' = X t1 /\ Y s' = Y t1 /\ Zv s' = Zv t1).
  Proof.
    intros Hs. destruct claim_end as (k & t & t1 & stale & V & e & Hk & HIt & _ & EN & HR & _ & _); [fin Hs|].
    pose proof (re_stat _ _ _ HR) as Es. rewrite Hs in Es. destruct (en_solved _ _ _ _ _ _ EN (eq_sym Es)) as (AC & ->). rewrite size_m in AC. exists k, t, t1, V.
    split; [auto|]. split; [auto|]. split; [eapply ending_reads; eauto|]. split; [auto|]. split.
    { destruct (exploded V) eqn:EX; [|auto]. pose proof (proj2 (en_ncvx _ _ _ _ _ _ EN eq_refl) EX) as Hn. rewrite <- Es in Hn. discriminate. }
    intros NP. assert (HH : has_solution (sv_info s') = true) by (eapply has_of; [|exact Hs]; auto). split; [eapply claim_last; eauto|].
    pose proof (re_last _ _ _ HR HH NP) as LI. rewrite (en_it _ _ _ _ _ _ EN) in LI. unfold iter3 in LI. injection LI as L1 L2 L3. auto.
  Qed.

  Theorem machine_inaccurate : stat s' = OSQP_SOLVED_INACCURATE -> exists k t t1, 1 <= k <= st_max_iter st /\ iterate E s k t t1 /\
    (time_over E t1 = true \/ k = st_max_iter st /\ exists V, last_read V /\ accepted st m true V = true /\ accepted st m false V = false /\ exploded V = false).
  Proof.
    intros Hs. destruct claim_end as (k & t & t1 & stale & V & e & Hk & HIt & _ & EN & HR & _ & HC); [fin Hs|]. exists k, t, t1. split; [auto|]. split; [auto|].
    destruct (time_over E t1) eqn:ET; [auto|]. right.
    assert (stale = false) by (destruct stale; auto; pose proof (en_nt _ _ _ _ _ _ EN eq_refl); discriminate). subst stale.
    pose proof (re_stat _ _ _ HR) as Es. rewrite Hs in Es.
    split. { destruct HC as [HC|[HC|(_ & HC)]]; [discriminate|auto|]. exfalso. rewrite Hs in HC. unfold decided in HC. revert HC. stc. }
    exists V. split; [eapply claim_last; eauto; [eapply has_of; [|exact Hs]; auto|apply npol; rewrite Hs; discriminate]|].
    split; [rewrite <- size_m; apply (en_inacc _ _ _ _ _ _ EN); auto|]. split; [rewrite <- size_m; apply (en_not _ _ _ _ _ _ EN); auto; rewrite <- Es; discriminate|].
    destruct (exploded V) eqn:EX; [|auto]. pose proof (proj2 (en_ncvx _ _ _ _ _ _ EN eq_refl) EX) as Hn. rewrite <- Es in Hn. discriminate.
  Qed.

  Theorem machine_max_iter : stat s' = OSQP_MAX_ITER_REACHED -> i_iter (sv_info s') = st_max_iter st /\ exists t t1 V, iterate E s (st_max_iter st) t t1 /\ time_over E t1 = false /\
    X s' = X t1 /\ Y s' = Y t1 /\ Zv s' = Zv t1 /\ last_read V /\ accepted st m true V = false /\ accepted st m false V = false /\ exploded V = false.
  Proof.
    intros Hs. destruct claim_end as (k & t & t1 & stale & V & e & Hk & HIt & _ & EN & HR & HI & HC); [fin Hs|].
    pose proof (re_stat _ _ _ HR) as Es. rewrite Hs in Es. destruct (en_max _ _ _ _ _ _ EN (eq_sym Es)) as (ET & AC). rewrite ET in EN, HI, HC.
    assert (stale = false) by (destruct stale; auto; pose proof (en_nt _ _ _ _ _ _ EN eq_refl); discriminate). subst stale.
    assert (EK : k = st_max_iter st). { destruct HC as [HC|[HC|(_ & HC)]]; [discriminate|auto|]. exfalso. rewrite Hs in HC. unfold decided in HC. revert HC. stc. } rewrite EK in HIt, HI.
    assert (NP : ~ polished s') by (apply npol; rewrite Hs; discriminate). assert (HH : has_solution (sv_info s') = true) by (eapply has_of; [|exact Hs]; auto).
    split; [assumption|]. exists t, t1, V. split; [auto|]. split; [auto|].
    pose proof (re_last _ _ _ HR HH NP) as LI. rewrite (en_it _ _ _ _ _ _ EN) in LI. unfold iter3 in LI. injection LI as L1 L2 L3.
    split; [auto|]. split; [auto|]. split; [auto|]. split; [eapply claim_last; eauto|]. split; [rewrite <- size_m; auto|]. split; [rewrite <- size_m; apply (en_not _ _ _ _ _ _ EN); auto; rewrite <- Es; discriminate|].
    destruct (exploded V) eqn:EX; [|auto]. pose proof (proj2 (en_ncvx _ _ _ _ _ _ EN eq_refl) EX) as Hn. rewrite <- Es in Hn. discriminate.
  Qed.

  Theorem machine_ncvx : stat s' = OSQP_NON_CVX -> exists k t t1, 1 <= k <= st_max_iter st /\ iterate E s k t t1 /\
    (time_over E t1 = true \/ exists V, reads st D SC (X t1) (Y t1) (Zv t1) V /\ exploded V = true).
  Proof.
    intros Hs. destruct claim_end as (k & t & t1 & stale & V & e & Hk & HIt & _ & EN & HR & _ & HC); [fin Hs|]. exists k, t, t1. split; [auto|]. split; [auto|].
    destruct (time_over E t1) eqn:ET; [auto|]. right.
    assert (stale = false) by (destruct stale; auto; pose proof (en_nt _ _ _ _ _ _ EN eq_refl); discriminate). subst stale.
    pose proof (re_stat _ _ _ HR) as Es. rewrite Hs in Es. exists V. split; [eapply ending_reads; eauto|]. apply (en_ncvx _ _ _ _ _ _ EN); auto.
  Qed.

  Theorem machine_pinf (loose : bool) : stat s' = (if loose then OSQP_PRIMAL_INFEASIBLE_INACCURATE else OSQP_PRIMAL_INFEASIBLE) ->
    fl = 0 /\ exists v, pcert st D SC loose v /\ forall o, sv_solution s' = Some o -> holds (so_prim_inf_cert o) (normalised v).
  Proof.
    intros Hs. destruct claim_end as (k & t & t1 & stale & V & e & Hk & HIt & _ & EN & HR & _ & HC); [destruct loose; fin Hs|].
    pose proof (re_stat _ _ _ HR) as Es. rewrite Hs in Es.
    assert (Hf : fl = 0) by (destruct (Z.eq_dec fl 0) as [H|H]; [auto|]; destruct (re_fl _ _ _ HR H) as (H1 & _); rewrite <- Es in H1; destruct loose; discriminate). split; [auto|].
    exists (w_delta_y (sv_work e)). split; [destruct loose; [apply (en_pinfi _ _ _ _ _ _ EN)|apply (en_pinf _ _ _ _ _ _ EN)]; auto|].
    intros o Ho. eapply re_pc; eauto; [lia|]. rewrite <- Es. destruct loose; auto.
  Qed.
  Theorem machine_dinf (loose : bool) : stat s' = (if loose then OSQP_DUAL_INFEASIBLE_INACCURATE else OSQP_DUAL_INFEASIBLE) ->
    fl = 0 /\ exists v, dcert st D SC loose v /\ forall o, sv_solution s' = Some o -> holds (so_dual_inf_cert o) (normalised v).
  Proof.
    intros Hs. destruct claim_end as (k & t & t1 & stale & V & e & Hk & HIt & _ & EN & HR & _ & HC); [destruct loose; fin Hs|].
    pose proof (re_stat _ _ _ HR) as Es. rewrite Hs in Es.
    assert (Hf : fl = 0) by (destruct (Z.eq_dec fl 0) as [H|H]; [auto|]; destruct (re_fl _ _ _ HR H) as (H1 & _); rewrite <- Es in H1; destruct loose; discriminate). split; [auto|].
    exists (w_delta_x (sv_work e)). split; [destruct loose; [apply (en_dinfi _ _ _ _ _ _ EN)|apply (en_dinf _ _ _ _ _ _ EN)]; auto|].
    intros o Ho. eapply re_dc; eauto; [lia|]. rewrite <- Es. destruct loose; auto.
  Qed.

  Theorem machine_count : exists k t t1, 1 <= k <= st_max_iter st /\ iterate E s k t t1 /\
    (k < st_max_iter st -> stop_requested E t1 = true /\ stat s' = OSQP_SIGINT \/ time_over E t1 = true \/ stat s' = OSQP_UNSOLVED /\ fl = 1 \/
       scheduled st k = true /\ decided (stat s')) /\
    (final (stat s') -> i_iter (sv_info s') = (if time_over E t1 then k - 1 else k)).
  Proof.
    destruct (lives_facts _ _ _ _ _ _ _ _ _ HL) as (HI & HA & HM & _).
    destruct (solve_ends E EO MM s HI HA fl s' HM HU HE) as (k & t & t1 & Hk & HIt & HX). exists k, t, t1. split; [auto|]. split; [auto|].
    destruct HX as [H1 H2 H3 _|H1 H2 H3 H4 _ _|timed stale V e H1 H2 H3 H4 H5 H6 H7 HKE].
    - split; [auto|]. intros (N & _). contradiction.
    - split; [auto 10|]. intros (_ & N). contradiction.
    - pose proof (finished_result e fl s' H4) as HR. rewrite H2. split; [|intros _; rewrite (re_iter _ _ _ HR); auto].
      intros Hlt. destruct H7 as [H7|[H7|H7]]; [auto|lia|]. rewrite (re_stat _ _ _ HR). auto 10.
  Qed.

  Theorem machine_error : final (stat s') -> ~ rejected s' -> error_shown (sv_info s') \/
    exists k t t1, 1 <= k <= st_max_iter st /\ iterate E s k t t1 /\ time_over E t1 = true /\ stat s' <> OSQP_SOLVED.
  Proof.
    intros (N1 & N2) NJ. destruct (lives_facts _ _ _ _ _ _ _ _ _ HL) as (HI & HA & HM & _).
    destruct (solve_ends E EO MM s HI HA fl s' HM HU HE) as (k & t & t1 & Hk & HIt & HX).
    destruct HX as [| |timed stale V e H1 H2 H3 H4 H5 H6 H7 (KP & KN & _)]; [contradiction|contradiction|]. pose proof (finished_result e fl s' H4) as HR.
    destruct (stale && negb (stat s' =? OSQP_SOLVED)) eqn:Ed.
    { apply andb_true_iff in Ed as [-> Es]. right. exists k, t, t1. split; [auto|]. split; [auto|]. split; [rewrite H2; exact (en_nt _ _ _ _ _ _ H3 eq_refl)|].
      intros HX. rewrite HX in Es. discriminate. }
    left. assert (NS : stale = false).
    { destruct stale; [|reflexivity]. cbn [andb] in Ed. apply negb_false_iff, Z.eqb_eq in Ed. rewrite (re_stat _ _ _ HR) in Ed. destruct (en_solved _ _ _ _ _ _ H3 Ed). auto. }
    assert (DP : polished s' \/ ~ polished s').
    { unfold polished. destruct (tr (st_polishing (sv_settings s'))); [|right; intros (? & _); discriminate].
      destruct (Z.eq_dec (stat s') OSQP_SOLVED); [|right; tauto]. destruct (Z.eq_dec (i_status_polish (sv_info s')) OSQP_POLISH_SUCCESS); [left|right]; tauto. }
    destruct DP as [DP|DP]; [exact (KP DP)|]. specialize (KN DP NJ). destruct (en_cur _ _ _ _ _ _ H3 NS) as (W & C). pose proof (cr_err _ _ _ _ _ C) as HEr.
    unfold error_shown in *. unfold res4 in KN. injection KN as -> -> -> ->. exact HEr.
  Qed.

  Theorem machine_estimate : final (stat s') -> m <> 0 ->
    exists k t t1, 1 <= k <= st_max_iter st /\ iterate E s k t t1 /\ (time_over E t1 = true /\ stat s' <> OSQP_SOLVED \/ exists ax px aty,
      (exists b, csc_Axpy (d_A D) (X t1) b n1 n0 = Some ax) /\ (exists b, csc_Axpy_sym_triu (d_P D) (X t1) b n1 n0 = Some px) /\ (exists b, csc_Atxpy (d_A D) (Y t1) b n1 n0 = Some aty) /\
      i_rho_estimate (sv_info s') = balance (st_rho (sv_settings s')) (d_q D) (Zv t1) ax px aty).
  Proof.
    intros (N1 & N2) Hm. destruct (lives_facts _ _ _ _ _ _ _ _ _ HL) as (HI & HA & HM & Em & _).
    destruct (solve_ends E EO MM s HI HA fl s' HM HU HE) as (k & t & t1 & Hk & HIt & HX). exists k, t, t1. split; [auto|]. split; [auto|].
    destruct HX as [| |timed stale V e H1 H2 H3 H4 H5 H6 H7 (_ & _ & KE & KS)]; [contradiction|contradiction|]. pose proof (finished_result e fl s' H4) as HR.
    destruct (stale && negb (stat s' =? OSQP_SOLVED)) eqn:Ed.
    { apply andb_true_iff in Ed as [-> Es]. left. split; [rewrite H2; exact (en_nt _ _ _ _ _ _ H3 eq_refl)|]. intros HX. rewrite HX in Es. discriminate. }
    right. assert (NS : stale = false).
    { destruct stale; [|reflexivity]. cbn [andb] in Ed. apply negb_false_iff, Z.eqb_eq in Ed. rewrite (re_stat _ _ _ HR) in Ed. destruct (en_solved _ _ _ _ _ _ H3 Ed). auto. }
    destruct (en_cur _ _ _ _ _ _ H3 NS) as (W & C). destruct (good_dsc s e (en_good _ _ _ _ _ _ H3)) as (E1 & _). rewrite <- E1 in Em. rewrite <- E1.
    pose proof (en_it _ _ _ _ _ _ H3) as EI. unfold iter3 in EI. injection EI as I1 I2 I3. rewrite <- I1, <- I2, <- I3, <- Em in *.
    exists (w_Ax (sv_work e)), (w_Px (sv_work e)), (w_Aty (sv_work e)). split; [exact (cr_A _ _ _ _ _ C Hm)|]. split; [exact (cr_P _ _ _ _ _ C)|]. split; [exact (cr_At _ _ _ _ _ C Hm)|].
    rewrite KE, KS. unfold compute_rho_estimate. rewrite (cr_spr _ _ _ _ _ C Hm), (cr_sdr _ _ _ _ _ C Hm). reflexivity.
  Qed.

  Theorem machine_estimate_range : final (stat s') -> let r := i_rho_estimate (sv_info s') in
    r = nlit 1 (-6) \/ r = nlit 1 6 \/ nltb (nlit 1 (-6)) r = true /\ nltb r (nlit 1 6) = true.
  Proof.
    intros (N1 & N2). destruct (lives_facts _ _ _ _ _ _ _ _ _ HL) as (HI & HA & HM & Em & _).
    destruct (solve_ends E EO MM s HI HA fl s' HM HU HE) as (k & t & t1 & Hk & HIt & HX).
    destruct HX as [| |timed stale V e H1 H2 H3 H4 H5 H6 H7 (_ & _ & KE & KS)]; [contradiction|contradiction|]. cbv zeta. rewrite KE. clear - MM.
    unfold compute_rho_estimate. cbv zeta. match goal with |- c_min (c_max ?r _) _ = _ \/ _ => generalize r end. intros r. unfold OSQP_RHO_MIN, OSQP_RHO_MAX in *. unfold c_min, c_max.
    destruct (nltb _ r) eqn:Er; [|rewrite MM; auto]. destruct (nltb r _) eqn:Es; auto.
  Qed.

  Theorem machine_found k t t1 : iterate E s k t t1 -> scheduled st k = true -> stop_requested E t1 = false -> time_over E t1 = false ->
    exists V, reads st D SC (X t1) (Y t1) (Zv t1) V /\ (exploded V = true -> stat s' = OSQP_NON_CVX /\ i_iter (sv_info s') = k) /\
      (exploded V = false -> accepted st m false V = true -> stat s' = OSQP_SOLVED /\ i_iter (sv_info s') = k).
  Proof.
    intros HIt Hsc HR HT. destruct (lives_facts _ _ _ _ _ _ _ _ _ HL) as (HI & HA & HM & Em & _).
    destruct (solve_found E EO MM s HI HA fl s' k t t1 HU HIt Hsc HR HT HE) as (V & RD & HV). rewrite Em in HV. exists V. split; [exact RD|].
    split; [intros EX|intros EX AC]; destruct HV as (e & _ & HF & He & Hi & _); auto; rewrite EX in He; pose proof (finished_result e fl s' HF) as RR; rewrite (re_stat _ _ _ RR), (re_iter _ _ _ RR); auto.
  Qed.
  End Solve.
End Claims.
