(** osqp_solve and the other functions of the interface stay within their arrays and preserve the invariant. *)
From Coq Require Import ZArith List Bool Lia String.
From Verif Require Import Num Arr ArrFacts Csc CscSpec CscFacts CscFacts2 Scatter Vec Types Kkt Linsys Scaling Validate Auxil Polish Api
  VecFacts LinsysFacts LinsysSolve Inv InvStep InvApi InvScale InvPolish RecSimp.
Import ListNotations.
Open Scope Z_scope.

Section SolveInv.
  Context {K : NumOps}.
  Variable E : Env K.
  Hypothesis EO : env_ok E.
  Hypothesis MM : nltb (OSQP_RHO_MIN K) (OSQP_RHO_MAX K) = true.
  Notation dn s := (d_n (w_data (sv_work s))).
  Notation dm s := (d_m (w_data (sv_work s))).

  (** Same problem, settings (rho aside) and solution structure. *)
  Definition oks (s s' : solver K) : Prop := ok s s' /\ sv_solution s' = sv_solution s.
  Lemma oks_refl s : Inv s -> oks s s. Proof. split; auto using ok_refl. Qed.
  Lemma oks_trans s1 s2 s3 : oks s1 s2 -> oks s2 s3 -> oks s1 s3.
  Proof. intros [A1 A2] [B1 B2]. split; [eapply ok_trans; eauto|congruence]. Qed.

  Lemma oks_keeps s s' : Inv s -> sv_settings s' = sv_settings s -> sv_solution s' = sv_solution s ->
    keeps (sv_settings s) (sv_work s) (sv_work s') -> stat_ok (sv_info s') -> wfr s s' -> oks s s'.
  Proof. intros. split; auto. apply ok_keeps; auto. Qed.

  (** The adaptive rho interval may be chosen while solving. *)
  Lemma oks_interval s t : Inv s -> oks s (set_sv_settings (set_st_adaptive_rho_interval t (sv_settings s)) s).
  Proof.
    intros [[D1 D2 D3 D4 D5] HR HS HT]. split; [|reflexivity]. split; [|split].
    - constructor; rs; auto. constructor; rs; auto.
    - constructor; rs; auto using same_pat_refl.
    - split; auto.
  Qed.

  Lemma admm_step_safe s : Inv s -> safe (admm_step E s) (fun s' => oks s s' /\ sv_settings s' = sv_settings s /\ sv_info s' = sv_info s).
  Proof.
    intros HI. pose proof (iv_w _ HI) as HW. unfold admm_step, push_sec, pop_sec. rs.
    set (st := sv_settings s) in *. set (w := sv_work s) in *.
    pose proof (swap_safe st w HW) as HK0. pose proof (wok_keeps _ _ _ HW HK0) as HW0.
    eapply safe_bind; [apply update_xz_tilde_safe; auto|]. intros w1 HK1. pose proof (wok_keeps _ _ _ HW0 HK1) as HW1. rs.
    eapply safe_bind; [apply update_x_safe; auto|]. intros w2 HK2. pose proof (wok_keeps _ _ _ HW1 HK2) as HW2. rs.
    eapply safe_bind; [apply update_z_safe; auto|]. intros w3 HK3. pose proof (wok_keeps _ _ _ HW2 HK3) as HW3. rs.
    eapply safe_bind; [apply update_y_safe; auto|]. intros w4 HK4. rs.
    apply safe_ret. rs. split; [|split; reflexivity].
    apply oks_keeps; rs; auto; [|apply HI|split; auto].
    eapply keeps_trans; [exact HK0|]. eapply keeps_trans; [exact HK1|]. eapply keeps_trans; [exact HK2|]. eapply keeps_trans; eauto.
  Qed.

  (** Setting a scalar of the workspace. *)
  Ltac scal_tac HI := apply oks_keeps; rs; auto; [split; [reflexivity|]; destruct (wo_len _ _ (iv_w _ HI)); lens_tac|apply HI|split; auto].

  Definition out_ok (s : solver K) (o : outcome) : Prop :=
    match o with Continue s' _ | Break s' _ | Exit s' _ => oks s s' end.

  Lemma toc_oks s : Inv s -> oks s (snd (toc E s)).
  Proof. intros. split; [apply toc_ok; auto|reflexivity]. Qed.

  Lemma decide_adapt_ok s iter old : Inv s -> oks s (snd (decide_adapt E s iter old)).
  Proof.
    intros HI. unfold decide_adapt. destruct (_ =? _); [apply oks_refl; auto|]. destruct (_ =? _).
    - destruct (_ =? 0); [|apply oks_refl; auto]. pose proof (toc_oks s HI) as HO. destruct (toc E s) as [t s1] eqn:Et. cbn [snd] in HO.
      assert (Est : sv_settings s1 = sv_settings s) by (unfold toc in Et; inversion Et; reflexivity).
      match goal with |- context [snd (if ?b then _ else _)] => destruct b end; cbn [snd]; auto. eapply oks_trans; [exact HO|]. rewrite <- Est. apply oks_interval. apply HO.
    - destruct (_ || _); apply oks_refl; auto.
  Qed.

  Lemma print_ok s : Inv s -> oks s (print_summary s).
  Proof. intros HI. unfold print_summary. scal_tac HI. Qed.

  Lemma admm_pass_safe s iter f : Inv s -> safe (admm_pass E s iter f) (out_ok s).
  Proof.
    intros HI. destruct f as [[cc cp] ca]. unfold admm_pass.
    eapply safe_bind; [apply admm_step_safe; auto|]. intros s1 (HO1 & _ & _). pose proof (proj1 (proj1 HO1)) as HI1.
    unfold is_interrupted. rs. set (s2 := set_sv_world _ s1).
    assert (HO2 : oks s s2). { eapply oks_trans; [exact HO1|]. subst s2. apply oks_keeps; rs; auto; [apply keeps_refl; apply HI1|apply HI1|split; auto]. }
    clearbody s2. clear HO1 HI1. pose proof (proj1 (proj1 HO2)) as HI2.
    destruct (env_int E _).
    { eapply safe_bind; [apply (status_safe _ OSQP_SIGINT); unfold OSQP_SIGINT; lia|]. intros i [Hi _]. apply safe_ret. cbn [out_ok].
      eapply oks_trans; [exact HO2|]. apply oks_keeps; rs; auto; [apply keeps_refl; apply HI2|split; auto]. }
    destruct (temp_run_time E s2) as [run s3] eqn:Et.
    assert (HO3 : oks s s3).
    { eapply oks_trans; [exact HO2|]. unfold temp_run_time in Et. pose proof (toc_oks s2 HI2) as HT. destruct (toc E s2) as [t s4].
      destruct (tr _); inversion Et; subst; auto. }
    clear Et HO2 HI2. pose proof (proj1 (proj1 HO3)) as HI3.
    destruct (_ && _).
    { eapply safe_bind; [apply (status_safe _ OSQP_TIME_LIMIT_REACHED); unfold OSQP_TIME_LIMIT_REACHED; lia|]. intros i [Hi _]. apply safe_ret. cbn [out_ok].
      eapply oks_trans; [exact HO3|]. apply oks_keeps; rs; auto; [apply keeps_refl; apply HI3|split; auto]. }
    pose proof (decide_adapt_ok s3 iter ca HI3) as HO4. destruct (decide_adapt E s3 iter ca) as [ca4 s4]. cbn [snd] in HO4.
    pose proof (oks_trans _ _ _ HO3 HO4) as HO5. pose proof (proj1 (proj1 HO5)) as HI4.
    eapply safe_bind with (P := oks s).
    { destruct (_ || (iter =? 1)); [|apply safe_ret; auto]. eapply safe_weaken; [apply update_info_safe; auto|].
      intros s5 (HO & _ & _ & Es). eapply oks_trans; [exact HO5|]. split; auto. }
    intros s5 HO6. pose proof (proj1 (proj1 HO6)) as HI5.
    eapply safe_bind with (P := fun r => oks s (snd r)).
    { destruct (_ && _); [|apply safe_ret; auto]. eapply safe_weaken; [apply check_termination_safe; auto|].
      intros [b s6] (HO & _ & Es). cbn [snd] in *. eapply oks_trans; [exact HO6|]. split; auto. }
    intros [stop s6] HO7. cbn [snd] in HO7. pose proof (proj1 (proj1 HO7)) as HI6.
    destruct stop; [apply safe_ret; auto|].
    set (s7 := set_sv_work _ s6).
    assert (HO8 : oks s s7). { eapply oks_trans; [exact HO7|]. subst s7. scal_tac HI6. }
    clearbody s7. pose proof (proj1 (proj1 HO8)) as HI7.
    eapply safe_bind with (P := fun r => oks s (snd r)).
    { match goal with |- safe (if ?b then _ else _) _ => destruct b end; [|apply safe_ret; auto].
      eapply safe_weaken; [apply adapt_rho_safe; auto|]. intros [fl s8] HO. cbn [snd] in *. eapply oks_trans; [exact HO8|]. exact HO. }
    intros [fl s8] HO9. cbn [snd] in HO9. pose proof (proj1 (proj1 HO9)) as HI8.
    destruct (tr fl); [apply safe_ret; auto|]. apply safe_ret. cbn [out_ok].
    set (s9 := if tr (w_rho_updated (sv_work s8)) then _ else s8).
    assert (HO10 : oks s s9). { subst s9. destruct (tr _); auto. eapply oks_trans; [exact HO9|]. scal_tac HI8. }
    destruct (_ || _); auto. eapply oks_trans; [exact HO10|]. apply print_ok. apply HO10.
  Qed.

  Lemma admm_loop_safe k : forall iter f s, Inv s -> safe (admm_loop E k iter f s) (fun r => out_ok s (fst r)).
  Proof.
    induction k as [|k IH]; intros iter f s HI; cbn [admm_loop].
    - apply safe_ret. cbn [fst out_ok]. apply oks_refl; auto.
    - eapply safe_bind; [apply admm_pass_safe; auto|]. intros o HO. destruct o as [s1 f1|s1 f1|s1 fl]; cbn [out_ok] in HO; try (apply safe_ret; exact HO).
      eapply safe_weaken; [apply IH; apply HO|]. intros [o i] HO'. cbn [fst] in *. destruct o; cbn [out_ok] in *; eapply oks_trans; eauto.
  Qed.

  Lemma final_check_safe s iter f : Inv s -> safe (final_check E s iter f) (oks s).
  Proof.
    intros HI. destruct f as [[cc cp] ca]. unfold final_check. destruct cc; [apply safe_ret, oks_refl; auto|].
    eapply safe_bind with (P := oks s).
    { destruct cp; [apply safe_ret, oks_refl; auto|]. eapply safe_weaken; [apply update_info_safe; auto|]. intros s1 (HO & _ & _ & Es). split; auto. }
    intros s1 HO1. set (s2 := if _ && _ then _ else s1).
    assert (HO2 : oks s s2). { subst s2. destruct (_ && _); auto. eapply oks_trans; [exact HO1|]. apply print_ok. apply HO1. }
    clearbody s2. eapply safe_bind; [apply check_termination_safe; apply HO2|]. intros [b s3] (HO & _ & Es). cbn [snd] in *.
    apply safe_ret. eapply oks_trans; [exact HO2|]. split; auto.
  Qed.

  Lemma final_objective_safe s : Inv s -> safe (final_objective s) (oks s).
  Proof.
    intros HI. unfold final_objective. destruct (has_solution _); [|apply safe_ret, oks_refl; auto].
    pose proof (wo_len _ _ (iv_w _ HI)) as []. eapply safe_bind; [apply obj_safe; [apply HI|auto|auto]|].
    intros [[[p dv] g] w] HK. cbn [snd] in HK. apply safe_ret. apply oks_keeps; rs; auto; [apply HI|split; auto].
  Qed.

  Lemma stat_oks s v : Inv s -> 1 <= v <= 11 -> safe (update_status (sv_info s) v) (fun i => oks s (set_sv_info i s)).
  Proof.
    intros HI Hv. eapply safe_weaken; [apply status_safe; auto|]. intros i [Hi _]. apply oks_keeps; rs; auto; [apply keeps_refl; apply HI|split; auto].
  Qed.

  Lemma check_or_safe s v : Inv s -> 1 <= v <= 11 ->
    safe (match check_termination s true with
          | Some r => if fst r then Some (snd r) else
              match update_status (sv_info (snd r)) v with Some i => Some (set_sv_info i (snd r)) | None => None end
          | None => None end) (oks s).
  Proof.
    intros HI Hv. eapply safe_bind; [apply check_termination_safe; auto|]. intros [b s1] (HO & _ & Es). cbn [fst snd] in *.
    assert (HO1 : oks s s1) by (split; auto). destruct b; [apply safe_ret; auto|].
    eapply safe_bind; [apply stat_oks; [apply HO|exact Hv]|]. intros i HO2. apply safe_ret. eapply oks_trans; eauto.
  Qed.

  Lemma final_status_safe s : Inv s -> safe (final_status s) (oks s).
  Proof.
    intros HI. unfold final_status. eapply safe_bind with (P := oks s).
    { destruct (_ =? _); [|apply safe_ret, oks_refl; auto]. apply check_or_safe; auto. unfold OSQP_MAX_ITER_REACHED; lia. }
    intros s1 HO1. destruct (_ =? _); [|apply safe_ret; auto].
    eapply safe_weaken; [apply check_or_safe; [apply HO1|unfold OSQP_TIME_LIMIT_REACHED; lia]|]. intros s2 HO2. eapply oks_trans; eauto.
  Qed.

  (** What osqp_solve may assume about the profiler sections and the signal handler once it has begun. *)
  Definition begun (s s0 : solver K) : Prop :=
    g_sections (sv_world s0) = SEC_OPT_SOLVE :: g_sections (sv_world s) /\ g_oact (sv_world s0) = g_handler (sv_world s).
  (** Sections and handler as before (the saved handler may differ). *)
  Definition restored (s s' : solver K) : Prop :=
    g_sections (sv_world s') = g_sections (sv_world s) /\ g_handler (sv_world s') = g_handler (sv_world s).

  Lemma Inv_world (s : solver K) g : Inv s -> Inv (set_sv_world g s).
  Proof. intros []. constructor; rs; auto. Qed.

  Lemma solve_exit_safe s s0 s1 fl : fr s s0 -> begun s s0 -> fr s0 s1 -> wfr s0 s1 -> Inv s1 ->
    safe (solve_exit s1 fl) (fun r => fst r = fl /\ Inv (snd r) /\ fr s (snd r) /\ restored s (snd r)).
  Proof.
    intros HF (B1 & B2) HF1 (W1 & W2 & W3) HI1. unfold solve_exit, pop_sec, end_interrupt_listener. rs. rewrite W1, B1. apply safe_ret. cbn [fst snd].
    split; auto. split; [apply Inv_world, Inv_world; auto|]. split.
    - eapply fr_trans; [exact HF|]. destruct HF1. constructor; rs; auto.
    - split; rs; auto. congruence.
  Qed.

  Lemma finish_solve_safe s s0 s1 iter f : fr s s0 -> begun s s0 -> ok s0 s1 ->
    safe (finish_solve E s1 iter f) (fun r => Inv (snd r) /\ fr s (snd r) /\ restored s (snd r)).
  Proof.
    intros HF HB (HI1 & HF1 & HW1). unfold finish_solve.
    eapply safe_bind; [apply final_check_safe; auto|]. intros s2 HO2.
    eapply safe_bind; [apply final_objective_safe; apply HO2|]. intros s3 HO3. pose proof (oks_trans _ _ _ HO2 HO3) as HO4.
    set (s4 := if _ && _ then _ else s3).
    assert (HO5 : oks s1 s4). { subst s4. destruct (_ && _); auto. eapply oks_trans; [exact HO4|]. apply print_ok. apply HO4. }
    clearbody s4. eapply safe_bind; [apply final_status_safe; apply HO5|]. intros s5 HO6. pose proof (oks_trans _ _ _ HO5 HO6) as HO7.
    unfold toc. set (s6 := set_sv_info _ (set_sv_world _ _)).
    assert (HO8 : oks s1 s6).
    { eapply oks_trans; [exact HO7|]. subst s6. pose proof (proj1 (proj1 HO7)) as HI5. apply oks_keeps; rs; auto; [apply keeps_refl; apply HI5|apply HI5|split; auto]. }
    clearbody s6. clear HO2 HO3 HO4 HO5 HO6 HO7.
    eapply safe_bind with (P := fun r => oks s1 (snd r)).
    { destruct (_ && _); [|apply safe_ret; auto]. unfold push_sec. set (s7 := set_sv_world _ s6).
      assert (HI7 : Inv s7) by (apply Inv_world; apply HO8).
      eapply safe_bind; [apply polish_safe; auto|]. intros [fl s8] ((HI8 & HF8 & HW8) & _ & Es). cbn [fst snd] in *.
      unfold pop_sec. destruct HW8 as (W1 & W2 & W3). rewrite W1. subst s7. rs. apply safe_ret. cbn [snd].
      eapply oks_trans; [exact HO8|]. split; [|exact Es]. split; [apply Inv_world; auto|]. split.
      - destruct HF8. constructor; rs; auto.
      - split; rs; auto. }
    intros [fl s7] HO9. cbn [snd] in HO9. destruct HO9 as ((HI7 & HF7 & HW7) & Es7).
    destruct (0 <? fl).
    { eapply safe_weaken; [eapply solve_exit_safe with (s0 := s0); eauto; [eapply fr_trans; eauto|eapply wfr_trans; eauto]|]. intros r Hr. apply Hr. }
    set (s8 := finish_times s7).
    assert (HO10 : oks s7 s8).
    { subst s8. unfold finish_times. destruct (tr (w_first_run (sv_work s7))); scal_tac HI7. }
    clearbody s8. destruct HO10 as ((HI8 & HF8 & HW8) & Es8).
    eapply safe_bind; [apply store_solution_safe; [exact HI8|apply HI8]|]. intros [s9 so] ((HI9 & HF9 & HW9) & Es9 & Ei9 & _ & Hso). cbn [fst snd] in *.
    eapply safe_weaken; [eapply solve_exit_safe with (s0 := s0); eauto|].
    - eapply fr_trans; [exact HF1|]. eapply fr_trans; [exact HF7|]. eapply fr_trans; [exact HF8|]. destruct HF9. constructor; rs; auto.
    - eapply wfr_trans; [exact HW1|]. eapply wfr_trans; [exact HW7|]. eapply wfr_trans; [exact HW8|]. destruct HW9 as (W1 & W2 & W3). split; rs; auto.
    - destruct HI9. constructor; rs; auto. destruct HF9 as [Fn Fm _ _ _ _ _]. rewrite Fn, Fm. auto.
    - intros r Hr. apply Hr.
  Qed.

  Lemma begin_solve_safe s : Inv s -> safe (begin_solve s) (fun s0 => Inv s0 /\ fr s s0 /\ begun s s0).
  Proof.
    intros HI. pose proof (wo_len _ _ (iv_w _ HI)) as HL. unfold begin_solve. cbv zeta.
    set (s1 := if _ =? 1 then _ else s).
    assert (E1 : sv_settings s1 = sv_settings s /\ sv_work s1 = sv_work s /\ sv_solution s1 = sv_solution s /\ sv_world s1 = sv_world s /\ stat_ok (sv_info s1)).
    { subst s1. destruct (_ =? 1); rs; repeat (split; auto); apply HI. }
    destruct E1 as (E1 & E2 & E3 & E4 & E5). clearbody s1.
    set (s2 := start_interrupt_listener _).
    assert (H2 : Inv s2 /\ fr s s2 /\ begun s s2 /\ sv_settings s2 = sv_settings s).
    { subst s2. unfold start_interrupt_listener, push_sec. rs. split; [|split; [|split]].
      - constructor; rs; rewrite ?E1, ?E3; auto; [|apply HI|apply HI].
        eapply wok_keeps; [apply HI|]. split; [reflexivity|]. destruct HL. lens_tac.
      - constructor; rs; rewrite ?E1; auto using same_pat_refl.
      - split; rs; rewrite E4; auto.
      - auto. }
    destruct H2 as (HI2 & HF2 & HB2 & Es2). clearbody s2. destruct (tr (st_warm_starting (sv_settings s2))); [apply safe_ret; auto|].
    eapply safe_bind; [apply cold_start_safe with (st := sv_settings s2); apply HI2|]. intros w HK. apply safe_ret.
    assert (HO : ok s2 (set_sv_work w s2)). { apply ok_keeps; rs; auto; [apply HI2|split; auto]. }
    destruct HO as (HI3 & HF3 & HW3). split; auto. split; [eapply fr_trans; eauto|]. exact HB2.
  Qed.

  Theorem solve_safe s : Inv s -> safe (solve E s) (fun r => Inv (snd r) /\ fr s (snd r) /\ restored s (snd r)).
  Proof.
    intros HI. unfold solve. eapply safe_bind; [apply begin_solve_safe; auto|]. intros s0 (HI0 & HF0 & HB0).
    eapply safe_bind; [apply admm_loop_safe; auto|]. intros [o iter] HO. cbn [fst] in HO.
    destruct o as [s1 f1|s1 f1|s1 fl]; cbn [out_ok] in HO; destruct HO as [HO _].
    - apply finish_solve_safe with (s0 := s0); auto.
    - apply finish_solve_safe with (s0 := s0); auto.
    - destruct HO as (HI1 & HF1 & HW1). eapply safe_weaken; [apply solve_exit_safe with (s0 := s0); eauto|]. intros r Hr. apply Hr.
  Qed.
End SolveInv.
