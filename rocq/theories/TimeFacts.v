(** The clock: what osqp_solve and the update calls do to the reported times and to the adaptation interval. *)
From Coq Require Import ZArith List Bool Lia String.
From Verif Require Import Num Arr ArrFacts Csc Vec Types Linsys Scaling Validate Auxil Polish Api Inv InvApi RecSimp Frame FrameSolve FrameUpd History SolveEnd.
Import ListNotations.
Open Scope Z_scope.

Section TimeFacts.
  Context {K : NumOps}.
  Variable E : Env K.

  Definition tinfo (i : info K) := (i_setup_time i, i_update_time i, i_polish_time i).
  Definition wflag (w : work K) := (w_first_run w, w_clear_update_time w, w_rho_update_from_solve w).

  (** The adaptation interval changes only from 0 to 1, and only with time based adaptation. *)
  Definition irule (st st' : settings K) : Prop :=
    st_adaptive_rho st' = st_adaptive_rho st /\ st_check_termination st' = st_check_termination st /\
    (st_adaptive_rho_interval st' = st_adaptive_rho_interval st \/
     st_adaptive_rho st = ADAPTIVE_RHO_TIME /\ st_adaptive_rho_interval st = 0 /\ st_adaptive_rho_interval st' = 1).
  Lemma irule_refl st : irule st st. Proof. repeat split; auto. Qed.
  Lemma irule_trans a b c : irule a b -> irule b c -> irule a c.
  Proof. intros (A1 & A2 & A3) (B1 & B2 & B3). split; [congruence|]. split; [congruence|]. rewrite A1 in B3. intuition congruence. Qed.

  Record tfr (s s' : solver K) : Prop := {
    tf_i : tinfo (sv_info s') = tinfo (sv_info s);
    tf_w : wflag (sv_work s') = wflag (sv_work s);
    tf_st : irule (sv_settings s) (sv_settings s') }.
  Lemma tfr_refl s : tfr s s. Proof. constructor; auto using irule_refl. Qed.
  Lemma tfr_trans a b c : tfr a b -> tfr b c -> tfr a c.
  Proof. intros [] []. constructor; try congruence; eauto using irule_trans. Qed.
  Lemma tfr_eq (s s' : solver K) : tinfo (sv_info s') = tinfo (sv_info s) -> wflag (sv_work s') = wflag (sv_work s) -> sv_settings s' = sv_settings s -> tfr s s'.
  Proof. intros H1 H2 H3. constructor; auto. rewrite H3. apply irule_refl. Qed.
  Lemma fixed_wflag (w w' : work K) : fixed w' = fixed w -> wflag w' = wflag w.
  Proof. unfold fixed. intros H. inversion H. unfold wflag. congruence. Qed.
  Lemma ifix_tinfo (i i' : info K) : ifix i' = ifix i -> i_polish_time i' = i_polish_time i -> tinfo i' = tinfo i.
  Proof. unfold ifix, tinfo. intros H1 H2. inversion H1. congruence. Qed.

  (** Within a solve update_rho leaves the times alone. *)
  Lemma update_rho_tfr (s : solver K) rho : w_rho_update_from_solve (sv_work s) = 1 -> post (update_rho E s rho) (fun r => tfr s (snd r)).
  Proof.
    intros HR. unfold update_rho. destruct (nleb _ _); [apply post_ret, tfr_refl|]. rewrite HR. cbn [Z.eqb andb]. cbv zeta. rs.
    eapply post_bindP with (P := fun w => wflag w = wflag (sv_work s)).
    { destruct (tr _); [unfold refresh_rho_vec; walk|apply post_ret]; reflexivity. }
    intros w Hw. walk1. walk1. assert (HR' : w_rho_update_from_solve w = 1) by (unfold wflag in Hw; congruence). rewrite HR'. cbn [Z.eqb].
    apply post_ret. cbn [snd]. constructor; rs; auto. repeat split; auto.
  Qed.

  Lemma adapt_rho_tfr (s : solver K) : w_rho_update_from_solve (sv_work s) = 1 -> post (adapt_rho E s) (fun r => tfr s (snd r)).
  Proof.
    intros HR. unfold adapt_rho. rs. destruct (_ || _).
    - eapply post_bindP; [apply update_rho_tfr; exact HR|]. intros [fl s1] [A1 A2 A3]. cbn [snd] in *. apply post_ret. constructor; cbn [snd]; rs_all; auto.
    - apply post_ret. apply tfr_eq; reflexivity.
  Qed.

  Lemma tfr_admm (s : solver K) : post (admm_step E s) (tfr s).
  Proof. eapply post_weaken; [apply admm_step_post|]. cbv beta. intros s' H. decompose [and] H. apply tfr_eq; auto using fixed_wflag; congruence. Qed.
  Lemma tfr_info (s : solver K) it : post (update_info E s it) (tfr s).
  Proof. eapply post_weaken; [apply update_info_post|]. cbv beta. intros s' H. decompose [and] H. apply tfr_eq; auto using fixed_wflag, ifix_tinfo. Qed.
  Lemma tfr_check (s : solver K) ap : post (check_termination s ap) (fun r => tfr s (snd r)).
  Proof. eapply post_weaken; [apply check_termination_post|]. cbv beta zeta. cbv beta. intros s' H. decompose [and] H. apply tfr_eq; auto using fixed_wflag, ifix_tinfo. Qed.

  Lemma roundmultiple_nonneg x N : 0 <= x -> 0 < N -> 0 <= c_roundmultiple x N.
  Proof. intros Hx HN. unfold c_roundmultiple. apply Z.mul_nonneg_nonneg; [lia|]. apply Z.div_pos; lia. Qed.

  Lemma tfr_decide (s : solver K) it old : 0 <= it -> 0 <= st_check_termination (sv_settings s) -> tfr s (snd (decide_adapt E s it old)).
  Proof.
    intros Hit Hct. unfold decide_adapt, toc. destruct (_ =? ADAPTIVE_RHO_DISABLED); [apply tfr_refl|]. destruct (_ =? ADAPTIVE_RHO_TIME) eqn:Et.
    2:{ destruct (_ || _); apply tfr_refl. }
    destruct (_ =? 0) eqn:E0; [|apply tfr_refl]. match goal with |- context [if ?b then _ else (false, _)] => destruct b end; [|apply tfr_eq; reflexivity]. cbn [snd].
    constructor; [reflexivity..|]. rs. apply Z.eqb_eq in Et, E0. repeat split; rs; auto.
    match goal with |- Z.min 1 ?r = _ \/ _ => assert (Hr : 0 <= r) end.
    { destruct (tr _) eqn:Etr; [|apply Z.le_trans with (1 := Hct), Z.le_max_r]. apply Z.le_trans with (1 := Hct), Z.le_max_r. }
    rewrite E0. lia.
  Qed.

  Lemma tfr_pass (s : solver K) it f : 0 <= it -> 0 <= st_check_termination (sv_settings s) -> w_rho_update_from_solve (sv_work s) = 1 ->
    post (admm_pass E s it f) (fun o => tfr s (outS o)).
  Proof.
    intros Hit Hct Hru. destruct f as [[cc cp] ca]. unfold admm_pass. eapply post_bindP; [apply tfr_admm|]. intros s1 H1.
    unfold is_interrupted. cbv zeta. set (s2 := set_sv_world _ s1). assert (H2 : tfr s s2) by (eapply tfr_trans; [exact H1|apply tfr_eq; auto]). clearbody s2.
    destruct (env_int _ _).
    { eapply post_bindP; [apply update_status_post|]. intros i (msg & _ & ->). apply post_ret. cbn [outS]. eapply tfr_trans; [exact H2|apply tfr_eq; auto]. }
    destruct (temp_run_time_eq E s2) as [t ->]. set (s3 := snd (toc E s2)).
    assert (H3 : tfr s s3) by (eapply tfr_trans; [exact H2|apply tfr_eq; auto]). clearbody s3.
    destruct (_ && _).
    { eapply post_bindP; [apply update_status_post|]. intros i (msg & _ & ->). apply post_ret. cbn [outS]. eapply tfr_trans; [exact H3|apply tfr_eq; auto]. }
    pose proof (tfr_decide s3 it ca Hit) as H4. destruct (decide_adapt E s3 it ca) as [ca4 s4]. cbn [snd] in H4.
    assert (H5 : tfr s s4). { eapply tfr_trans; [exact H3|]. apply H4. destruct H3 as [_ _ (_ & -> & _)]. auto. }
    eapply post_bindP with (P := tfr s).
    { destruct (_ || _); [|apply post_ret; auto]. eapply post_weaken; [apply tfr_info|]. intros s5 H6. eapply tfr_trans; eauto. }
    intros s5 H6. eapply post_bindP with (P := fun r => tfr s (snd r)).
    { destruct (_ && _); [|apply post_ret; auto]. eapply post_weaken; [apply tfr_check|]. intros r H7. eapply tfr_trans; eauto. }
    intros [st s6] H7. cbn [snd] in H7. destruct st; [apply post_ret; auto|].
    set (s7 := set_sv_work _ s6). assert (H8 : tfr s s7) by (eapply tfr_trans; [exact H7|apply tfr_eq; auto]). clearbody s7.
    eapply post_bindP with (P := fun r => tfr s (snd r)).
    { match goal with |- post (if ?b then _ else _) _ => destruct b end; [|apply post_ret; auto].
      eapply post_weaken; [apply adapt_rho_tfr|]. { destruct H8 as [_ X _]. unfold wflag in X. congruence. }
      cbv beta zeta. intros r H9. eapply tfr_trans; [exact H8|apply H9]. }
    intros [fl s8] H9. cbn [snd] in H9. destruct (tr fl); [apply post_ret; auto|]. apply post_ret. cbn [outS].
    set (s9 := if tr (w_rho_updated (sv_work s8)) then _ else s8).
    assert (H10 : tfr s s9). { subst s9. destruct (tr _); auto. eapply tfr_trans; [exact H9|apply tfr_eq; auto]. }
    destruct (_ || _); auto. eapply tfr_trans; [exact H10|apply tfr_eq; auto].
  Qed.

  Lemma tfr_loop k : forall it f (s : solver K), 0 <= it -> 0 <= st_check_termination (sv_settings s) -> w_rho_update_from_solve (sv_work s) = 1 ->
    post (admm_loop E k it f s) (fun o => tfr s (outS (fst o))).
  Proof.
    induction k as [|k IH]; intros it f s Hit Hct Hru; cbn [admm_loop].
    - apply post_ret. apply tfr_refl.
    - eapply post_bindP; [apply tfr_pass; auto|]. intros o Ho. destruct o as [s1 f1|s1 f1|s1 fl]; cbn [outS] in Ho; try (apply post_ret; exact Ho).
      eapply post_weaken; [apply IH; [lia|destruct Ho as [_ _ (_ & -> & _)]; auto|destruct Ho as [_ X _]; unfold wflag in X; congruence]|]. intros r Hr. eapply tfr_trans; eauto.
  Qed.

  Lemma final_check_tfr (s : solver K) it f : post (final_check E s it f) (tfr s).
  Proof.
    destruct f as [[cc cp] ca]. unfold final_check. destruct cc; [apply post_ret, tfr_refl|].
    eapply post_bindP with (P := tfr s).
    { destruct cp; [apply post_ret, tfr_refl|apply tfr_info]. }
    intros s1 H1. set (s2 := if _ && _ then _ else s1). assert (H2 : tfr s s2). { subst s2. destruct (_ && _); auto. eapply tfr_trans; [exact H1|apply tfr_eq; auto]. }
    clearbody s2. eapply post_bindP; [apply tfr_check|]. intros r Hr. apply post_ret. eapply tfr_trans; eauto.
  Qed.
  Lemma final_objective_tfr (s : solver K) : post (final_objective s) (tfr s).
  Proof.
    unfold final_objective. destruct (has_solution _); [|apply post_ret, tfr_refl]. eapply post_bindP; [apply obj_post|].
    intros [[[p dv] g] w] (A1 & _). cbn [snd] in *. apply post_ret. apply tfr_eq; rs; auto using fixed_wflag.
  Qed.
  Lemma final_status_tfr (s : solver K) : post (final_status s) (tfr s).
  Proof.
    unfold final_status. eapply post_bindP with (P := tfr s).
    { destruct (_ =? _); [|apply post_ret, tfr_refl]. eapply post_bindP; [apply tfr_check|]. intros r Hr. destruct (fst r); [apply post_ret; auto|].
      eapply post_bindP; [apply update_status_post|]. intros i (msg & _ & ->). apply post_ret. eapply tfr_trans; [exact Hr|apply tfr_eq; auto]. }
    intros s1 H1. destruct (_ =? _); [|apply post_ret; auto]. eapply post_bindP; [apply tfr_check|]. intros r Hr. destruct (fst r); [apply post_ret; eapply tfr_trans; eauto|].
    eapply post_bindP; [apply update_status_post|]. intros i (msg & _ & ->). apply post_ret. eapply tfr_trans; [exact H1|]. eapply tfr_trans; [exact Hr|apply tfr_eq; auto].
  Qed.

  (** What polishing does to the times. *)
  Lemma polish_times (s : solver K) : post (polish E s) (fun r => let s' := snd r in
    i_solve_time (sv_info s') = i_solve_time (sv_info s) /\ (i_polish_time (sv_info s') = i_polish_time (sv_info s) \/ exists k, i_polish_time (sv_info s') = env_clock E k)).
  Proof.
    unfold polish. walk1. walk1. rs. destruct (_ =? 0).
    { apply post_ret. cbn [snd]. rs. auto. }
    walk1. walk1. destruct o as [plsh|].
    2:{ apply post_ret. cbn [snd]. rs. auto. }
    do 11 (apply post_bind; intros ? ?).
    eapply post_bindP with (P := fun s' => i_solve_time (sv_info s') = i_solve_time (sv_info s) /\ exists k, i_polish_time (sv_info s') = env_clock E k).
    { unfold update_info_polish, toc. rs. apply post_bind. intros [[[[[? ?] ?] ?] ?] ?] _. apply post_ret. rs. eauto. }
    intros s1 (P1 & P2). destruct (polish_successful _ _).
    - do 3 walk1. apply post_ret. cbn [snd]. rs. auto.
    - apply post_ret. cbn [snd]. rs. auto.
  Qed.

  Definition first_part (w : work K) (i : info K) : K := if tr (w_first_run w) then i_setup_time i else i_update_time i.

  (** The times after the last part of a solve that ran to the end. *)
  Record timed (t s' : solver K) : Prop := {
    td_run : i_run_time (sv_info s') = nadd (nadd (first_part (sv_work t) (sv_info t)) (i_solve_time (sv_info s'))) (i_polish_time (sv_info s'));
    td_setup : i_setup_time (sv_info s') = i_setup_time (sv_info t);
    td_upd : i_update_time (sv_info s') = i_update_time (sv_info t);
    td_solve : exists k, i_solve_time (sv_info s') = env_clock E k;
    td_pol : i_polish_time (sv_info s') = i_polish_time (sv_info t) \/
      tr (st_polishing (sv_settings t)) = true /\ i_status_val (sv_info s') = OSQP_SOLVED /\ exists k, i_polish_time (sv_info s') = env_clock E k;
    td_flags : wflag (sv_work s') = (0, 1, 0);
    td_int : irule (sv_settings t) (sv_settings s') }.

  Lemma solve_exit_all (s : solver K) fl : post (solve_exit s fl) (fun r => fst r = fl /\ sv_work (snd r) = sv_work s /\ sv_info (snd r) = sv_info s /\ sv_settings (snd r) = sv_settings s).
  Proof. unfold solve_exit, pop_sec, end_interrupt_listener. rs. destruct (g_sections _); walk. cbn [snd]. auto. Qed.

  Lemma same_st_polishing st st' : @same_st K st st' -> st_polishing st' = st_polishing st.
  Proof. intros (r & t & ->). destruct st; reflexivity. Qed.

  Lemma finish_times_all (s : solver K) : let s' := finish_times s in
    i_run_time (sv_info s') = nadd (nadd (first_part (sv_work s) (sv_info s)) (i_solve_time (sv_info s))) (i_polish_time (sv_info s)) /\
    tinfo (sv_info s') = tinfo (sv_info s) /\ i_solve_time (sv_info s') = i_solve_time (sv_info s) /\ i_status_val (sv_info s') = i_status_val (sv_info s) /\
    wflag (sv_work s') = (0, 1, 0) /\ sv_settings s' = sv_settings s.
  Proof.
    cbv zeta. unfold finish_times, first_part, tinfo, wflag. destruct (tr (w_first_run (sv_work s))) eqn:Et; rs; repeat split; auto.
    unfold tr in Et. apply negb_false_iff, Z.eqb_eq in Et. rewrite Et. reflexivity.
  Qed.

  Lemma finish_timed (t : solver K) it f :
    post (finish_solve E t it f) (fun r => irule (sv_settings t) (sv_settings (snd r)) /\ (fst r <= 0 -> timed t (snd r))).
  Proof.
    unfold finish_solve. eapply post_bindP; [apply post_and; [apply final_check_tfr|apply final_check_sfr]|]. intros s1 [H1 G1].
    eapply post_bindP; [apply post_and; [apply final_objective_tfr|apply final_objective_sfr]|]. intros s2 [H2 G2]. pose proof (tfr_trans _ _ _ H1 H2) as H3. pose proof (sfr_trans _ _ _ G1 G2) as G3.
    set (s3 := if _ && _ then _ else s2).
    assert (H4 : tfr t s3). { subst s3. destruct (_ && _); auto. eapply tfr_trans; [exact H3|apply tfr_eq; auto]. }
    assert (G4 : sfr t s3). { subst s3. destruct (_ && _); auto. eapply sfr_trans; [exact G3|apply sfr_fixed; auto]. }
    clearbody s3. eapply post_bindP; [apply post_and; [apply final_status_tfr|apply final_status_sfr]|]. intros s4 [H5 G5]. pose proof (tfr_trans _ _ _ H4 H5) as H6. pose proof (sfr_trans _ _ _ G4 G5) as G6. unfold toc.
    set (s5 := set_sv_info _ (set_sv_world _ _)). assert (H7 : tfr t s5) by (eapply tfr_trans; [exact H6|apply tfr_eq; auto]).
    assert (G7 : sfr t s5) by (eapply sfr_trans; [exact G6|apply sfr_fixed; auto]).
    assert (S5 : exists k, i_solve_time (sv_info s5) = env_clock E k) by (subst s5; rs; eauto). clearbody s5.
    eapply post_bindP with (P := fun r => let s6 := snd r in i_setup_time (sv_info s6) = i_setup_time (sv_info t) /\ i_update_time (sv_info s6) = i_update_time (sv_info t) /\
      (exists k, i_solve_time (sv_info s6) = env_clock E k) /\ wflag (sv_work s6) = wflag (sv_work t) /\ irule (sv_settings t) (sv_settings s6) /\
      (i_polish_time (sv_info s6) = i_polish_time (sv_info t) \/
        tr (st_polishing (sv_settings t)) = true /\ i_status_val (sv_info s6) = OSQP_SOLVED /\ exists k, i_polish_time (sv_info s6) = env_clock E k)).
    { assert (HT : forall i i', tinfo i = tinfo i' -> i_setup_time i = i_setup_time i' /\ i_update_time i = i_update_time i' /\ i_polish_time i = i_polish_time i') by (unfold tinfo; intros i i' X; inversion X; auto).
      destruct H7 as [X1 X2 X3]. destruct (HT _ _ X1) as (Y1 & Y2 & Y3).
      match goal with |- post (if ?b then _ else _) _ => destruct b eqn:EB end; [|apply post_ret; cbn [snd]; auto 10]. apply andb_true_iff in EB as [EB1 EB2]. apply Z.eqb_eq in EB2.
      eapply post_bindP; [apply post_and; [apply polish_post|apply polish_times]|]. intros [fl s6] [H8 H9]. cbv zeta in H8, H9. cbn [fst snd] in H8, H9.
      destruct H8 as (A1 & _ & A2 & _ & A3 & A4 & _). unfold push_sec in *. rs_in A1. rs_in A2. rs_in A3. rs_in A4. rs_in H9.
      unfold pop_sec. cbn [snd]. destruct (g_sections _); [apply post_none|]. cbn. apply post_ret. cbn [snd]. rs.
      unfold ifix in A3. inversion A3 as [[Z1 Z2 Z3 Z4 Z5]]. destruct H9 as [W1 W2].
      split; [congruence|]. split; [congruence|]. split; [rewrite W1; exact S5|]. split; [rewrite <- X2; apply fixed_wflag; exact A2|]. split; [rewrite A1; exact X3|].
      destruct W2 as [W2|W2]; [left; congruence|right]. split; [|split; [congruence|exact W2]]. rewrite <- (same_st_polishing _ _ (sf_st _ _ G7)). exact EB1. }
    intros [fl s6] (A1 & A2 & A3 & A4 & A5 & A6). cbn [snd] in *. destruct (0 <? fl) eqn:Ef.
    { apply Z.ltb_lt in Ef. eapply post_weaken; [apply solve_exit_all|]. intros r (-> & D2 & _ & D4). rewrite D4. split; [exact A5|]. lia. }
    pose proof (finish_times_all s6) as HF. cbv zeta in HF. set (s7 := finish_times s6) in *. clearbody s7. destruct HF as (B1 & B2 & B3 & B4 & B5 & B6).
    eapply post_bindP; [apply store_solution_post|]. cbv zeta. intros r (C1 & C2 & C3 & C4 & C5 & _).
    eapply post_weaken; [apply solve_exit_all|]. intros r' (D1 & D2 & D3 & D4). rs_in D2. rs_in D3. rs_in D4.
    assert (HT : forall i i', tinfo i = tinfo i' -> i_setup_time i = i_setup_time i' /\ i_update_time i = i_update_time i' /\ i_polish_time i = i_polish_time i') by (unfold tinfo; intros i i' X; inversion X; auto).
    destruct (HT _ _ B2) as (Y1 & Y2 & Y3). unfold wflag in A4. inversion A4 as [[Z1 Z2 Z3]].
    assert (DF : wflag (sv_work (snd r')) = (0, 1, 0)). { rewrite D2, (fixed_wflag _ _ C5). exact B5. }
    split; [rewrite D4, C1, B6; exact A5|]. intros _.
    constructor; rewrite ?D2, ?D3, ?D4, ?C1, ?C2, ?B3, ?B4, ?B6, ?Y1, ?Y2, ?Y3; auto.
    - rewrite B1. unfold first_part. rewrite Z1, A1, A2. reflexivity.
    - rewrite <- D2. exact DF.
  Qed.

  Lemma begin_times (s : solver K) : post (begin_solve s) (fun t => wflag (sv_work t) = (w_first_run (sv_work s), w_clear_update_time (sv_work s), 1) /\ sv_settings t = sv_settings s /\
    i_setup_time (sv_info t) = i_setup_time (sv_info s) /\ i_polish_time (sv_info t) = i_polish_time (sv_info s) /\
    i_update_time (sv_info t) = (if w_clear_update_time (sv_work s) =? 1 then n0 else i_update_time (sv_info s))).
  Proof.
    unfold begin_solve. set (s1 := if _ =? 1 then _ else s).
    assert (H1 : sv_settings s1 = sv_settings s /\ sv_work s1 = sv_work s /\ i_setup_time (sv_info s1) = i_setup_time (sv_info s) /\ i_polish_time (sv_info s1) = i_polish_time (sv_info s) /\
      i_update_time (sv_info s1) = (if w_clear_update_time (sv_work s) =? 1 then n0 else i_update_time (sv_info s))) by (subst s1; destruct (_ =? 1); auto).
    destruct H1 as (A1 & A2 & A3 & A4 & A5). clearbody s1.
    cbv zeta. destruct (tr _).
    - apply post_ret. unfold start_interrupt_listener, push_sec, wflag. rs. auto 10.
    - eapply post_bindP; [apply cold_start_post|]. intros w ->. apply post_ret. unfold start_interrupt_listener, push_sec, wflag. rs. auto 10.
  Qed.

  Lemma loop_exit k : forall it f (s : solver K), post (admm_loop E k it f s) (fun o => forall s1 fl, fst o = Exit s1 fl -> fl = 1).
  Proof.
    induction k as [|k IH]; intros it f s; cbn [admm_loop]; [apply post_ret; discriminate|].
    eapply post_bindP with (P := fun o => forall s1 fl, o = Exit s1 fl -> fl = 1).
    { destruct f as [[cc cp] ca]. unfold admm_pass. apply post_bind. intros s1 _. unfold is_interrupted. cbv zeta. destruct (env_int _ _).
      { apply post_bind. intros i _. apply post_ret. intros ? ? H. inversion H. auto. }
      destruct (temp_run_time _ _). destruct (_ && _).
      { apply post_bind. intros i _. apply post_ret. discriminate. }
      destruct (decide_adapt _ _ _ _). apply post_bind. intros s5 _. apply post_bind. intros [st s6] _. destruct st; [apply post_ret; discriminate|].
      apply post_bind. intros [fl s8] _. destruct (tr fl); apply post_ret; intros ? ? H; inversion H; auto. }
    intros o Ho. destruct o; [apply IH|apply post_ret; discriminate|apply post_ret; exact Ho].
  Qed.

  (** The whole solve. *)
  Definition first_time (s : solver K) : K :=
    if tr (w_first_run (sv_work s)) then i_setup_time (sv_info s) else if w_clear_update_time (sv_work s) =? 1 then n0 else i_update_time (sv_info s).

  Record solve_times (s s' : solver K) : Prop := {
    so_run : i_run_time (sv_info s') = nadd (nadd (first_time s) (i_solve_time (sv_info s'))) (i_polish_time (sv_info s'));
    so_setup : i_setup_time (sv_info s') = i_setup_time (sv_info s);
    so_upd : i_update_time (sv_info s') = (if w_clear_update_time (sv_work s) =? 1 then n0 else i_update_time (sv_info s));
    so_solve : exists k, i_solve_time (sv_info s') = env_clock E k;
    so_pol : i_polish_time (sv_info s') = i_polish_time (sv_info s) \/
      tr (st_polishing (sv_settings s)) = true /\ i_status_val (sv_info s') = OSQP_SOLVED /\ exists k, i_polish_time (sv_info s') = env_clock E k;
    so_flags : wflag (sv_work s') = (0, 1, 0) }.

  Theorem solve_timed (s : solver K) : 0 <= st_check_termination (sv_settings s) ->
    post (solve E s) (fun r => irule (sv_settings s) (sv_settings (snd r)) /\ (fst r = 0 -> solve_times s (snd r))).
  Proof.
    intros Hct. unfold solve. eapply post_bindP; [apply begin_times|]. intros s0 (A1 & A2 & A3 & A4 & A5). unfold wflag in A1. injection A1 as Z1 Z2 Z3.
    cbv zeta. eapply post_bindP.
    { apply post_and; [apply tfr_loop; [lia|rewrite A2; auto|auto]|apply post_and; [apply sfr_loop|apply loop_exit]]. }
    intros [o it] (Ho & Go & Eo). cbn [fst] in Ho, Go, Eo. destruct Ho as [B1 B2 B3]. rewrite A2 in B3.
    unfold tinfo in B1. injection B1 as Y1 Y2 Y3. unfold wflag in B2. injection B2 as W1 W2 W3.
    assert (HH : forall t, outS o = t -> forall r, irule (sv_settings t) (sv_settings (snd r)) /\ (fst r <= 0 -> timed t (snd r)) ->
      irule (sv_settings s) (sv_settings (snd r)) /\ (fst r = 0 -> solve_times s (snd r))).
    { intros t <- r (C1 & C3). split; [eapply irule_trans; eauto|]. intros Hr. destruct (C3 ltac:(lia)) as [D1 D2 D3 D4 D5 D6 D7].
      constructor; auto; try congruence.
      - rewrite D1. unfold first_part, first_time. rewrite W1, Z1, Y1, Y2, A3, A5. reflexivity.
      - rewrite <- A4, <- Y3, <- A2, <- (same_st_polishing _ _ (sf_st _ _ Go)). exact D5. }
    destruct o as [s2 f2|s2 f2|s2 fl]; cbn [outS] in *.
    1,2: eapply post_weaken; [apply finish_timed|]; intros r Hr; apply (HH s2 eq_refl r Hr).
    eapply post_weaken; [apply solve_exit_all|]. intros r (D1 & D2 & D3 & D4). rewrite D4. split; [exact B3|]. rewrite D1, (Eo s2 fl eq_refl). lia.
  Qed.

  (** ** The other calls *)
  (** Time spent in updates since the last solve. *)
  Definition spent (s : solver K) : K := if w_clear_update_time (sv_work s) =? 1 then n0 else i_update_time (sv_info s).
  Definition rest (s : solver K) := (w_first_run (sv_work s), w_rho_update_from_solve (sv_work s), i_setup_time (sv_info s)).
  Lemma begin_update_spent (s : solver K) : spent (begin_update s) = spent s /\ rest (begin_update s) = rest s /\ i_update_time (sv_info (begin_update s)) = spent s /\
    w_clear_update_time (sv_work (begin_update s)) <> 1.
  Proof. unfold begin_update, spent, rest. destruct (w_clear_update_time (sv_work s) =? 1) eqn:E1; rs; [cbn [Z.eqb]; split; [auto|split; [auto|split; [auto|apply Z.eqb_neq; reflexivity]]]|rewrite E1; repeat split; auto; apply Z.eqb_neq; auto]. Qed.

  (** An update that was carried out. *)
  Record updated (s s' : solver K) : Prop := {
    ud_time : exists k, spent s' = nadd (spent s) (env_clock E k);
    ud_rest : rest s' = rest s }.
  (** osqp_update_data_vec and osqp_update_data_mat also reset the rest of the information. *)
  Record renewed (s s' : solver K) : Prop := {
    rn_upd : updated s s';
    rn_status : i_status_val (sv_info s') = OSQP_UNSOLVED;
    rn_text : i_status (sv_info s') = "unsolved"%string;
    rn_solve : i_solve_time (sv_info s') = n0;
    rn_polish : i_polish_time (sv_info s') = n0;
    rn_rho : i_rho_updates (sv_info s') = 0 }.
  Definition idle (s s' : solver K) : Prop := spent s' = spent s /\ rest s' = rest s.

  Lemma end_update_renewed (s s0 : solver K) : i_update_time (sv_info s0) = spent s -> w_clear_update_time (sv_work s0) <> 1 -> rest s0 = rest s ->
    post (end_update E s0) (renewed s).
  Proof.
    intros H1 H2 H3. unfold end_update, reset_info, update_status, toc. cbn [zget OSQP_STATUS_MESSAGE]. apply Z.eqb_neq in H2.
    apply post_bind. intros i Ei. apply post_ret. destruct (zget OSQP_STATUS_MESSAGE OSQP_UNSOLVED) as [msg|] eqn:Em; [|discriminate]. injection Ei as <-. rs.
    constructor; rs; auto; [|vm_compute in Em; congruence]. constructor.
    - unfold spent at 1. rs. rewrite H2, H1. eauto.
    - unfold rest in *. rs. exact H3.
  Qed.

  Lemma scale_pass_wf (w : work K) sc : post (scale_pass w sc) (fun r => wflag (fst r) = wflag w).
  Proof. unfold scale_pass. do 2 walk1. walk1. do 13 walk1. apply post_ret. reflexivity. Qed.
  Lemma scale_data_wf st (w : work K) : post (scale_data st w) (fun w' => wflag w' = wflag w).
  Proof.
    unfold scale_data. walk1. cbv zeta. apply post_bind. intros [w1 s1] HF.
    assert (H1 : wflag w1 = wflag w).
    { revert HF. set (s0 := set_sc_Einv _ _). clearbody s0.
      assert (HG : forall n i w0 s0, for_aux n i (fun _ (r : work K * scaling K) => scale_pass (fst r) (snd r)) (w0, s0) = Some (w1, s1) -> wflag w1 = wflag w0).
      { induction n as [|n IH]; intros i w0 s2 HF; cbn [for_aux] in HF; [injection HF as <- _; reflexivity|].
        destruct (scale_pass _ _) as [[w2 s3]|] eqn:EP; [|discriminate]. cbn [fst snd] in EP. apply scale_pass_wf in EP. cbn [fst] in EP. apply IH in HF. congruence. }
      unfold for_. apply HG. }
    walk. exact H1.
  Qed.
  Lemma unscale_data_wf (w : work K) : post (unscale_data w) (fun w' => wflag w' = wflag w).
  Proof. unfold unscale_data. walk. reflexivity. Qed.

  Theorem update_vec_times (s : solver K) q l u : post (update_data_vec E s q l u) (fun r => if fst r =? OSQP_DATA_VALIDATION_ERROR then renewed s (snd r) \/ idle s (snd r) else renewed s (snd r)).
  Proof.
    unfold update_data_vec. destruct (begin_update_spent s) as (A1 & A2 & A3 & A4). set (s0 := begin_update s) in *. clearbody s0.
    eapply post_bindP with (P := fun r => wflag (sv_work (snd (fst r))) = wflag (sv_work s0) /\ sv_info (snd (fst r)) = sv_info s0 /\ (snd r = true -> fst (fst r) = OSQP_DATA_VALIDATION_ERROR)).
    { assert (HR : forall s1 : solver K, wflag (sv_work s1) = wflag (sv_work s0) -> sv_info s1 = sv_info s0 -> post (if tr (st_rho_is_vec (sv_settings s1)) then match update_rho_vec E s1 with Some r => Some (r, false) | None => None end else Some (0, s1, false))
        (fun r => wflag (sv_work (snd (fst r))) = wflag (sv_work s0) /\ sv_info (snd (fst r)) = sv_info s0 /\ (snd r = true -> fst (fst r) = OSQP_DATA_VALIDATION_ERROR))).
      { intros s1 B1 B2. destruct (tr _); [|apply post_ret; cbn [fst snd]; repeat split; auto; discriminate]. eapply post_bindP; [apply update_rho_vec_post|]. intros [fl s2] (C1 & _ & _ & C4 & _). cbn [snd] in *.
        apply post_ret. cbn [fst snd]. assert (CW : wflag (sv_work s2) = wflag (sv_work s1)) by (unfold ufix in C1; inversion C1; unfold wflag; congruence). split; [congruence|]. split; [congruence|discriminate]. }
      destruct l as [l|], u as [u|]; [| | |apply post_ret; cbn [fst snd]; repeat split; auto; discriminate]; do 3 walk1; (destruct (negb _); [apply post_ret; cbn [fst snd]; repeat split; auto|]); apply HR; reflexivity. }
    intros [[fl s1] failed] (B1 & B2 & B3). cbn [fst snd] in *. unfold wflag in B1. injection B1 as Z1 Z2 Z3.
    assert (C1 : i_update_time (sv_info s1) = spent s) by congruence. assert (C2 : w_clear_update_time (sv_work s1) <> 1) by congruence.
    assert (C3 : rest s1 = rest s) by (rewrite <- A2; unfold rest; congruence).
    destruct failed.
    { apply post_ret. cbn [fst snd]. rewrite (B3 eq_refl). cbn [Z.eqb]. right. split; [|exact C3]. apply Z.eqb_neq in C2. unfold spent at 1. rewrite C2. exact C1. }
    eapply post_bindP with (P := fun s' => i_update_time (sv_info s') = spent s /\ w_clear_update_time (sv_work s') <> 1 /\ rest s' = rest s). { destruct q; walk; auto. }
    intros s2 (D1 & D2 & D3). eapply post_bindP; [apply (end_update_renewed s s2); auto|]. intros s3 H3. apply post_ret. cbn [fst snd]. destruct (_ =? _); auto.
  Qed.

  Theorem update_mat_times (s : solver K) Px Pidx Pn Ax Aidx An : post (update_data_mat E s Px Pidx Pn Ax Aidx An) (fun r => renewed s (snd r) \/ (fst r = 1 \/ fst r = 2) /\ idle s (snd r)).
  Proof.
    unfold update_data_mat. destruct (begin_update_spent s) as (A1 & A2 & A3 & A4). set (s0 := begin_update s) in *. clearbody s0. cbv zeta.
    do 2 walk1. do 4 (match goal with |- post (if ?b then _ else _) _ => destruct b; [apply post_ret; cbn [fst snd]; right; split; [auto|split; auto]|] end).
    eapply post_bindP with (P := fun w => wflag w = wflag (sv_work s0)).
    { match goal with |- post (if ?b then _ else _) _ => destruct b end; [|apply post_ret; auto]. apply unscale_data_wf. }
    intros w1 H1'. eapply post_bindP with (P := fun w => wflag w = wflag (sv_work s0)). { destruct Px; walk; exact H1'. }
    intros w2 H2'. eapply post_bindP with (P := fun w => wflag w = wflag (sv_work s0)). { destruct Ax; walk; exact H2'. }
    intros w3 H3'. eapply post_bindP with (P := fun w => wflag w = wflag (sv_work s0)).
    { match goal with |- post (if ?b then _ else _) _ => destruct b end; [|apply post_ret; auto]. eapply post_weaken; [apply scale_data_wf|]. cbv beta. intros w Hw. congruence. }
    intros w4 H4'. apply post_bind. intros ls _. apply post_bind. intros r _. unfold wflag in H4'. injection H4' as Z1 Z2 Z3.
    eapply post_bindP; [apply (end_update_renewed s); rs; [auto|congruence|unfold rest in *; rs; congruence]|]. intros s5 H5'. apply post_ret. auto.
  Qed.

  Theorem update_rho_times (s : solver K) r : w_rho_update_from_solve (sv_work s) = 0 -> post (update_rho E s r) (fun r => updated s (snd r) /\ i_status_val (sv_info (snd r)) = i_status_val (sv_info s) \/ fst r = 1 /\ snd r = s).
  Proof.
    intros HR. unfold update_rho. destruct (nleb _ _); [apply post_ret; auto|]. rewrite HR. cbn [Z.eqb andb]. cbv zeta.
    destruct (begin_update_spent s) as (A1 & A2 & A3 & A4). change (if w_clear_update_time (sv_work s) =? 1 then _ else s) with (begin_update s).
    assert (SV : i_status_val (sv_info (begin_update s)) = i_status_val (sv_info s)) by (destruct (begin_update_eq s) as (t & c & ->); reflexivity).
    set (s0 := begin_update s) in *. clearbody s0. rs.
    eapply post_bindP with (P := fun w => wflag w = wflag (sv_work s0)).
    { destruct (tr _); [unfold refresh_rho_vec; walk|apply post_ret]; reflexivity. }
    intros w Hw. walk1. walk1. unfold wflag in Hw. injection Hw as Z1 Z2 Z3. rewrite Z3. unfold rest in A2. injection A2 as Y1 Y2 Y3. rewrite Y2, HR. cbn [Z.eqb]. unfold toc. rs.
    apply post_ret. cbn [snd]. left. split; [|exact SV]. apply Z.eqb_neq in A4. constructor.
    - unfold spent at 1. rs. rewrite Z2, A4, A3. eauto.
    - unfold rest. rs. congruence.
  Qed.

  (** The calls that do not concern the clock. *)
  Lemma quiet_times c (s : solver K) fl s' : match c with CWarm _ _ | CCold | CUpdSettings _ | CGetSol _ => True | _ => False end -> run E c s = Some (fl, HSolver s') -> idle s s' /\ sv_info s' = sv_info s.
  Proof.
    assert (IR : idle s s) by (split; reflexivity).
    intros HQ HC. destruct c; try contradiction; cbn [run] in HC.
    - unfold osqp_update_settings in HC. destruct (validate_settings new false); [injection HC as _ <-; auto|]. destruct new as [st|]; [|discriminate].
      destruct (w_linsys (sv_work s)); [|discriminate]. injection HC as _ <-. split; [exact IR|reflexivity].
    - assert (HP : post (warm_start s x y) (fun r => wflag (sv_work (snd r)) = wflag (sv_work s) /\ sv_info (snd r) = sv_info s)).
      { unfold warm_start. cbv zeta. set (s1 := if negb _ then _ else s). assert (H1 : sv_work s1 = sv_work s /\ sv_info s1 = sv_info s) by (subst s1; destruct (negb _); auto). destruct H1 as [H1 H1']. clearbody s1. rewrite <- H1, <- H1'.
        eapply post_bindP with (P := fun w => wflag w = wflag (sv_work s1)). { destruct x; walk; reflexivity. }
        intros w1 Hw1. eapply post_bindP with (P := fun w => wflag w = wflag (sv_work s1)). { destruct y; walk; exact Hw1. }
        intros w2 Hw2. eapply post_bindP with (P := fun w => wflag w = wflag (sv_work s1)). { destruct x; walk; exact Hw2. }
        intros w3 Hw3. walk. auto. }
      unfold osqp_warm_start, on_solver in HC. destruct (warm_start s x y) as [[a b]|]; [|discriminate]. injection HC as _ <-. destruct (HP _ eq_refl) as [B1 B2]. cbn [snd] in *.
      unfold wflag in B1. injection B1 as Z1 Z2 Z3. split; [|exact B2]. unfold idle, spent, rest. rewrite B2, Z1, Z2, Z3. auto.
    - unfold osqp_cold_start in HC. pose proof (cold_start_post (sv_work s)) as HP. destruct (cold_start (sv_work s)) as [w|]; [|discriminate]. injection HC as _ <-. rewrite (HP _ eq_refl). split; [exact IR|reflexivity].
    - unfold osqp_get_solution in HC. destruct sol as [o|]; [|injection HC as _ <-; auto].
      destruct (store_solution s (Some o)) as [[s1 o1]|] eqn:Er; [|discriminate]. injection HC as _ <-. destruct (store_solution_post s (Some o) _ Er) as (_ & B2 & _ & _ & B5 & _). cbn [fst] in *.
      apply fixed_wflag in B5. unfold wflag in B5. injection B5 as Z1 Z2 Z3. split; [|exact B2]. unfold idle, spent, rest. rewrite B2, Z1, Z2, Z3. auto.
  Qed.
End TimeFacts.
