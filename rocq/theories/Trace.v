(** What osqp_solve leaves in the solver, in terms of its last iteration. *)
From Coq Require Import ZArith List Bool Lia String.
From Verif Require Import Num Arr ArrFacts Csc CscSpec CscFacts CscFacts2 Scatter Vec Types Kkt Linsys Scaling Validate Auxil Polish Api
  VecFacts LinsysFacts LinsysSolve Inv InvStep InvApi InvScale InvPolish InvSolve RecSimp Frame FrameSolve Mid.
Import ListNotations.
Open Scope Z_scope.

Section Trace.
  Context {K : NumOps}.
  Variable E : Env K.

  (** A pass of the loop does not move the iterate after its ADMM step. *)
  Lemma pass_iter3 (t : solver K) k f : post (admm_pass E t k f) (fun o => exists t1, admm_step E t = Some t1 /\ iter3 (sv_work (outS o)) = iter3 (sv_work t1) /\
    i_status_polish (sv_info (outS o)) = i_status_polish (sv_info t)).
  Proof.
    destruct f as [[cc cp] ca]. unfold admm_pass. destruct (admm_step E t) as [t1|] eqn:ES; [|apply post_none].
    pose proof (admm_step_post E t t1 ES) as HA. cbv beta in HA. destruct HA as (_ & HI & _).
    assert (HP : i_status_polish (sv_info t1) = i_status_polish (sv_info t)) by (rewrite HI; auto).
    set (Q := fun x : solver K => iter3 (sv_work x) = iter3 (sv_work t1) /\ i_status_polish (sv_info x) = i_status_polish (sv_info t)).
    assert (HQ : forall o, Q (outS o) -> exists t2, Some t1 = Some t2 /\ iter3 (sv_work (outS o)) = iter3 (sv_work t2) /\ i_status_polish (sv_info (outS o)) = i_status_polish (sv_info t)) by (intros o [H1 H2]; eauto).
    eapply post_weaken; [|exact HQ]. clear HQ.
    assert (Q1 : Q t1) by (split; auto). clear ES. unfold is_interrupted. cbv zeta. set (s2 := set_sv_world _ t1). assert (Q2 : Q s2) by exact Q1. clearbody s2.
    destruct (env_int _ _).
    { eapply post_bindP; [unfold update_status; apply post_bind; intros ? _; apply post_ret with (Q := fun i => i_status_polish i = i_status_polish (sv_info s2)); reflexivity|].
      intros i Hi. cbv beta in Hi. apply post_ret. destruct Q2 as [A1 A2]. unfold Q; cbn [outS]. split; rs; [auto|congruence]. }
    destruct (temp_run_time_eq E s2) as [tm ->]. set (s3 := snd (toc E s2)).
    assert (Q3 : Q s3) by exact Q2. clearbody s3.
    destruct (_ && _).
    { eapply post_bindP; [unfold update_status; apply post_bind; intros ? _; apply post_ret with (Q := fun i => i_status_polish i = i_status_polish (sv_info s3)); reflexivity|].
      intros i Hi. cbv beta in Hi. apply post_ret. destruct Q3 as [A1 A2]. unfold Q; cbn [outS]. split; rs; [auto|congruence]. }
    destruct (decide_adapt_post E s3 k ca) as (D1 & D2 & _ & _). destruct (decide_adapt E s3 k ca) as [ca4 s4]. cbn [snd] in *.
    assert (Q4 : Q s4) by (destruct Q3; split; rewrite ?D1, ?D2; auto). clear D1 D2.
    eapply post_bindP with (P := Q).
    { destruct (_ || _); [|apply post_ret; auto]. eapply post_weaken; [apply update_info_post|]. cbv beta. intros s5 H. destruct Q4. split; [transitivity (iter3 (sv_work s4)); [apply H|auto]|].
      transitivity (i_status_polish (sv_info s4)); [apply H|auto]. }
    intros s5 Q5. eapply post_bindP with (P := fun r => Q (snd r)).
    { destruct (_ && _); [|apply post_ret; auto]. eapply post_weaken; [apply check_termination_post|]. cbv beta zeta. intros r H. destruct Q5. split; [transitivity (iter3 (sv_work s5)); [apply H|auto]|].
      transitivity (i_status_polish (sv_info s5)); [apply H|auto]. }
    intros [st s6] Q6. cbn [snd] in Q6. destruct st; [apply post_ret; exact Q6|].
    set (s7 := set_sv_work _ s6). assert (Q7 : Q s7) by exact Q6. clearbody s7.
    eapply post_bindP with (P := fun r => Q (snd r)).
    { match goal with |- post (if ?b then _ else _) _ => destruct b end; [|apply post_ret; auto]. unfold adapt_rho. rs.
      match goal with |- post (if ?b then _ else _) _ => destruct b end; [|apply post_ret; destruct Q7; split; rs; auto].
      eapply post_bindP; [apply update_rho_post|]. intros [fl s8] (B1 & B2 & B3 & B4 & B5 & B6 & B7 & B8 & (tt & B9) & _). cbn [snd] in *. apply post_ret. destruct Q7. split; cbn [snd]; rs; [transitivity (iter3 (sv_work s8)); [reflexivity|]; transitivity (iter3 (sv_work s7)); [exact B3|auto]|rewrite B9; rs; auto]. }
    intros [fl s8] Q8. cbn [snd] in Q8. destruct (tr fl); [apply post_ret; exact Q8|]. apply post_ret. cbn [outS].
    set (s9 := if tr (w_rho_updated (sv_work s8)) then _ else s8). assert (Q9 : Q s9) by (subst s9; destruct (tr _); exact Q8). clearbody s9.
    destruct (_ || _); exact Q9.
  Qed.

  (** The polished point was accepted in the solve that ended in s. *)
  Definition polished (s : solver K) : Prop :=
    tr (st_polishing (sv_settings s)) = true /\ i_status_val (sv_info s) = OSQP_SOLVED /\ i_status_polish (sv_info s) = OSQP_POLISH_SUCCESS.

  Lemma final_check_iter3 (s : solver K) it f : post (final_check E s it f) (fun s' => iter3 (sv_work s') = iter3 (sv_work s)).
  Proof.
    destruct f as [[cc cp] ca]. unfold final_check. destruct cc; [apply post_ret; auto|].
    eapply post_bindP with (P := fun s' => iter3 (sv_work s') = iter3 (sv_work s)).
    { destruct cp; [apply post_ret; auto|]. eapply post_weaken; [apply update_info_post|]. cbv beta. intros s5 H. apply H. }
    intros s1 H1. set (s2 := if _ && _ then _ else s1). assert (H2 : iter3 (sv_work s2) = iter3 (sv_work s)). { subst s2. destruct (_ && _); auto. }
    clearbody s2. eapply post_bindP; [apply check_termination_post|]. cbv beta zeta. intros r Hr. apply post_ret. transitivity (iter3 (sv_work s2)); [apply Hr|auto].
  Qed.
  Lemma final_objective_iter3 (s : solver K) : post (final_objective s) (fun s' => iter3 (sv_work s') = iter3 (sv_work s)).
  Proof.
    unfold final_objective. destruct (has_solution _); [|apply post_ret; auto]. eapply post_bindP; [apply obj_post|].
    intros [[[p dv] g] w] H. cbn [snd] in *. apply post_ret. rs. apply H.
  Qed.
  Lemma final_status_iter3 (s : solver K) : post (final_status s) (fun s' => iter3 (sv_work s') = iter3 (sv_work s)).
  Proof.
    unfold final_status. eapply post_bindP with (P := fun s' => iter3 (sv_work s') = iter3 (sv_work s)).
    { destruct (_ =? _); [|apply post_ret; auto]. eapply post_bindP; [apply check_termination_post|]. cbv beta zeta. intros r Hr. destruct (fst r); [apply post_ret; apply Hr|].
      walk1. apply post_ret. rs. apply Hr. }
    intros s1 H1. destruct (_ =? _); [|apply post_ret; auto]. eapply post_bindP; [apply check_termination_post|]. cbv beta zeta. intros r Hr.
    destruct (fst r); [apply post_ret; rewrite <- H1; apply Hr|].
    walk1. apply post_ret. rs. rewrite <- H1. apply Hr.
  Qed.

  Lemma solve_exit_eq (s : solver K) fl : post (solve_exit s fl) (fun r => sv_work (snd r) = sv_work s /\ sv_info (snd r) = sv_info s /\ sv_settings (snd r) = sv_settings s /\ sv_solution (snd r) = sv_solution s /\ fst r = fl).
  Proof. unfold solve_exit, pop_sec, end_interrupt_listener. rs. destruct (g_sections _); walk. cbn [fst snd]. auto. Qed.

  Lemma finish_iter3 (s : solver K) it f : post (finish_solve E s it f) (fun r => let s' := snd r in
    has_solution (sv_info s') = true -> ~ polished s' -> iter3 (sv_work s') = iter3 (sv_work s)).
  Proof.
    unfold finish_solve. eapply post_bindP; [apply final_check_iter3|]. intros s1 H1.
    eapply post_bindP; [apply final_objective_iter3|]. intros s2 H2.
    set (s3 := if _ && _ then _ else s2). assert (H3 : iter3 (sv_work s3) = iter3 (sv_work s)) by (subst s3; destruct (_ && _); [change (iter3 (sv_work s2) = iter3 (sv_work s))|]; congruence). clearbody s3.
    eapply post_bindP; [apply final_status_iter3|]. intros s4 H4. unfold toc.
    set (s5 := set_sv_info _ (set_sv_world _ _)). assert (H5 : iter3 (sv_work s5) = iter3 (sv_work s)) by (transitivity (iter3 (sv_work s4)); [reflexivity|congruence]). clearbody s5.
    eapply post_bindP with (P := fun r => ~ polished (snd r) -> iter3 (sv_work (snd r)) = iter3 (sv_work s)).
    { destruct (tr (st_polishing (sv_settings s5)) && _) eqn:EC; [|apply post_ret; cbn [snd]; auto].
      apply andb_true_iff in EC as [EC1 EC2]. apply Z.eqb_eq in EC2.
      eapply post_bindP; [apply polish_post|]. intros [fl s6] H8. cbv zeta in H8. cbn [fst snd] in H8. destruct H8 as (A1 & _ & _ & _ & _ & A3 & _ & A2).
      unfold pop_sec. cbn [snd]. destruct (g_sections _); [apply post_none|]. cbn. apply post_ret. cbn [snd]. intros HN. rs.
      rewrite <- H5. apply A2. intros EP. apply HN. unfold polished. rs. rewrite A1, A3. unfold push_sec. rs. auto. }
    intros [fl s6] H8. cbn [snd] in H8. destruct (0 <? fl).
    { eapply post_weaken; [apply solve_exit_eq|]. cbv beta zeta. intros r (A1 & A2 & A3 & _) _ HN. rewrite A1. apply H8. unfold polished in *. rewrite A2, A3 in HN. auto. }
    set (s7 := finish_times s6).
    assert (H9 : iter3 (sv_work s7) = iter3 (sv_work s6) /\ (polished s7 <-> polished s6)).
    { subst s7. unfold finish_times, polished. cbv zeta. destruct (tr (w_first_run (sv_work s6))); rs; split; auto; tauto. }
    destruct H9 as [H9 H9']. clearbody s7. eapply post_bindP; [apply store_solution_post|]. cbv zeta. intros r (A1 & A2 & A3 & A4 & A5 & _ & _ & A6).
    eapply post_weaken; [apply solve_exit_eq|]. cbv beta zeta. intros r' (B1 & B2 & B3 & _) HS HN. rewrite B1. rs. unfold polished in HN. rewrite B2, B3 in *. rs_all. rewrite A1, A2 in *.
    rewrite A6 by auto. rewrite H9. apply H8. intros HP. apply HN. apply H9'. auto.
  Qed.

  (** The iterate reported by osqp_solve is the one its last ADMM step computed, unless the solution was polished. *)
  Theorem solve_last (s : solver K) fl s' : 1 <= st_max_iter (sv_settings s) -> solve E s = Some (fl, s') ->
    exists k t t1, 1 <= k <= st_max_iter (sv_settings s) /\ iterate E s k t t1 /\
      (has_solution (sv_info s') = true -> ~ polished s' -> iter3 (sv_work s') = iter3 (sv_work t1)).
  Proof.
    intros HM H. destruct (solve_traced E s fl s' ltac:(lia) H) as [f t HB HF|k f t t' f' HB Hk HP HF|k f t t' HB Hk HP HF].
    - inversion HB as [t0 H0 Ek|k f0 t0 t2 f2 HB0 Hk HP Ek]; [lia|]. subst.
      destruct (pass_iter3 t0 k f0 _ HP) as (t1 & ES & E3 & _). cbn [outS] in E3. exists k, t0, t1. pose proof (before_ge _ _ _ _ _ HB0). split; [lia|]. split; [exists f0; auto|].
      intros HS HN. rewrite <- E3. apply (finish_iter3 _ _ _ _ HF); auto.
    - destruct (pass_iter3 t k f _ HP) as (t1 & ES & E3 & _). cbn [outS] in E3. exists k, t, t1. split; [lia|]. split; [exists f; split; auto; split; [lia|auto]|].
      intros HS HN. rewrite <- E3. apply (finish_iter3 _ _ _ _ HF); auto.
    - destruct (pass_iter3 t k f _ HP) as (t1 & ES & E3 & _). cbn [outS] in E3. exists k, t, t1. split; [lia|]. split; [exists f; split; auto; split; [lia|auto]|].
      intros _ _. destruct (solve_exit_eq _ _ _ HF) as (A1 & _). cbn [snd] in A1. rewrite A1. auto.
  Qed.
End Trace.
