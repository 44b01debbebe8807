(** What osqp_solve leaves unchanged: the problem, the scaling and the settings (rho and its adaptation interval aside). *)
From Coq Require Import ZArith List Bool Lia String.
From Verif Require Import Num Arr ArrFacts Csc Vec Types Linsys Scaling Validate Auxil Polish Api Inv InvApi RecSimp Frame.
Import ListNotations.
Open Scope Z_scope.

Section FrameSolve.
  Context {K : NumOps}.
  Variable E : Env K.

  (** Settings equal except for rho and the adaptation interval. *)
  Definition same_st (st st' : settings K) : Prop :=
    exists r t, st' = set_st_rho r (set_st_adaptive_rho_interval t st).
  Lemma same_st_refl st : same_st st st.
  Proof. exists (st_rho st), (st_adaptive_rho_interval st). destruct st; reflexivity. Qed.
  Lemma same_st_trans a b c : same_st a b -> same_st b c -> same_st a c.
  Proof. intros (r & t & ->) (r' & t' & ->). exists r', t'. destruct a; reflexivity. Qed.

  (** The reciprocal of a scalar rho is that of the setting. *)
  Definition rsync (s : solver K) : Prop :=
    tr (st_rho_is_vec (sv_settings s)) = false -> w_rho_inv (sv_work s) = ndiv n1 (st_rho (sv_settings s)).

  Record sfr (s s' : solver K) : Prop := {
    sf_d : w_data (sv_work s') = w_data (sv_work s);
    sf_sc : w_scaling (sv_work s') = w_scaling (sv_work s);
    sf_ct : w_constr_type (sv_work s') = w_constr_type (sv_work s);
    sf_st : same_st (sv_settings s) (sv_settings s');
    sf_rs : rsync s -> rsync s' }.
  Lemma sfr_refl s : sfr s s. Proof. constructor; auto using same_st_refl. Qed.
  Lemma sfr_trans a b c : sfr a b -> sfr b c -> sfr a c.
  Proof. intros [] []. constructor; try congruence; eauto using same_st_trans. Qed.
  Lemma fixed_core (w w' : work K) : fixed w' = fixed w -> core w' = core w.
  Proof. unfold fixed. intros H. inversion H. unfold core. congruence. Qed.
  Lemma sfr_fixed (s s' : solver K) : core (sv_work s') = core (sv_work s) -> sv_settings s' = sv_settings s -> sfr s s'.
  Proof.
    intros H1 H2. apply core_eq in H1. decompose [and] H1.
    constructor; auto; [rewrite H2; apply same_st_refl|]. unfold rsync. rewrite H2. intros HH Hv. specialize (HH Hv). congruence.
  Qed.

  Lemma update_rho_post (s : solver K) rho : post (update_rho E s rho) (fun r => let s' := snd r in sfr s s' /\
    sv_solution s' = sv_solution s /\ iter3 (sv_work s') = iter3 (sv_work s) /\ deltas (sv_work s') = deltas (sv_work s) /\ w_x_prev (sv_work s') = w_x_prev (sv_work s) /\ w_z_prev (sv_work s') = w_z_prev (sv_work s) /\
    w_pol (sv_work s') = w_pol (sv_work s) /\ prods (sv_work s') = prods (sv_work s) /\
    (exists t, sv_info s' = set_i_update_time t (sv_info s)) /\
    (exists r', sv_settings s' = set_st_rho r' (sv_settings s)) /\
    w_rho_update_from_solve (sv_work s') = w_rho_update_from_solve (sv_work s) /\ w_first_run (sv_work s') = w_first_run (sv_work s)).
  Proof.
    unfold update_rho. destruct (nleb _ _).
    { apply post_ret. cbn [snd]. repeat match goal with |- _ /\ _ => split; [solve [auto using sfr_refl]|] end. split; [exists (i_update_time (sv_info s)); destruct s as [? ? [] ? ?]; reflexivity|].
      split; [exists (st_rho (sv_settings s)); destruct s as [[] ? ? ? ?]; reflexivity|auto]. }
    set (s1 := if _ && _ then _ else s).
    assert (H1 : core (sv_work s1) = core (sv_work s) /\ sv_settings s1 = sv_settings s /\ sv_solution s1 = sv_solution s /\ iter3 (sv_work s1) = iter3 (sv_work s) /\ deltas (sv_work s1) = deltas (sv_work s) /\
      w_x_prev (sv_work s1) = w_x_prev (sv_work s) /\ w_z_prev (sv_work s1) = w_z_prev (sv_work s) /\
      w_pol (sv_work s1) = w_pol (sv_work s) /\ prods (sv_work s1) = prods (sv_work s) /\ (exists t, sv_info s1 = set_i_update_time t (sv_info s)) /\
      w_rho_update_from_solve (sv_work s1) = w_rho_update_from_solve (sv_work s) /\ w_first_run (sv_work s1) = w_first_run (sv_work s)).
    { subst s1. destruct (_ && _); rs; repeat (split; [reflexivity|]); (split; [first [exists n0; reflexivity|exists (i_update_time (sv_info s)); destruct s as [? ? [] ? ?]; reflexivity]|auto]). }
    clearbody s1. destruct H1 as (A1 & A2 & A3 & A4 & A4' & A5 & A6 & A7 & A8 & (t & A9) & A10 & A11). rs.
    apply core_eq in A1 as (B1 & B2 & B3 & B4 & B5 & B6 & B7).
    eapply post_bindP with (P := fun w => w_data w = w_data (sv_work s) /\ w_scaling w = w_scaling (sv_work s) /\ w_constr_type w = w_constr_type (sv_work s) /\
      iter3 w = iter3 (sv_work s) /\ deltas w = deltas (sv_work s) /\ w_x_prev w = w_x_prev (sv_work s) /\ w_z_prev w = w_z_prev (sv_work s) /\ w_pol w = w_pol (sv_work s) /\ prods w = prods (sv_work s) /\
      w_rho_update_from_solve w = w_rho_update_from_solve (sv_work s) /\ w_first_run w = w_first_run (sv_work s) /\
      (tr (st_rho_is_vec (sv_settings s)) = false -> w_rho_inv w = ndiv n1 (clamp rho))).
    { rewrite A2. destruct (tr (st_rho_is_vec (sv_settings s))) eqn:Ev; [unfold refresh_rho_vec; walk|apply post_ret]; rs; repeat match goal with |- _ /\ _ => split; [solve [auto|exact A4|exact A4'|exact A8]|] end; [discriminate|auto]. }
    intros w (C1 & C2 & C3 & C4 & C4' & C5 & C6 & C7 & C8 & C9 & C10 & C11). walk1. walk1. unfold toc. rs. rewrite C9.
    destruct (w_rho_update_from_solve (sv_work s) =? 0); apply post_ret; cbn [snd]; rs.
    all: split; [constructor; rs; auto; [rewrite A2; exists (clamp rho), (st_adaptive_rho_interval (sv_settings s)); destruct (sv_settings s); reflexivity|
      unfold rsync; rs; rewrite A2; rs; auto]|].
    all: repeat match goal with |- _ /\ _ => split; [solve [auto|exact C4|exact C4'|exact C8]|] end.
    all: split; [rewrite A9; eexists; reflexivity|]. all: split; [rewrite A2; eexists; reflexivity|]. all: auto.
  Qed.

  Lemma adapt_rho_post (s : solver K) : post (adapt_rho E s) (fun r => let s' := snd r in sfr s s' /\
    sv_solution s' = sv_solution s /\ iter3 (sv_work s') = iter3 (sv_work s) /\ deltas (sv_work s') = deltas (sv_work s) /\ w_pol (sv_work s') = w_pol (sv_work s) /\
    i_status_val (sv_info s') = i_status_val (sv_info s) /\ i_iter (sv_info s') = i_iter (sv_info s) /\ i_setup_time (sv_info s') = i_setup_time (sv_info s) /\
    (exists r', sv_settings s' = set_st_rho r' (sv_settings s)) /\
    w_rho_update_from_solve (sv_work s') = w_rho_update_from_solve (sv_work s) /\ w_first_run (sv_work s') = w_first_run (sv_work s)).
  Proof.
    unfold adapt_rho. rs. destruct (_ || _).
    - eapply post_bindP; [apply update_rho_post|]. intros [fl s1] (A1 & A2 & A3 & A4 & A5 & A6 & A7 & A8 & (t & A9) & (r & A10) & A11 & A12). cbn [snd] in *. apply post_ret. cbn [snd]. rs_all.
      split; [destruct A1 as [D1 D2 D3 D4 D5]; constructor; rs_all; auto|].
      rewrite A9. rs. repeat match goal with |- _ /\ _ => split; [solve [auto|exact A3|exact A4]|] end. split; [eauto|auto].
    - apply post_ret. cbn [snd]. rs. split; [apply sfr_fixed; auto|]. repeat match goal with |- _ /\ _ => split; [solve [auto]|] end. split; [exists (st_rho (sv_settings s)); destruct s as [[] ? ? ? ?]; reflexivity|auto].
  Qed.

  Lemma cold_start_post (w : work K) : post (cold_start w) (fun w' => w' = set_w_x (map (fun _ => n0) (w_x w)) (set_w_z (map (fun _ => n0) (w_z w)) (set_w_y (map (fun _ => n0) (w_y w)) w))).
  Proof. unfold cold_start. walk. reflexivity. Qed.

  Lemma store_solution_post (s : solver K) so : post (store_solution s so) (fun r => let s' := fst r in
    sv_settings s' = sv_settings s /\ sv_info s' = sv_info s /\ sv_world s' = sv_world s /\ sv_solution s' = sv_solution s /\ fixed (sv_work s') = fixed (sv_work s) /\ w_pol (sv_work s') = w_pol (sv_work s) /\
    w_summary_printed (sv_work s') = w_summary_printed (sv_work s) /\
    (has_solution (sv_info s) = true -> iter3 (sv_work s') = iter3 (sv_work s))).
  Proof.
    unfold store_solution. destruct so as [so|]; [|apply post_ret; cbn [fst]; repeat match goal with |- _ /\ _ => split; [solve [auto]|] end; auto].
    destruct (has_solution _).
    - eapply post_bindP with (P := fun r => let w' := snd r in fixed w' = fixed (sv_work s) /\ w_pol w' = w_pol (sv_work s) /\ w_summary_printed w' = w_summary_printed (sv_work s) /\ iter3 w' = iter3 (sv_work s)).
      { destruct (tr _); walk; repeat split; auto. }
      intros [[x y] w1] (A1 & A2 & A3 & A4). cbn [snd] in *. walk. repeat match goal with |- _ /\ _ => split; [solve [auto]|] end. intros _. exact A4.
    - do 2 walk1. eapply post_bindP; [apply cold_start_post|]. intros w1 ->. rs.
      eapply post_bindP with (P := fun r => let w' := fst r in fixed w' = fixed (sv_work s) /\ w_pol w' = w_pol (sv_work s) /\ w_summary_printed w' = w_summary_printed (sv_work s)).
      { destruct (_ || _); walk; repeat split; auto. }
      intros [w2 so2] (A1 & A2 & A3). cbn [fst] in *.
      eapply post_bindP with (P := fun r => let w' := fst r in fixed w' = fixed (sv_work s) /\ w_pol w' = w_pol (sv_work s) /\ w_summary_printed w' = w_summary_printed (sv_work s)).
      { destruct (_ || _); walk; repeat split; auto. }
      intros [w3 so3] (B1 & B2 & B3). cbn [fst] in *. apply post_ret. cbn [fst]. rs. repeat match goal with |- _ /\ _ => split; [solve [auto]|] end. discriminate.
  Qed.

  Lemma polish_post (s : solver K) : post (polish E s) (fun r => let s' := snd r in
    sv_settings s' = sv_settings s /\ sv_solution s' = sv_solution s /\ fixed (sv_work s') = fixed (sv_work s) /\ deltas (sv_work s') = deltas (sv_work s) /\
    ifix (sv_info s') = ifix (sv_info s) /\ i_status_val (sv_info s') = i_status_val (sv_info s) /\ i_iter (sv_info s') = i_iter (sv_info s) /\
    (i_status_polish (sv_info s') <> OSQP_POLISH_SUCCESS -> iter3 (sv_work s') = iter3 (sv_work s))).
  Proof.
    unfold polish. walk1. walk1. rs. destruct (_ =? 0).
    { apply post_ret. cbn [snd]. rs. repeat match goal with |- _ /\ _ => split; [solve [auto]|] end. auto. }
    walk1. walk1. destruct o as [plsh|].
    2:{ apply post_ret. cbn [snd]. rs. repeat match goal with |- _ /\ _ => split; [solve [auto]|] end. auto. }
    do 11 (apply post_bind; intros ? ?). eapply post_bindP; [apply update_info_polish_post|]. intros s1 HP. cbv beta in HP. decompose [and] HP. clear HP. rs_all.
    destruct (polish_successful _ _).
    - do 3 walk1. apply post_ret. cbn [snd]. rs. repeat match goal with |- _ /\ _ => split; [solve [auto]|] end. intros []. reflexivity.
    - apply post_ret. cbn [snd]. rs. repeat match goal with |- _ /\ _ => split; [solve [auto]|] end. auto.
  Qed.

  Lemma sfr_admm (s : solver K) : post (admm_step E s) (sfr s).
  Proof. eapply post_weaken; [apply admm_step_post|]. cbv beta. intros s' H. decompose [and] H. apply sfr_fixed; auto using fixed_core. Qed.
  Lemma sfr_info (s : solver K) it : post (update_info E s it) (sfr s).
  Proof. eapply post_weaken; [apply update_info_post|]. cbv beta. intros s' H. decompose [and] H. apply sfr_fixed; auto using fixed_core. Qed.
  Lemma sfr_check (s : solver K) ap : post (check_termination s ap) (fun r => sfr s (snd r)).
  Proof. eapply post_weaken; [apply check_termination_post|]. cbv beta zeta. cbv beta. intros s' H. decompose [and] H. apply sfr_fixed; auto using fixed_core. Qed.

  Definition outS (o : outcome) : solver K := match o with Continue s _ | Break s _ | Exit s _ => s end.

  Lemma temp_run_time_eq (s : solver K) : exists t, temp_run_time E s = (t, snd (toc E s)).
  Proof. unfold temp_run_time, toc. rs. destruct (tr _); eauto. Qed.
  Lemma decide_adapt_post (s : solver K) it old : let s' := snd (decide_adapt E s it old) in
    sv_work s' = sv_work s /\ sv_info s' = sv_info s /\ sv_solution s' = sv_solution s /\ exists t, sv_settings s' = set_st_adaptive_rho_interval t (sv_settings s).
  Proof.
    unfold decide_adapt, toc. 
    assert (HX : exists t, sv_settings s = set_st_adaptive_rho_interval t (sv_settings s)) by (exists (st_adaptive_rho_interval (sv_settings s)); destruct s as [[] ? ? ? ?]; reflexivity).
    repeat match goal with |- context [if ?b then _ else _] => destruct b end; cbn [snd]; rs; repeat (split; [reflexivity|]); eauto.
  Qed.
  Lemma sfr_decide (s : solver K) it old : sfr s (snd (decide_adapt E s it old)).
  Proof.
    destruct (decide_adapt_post s it old) as (A1 & A2 & A3 & t & A4). constructor; rewrite ?A1; auto.
    - rewrite A4. exists (st_rho (sv_settings s)), t. destruct (sv_settings s); reflexivity.
    - unfold rsync. rewrite A1, A4. rs. auto.
  Qed.

  Lemma sfr_pass (s : solver K) it f : post (admm_pass E s it f) (fun o => sfr s (outS o)).
  Proof.
    destruct f as [[cc cp] ca]. unfold admm_pass. eapply post_bindP; [apply sfr_admm|]. intros s1 H1.
    unfold is_interrupted. cbv zeta. set (s2 := set_sv_world _ s1). assert (H2 : sfr s s2) by (eapply sfr_trans; [exact H1|apply sfr_fixed; auto]). clearbody s2.
    destruct (env_int _ _).
    { walk1. apply post_ret. cbn [outS]. eapply sfr_trans; [exact H2|apply sfr_fixed; auto]. }
    destruct (temp_run_time_eq s2) as [t ->]. set (s3 := snd (toc E s2)).
    assert (H3 : sfr s s3) by (eapply sfr_trans; [exact H2|apply sfr_fixed; auto]). clearbody s3.
    destruct (_ && _).
    { walk1. apply post_ret. cbn [outS]. eapply sfr_trans; [exact H3|apply sfr_fixed; auto]. }
    pose proof (sfr_decide s3 it ca) as H4. destruct (decide_adapt E s3 it ca) as [ca4 s4]. cbn [snd] in H4. pose proof (sfr_trans _ _ _ H3 H4) as H5.
    eapply post_bindP with (P := sfr s).
    { destruct (_ || _); [|apply post_ret; auto]. eapply post_weaken; [apply sfr_info|]. intros s5 H6. eapply sfr_trans; eauto. }
    intros s5 H6. eapply post_bindP with (P := fun r => sfr s (snd r)).
    { destruct (_ && _); [|apply post_ret; auto]. eapply post_weaken; [apply sfr_check|]. intros r H7. eapply sfr_trans; eauto. }
    intros [st s6] H7. cbn [snd] in H7. destruct st; [apply post_ret; auto|].
    set (s7 := set_sv_work _ s6). assert (H8 : sfr s s7) by (eapply sfr_trans; [exact H7|apply sfr_fixed; auto]). clearbody s7.
    eapply post_bindP with (P := fun r => sfr s (snd r)).
    { match goal with |- post (if ?b then _ else _) _ => destruct b end; [|apply post_ret; auto]. eapply post_weaken; [apply adapt_rho_post|]. cbv beta zeta. intros r H9. eapply sfr_trans; [exact H8|apply H9]. }
    intros [fl s8] H9. cbn [snd] in H9. destruct (tr fl); [apply post_ret; auto|]. apply post_ret. cbn [outS].
    set (s9 := if tr (w_rho_updated (sv_work s8)) then _ else s8).
    assert (H10 : sfr s s9). { subst s9. destruct (tr _); auto. eapply sfr_trans; [exact H9|apply sfr_fixed; auto]. }
    destruct (_ || _); auto. eapply sfr_trans; [exact H10|apply sfr_fixed; auto].
  Qed.

  Lemma sfr_loop k : forall it f (s : solver K), post (admm_loop E k it f s) (fun o => sfr s (outS (fst o))).
  Proof.
    induction k as [|k IH]; intros it f s; cbn [admm_loop].
    - apply post_ret. apply sfr_refl.
    - eapply post_bindP; [apply sfr_pass|]. intros o Ho. destruct o as [s1 f1|s1 f1|s1 fl]; cbn [outS] in Ho; try (apply post_ret; exact Ho).
      eapply post_weaken; [apply IH|]. intros r Hr. eapply sfr_trans; eauto.
  Qed.

  Lemma final_check_sfr (s : solver K) it f : post (final_check E s it f) (sfr s).
  Proof.
    destruct f as [[cc cp] ca]. unfold final_check. destruct cc; [apply post_ret, sfr_refl|].
    eapply post_bindP with (P := sfr s).
    { destruct cp; [apply post_ret, sfr_refl|apply sfr_info]. }
    intros s1 H1. set (s2 := if _ && _ then _ else s1). assert (H2 : sfr s s2). { subst s2. destruct (_ && _); auto. eapply sfr_trans; [exact H1|apply sfr_fixed; auto]. }
    clearbody s2. eapply post_bindP; [apply sfr_check|]. intros r Hr. apply post_ret. eapply sfr_trans; eauto.
  Qed.
  Lemma final_objective_sfr (s : solver K) : post (final_objective s) (sfr s).
  Proof.
    unfold final_objective. destruct (has_solution _); [|apply post_ret, sfr_refl]. eapply post_bindP; [apply obj_post|].
    intros [[[p dv] g] w] (A1 & _). cbn [snd] in *. apply post_ret. apply sfr_fixed; rs; auto using fixed_core.
  Qed.
  Lemma final_status_sfr (s : solver K) : post (final_status s) (sfr s).
  Proof.
    unfold final_status. eapply post_bindP with (P := sfr s).
    { destruct (_ =? _); [|apply post_ret, sfr_refl]. eapply post_bindP; [apply sfr_check|]. intros r Hr. destruct (fst r); [apply post_ret; auto|].
      walk1. apply post_ret. eapply sfr_trans; [exact Hr|apply sfr_fixed; auto]. }
    intros s1 H1. destruct (_ =? _); [|apply post_ret; auto]. eapply post_bindP; [apply sfr_check|]. intros r Hr. destruct (fst r); [apply post_ret; eapply sfr_trans; eauto|].
    walk1. apply post_ret. eapply sfr_trans; [exact H1|]. eapply sfr_trans; [exact Hr|apply sfr_fixed; auto].
  Qed.

  Lemma solve_exit_sfr (s : solver K) fl : post (solve_exit s fl) (fun r => sfr s (snd r)).
  Proof. unfold solve_exit, pop_sec, end_interrupt_listener. rs. destruct (g_sections _); walk. cbn [snd]. apply sfr_fixed; auto. Qed.

  Lemma finish_solve_sfr (s : solver K) it f : post (finish_solve E s it f) (fun r => sfr s (snd r)).
  Proof.
    unfold finish_solve. eapply post_bindP; [apply final_check_sfr|]. intros s1 H1.
    eapply post_bindP; [apply final_objective_sfr|]. intros s2 H2. pose proof (sfr_trans _ _ _ H1 H2) as H3.
    set (s3 := if _ && _ then _ else s2). assert (H4 : sfr s s3). { subst s3. destruct (_ && _); auto. eapply sfr_trans; [exact H3|apply sfr_fixed; auto]. }
    clearbody s3. eapply post_bindP; [apply final_status_sfr|]. intros s4 H5. pose proof (sfr_trans _ _ _ H4 H5) as H6. unfold toc.
    set (s5 := set_sv_info _ (set_sv_world _ _)). assert (H7 : sfr s s5) by (eapply sfr_trans; [exact H6|apply sfr_fixed; auto]). clearbody s5.
    eapply post_bindP with (P := fun r => sfr s (snd r)).
    { destruct (_ && _); [|apply post_ret; auto]. eapply post_bindP; [apply polish_post|]. intros [fl s6] H8. cbv zeta in H8. cbn [fst snd] in H8. destruct H8 as (A1 & _ & A2 & _).
      assert (H9 : sfr s s6). { eapply sfr_trans; [exact H7|]. apply sfr_fixed; auto. apply fixed_core in A2. exact A2. }
      unfold pop_sec. cbn [snd]. destruct (g_sections _); [apply post_none|]. cbn. apply post_ret. cbn [snd]. eapply sfr_trans; [exact H9|apply sfr_fixed; auto]. }
    intros [fl s6] H8. cbn [snd] in H8. destruct (0 <? fl).
    { eapply post_weaken; [apply solve_exit_sfr|]. intros r Hr. eapply sfr_trans; eauto. }
    set (s7 := finish_times s6). assert (H9 : sfr s s7). { eapply sfr_trans; [exact H8|]. subst s7. unfold finish_times. destruct (tr _); apply sfr_fixed; auto. }
    clearbody s7. eapply post_bindP; [apply store_solution_post|]. cbv zeta. intros r (A1 & A2 & A3 & A4 & A5 & _).
    eapply post_weaken; [apply solve_exit_sfr|]. intros r' Hr. eapply sfr_trans; [exact H9|]. eapply sfr_trans; [|exact Hr]. apply sfr_fixed; rs; auto using fixed_core.
  Qed.

  Theorem solve_sfr (s : solver K) : post (solve E s) (fun r => sfr s (snd r)).
  Proof.
    unfold solve, begin_solve. eapply post_bindP with (P := sfr s).
    { set (s1 := if _ =? 1 then _ else s). assert (H1 : sv_settings s1 = sv_settings s /\ sv_work s1 = sv_work s) by (subst s1; destruct (_ =? 1); auto). destruct H1 as [H1 H1']. clearbody s1.
      cbv zeta. destruct (tr _).
      - apply post_ret. apply sfr_fixed; auto.
      - eapply post_bindP; [apply cold_start_post|]. intros w ->. apply post_ret. apply sfr_fixed; auto. }
    intros s1 H1. eapply post_bindP; [apply sfr_loop|]. intros [o it] Ho. cbn [fst] in Ho. pose proof (sfr_trans _ _ _ H1 Ho) as H2.
    destruct o as [s2 f2|s2 f2|s2 fl]; cbn [outS] in H2.
    1,2: eapply post_weaken; [apply finish_solve_sfr|]; intros r Hr; eapply sfr_trans; eauto.
    eapply post_weaken; [apply solve_exit_sfr|]; intros r Hr; eapply sfr_trans; eauto.
  Qed.
End FrameSolve.
