(** With no constraints, the vector that holds A'y keeps the zeros osqp_setup put there, over any session. *)
From Coq Require Import ZArith List Bool Lia String.
From Verif Require Import Num Arr ArrFacts Csc CscSpec CscFacts CscFacts2 Scatter Vec Types Kkt Linsys Scaling Validate Auxil Polish Api
  VecFacts LinsysFacts LinsysSolve Inv InvStep InvApi InvScale InvPolish InvSolve History RecSimp Frame FrameSolve FrameUpd.
Import ListNotations.
Open Scope Z_scope.

Section Aty.
  Context {K : NumOps}.
  Variable E : Env K.

  Definition kz (w w' : work K) : Prop := d_m (w_data w') = d_m (w_data w) /\ (d_m (w_data w) = 0 -> w_Aty w' = w_Aty w).
  Lemma kz_refl w : kz w w. Proof. split; auto. Qed.
  Lemma kz_trans a b c : kz a b -> kz b c -> kz a c.
  Proof. intros [A1 A2] [B1 B2]. split; [congruence|]. intros H. rewrite B2, A2; congruence. Qed.
  Lemma kz_eq (w w' : work K) : w_data w' = w_data w -> w_Aty w' = w_Aty w -> kz w w'.
  Proof. intros H1 H2. split; congruence. Qed.
  Lemma fx_data (w w' : work K) : fixed w' = fixed w -> w_data w' = w_data w.
  Proof. intros H. apply fixed_core, core_eq in H. apply H. Qed.
  Lemma kz_fp (w w' : work K) : fixed w' = fixed w -> prods w' = prods w -> kz w w'.
  Proof. intros H1 H2. apply kz_eq; [apply fx_data; auto|unfold prods in H2; congruence]. Qed.

  Lemma residuals_kz st (w : work K) x y z : post (residuals st w x y z) (fun r => kz w (snd r)).
  Proof.
    unfold residuals. eapply post_bindP with (P := fun r => kz w (snd r)).
    { destruct (_ =? 0); [apply post_ret; apply kz_refl|]. eapply post_weaken; [apply prim_res_post|]. cbv beta zeta. intros r H. decompose [and] H. apply kz_eq; auto using fx_data. }
    intros [pr w1] H1. cbn [snd] in H1.
    eapply post_bindP with (P := fun r => kz w (snd r)).
    { unfold compute_dual_res. do 3 walk1. rs. eapply post_bindP with (P := fun rw => kz w1 (snd rw)).
      - destruct (tr (d_m (w_data w1))) eqn:Em; walk; (split; [reflexivity|]); rs; auto. intros E0. rewrite E0 in Em. discriminate.
      - intros [r w2] Hk2. cbn [snd] in Hk2. pose proof (kz_trans _ _ _ H1 Hk2) as H3. walk; exact H3. }
    intros [dr w2] Hk2. cbn [snd] in Hk2.
    eapply post_bindP; [apply obj_post|]. intros [[[p dv] g] w3] H. cbn [snd] in *. decompose [and] H. apply post_ret. cbn [snd]. eapply kz_trans; [exact Hk2|]. apply kz_fp; auto.
  Qed.
  Lemma update_info_kz (s : solver K) it : post (update_info E s it) (fun s' => kz (sv_work s) (sv_work s')).
  Proof. unfold update_info, toc. rs. eapply post_bindP; [apply residuals_kz|]. intros [[[[[pr dr] p] dv] g] w1] H. cbn [snd] in H. apply post_ret. exact H. Qed.
  Lemma update_info_polish_kz (s : solver K) : post (update_info_polish E s) (fun s' => kz (sv_work s) (sv_work s')).
  Proof. unfold update_info_polish, toc. rs. eapply post_bindP; [apply residuals_kz|]. intros [[[[[pr dr] p] dv] g] w1] H. cbn [snd] in H. apply post_ret. exact H. Qed.
  Lemma admm_step_kz (s : solver K) : post (admm_step E s) (fun s' => kz (sv_work s) (sv_work s')).
  Proof. eapply post_weaken; [apply admm_step_post|]. cbv beta. intros s' H. decompose [and] H. apply kz_fp; auto. Qed.
  Lemma check_kz (s : solver K) ap : post (check_termination s ap) (fun r => kz (sv_work s) (sv_work (snd r))).
  Proof. eapply post_weaken; [apply check_termination_post|]. cbv beta zeta. intros s' H. decompose [and] H. apply kz_fp; auto. Qed.
  Lemma update_rho_kz (s : solver K) r : post (update_rho E s r) (fun x => kz (sv_work s) (sv_work (snd x))).
  Proof. eapply post_weaken; [apply update_rho_post|]. cbv beta zeta. intros x H. decompose [and] H. apply kz_eq; [apply (sf_d _ _ H0)|]. unfold prods in *; congruence. Qed.
  Lemma adapt_rho_kz (s : solver K) : post (adapt_rho E s) (fun x => kz (sv_work s) (sv_work (snd x))).
  Proof.
    unfold adapt_rho. rs. destruct (_ || _).
    - eapply post_bindP; [apply update_rho_kz|]. intros [fl s1] H. walk; exact H.
    - walk. apply kz_refl.
  Qed.
  Lemma cold_kz (w : work K) : post (cold_start w) (kz w).
  Proof. eapply post_weaken; [apply cold_start_post|]. intros w' ->. apply kz_eq; reflexivity. Qed.
  Lemma store_kz (s : solver K) so : post (store_solution s so) (fun r => kz (sv_work s) (sv_work (fst r))).
  Proof.
    unfold store_solution. destruct so as [so|]; [|apply post_ret; apply kz_refl]. destruct (has_solution _).
    - eapply post_bindP with (P := fun r => kz (sv_work s) (snd r)). { destruct (tr _); walk; apply kz_eq; reflexivity. }
      intros [[x y] w1] H. cbn [snd] in H. walk. exact H.
    - do 2 walk1. eapply post_bindP; [apply cold_kz|]. intros w1 H1. rs_in H1.
      eapply post_bindP with (P := fun r => kz (sv_work s) (fst r)). { destruct (_ || _); walk; exact H1. }
      intros [w2 so2] H2. cbn [fst] in H2. eapply post_bindP with (P := fun r => kz (sv_work s) (fst r)). { destruct (_ || _); walk; exact H2. }
      intros [w3 so3] H3. cbn [fst] in H3. apply post_ret. exact H3.
  Qed.
  Lemma polish_kz (s : solver K) : post (polish E s) (fun r => kz (sv_work s) (sv_work (snd r))).
  Proof.
    unfold polish. walk1. walk1. rs. destruct (_ =? 0); [apply post_ret; exact (kz_refl (sv_work s))|]. walk1. walk1. destruct o as [plsh|]; [|apply post_ret; exact (kz_refl (sv_work s))].
    do 11 (apply post_bind; intros ? ?). eapply post_bindP; [apply update_info_polish_kz|]. intros s1 HK1. rs_in HK1. destruct (polish_successful _ _).
    - do 3 walk1. apply post_ret. exact HK1.
    - apply post_ret. exact HK1.
  Qed.

  Lemma pass_kz (s : solver K) it f : post (admm_pass E s it f) (fun o => kz (sv_work s) (sv_work (outS o))).
  Proof.
    destruct f as [[cc cp] ca]. unfold admm_pass. eapply post_bindP; [apply admm_step_kz|]. intros s1 H1.
    unfold is_interrupted. cbv zeta. set (s2 := set_sv_world _ s1). assert (H2 : kz (sv_work s) (sv_work s2)) by exact H1. clearbody s2.
    destruct (env_int _ _). { walk1. apply post_ret. exact H2. }
    destruct (temp_run_time_eq E s2) as [t ->]. set (s3 := snd _). assert (H3 : kz (sv_work s) (sv_work s3)) by exact H2. clearbody s3.
    destruct (_ && _). { walk1. apply post_ret. exact H3. }
    destruct (decide_adapt_post E s3 it ca) as (D1 & _). destruct (decide_adapt E s3 it ca) as [ca4 s4]. cbn [snd] in *.
    assert (H4 : kz (sv_work s) (sv_work s4)) by (rewrite D1; auto).
    eapply post_bindP with (P := fun s' => kz (sv_work s) (sv_work s')).
    { destruct (_ || _); [|apply post_ret; auto]. eapply post_weaken; [apply update_info_kz|]. intros; eapply kz_trans; eauto. }
    intros s5 H5. eapply post_bindP with (P := fun r => kz (sv_work s) (sv_work (snd r))).
    { destruct (_ && _); [|apply post_ret; auto]. eapply post_weaken; [apply check_kz|]. intros; eapply kz_trans; eauto. }
    intros [stop s6] H6. cbn [snd] in H6. destruct stop; [apply post_ret; exact H6|].
    set (s7 := set_sv_work _ s6). assert (H7 : kz (sv_work s) (sv_work s7)) by exact H6. clearbody s7.
    set (ca7 := if _ && _ then _ else _). clearbody ca7.
    eapply post_bindP with (P := fun r => kz (sv_work s) (sv_work (snd r))).
    { destruct ca7; [|apply post_ret; auto]. eapply post_weaken; [apply adapt_rho_kz|]. intros; eapply kz_trans; eauto. }
    intros [fl s8] H8. cbn [snd] in H8. destruct (tr fl); [apply post_ret; exact H8|]. apply post_ret. cbn [outS].
    set (s9 := if tr _ then _ else s8). assert (H9 : kz (sv_work s) (sv_work s9)) by (subst s9; destruct (tr _); exact H8). clearbody s9.
    destruct (_ || _); exact H9.
  Qed.
  Lemma loop_kz k : forall it f (s : solver K), post (admm_loop E k it f s) (fun o => kz (sv_work s) (sv_work (outS (fst o)))).
  Proof.
    induction k as [|k IH]; intros it f s; cbn [admm_loop]; [apply post_ret; apply kz_refl|].
    eapply post_bindP; [apply pass_kz|]. intros [s1 f1|s1 f1|s1 fl] H; cbn [outS] in H; [|apply post_ret; exact H..].
    eapply post_weaken; [apply IH|]. intros o Ho. eapply kz_trans; eauto.
  Qed.
  Lemma solve_exit_kz (s : solver K) fl : post (solve_exit s fl) (fun r => kz (sv_work s) (sv_work (snd r))).
  Proof. unfold solve_exit, pop_sec, end_interrupt_listener. rs. destruct (g_sections _); walk. apply kz_refl. Qed.
  Lemma finish_kz (s : solver K) it f : post (finish_solve E s it f) (fun r => kz (sv_work s) (sv_work (snd r))).
  Proof.
    unfold finish_solve. eapply post_bindP with (P := fun s' => kz (sv_work s) (sv_work s')).
    { destruct f as [[cc cp] ca]. unfold final_check. destruct cc; [apply post_ret; apply kz_refl|].
      eapply post_bindP with (P := fun s' => kz (sv_work s) (sv_work s')). { destruct cp; [apply post_ret; apply kz_refl|apply update_info_kz]. }
      intros s1 H1. set (s2 := if _ && _ then _ else s1). assert (H2 : kz (sv_work s) (sv_work s2)) by (subst s2; destruct (_ && _); exact H1). clearbody s2.
      eapply post_bindP; [apply check_kz|]. intros r Hr. apply post_ret. eapply kz_trans; eauto. }
    intros s1 H1. eapply post_bindP with (P := fun s' => kz (sv_work s) (sv_work s')).
    { unfold final_objective. destruct (has_solution _); [|apply post_ret; auto]. eapply post_bindP; [apply obj_post|]. intros [[[p dv] g] w] H. cbn [snd] in H. decompose [and] H. apply post_ret. rs. eapply kz_trans; [exact H1|]. apply kz_fp; auto. }
    intros s2 H2. set (s3 := if _ && _ then _ else s2). assert (H3 : kz (sv_work s) (sv_work s3)) by (subst s3; destruct (_ && _); exact H2). clearbody s3.
    eapply post_bindP with (P := fun s' => kz (sv_work s) (sv_work s')).
    { unfold final_status. eapply post_bindP with (P := fun s' => kz (sv_work s) (sv_work s')).
      { destruct (_ =? _); [|apply post_ret; auto]. eapply post_bindP; [apply check_kz|]. intros r Hr. pose proof (kz_trans _ _ _ H3 Hr). destruct (fst r); walk; auto. }
      intros s4 H4. destruct (_ =? _); [|apply post_ret; auto]. eapply post_bindP; [apply check_kz|]. intros r Hr. pose proof (kz_trans _ _ _ H4 Hr). destruct (fst r); walk; auto. }
    intros s4 H4. unfold toc. set (s5 := set_sv_info _ (set_sv_world _ _)). assert (H5 : kz (sv_work s) (sv_work s5)) by exact H4. clearbody s5.
    eapply post_bindP with (P := fun r => kz (sv_work s) (sv_work (snd r))).
    { destruct (_ && _); [|apply post_ret; auto]. eapply post_bindP; [apply polish_kz|]. intros [fl s6] H6. cbn [snd] in *. unfold pop_sec. destruct (g_sections _); [apply post_none|]. apply post_ret. cbn [snd]. rs. eapply kz_trans; [exact H5|exact H6]. }
    intros [fl s6] H6. cbn [snd] in H6. destruct (0 <? fl). { eapply post_weaken; [apply solve_exit_kz|]. intros r Hr. eapply kz_trans; eauto. }
    set (s7 := finish_times s6). assert (H7 : kz (sv_work s) (sv_work s7)) by (subst s7; unfold finish_times; cbv zeta; destruct (tr (w_first_run (sv_work s6))); exact H6). clearbody s7.
    eapply post_bindP; [apply store_kz|]. intros r Hr. pose proof (kz_trans _ _ _ H7 Hr) as H8. eapply post_weaken; [apply solve_exit_kz|]. intros r' Hr'. eapply kz_trans; [exact H8|exact Hr'].
  Qed.
  Lemma solve_kz (s : solver K) : post (solve E s) (fun r => kz (sv_work s) (sv_work (snd r))).
  Proof.
    unfold solve. eapply post_bindP with (P := fun s' => kz (sv_work s) (sv_work s')).
    { unfold begin_solve. cbv zeta. set (s1 := if _ =? 1 then _ else s). assert (H1 : sv_work s1 = sv_work s) by (subst s1; destruct (_ =? 1); auto). clearbody s1.
      unfold start_interrupt_listener, push_sec. rs. destruct (tr _); [apply post_ret; exact (kz_refl (sv_work s))|]. eapply post_bindP; [apply cold_kz|]. intros w Hw. apply post_ret. exact Hw. }
    intros s1 H1. eapply post_bindP; [apply loop_kz|]. intros [o it] Ho. cbn [fst] in Ho. pose proof (kz_trans _ _ _ H1 Ho) as H2.
    destruct o as [s2 f2|s2 f2|s2 fl]; cbn [outS] in H2.
    - eapply post_weaken; [apply finish_kz|]. intros r Hr. exact (kz_trans _ _ _ H2 Hr).
    - eapply post_weaken; [apply finish_kz|]. intros r Hr. exact (kz_trans _ _ _ H2 Hr).
    - eapply post_weaken; [apply solve_exit_kz|]. intros r Hr. exact (kz_trans _ _ _ H2 Hr).
  Qed.

  Lemma scale_pass_kz (w : work K) sc : post (scale_pass w sc) (fun r => kz w (fst r)).
  Proof. unfold scale_pass. do 2 walk1. walk1. do 13 walk1. apply post_ret. cbn [fst]. exact (kz_refl w). Qed.
  Lemma scale_data_kz st (w : work K) : post (scale_data st w) (kz w).
  Proof.
    unfold scale_data. walk1. cbv zeta. apply post_bind. intros [w1 s1] HF.
    assert (H1 : kz w w1).
    { revert HF. set (s0 := set_sc_Einv _ _). clearbody s0.
      assert (HG : forall n i w0 s0, for_aux n i (fun _ (r : work K * scaling K) => scale_pass (fst r) (snd r)) (w0, s0) = Some (w1, s1) -> kz w0 w1).
      { induction n as [|n IH]; intros i w0 s2 HF; cbn [for_aux] in HF; [injection HF as <- _; apply kz_refl|].
        destruct (scale_pass _ _) as [[w2 s3]|] eqn:EP; [|discriminate]. cbn [fst snd] in EP. apply scale_pass_kz in EP. cbn [fst] in EP. apply IH in HF. eapply kz_trans; eauto. }
      unfold for_. apply HG. }
    walk. exact H1.
  Qed.
  Lemma unscale_data_kz (w : work K) : post (unscale_data w) (kz w).
  Proof. unfold unscale_data. walk. exact (kz_refl w). Qed.
  Lemma warm_kz (s : solver K) x y : post (warm_start s x y) (fun r => kz (sv_work s) (sv_work (snd r))).
  Proof.
    unfold warm_start. cbv zeta. set (s1 := if negb _ then _ else s). assert (H1 : sv_work s1 = sv_work s) by (subst s1; destruct (negb _); auto). clearbody s1. rewrite <- H1.
    eapply post_bindP with (P := kz (sv_work s1)). { destruct x; walk; exact (kz_refl (sv_work s1)). }
    intros w1 Hw1. eapply post_bindP with (P := kz (sv_work s1)). { destruct y; walk; exact Hw1. }
    intros w2 Hw2. eapply post_bindP with (P := kz (sv_work s1)). { destruct x; walk; exact Hw2. }
    intros w3 Hw3. walk. exact Hw3.
  Qed.
  Lemma refresh_kz rho (w : work K) : post (refresh_rho_vec rho w) (kz w).
  Proof. eapply post_weaken; [apply refresh_post|]. intros w' (a & b & ->). exact (kz_refl w). Qed.
  Lemma set_rho_vec_kz (s : solver K) : post (set_rho_vec s) (fun r => kz (sv_work s) (sv_work (snd r))).
  Proof. unfold set_rho_vec. walk1. walk1. eapply post_bindP; [apply refresh_kz|]. intros w Hw. apply post_ret. exact Hw. Qed.
  Lemma update_rho_vec_kz (s : solver K) : post (update_rho_vec E s) (fun r => kz (sv_work s) (sv_work (snd r))).
  Proof. unfold update_rho_vec. eapply post_bindP; [apply set_rho_vec_kz|]. intros [ch s1] H1. cbn [snd] in H1. destruct ch; walk; exact H1. Qed.
  Lemma begin_update_kz (s : solver K) : kz (sv_work s) (sv_work (begin_update s)).
  Proof. destruct (begin_update_eq s) as (t & c & ->). exact (kz_refl (sv_work s)). Qed.
  Lemma end_update_kz (s : solver K) : post (end_update E s) (fun s' => kz (sv_work s) (sv_work s')).
  Proof. destruct (end_update_eq E s) as (m & t & g & ->). apply post_ret. exact (kz_refl (sv_work s)). Qed.
  Lemma update_vec_kz (s : solver K) q l u : post (update_data_vec E s q l u) (fun r => kz (sv_work s) (sv_work (snd r))).
  Proof.
    unfold update_data_vec. pose proof (begin_update_kz s) as H0. set (s0 := begin_update s) in *. clearbody s0.
    eapply post_bindP with (P := fun r => kz (sv_work s) (sv_work (snd (fst r)))).
    { destruct l as [l|], u as [u|]; [| | |apply post_ret; exact H0]; do 3 walk1; (destruct (negb _); [apply post_ret; exact H0|]);
        (match goal with |- post (if ?b then _ else _) _ => destruct b end; [eapply post_bindP; [apply update_rho_vec_kz|]; intros r Hr; apply post_ret; cbn [fst snd]; eapply kz_trans; [exact H0|exact Hr]|apply post_ret; exact H0]). }
    intros [[fl s1] failed] H1. cbn [fst snd] in H1. destruct failed; [apply post_ret; exact H1|].
    eapply post_bindP with (P := fun s' => kz (sv_work s) (sv_work s')). { destruct q; walk; exact H1. }
    intros s2 H2. eapply post_bindP; [apply end_update_kz|]. intros s3 H3. apply post_ret. eapply kz_trans; eauto.
  Qed.
  Lemma update_mat_kz (s : solver K) Px Pidx Pn Ax Aidx An : post (update_data_mat E s Px Pidx Pn Ax Aidx An) (fun r => kz (sv_work s) (sv_work (snd r))).
  Proof.
    unfold update_data_mat. pose proof (begin_update_kz s) as H0. set (s0 := begin_update s) in *. clearbody s0. cbv zeta.
    do 2 walk1. do 4 (match goal with |- post (if ?b then _ else _) _ => destruct b; [apply post_ret; exact H0|] end).
    eapply post_bindP with (P := kz (sv_work s)).
    { match goal with |- post (if ?b then _ else _) _ => destruct b end; [|apply post_ret; auto]. eapply post_weaken; [apply unscale_data_kz|]. intros w Hw. eapply kz_trans; eauto. }
    intros w1 H1'. eapply post_bindP with (P := kz (sv_work s)). { destruct Px; walk; exact H1'. }
    intros w2 H2'. eapply post_bindP with (P := kz (sv_work s)). { destruct Ax; walk; exact H2'. }
    intros w3 H3'. eapply post_bindP with (P := kz (sv_work s)).
    { match goal with |- post (if ?b then _ else _) _ => destruct b end; [|apply post_ret; auto]. eapply post_weaken; [apply scale_data_kz|]. intros w Hw. eapply kz_trans; eauto. }
    intros w4 H4'. apply post_bind. intros ls _. apply post_bind. intros r _. eapply post_bindP; [apply end_update_kz|]. intros s5 H5'. apply post_ret. cbn [snd]. eapply kz_trans; [exact H4'|exact H5'].
  Qed.

  Lemma run_kz c (s : solver K) fl s' : run E c s = Some (fl, HSolver s') -> kz (sv_work s) (sv_work s').
  Proof.
    assert (HO : forall f fl, on_solver (HSolver s) f = Some (fl, HSolver s') -> post (f s) (fun r => kz (sv_work s) (sv_work (snd r))) -> kz (sv_work s) (sv_work s')).
    { intros f fl0 H HP. unfold on_solver in H. destruct (f s) as [[a b]|]; [|discriminate]. injection H as <- <-. exact (HP _ eq_refl). }
    intros HC. destruct c; cbn [run] in HC.
    - eapply HO; [exact HC|]. apply solve_kz.
    - eapply HO; [exact HC|]. apply update_vec_kz.
    - eapply HO; [exact HC|]. apply update_mat_kz.
    - eapply HO; [exact HC|]. apply update_rho_kz.
    - unfold osqp_update_settings in HC. destruct (validate_settings new false); [injection HC as _ <-; apply kz_refl|]. destruct new as [st|]; [|discriminate].
      destruct (w_linsys (sv_work s)); [|discriminate]. injection HC as _ <-. exact (kz_refl (sv_work s)).
    - eapply HO; [exact HC|]. apply warm_kz.
    - unfold osqp_cold_start in HC. destruct (cold_start (sv_work s)) as [w|] eqn:Ec; [|discriminate]. injection HC as _ <-. exact (cold_kz _ _ Ec).
    - unfold osqp_get_solution in HC. destruct sol as [o|]; [|injection HC as _ <-; apply kz_refl].
      destruct (store_solution s (Some o)) as [[s1 o1]|] eqn:Er; [|discriminate]. injection HC as _ <-. exact (store_kz _ _ _ Er).
  Qed.

  (** What osqp_setup leaves there. *)
  Lemma setup_aty g P q A l u m n ust fl s g' : osqp_setup E g P q A l u m n (Some ust) = Some (fl, Some s, g') -> d_m (w_data (sv_work s)) = m /\ (m = 0 -> w_Aty (sv_work s) = zrep n n0).
  Proof.
    intros H. assert (HP : post (osqp_setup E g P q A l u m n (Some ust)) (fun r => forall s, snd (fst r) = Some s -> d_m (w_data (sv_work s)) = m /\ (m = 0 -> w_Aty (sv_work s) = zrep n n0))).
    2:{ exact (HP _ H s eq_refl). }
    clear H s fl g'. unfold osqp_setup. apply post_bind. intros bad _. destruct bad; [apply post_ret; cbn [fst snd]; discriminate|]. destruct (validate_settings _ _); [apply post_ret; cbn [fst snd]; discriminate|].
    do 7 (apply post_bind; intros ? _). set (w0 := initial_work _ _ _ _ _ _ _ _ _).
    assert (H0 : kz w0 w0) by apply kz_refl. set (HH := fun w : work K => kz w0 w).
    assert (Hfin : forall w, HH w -> d_m (w_data w) = m /\ (m = 0 -> w_Aty w = zrep n n0)).
    { intros w [A1 A2]. split; [exact A1|]. intros Em. rewrite A2 by exact Em. reflexivity. }
    eapply post_bindP with (P := fun s => HH (sv_work s)).
    { destruct (tr _); [|apply post_ret; exact H0]. eapply post_bindP; [apply scale_data_kz|]. intros w Hw. unfold pop_sec. rs. destruct (g_sections _); [apply post_none|]. apply post_ret. exact Hw. }
    intros s1 H1'. eapply post_bindP with (P := fun s => HH (sv_work s)).
    { destruct (tr _); [|apply post_ret; exact H1']. eapply post_bindP; [apply set_rho_vec_kz|]. intros r Hr. apply post_ret. eapply kz_trans; [exact H1'|exact Hr]. }
    intros s2 H2'. apply post_bind. intros [flag [ls|]] _.
    - eapply post_bindP; [apply cold_kz|]. intros w Hw. rs_in Hw.
      assert (Hw' : HH w) by (eapply kz_trans; [exact H2'|exact Hw]). clearbody HH. apply post_bind. intros i _. unfold toc, pop_sec.
      match goal with |- post (match ?e with Some _ => _ | None => None end) _ => destruct e as [s3|] eqn:E3; [|apply post_none] end.
      apply post_ret. cbn [fst snd]. intros s [= <-]. rs. assert (E4 : kz w (sv_work s3)) by (revert E3; destruct (tr (st_allocate_solution ust)); rs; (match goal with |- context [match ?g with [] => None | _ => _ end] => destruct g end; [discriminate|]); intros [= <-]; exact (kz_refl w)).
      destruct (Hfin w Hw') as [F1 F2]. destruct E4 as [E41 E42]. split; [congruence|]. intros Em. rewrite E42, F2; auto. congruence.
    - apply post_bind. intros i _. apply post_ret. cbn [fst snd]. intros s [= <-]. apply Hfin. exact H2'.
  Qed.
End Aty.
