(** What no call changes in the linear system solver: the ordering, the three maps into the KKT matrix and the pattern of that matrix.  With the
    invariant that ties its values to the problem (LinsysFacts.v) this makes the matrix that is factorised a function of the problem and the penalties. *)
From Coq Require Import ZArith List Bool Lia String Permutation.
From Verif Require Import Num Arr ArrFacts Csc CscSpec CscFacts CscFacts2 Scatter Vec Types Kkt KktFacts Placed KktFacts2 KktFacts3 Linsys Scaling Validate Auxil Polish Api
  VecFacts LinsysFacts LinsysSolve Inv InvStep InvApi InvScale InvPolish InvSolve History RecSimp Frame FrameSolve FrameUpd DataFacts TwinKer.
Import ListNotations.
Open Scope Z_scope.

Section Lin.
  Context {K : NumOps}.
  Variable E : Env K.

  (** Everything of a matrix but the values. *)
  Definition pat (M : csc K) := (cm M, cn M, cp M, ci M, cnzmax M, cnz M, zlen (cx M)).
  Definition lf (ls : linsys K) := (ls_perm ls, ls_PtoKKT ls, ls_AtoKKT ls, ls_rhotoKKT ls, option_map pat (ls_KKT ls)).
  Definition lk (w w' : work K) : Prop := option_map lf (w_linsys w') = option_map lf (w_linsys w).
  Lemma lk_refl w : lk w w. Proof. reflexivity. Qed.
  Lemma lk_trans a b c : lk a b -> lk b c -> lk a c.
  Proof. unfold lk. congruence. Qed.
  Lemma lk_eq (w w' : work K) : w_linsys w' = w_linsys w -> lk w w'.
  Proof. unfold lk. congruence. Qed.
  Lemma fx_lin (w w' : work K) : fixed w' = fixed w -> w_linsys w' = w_linsys w.
  Proof. intros H. apply fixed_core, core_eq in H. apply H. Qed.
  Lemma lk_fx (w w' : work K) : fixed w' = fixed w -> lk w w'.
  Proof. intros H1. apply lk_eq, fx_lin; auto. Qed.

  (** Writing values one by one keeps the length. *)
  Lemma post_len {X} (e : option (list X)) (a b : list X) i v : e = zset a i v -> zlen a = zlen b -> post e (fun c => zlen c = zlen b).
  Proof. intros -> HL c Hc. apply zset_len in Hc. congruence. Qed.
  Lemma P_len (Kx : list K) P idx n mp p1 csr : post (update_KKT_P Kx P idx n mp p1 csr) (fun x => zlen x = zlen Kx).
  Proof.
    unfold update_KKT_P. destruct (n <=? 0); [apply post_ret; auto|]. apply post_for; [auto|]. intros i x Hx. do 3 walk1.
    eapply post_bindP; [eapply (post_len _ x Kx); [reflexivity|auto]|]. intros x1 HX. do 3 walk1. destruct (_ && _); [|apply post_ret; auto]. walk1. eapply (post_len _ x1 Kx); [reflexivity|auto].
  Qed.
  Lemma A_len (Kx : list K) A idx n mp : post (update_KKT_A Kx A idx n mp) (fun x => zlen x = zlen Kx).
  Proof. unfold update_KKT_A. destruct (n <=? 0); [apply post_ret; auto|]. apply post_for; [auto|]. intros i x Hx. do 3 walk1. eapply (post_len _ x Kx); [reflexivity|auto]. Qed.
  Lemma R_len (Kx : list K) v c mp n : post (update_KKT_param2 Kx v c mp n) (fun x => zlen x = zlen Kx).
  Proof. unfold update_KKT_param2. apply post_for; [auto|]. intros i x Hx. do 2 walk1. eapply (post_len _ x Kx); [reflexivity|auto]. Qed.
  Lemma pat_set_x (M : csc K) x : zlen x = zlen (cx M) -> pat (set_x M x) = pat M.
  Proof. intros H. unfold pat, set_x. cbn [cm cn cp ci cx cnzmax cnz]. rewrite H. reflexivity. Qed.

  Lemma upd_rho_lf ls rv rho : post (update_linsys_rho_vec E ls rv rho) (fun r => lf (snd r) = lf ls).
  Proof.
    unfold update_linsys_rho_vec. cbv zeta. eapply post_bindP with (P := fun l => lf l = lf ls /\ ls_KKT l = ls_KKT ls).
    { destruct (ls_rho_inv_vec ls); [do 2 walk1|]; apply post_ret; split; reflexivity. }
    intros l (Hl & Hk). rewrite Hk. destruct (ls_KKT ls) as [M|] eqn:EM; [|apply post_none]. eapply post_bindP; [apply R_len|]. intros x Hx. apply post_ret. cbn [snd].
    rewrite <- Hl. unfold lf. rs. rewrite Hk. cbn [option_map]. rewrite pat_set_x by auto. reflexivity.
  Qed.
  Lemma upd_mat_lf ls P Pi Pn A Ai An : post (update_linsys_matrices E ls P Pi Pn A Ai An) (fun r => lf (snd r) = lf ls).
  Proof.
    unfold update_linsys_matrices. destruct (ls_KKT ls) as [M|] eqn:EM; [|apply post_none]. eapply post_bindP; [apply P_len|]. intros x Hx. eapply post_bindP; [apply A_len|]. intros y Hy. apply post_ret. cbn [snd].
    unfold lf. rs. rewrite EM. cbn [option_map]. rewrite pat_set_x by congruence. reflexivity.
  Qed.

  Lemma residuals_lk st (w : work K) x y z : post (residuals st w x y z) (fun r => lk w (snd r)).
  Proof.
    unfold residuals. eapply post_bindP with (P := fun r => lk w (snd r)).
    { destruct (_ =? 0); [apply post_ret; apply lk_refl|]. eapply post_weaken; [apply prim_res_post|]. cbv beta zeta. intros r H. decompose [and] H. apply lk_eq; auto using fx_lin. }
    intros [pr w1] H1. cbn [snd] in H1.
    eapply post_bindP with (P := fun r => lk w (snd r)).
    { unfold compute_dual_res. do 3 walk1. rs. eapply post_bindP with (P := fun rw => lk w1 (snd rw)).
      - destruct (tr (d_m (w_data w1))) eqn:Em; walk; exact (lk_refl w1).
      - intros [r w2] Hk2. cbn [snd] in Hk2. pose proof (lk_trans _ _ _ H1 Hk2) as H3. walk; exact H3. }
    intros [dr w2] Hk2. cbn [snd] in Hk2.
    eapply post_bindP; [apply obj_post|]. intros [[[p dv] g] w3] H. cbn [snd] in *. decompose [and] H. apply post_ret. cbn [snd]. eapply lk_trans; [exact Hk2|]. apply lk_fx; auto.
  Qed.
  Lemma update_info_lk (s : solver K) it : post (update_info E s it) (fun s' => lk (sv_work s) (sv_work s')).
  Proof. unfold update_info, toc. rs. eapply post_bindP; [apply residuals_lk|]. intros [[[[[pr dr] p] dv] g] w1] H. cbn [snd] in H. apply post_ret. exact H. Qed.
  Lemma update_info_polish_lk (s : solver K) : post (update_info_polish E s) (fun s' => lk (sv_work s) (sv_work s')).
  Proof. unfold update_info_polish, toc. rs. eapply post_bindP; [apply residuals_lk|]. intros [[[[[pr dr] p] dv] g] w1] H. cbn [snd] in H. apply post_ret. exact H. Qed.
  Lemma admm_step_lk (s : solver K) : post (admm_step E s) (fun s' => lk (sv_work s) (sv_work s')).
  Proof. eapply post_weaken; [apply admm_step_post|]. cbv beta. intros s' H. decompose [and] H. apply lk_fx; auto. Qed.
  Lemma check_lk (s : solver K) ap : post (check_termination s ap) (fun r => lk (sv_work s) (sv_work (snd r))).
  Proof. eapply post_weaken; [apply check_termination_post|]. cbv beta zeta. intros s' H. decompose [and] H. apply lk_fx; auto. Qed.
  Lemma refresh_lk rho (w : work K) : post (refresh_rho_vec rho w) (lk w).
  Proof. eapply post_weaken; [apply refresh_post|]. intros w' (a & b & ->). exact (lk_refl w). Qed.
  Lemma update_rho_lk (s : solver K) r : post (update_rho E s r) (fun x => lk (sv_work s) (sv_work (snd x))).
  Proof.
    unfold update_rho. destruct (nleb _ _); [apply post_ret; apply lk_refl|]. set (s1 := if _ && _ then _ else s).
    assert (H1 : w_linsys (sv_work s1) = w_linsys (sv_work s)) by (subst s1; destruct (_ && _); reflexivity). clearbody s1. cbv zeta. rs.
    eapply post_bindP with (P := lk (sv_work s)).
    { destruct (tr _); [eapply post_weaken; [apply refresh_lk|]; intros w Hw; unfold lk in *; congruence|]. apply post_ret. apply lk_eq. exact H1. }
    intros w Hw. destruct (w_linsys w) as [ls|] eqn:El; [|apply post_none]. eapply post_bindP; [apply upd_rho_lf|]. intros [fl ls'] Hl. cbn [snd] in *.
    assert (HF : lk (sv_work s) (set_w_linsys (Some ls') w)) by (unfold lk in *; rs; rewrite <- Hw, El; cbn [option_map]; congruence).
    set (w2 := set_w_linsys (Some ls') w) in *. clearbody w2. destruct (_ =? 0); unfold toc; rs; apply post_ret; exact HF.
  Qed.
  Lemma adapt_rho_lk (s : solver K) : post (adapt_rho E s) (fun x => lk (sv_work s) (sv_work (snd x))).
  Proof.
    unfold adapt_rho. rs. destruct (_ || _).
    - eapply post_bindP; [apply update_rho_lk|]. intros [fl s1] H. walk; exact H.
    - walk. apply lk_refl.
  Qed.
  Lemma cold_lk (w : work K) : post (cold_start w) (lk w).
  Proof. eapply post_weaken; [apply cold_start_post|]. intros w' ->. apply lk_eq; reflexivity. Qed.
  Lemma store_lk (s : solver K) so : post (store_solution s so) (fun r => lk (sv_work s) (sv_work (fst r))).
  Proof.
    unfold store_solution. destruct so as [so|]; [|apply post_ret; apply lk_refl]. destruct (has_solution _).
    - eapply post_bindP with (P := fun r => lk (sv_work s) (snd r)). { destruct (tr _); walk; apply lk_eq; reflexivity. }
      intros [[x y] w1] H. cbn [snd] in H. walk. exact H.
    - do 2 walk1. eapply post_bindP; [apply cold_lk|]. intros w1 H1. rs_in H1.
      eapply post_bindP with (P := fun r => lk (sv_work s) (fst r)). { destruct (_ || _); walk; exact H1. }
      intros [w2 so2] H2. cbn [fst] in H2. eapply post_bindP with (P := fun r => lk (sv_work s) (fst r)). { destruct (_ || _); walk; exact H2. }
      intros [w3 so3] H3. cbn [fst] in H3. apply post_ret. exact H3.
  Qed.
  Lemma polish_lk (s : solver K) : post (polish E s) (fun r => lk (sv_work s) (sv_work (snd r))).
  Proof.
    unfold polish. walk1. walk1. rs. destruct (_ =? 0); [apply post_ret; exact (lk_refl (sv_work s))|]. walk1. walk1. destruct o as [plsh|]; [|apply post_ret; exact (lk_refl (sv_work s))].
    do 11 (apply post_bind; intros ? ?). eapply post_bindP; [apply update_info_polish_lk|]. intros s1 HK1. rs_in HK1. destruct (polish_successful _ _).
    - do 3 walk1. apply post_ret. exact HK1.
    - apply post_ret. exact HK1.
  Qed.

  Lemma pass_lk (s : solver K) it f : post (admm_pass E s it f) (fun o => lk (sv_work s) (sv_work (outS o))).
  Proof.
    destruct f as [[cc cp] ca]. unfold admm_pass. eapply post_bindP; [apply admm_step_lk|]. intros s1 H1.
    unfold is_interrupted. cbv zeta. set (s2 := set_sv_world _ s1). assert (H2 : lk (sv_work s) (sv_work s2)) by exact H1. clearbody s2.
    destruct (env_int _ _). { walk1. apply post_ret. exact H2. }
    destruct (temp_run_time_eq E s2) as [t ->]. set (s3 := snd _). assert (H3 : lk (sv_work s) (sv_work s3)) by exact H2. clearbody s3.
    destruct (_ && _). { walk1. apply post_ret. exact H3. }
    destruct (decide_adapt_post E s3 it ca) as (D1 & _). destruct (decide_adapt E s3 it ca) as [ca4 s4]. cbn [snd] in *.
    assert (H4 : lk (sv_work s) (sv_work s4)) by (rewrite D1; auto).
    eapply post_bindP with (P := fun s' => lk (sv_work s) (sv_work s')).
    { destruct (_ || _); [|apply post_ret; auto]. eapply post_weaken; [apply update_info_lk|]. intros; eapply lk_trans; eauto. }
    intros s5 H5. eapply post_bindP with (P := fun r => lk (sv_work s) (sv_work (snd r))).
    { destruct (_ && _); [|apply post_ret; auto]. eapply post_weaken; [apply check_lk|]. intros; eapply lk_trans; eauto. }
    intros [stop s6] H6. cbn [snd] in H6. destruct stop; [apply post_ret; exact H6|].
    set (s7 := set_sv_work _ s6). assert (H7 : lk (sv_work s) (sv_work s7)) by exact H6. clearbody s7.
    set (ca7 := if _ && _ then _ else _). clearbody ca7.
    eapply post_bindP with (P := fun r => lk (sv_work s) (sv_work (snd r))).
    { destruct ca7; [|apply post_ret; auto]. eapply post_weaken; [apply adapt_rho_lk|]. intros; eapply lk_trans; eauto. }
    intros [fl s8] H8. cbn [snd] in H8. destruct (tr fl); [apply post_ret; exact H8|]. apply post_ret. cbn [outS].
    set (s9 := if tr _ then _ else s8). assert (H9 : lk (sv_work s) (sv_work s9)) by (subst s9; destruct (tr _); exact H8). clearbody s9.
    destruct (_ || _); exact H9.
  Qed.
  Lemma loop_lk k : forall it f (s : solver K), post (admm_loop E k it f s) (fun o => lk (sv_work s) (sv_work (outS (fst o)))).
  Proof.
    induction k as [|k IH]; intros it f s; cbn [admm_loop]; [apply post_ret; apply lk_refl|].
    eapply post_bindP; [apply pass_lk|]. intros [s1 f1|s1 f1|s1 fl] H; cbn [outS] in H; [|apply post_ret; exact H..].
    eapply post_weaken; [apply IH|]. intros o Ho. eapply lk_trans; eauto.
  Qed.
  Lemma solve_exit_lk (s : solver K) fl : post (solve_exit s fl) (fun r => lk (sv_work s) (sv_work (snd r))).
  Proof. unfold solve_exit, pop_sec, end_interrupt_listener. rs. destruct (g_sections _); walk. apply lk_refl. Qed.
  Lemma finish_lk (s : solver K) it f : post (finish_solve E s it f) (fun r => lk (sv_work s) (sv_work (snd r))).
  Proof.
    unfold finish_solve. eapply post_bindP with (P := fun s' => lk (sv_work s) (sv_work s')).
    { destruct f as [[cc cp] ca]. unfold final_check. destruct cc; [apply post_ret; apply lk_refl|].
      eapply post_bindP with (P := fun s' => lk (sv_work s) (sv_work s')). { destruct cp; [apply post_ret; apply lk_refl|apply update_info_lk]. }
      intros s1 H1. set (s2 := if _ && _ then _ else s1). assert (H2 : lk (sv_work s) (sv_work s2)) by (subst s2; destruct (_ && _); exact H1). clearbody s2.
      eapply post_bindP; [apply check_lk|]. intros r Hr. apply post_ret. eapply lk_trans; eauto. }
    intros s1 H1. eapply post_bindP with (P := fun s' => lk (sv_work s) (sv_work s')).
    { unfold final_objective. destruct (has_solution _); [|apply post_ret; auto]. eapply post_bindP; [apply obj_post|]. intros [[[p dv] g] w] H. cbn [snd] in H. decompose [and] H. apply post_ret. rs. eapply lk_trans; [exact H1|]. apply lk_fx; auto. }
    intros s2 H2. set (s3 := if _ && _ then _ else s2). assert (H3 : lk (sv_work s) (sv_work s3)) by (subst s3; destruct (_ && _); exact H2). clearbody s3.
    eapply post_bindP with (P := fun s' => lk (sv_work s) (sv_work s')).
    { unfold final_status. eapply post_bindP with (P := fun s' => lk (sv_work s) (sv_work s')).
      { destruct (_ =? _); [|apply post_ret; auto]. eapply post_bindP; [apply check_lk|]. intros r Hr. pose proof (lk_trans _ _ _ H3 Hr). destruct (fst r); walk; auto. }
      intros s4 H4. destruct (_ =? _); [|apply post_ret; auto]. eapply post_bindP; [apply check_lk|]. intros r Hr. pose proof (lk_trans _ _ _ H4 Hr). destruct (fst r); walk; auto. }
    intros s4 H4. unfold toc. set (s5 := set_sv_info _ (set_sv_world _ _)). assert (H5 : lk (sv_work s) (sv_work s5)) by exact H4. clearbody s5.
    eapply post_bindP with (P := fun r => lk (sv_work s) (sv_work (snd r))).
    { destruct (_ && _); [|apply post_ret; auto]. eapply post_bindP; [apply polish_lk|]. intros [fl s6] H6. cbn [snd] in *. unfold pop_sec. destruct (g_sections _); [apply post_none|]. apply post_ret. cbn [snd]. rs. eapply lk_trans; [exact H5|exact H6]. }
    intros [fl s6] H6. cbn [snd] in H6. destruct (0 <? fl). { eapply post_weaken; [apply solve_exit_lk|]. intros r Hr. eapply lk_trans; eauto. }
    set (s7 := finish_times s6). assert (H7 : lk (sv_work s) (sv_work s7)) by (subst s7; unfold finish_times; cbv zeta; destruct (tr (w_first_run (sv_work s6))); exact H6). clearbody s7.
    eapply post_bindP; [apply store_lk|]. intros r Hr. pose proof (lk_trans _ _ _ H7 Hr) as H8. eapply post_weaken; [apply solve_exit_lk|]. intros r' Hr'. eapply lk_trans; [exact H8|exact Hr'].
  Qed.
  Lemma solve_lk (s : solver K) : post (solve E s) (fun r => lk (sv_work s) (sv_work (snd r))).
  Proof.
    unfold solve. eapply post_bindP with (P := fun s' => lk (sv_work s) (sv_work s')).
    { unfold begin_solve. cbv zeta. set (s1 := if _ =? 1 then _ else s). assert (H1 : sv_work s1 = sv_work s) by (subst s1; destruct (_ =? 1); auto). clearbody s1.
      unfold start_interrupt_listener, push_sec. rs. destruct (tr _); [apply post_ret; exact (lk_refl (sv_work s))|]. eapply post_bindP; [apply cold_lk|]. intros w Hw. apply post_ret. exact Hw. }
    intros s1 H1. eapply post_bindP; [apply loop_lk|]. intros [o it] Ho. cbn [fst] in Ho. pose proof (lk_trans _ _ _ H1 Ho) as H2.
    destruct o as [s2 f2|s2 f2|s2 fl]; cbn [outS] in H2.
    - eapply post_weaken; [apply finish_lk|]. intros r Hr. exact (lk_trans _ _ _ H2 Hr).
    - eapply post_weaken; [apply finish_lk|]. intros r Hr. exact (lk_trans _ _ _ H2 Hr).
    - eapply post_weaken; [apply solve_exit_lk|]. intros r Hr. exact (lk_trans _ _ _ H2 Hr).
  Qed.

  Lemma scale_pass_lk (w : work K) sc : post (scale_pass w sc) (fun r => lk w (fst r)).
  Proof. unfold scale_pass. do 2 walk1. walk1. do 13 walk1. apply post_ret. cbn [fst]. exact (lk_refl w). Qed.
  Lemma scale_data_lk st (w : work K) : post (scale_data st w) (lk w).
  Proof.
    unfold scale_data. walk1. cbv zeta. apply post_bind. intros [w1 s1] HF.
    assert (H1 : lk w w1).
    { revert HF. set (s0 := set_sc_Einv _ _). clearbody s0.
      assert (HG : forall n i w0 s0, for_aux n i (fun _ (r : work K * scaling K) => scale_pass (fst r) (snd r)) (w0, s0) = Some (w1, s1) -> lk w0 w1).
      { induction n as [|n IH]; intros i w0 s2 HF; cbn [for_aux] in HF; [injection HF as <- _; apply lk_refl|].
        destruct (scale_pass _ _) as [[w2 s3]|] eqn:EP; [|discriminate]. cbn [fst snd] in EP. apply scale_pass_lk in EP. cbn [fst] in EP. apply IH in HF. eapply lk_trans; eauto. }
      unfold for_. apply HG. }
    walk. exact H1.
  Qed.
  Lemma unscale_data_lk (w : work K) : post (unscale_data w) (lk w).
  Proof. unfold unscale_data. walk. exact (lk_refl w). Qed.
  Lemma warm_lk (s : solver K) x y : post (warm_start s x y) (fun r => lk (sv_work s) (sv_work (snd r))).
  Proof.
    unfold warm_start. cbv zeta. set (s1 := if negb _ then _ else s). assert (H1 : sv_work s1 = sv_work s) by (subst s1; destruct (negb _); auto). clearbody s1. rewrite <- H1.
    eapply post_bindP with (P := lk (sv_work s1)). { destruct x; walk; exact (lk_refl (sv_work s1)). }
    intros w1 Hw1. eapply post_bindP with (P := lk (sv_work s1)). { destruct y; walk; exact Hw1. }
    intros w2 Hw2. eapply post_bindP with (P := lk (sv_work s1)). { destruct x; walk; exact Hw2. }
    intros w3 Hw3. walk. exact Hw3.
  Qed.
  Lemma set_rho_vec_lk (s : solver K) : post (set_rho_vec s) (fun r => lk (sv_work s) (sv_work (snd r))).
  Proof. unfold set_rho_vec. walk1. walk1. eapply post_bindP; [apply refresh_lk|]. intros w Hw. apply post_ret. exact Hw. Qed.
  Lemma update_rho_vec_lk (s : solver K) : post (update_rho_vec E s) (fun r => lk (sv_work s) (sv_work (snd r))).
  Proof.
    unfold update_rho_vec. eapply post_bindP; [apply set_rho_vec_lk|]. intros [ch s1] H1. cbn [snd] in H1. destruct ch; [|apply post_ret; exact H1].
    destruct (w_linsys (sv_work s1)) as [ls|] eqn:El; [|apply post_none]. eapply post_bindP; [apply upd_rho_lf|]. intros [fl ls'] Hl. cbn [snd] in *. apply post_ret. cbn [snd]. rs.
    unfold lk in *. rs. rewrite <- H1, El. cbn [option_map]. congruence.
  Qed.
  Lemma begin_update_lk (s : solver K) : lk (sv_work s) (sv_work (begin_update s)).
  Proof. destruct (begin_update_eq s) as (t & c & ->). exact (lk_refl (sv_work s)). Qed.
  Lemma end_update_lk (s : solver K) : post (end_update E s) (fun s' => lk (sv_work s) (sv_work s')).
  Proof. destruct (end_update_eq E s) as (m & t & g & ->). apply post_ret. exact (lk_refl (sv_work s)). Qed.
  Lemma update_vec_lk (s : solver K) q l u : post (update_data_vec E s q l u) (fun r => lk (sv_work s) (sv_work (snd r))).
  Proof.
    unfold update_data_vec. pose proof (begin_update_lk s) as H0. set (s0 := begin_update s) in *. clearbody s0.
    eapply post_bindP with (P := fun r => lk (sv_work s) (sv_work (snd (fst r)))).
    { destruct l as [l|], u as [u|]; [| | |apply post_ret; exact H0]; do 3 walk1; (destruct (negb _); [apply post_ret; exact H0|]);
        (match goal with |- post (if ?b then _ else _) _ => destruct b end; [eapply post_bindP; [apply update_rho_vec_lk|]; intros r Hr; apply post_ret; cbn [fst snd]; eapply lk_trans; [exact H0|exact Hr]|apply post_ret; exact H0]). }
    intros [[fl s1] failed] H1. cbn [fst snd] in H1. destruct failed; [apply post_ret; exact H1|].
    eapply post_bindP with (P := fun s' => lk (sv_work s) (sv_work s')). { destruct q; walk; exact H1. }
    intros s2 H2. eapply post_bindP; [apply end_update_lk|]. intros s3 H3. apply post_ret. eapply lk_trans; eauto.
  Qed.
  Lemma update_mat_lk (s : solver K) Px Pidx Pn Ax Aidx An : post (update_data_mat E s Px Pidx Pn Ax Aidx An) (fun r => lk (sv_work s) (sv_work (snd r))).
  Proof.
    unfold update_data_mat. pose proof (begin_update_lk s) as H0. set (s0 := begin_update s) in *. clearbody s0. cbv zeta.
    do 2 walk1. do 4 (match goal with |- post (if ?b then _ else _) _ => destruct b; [apply post_ret; exact H0|] end).
    eapply post_bindP with (P := lk (sv_work s)).
    { match goal with |- post (if ?b then _ else _) _ => destruct b end; [|apply post_ret; auto]. eapply post_weaken; [apply unscale_data_lk|]. intros w Hw. eapply lk_trans; eauto. }
    intros w1 H1'. eapply post_bindP with (P := lk (sv_work s)). { destruct Px; walk; exact H1'. }
    intros w2 H2'. eapply post_bindP with (P := lk (sv_work s)). { destruct Ax; walk; exact H2'. }
    intros w3 H3'. eapply post_bindP with (P := lk (sv_work s)).
    { match goal with |- post (if ?b then _ else _) _ => destruct b end; [|apply post_ret; auto]. eapply post_weaken; [apply scale_data_lk|]. intros w Hw. eapply lk_trans; eauto. }
    intros w4 H4'. destruct (w_linsys w4) as [ls|] eqn:El; [|apply post_none].
    eapply post_bindP with (P := fun r => lf (snd r) = lf ls). { match goal with |- post (if ?b then _ else _) _ => destruct b end; apply upd_mat_lf. }
    intros [fl ls'] Hl. cbn [fst snd] in *. assert (HF : lk (sv_work s) (set_w_linsys (Some ls') w4)) by (unfold lk in *; rs; rewrite <- H4', El; cbn [option_map]; congruence).
    eapply post_bindP; [apply end_update_lk|]. intros s5 H5'. apply post_ret. cbn [snd]. eapply lk_trans; [exact HF|exact H5'].
  Qed.

  Lemma run_lk c (s : solver K) fl s' : run E c s = Some (fl, HSolver s') -> lk (sv_work s) (sv_work s').
  Proof.
    assert (HO : forall f fl, on_solver (HSolver s) f = Some (fl, HSolver s') -> post (f s) (fun r => lk (sv_work s) (sv_work (snd r))) -> lk (sv_work s) (sv_work s')).
    { intros f fl0 H HP. unfold on_solver in H. destruct (f s) as [[a b]|]; [|discriminate]. injection H as <- <-. exact (HP _ eq_refl). }
    intros HC. destruct c; cbn [run] in HC.
    - eapply HO; [exact HC|]. apply solve_lk.
    - eapply HO; [exact HC|]. apply update_vec_lk.
    - eapply HO; [exact HC|]. apply update_mat_lk.
    - eapply HO; [exact HC|]. apply update_rho_lk.
    - unfold osqp_update_settings in HC. destruct (validate_settings new false); [injection HC as _ <-; apply lk_refl|]. destruct new as [st|]; [|discriminate].
      destruct (w_linsys (sv_work s)); [|discriminate]. injection HC as _ <-. exact (lk_refl (sv_work s)).
    - eapply HO; [exact HC|]. apply warm_lk.
    - unfold osqp_cold_start in HC. destruct (cold_start (sv_work s)) as [w|] eqn:Ec; [|discriminate]. injection HC as _ <-. exact (cold_lk _ _ Ec).
    - unfold osqp_get_solution in HC. destruct sol as [o|]; [|injection HC as _ <-; apply lk_refl].
      destruct (store_solution s (Some o)) as [[s1 o1]|] eqn:Er; [|discriminate]. injection HC as _ <-. exact (store_lk _ _ _ Er).
  Qed.


  (** ** The matrix is a function of the problem and the penalties *)
  Lemma slots_det {X} (col row : X -> Z) col' row' (val val' : X -> K) items SL SL' (M M' : csc K) (mapped : X -> bool) (d : K) :
    placed col row val items SL M -> placed col' row' val' items SL' M' -> nnz M' = nnz M ->
    (forall x, In x items -> mapped x = true -> SL' x = SL x /\ val' x = val x) ->
    (forall x, In x items -> mapped x = false -> val x = d /\ val' x = d) ->
    forall k, 0 <= k < nnz M -> znth n0 (cx M') k = znth n0 (cx M) k.
  Proof.
    intros PL PL' Hn Hm Hu k Hk.
    assert (F : In k (map SL items)). { eapply Permutation_in; [apply Permutation_sym, (pl_perm _ _ _ _ _ _ PL)|]. apply In_zseq. lia. }
    assert (F' : In k (map SL' items)). { eapply Permutation_in; [apply Permutation_sym, (pl_perm _ _ _ _ _ _ PL')|]. apply In_zseq. lia. }
    apply in_map_iff in F as (x & Ex & Hx). apply in_map_iff in F' as (y & Ey & Hy).
    destruct (pl_item _ _ _ _ _ _ PL x Hx) as (_ & _ & _ & Vx). destruct (pl_item _ _ _ _ _ _ PL' y Hy) as (_ & _ & _ & Vy). rewrite Ex in Vx. rewrite Ey in Vy.
    destruct (mapped x) eqn:Mx.
    - destruct (Hm x Hx Mx) as (Es & Ev). destruct (pl_item _ _ _ _ _ _ PL' x Hx) as (_ & _ & _ & Vx'). rewrite Es, Ex in Vx'. congruence.
    - destruct (mapped y) eqn:My.
      + destruct (Hm y Hy My) as (Es & Ev). destruct (pl_item _ _ _ _ _ _ PL y Hy) as (_ & _ & _ & Vy'). rewrite <- Es, Ey in Vy'. congruence.
      + destruct (Hu x Hx Mx), (Hu y Hy My). congruence.
  Qed.

  Definition exactly (ls : linsys K) : Prop := forall M, ls_KKT ls = Some M -> zlen (cx M) = cnzmax M.
  Lemma fac_det (ls ls' : linsys K) P A sigma r r' : ls_ok ls P A sigma r -> ls_ok ls' P A sigma r' -> lf ls' = lf ls -> exactly ls ->
    (forall j, 0 <= j < cm A -> r' j = r j) -> ls_fac ls' = ls_fac ls.
  Proof.
    intros H H' HL HX HR. destruct (lo_placed _ _ _ _ _ H) as (q & SL & _ & _ & PL & _ & _ & _ & MP & MA & MR).
    destruct (lo_placed _ _ _ _ _ H') as (q' & SL' & _ & _ & PL' & _ & _ & _ & MP' & MA' & MR').
    pose proof (lo_KKT _ _ _ _ _ H) as EK. pose proof (lo_KKT _ _ _ _ _ H') as EK'. pose proof (lo_nz _ _ _ _ _ H) as HZ. pose proof (HX _ EK) as HE.
    unfold lf in HL. rewrite EK, EK' in HL. cbn [option_map] in HL. injection HL as _ EP EA ER F1 F2 F3 F4 F5 F6 F7.
    assert (En : nnz (ls_fac ls') = nnz (ls_fac ls)) by (unfold nnz; rewrite F2; unfold colp; rewrite F3; reflexivity).
    assert (EX : cx (ls_fac ls') = cx (ls_fac ls)).
    { apply (list_ext_znth n0); [auto|]. intros k Hk. rewrite F7, HE, HZ in Hk.
      eapply (slots_det _ _ _ _ _ _ _ _ _ _ _ (fun x => match x with ID _ => false | _ => true end) (nadd n0 sigma) PL PL' En); [| |exact Hk].
      - intros x Hx Hm. apply In_kitems in Hx. destruct x as [j k'|j|j k'|j]; try discriminate; cbn [kval].
        + assert (HI : In (j, k') (pairs P)) by (apply In_pairs; auto). rewrite <- MP, <- MP', EP by auto. auto.
        + assert (HI : In (j, k') (pairs A)) by (apply In_pairs; auto). rewrite <- MA, <- MA', EA by auto. auto.
        + rewrite <- MR, <- MR', ER by auto. auto.
      - intros x Hx Hm. destruct x; try discriminate. auto. }
    clear - F1 F2 F3 F4 F5 F6 EX. destruct (ls_fac ls) as [a1 a2 a3 a4 a5 a6 a7], (ls_fac ls') as [b1 b2 b3 b4 b5 b6 b7]. cbn [cm cn cp ci cx cnzmax cnz] in *. congruence.
  Qed.

  Lemma lsim_det st (w w' : work K) (ls ls' : linsys K) : wok st w -> wok st w' -> w_linsys w = Some ls -> w_linsys w' = Some ls' -> lf ls' = lf ls -> exactly ls ->
    w_data w' = w_data w -> (tr (st_rho_is_vec st) = true -> w_constr_type w' = w_constr_type w) ->
    (forall j, 0 <= j < d_m (w_data w) -> nsub n0 (rinv ls j) = nopp (rinv ls j)) -> lsim ls ls'.
  Proof.
    intros W W' El El' HL HX Ed Ec HN.
    destruct (wo_ls _ _ W) as (l1 & r & E1 & O & RR & LR). destruct (wo_ls _ _ W') as (l2 & r' & E2 & O' & RR' & LR').
    rewrite El in E1. rewrite El' in E2. injection E1 as <-. injection E2 as <-. rewrite Ed in *.
    assert (EV : ls_rho_inv_vec ls' = ls_rho_inv_vec ls /\ (ls_rho_inv_vec ls = None -> ls_rho_inv ls' = ls_rho_inv ls)).
    { unfold ls_rho in LR, LR'. destruct (tr _).
      - destruct LR as (ct & C1 & C2), LR' as (ct' & C1' & C2'). rewrite Ec, C1 in C1' by auto. injection C1' as <-. rewrite C2, C2'. split; [auto|discriminate].
      - destruct LR as (C1 & C2), LR' as (C1' & C2'). rewrite C1, C1'. split; [auto|congruence]. }
    destruct EV as (EV & ES).
    assert (ER : forall j, rinv ls' j = rinv ls j) by (intros j; unfold rinv; rewrite EV; destruct (ls_rho_inv_vec ls); auto).
    assert (EF : ls_fac ls' = ls_fac ls).
    { eapply fac_det; [exact O|exact O'|exact HL|exact HX|]. intros j Hj. rewrite (do_Am _ (wo_d _ _ W)) in Hj. specialize (RR j Hj). specialize (RR' j Hj). specialize (HN j Hj). rewrite ER in RR'. unfold negd in *. destruct RR, RR'; congruence. }
    pose proof (lo_KKT _ _ _ _ _ O) as EK. pose proof (lo_KKT _ _ _ _ _ O') as EK'.
    unfold lf in HL. injection HL as A5 A6 A7 A8 A9. destruct O, O'. constructor; auto; congruence.
  Qed.

  (** ** The values fill their array exactly *)
  Lemma exactly_lf (ls ls' : linsys K) : lf ls' = lf ls -> exactly ls -> exactly ls'.
  Proof.
    unfold lf, exactly. intros HL HX M HM. injection HL as _ _ _ _ HP. rewrite HM in HP. destruct (ls_KKT ls) as [N|] eqn:EN; [|discriminate].
    cbn [option_map] in HP. injection HP as F1 F2 F3 F4 F5 F6 F7. rewrite F7, F5. apply HX. auto.
  Qed.
  Lemma symperm_exact jz jx (M : csc K) p t : post (csc_symperm jz jx M p t) (fun r => zlen (cx (fst r)) = cnzmax (fst r)).
  Proof.
    unfold csc_symperm. cbv zeta. walk1. walk1. apply post_bind. intros [[Cp w1] x] _.
    eapply post_bindP with (P := fun s => zlen (snd (fst s)) = zlen (cx (csc_spalloc jz jx (cn M) (cn M) a false))).
    { apply post_for; [reflexivity|]. intros i s Hs. do 3 walk1. apply post_for; [exact Hs|]. clear s Hs. intros j [[[w2 Ci] Cx] mp] Hs. cbn [fst snd] in *.
      walk1. walk1; [apply post_ret; exact Hs|]. do 5 walk1. eapply post_bindP; [eapply post_len; [reflexivity|exact Hs]|]. intros x' Hx'. destruct mp; [walk1|]; apply post_ret; exact Hx'. }
    intros [[[w2 Ci] Cx] mp] Hs. cbn [fst snd] in Hs. apply post_ret. cbn [fst cx cnzmax]. rewrite Hs. unfold csc_spalloc. cbn [cx cnzmax]. rewrite zlen_zrep; lia.
  Qed.
  Lemma form_exact jz jx (P A : csc K) sg rv rsc mP mA mR : post (form_KKT jz jx P A false sg rv rsc mP mA mR) (fun r => zlen (cx (fst (fst (fst r)))) = cnzmax (fst (fst (fst r)))).
  Proof.
    unfold form_KKT. cbv zeta. do 3 walk1. set (C := csc_spalloc _ _ _ _ _ _). assert (HC : zlen (cx C) = cnzmax C) by (unfold C, csc_spalloc; cbn [cx cnzmax]; rewrite zlen_zrep; lia).
    clearbody C.
    assert (FB : forall (s : kst) (M : csc K) mp a b tr, zlen (snd s) = cnzmax C -> post (kkt_fill_block s M mp a b tr) (fun r => zlen (snd (fst r)) = cnzmax C)).
    { intros s M mp x y tr Hs. unfold kkt_fill_block, for_cols. apply post_for; [exact Hs|]. intros i s1 HQ. do 2 walk1. apply post_for; [exact HQ|]. clear s1 HQ. intros j [[[p ii] xx] m1] HQ. cbn [fst snd] in *.
      do 5 walk1. eapply post_bindP; [eapply (post_len _ xx (cx C)); [reflexivity|congruence]|]. intros x' Hx'. walk1. apply post_ret. cbn [fst snd]. congruence. }
    assert (FD : forall (s : @kst K) mp a b, zlen (snd s) = cnzmax C -> post (kkt_fill_diag_zeros s mp a b) (fun r => zlen (snd (fst r)) = cnzmax C)).
    { intros s mp x y Hs. unfold kkt_fill_diag_zeros. apply post_for; [exact Hs|]. intros j [[[p ii] xx] m1] HQ. cbn [fst snd] in *. cbv zeta.
      do 2 walk1. eapply post_bindP; [eapply (post_len _ xx (cx C)); [reflexivity|congruence]|]. intros x' Hx'. do 2 walk1. apply post_ret. cbn [fst snd]. congruence. }
    assert (FM : forall (s : kst) (M : csc K) a, zlen (snd s) = cnzmax C -> post (kkt_fill_missing_diag_zeros s M a) (fun r => zlen (snd r) = cnzmax C)).
    { intros s M x Hs. unfold kkt_fill_missing_diag_zeros. apply post_for; [exact Hs|]. intros j [[p ii] xx] HQ. cbn [fst snd] in *.
      apply post_bind; intros md _. destruct md; [|apply post_ret; exact HQ]. do 2 walk1. eapply post_bindP; [eapply (post_len _ xx (cx C)); [reflexivity|congruence]|]. intros x' Hx'. do 2 walk1. apply post_ret. cbn [fst snd]. congruence. }
    eapply post_bindP with (P := fun r => zlen (snd (fst (fst (fst r)))) = cnzmax C).
    { unfold kkt_assemble. cbv zeta. do 6 walk1. eapply post_bindP; [apply FB; exact HC|]. intros [s1 m1] HQ'. cbn [fst] in HQ'. eapply post_bindP; [apply FM; exact HQ'|]. intros s2 H2'.
      eapply post_bindP; [apply FB; exact H2'|]. intros [s3 m3] H3'. cbn [fst] in H3'. eapply post_bindP; [apply FD; exact H3'|]. intros [[[p4 i4] x4] m4] H4'. cbn [fst snd] in H4'. walk1. apply post_ret. exact H4'. }
    intros [[[[[p i] x] m1] m2] m3] Hx. cbn [fst snd] in Hx.
    eapply post_bindP with (P := fun y => zlen y = zlen x).
    { unfold kkt_shifts_param1. apply post_for; [auto|]. intros k y Hy. do 2 walk1. eapply post_len; [reflexivity|auto]. }
    intros y Hy. eapply post_bindP with (P := fun z => zlen z = zlen x).
    { unfold kkt_shifts_param2. apply post_for; [auto|]. intros k z Hz. do 3 walk1. eapply post_len; [reflexivity|auto]. }
    intros z Hz. apply post_ret. cbn [fst cx cnzmax]. congruence.
  Qed.
  Lemma init_exact (P A : csc K) rv st : post (init_linsys_solver E P A rv st false) (fun r => forall ls, snd r = Some ls -> exactly ls).
  Proof.
    unfold init_linsys_solver. cbv zeta. do 3 walk1. eapply post_bindP; [apply form_exact|]. intros [[[M o1] o2] o3] HM. cbn [fst] in HM.
    destruct o1 as [mP|]; [|apply post_none]. destruct o2 as [mA|]; [|apply post_none]. destruct o3 as [mR|]; [|apply post_none].
    eapply post_bindP with (P := fun r => zlen (cx (fst (fst r))) = cnzmax (fst (fst r))).
    { unfold permute_KKT. destruct (env_amd _ _ _ _); [|apply post_ret; exact HM]. do 2 walk1. eapply post_bindP; [apply symperm_exact|]. intros [C t] HC. cbn [fst snd] in *. destruct t; [|apply post_none]. do 3 walk1. apply post_ret. exact HC. }
    intros [[C pm] [[[a' b'] c']|]] HC; [|apply post_none]. cbn [fst] in HC. destruct (_ <? 0); apply post_ret; cbn [snd]; [discriminate|]. intros ls [= <-] N. cbn [ls_KKT]. intros [= <-]. exact HC.
  Qed.

  Lemma setup_exact g P q A l u m n ust fl s g' ls : osqp_setup E g P q A l u m n (Some ust) = Some (fl, Some s, g') -> w_linsys (sv_work s) = Some ls -> exactly ls.
  Proof.
    intros H. assert (HP : post (osqp_setup E g P q A l u m n (Some ust)) (fun r => forall s, snd (fst r) = Some s -> forall ls, w_linsys (sv_work s) = Some ls -> exactly ls)).
    2:{ exact (HP _ H s eq_refl ls). }
    clear H s fl g' ls. unfold osqp_setup. apply post_bind. intros bad _. destruct bad; [apply post_ret; cbn [fst snd]; discriminate|]. destruct (validate_settings _ _); [apply post_ret; cbn [fst snd]; discriminate|].
    do 7 (apply post_bind; intros ? _). set (w0 := initial_work _ _ _ _ _ _ _ _ _).
    assert (H0 : lk w0 w0) by apply lk_refl. set (HH := fun w : work K => lk w0 w).
    eapply post_bindP with (P := fun s => HH (sv_work s)).
    { destruct (tr _); [|apply post_ret; exact H0]. eapply post_bindP; [apply scale_data_lk|]. intros w Hw. unfold pop_sec. rs. destruct (g_sections _); [apply post_none|]. apply post_ret. exact Hw. }
    intros s1 H1'. eapply post_bindP with (P := fun s => HH (sv_work s)).
    { destruct (tr _); [|apply post_ret; exact H1']. eapply post_bindP; [apply set_rho_vec_lk|]. intros r Hr. apply post_ret. eapply lk_trans; [exact H1'|exact Hr]. }
    intros s2 H2'. eapply post_bindP; [apply init_exact|]. intros [flag [ls|]] HX; cbn [snd] in HX.
    - specialize (HX ls eq_refl). eapply post_bindP; [apply cold_lk|]. intros w Hw. rs_in Hw. apply post_bind. intros i _. unfold toc, pop_sec.
      match goal with |- post (match ?e with Some _ => _ | None => None end) _ => destruct e as [s3|] eqn:E3; [|apply post_none] end.
      apply post_ret. cbn [fst snd]. intros s [= <-]. rs. assert (E4 : lk w (sv_work s3)) by (revert E3; destruct (tr (st_allocate_solution ust)); rs; (match goal with |- context [match ?g with [] => None | _ => _ end] => destruct g end; [discriminate|]); intros [= <-]; exact (lk_refl w)).
      intros l2 El2. unfold lk in Hw, E4. rewrite El2, Hw in E4. rs_in E4. cbn [option_map] in E4. eapply exactly_lf; [|exact HX]. exact (f_equal (fun o => match o with Some x => x | None => lf ls end) E4).
    - apply post_bind. intros i _. apply post_ret. cbn [fst snd]. intros s [= <-]. rs. intros l2 El2. exfalso. unfold HH, lk in H2'. rewrite El2 in H2'. discriminate H2'.
  Qed.
End Lin.
