(** The main loop run side by side on two solvers. *)
From Coq Require Import ZArith String List Bool Lia.
From Verif Require Import Num Arr ArrFacts Csc CscSpec CscFacts CscFacts2 Scatter CscFacts3 CscFacts5 Vec Types RecSimp Kkt Linsys Scaling Validate Auxil VecFacts LinsysFacts LinsysSolve Inv InvStep InvApi InvPolish InvSolve Polish Api TwinKer TwinStep TwinTerm.
Import ListNotations.
Open Scope Z_scope.
Local Open Scope opt_scope.

Section Solve.
  Context {K : NumOps}.
  Variables E E' : Env K.
  Hypothesis ES : env_sim E E'.
  Hypothesis EO : env_ok E.
  Hypothesis EO' : env_ok E'.
  Hypothesis NZ : @neqb K n0 n0 = true.
  Variables pS pI pU : Prop.
  Notation ts := (@ts K E E' pS pI pU).
  Notation ti := (@ti K pS pI pU).

  Ltac bb := eapply both_bind; [first [apply both_add_scaled | apply both_add_scaled3 | apply both_v1 | apply both_v2 | apply both_v3 | apply both_same]; rs; auto; try congruence|rs; let v := fresh "v" in intros v ? <-].

  Lemma ti_mono (c d c' d' : Prop) i i' : ti c d i i' -> (c' -> c) -> (d' -> d) -> ti c' d' i i'.
  Proof. intros [] H H'. constructor; auto. Qed.
  Lemma ts_mono (b c d b' c' d' : Prop) s s' : ts b c d s s' -> (b' -> b) -> (c' -> c) -> (d' -> d) -> ts b' c' d' s s'.
  Proof. intros [] H1 H2 H3. constructor; auto; [eapply tw_mono; eauto|eapply ti_mono; eauto]. Qed.

  (** A change of the clock and of fields no decision depends on. *)
  Lemma ts_world b c d s s' g g' : ts b c d s s' -> ts b c d (set_sv_world g s) (set_sv_world g' s').
  Proof. intros []. constructor; rs; auto. Qed.
  Lemma tw_printed st b c (w w' : work K) v v' : tw st b c w w' -> tw st b c (set_w_summary_printed v w) (set_w_summary_printed v' w').
  Proof. intros []. constructor; rs; auto; eapply ctw_core; [exact tw_c|reflexivity|reflexivity]. Qed.
  Lemma tw_updated st b c (w w' : work K) v v' : tw st b c w w' -> tw st b c (set_w_rho_updated v w) (set_w_rho_updated v' w').
  Proof. intros []. constructor; rs; auto; eapply ctw_core; [exact tw_c|reflexivity|reflexivity]. Qed.
  Lemma tw_lastk st b c (w w' : work K) v v' : tw st b c w w' -> tw st b c (set_w_last_rel_kkt v w) (set_w_last_rel_kkt v' w').
  Proof. intros []. constructor; rs; auto; eapply ctw_core; [exact tw_c|reflexivity|reflexivity]. Qed.
  Lemma ts_print b c d s s' v v' : ts b c d s s' -> ts b c d (set_sv_work (set_w_summary_printed v (sv_work s)) s) (set_sv_work (set_w_summary_printed v' (sv_work s')) s').
  Proof. intros []. constructor; rs; auto. apply tw_printed; auto. Qed.
  Lemma ts_updated b c d s s' v v' : ts b c d s s' -> ts b c d (set_sv_work (set_w_rho_updated v (sv_work s)) s) (set_sv_work (set_w_rho_updated v' (sv_work s')) s').
  Proof. intros []. constructor; rs; auto. apply tw_updated; auto. Qed.
  Lemma ts_lastk b c d s s' v : ts b c d s s' -> ts b c d (set_sv_work (set_w_last_rel_kkt v (sv_work s)) s) (set_sv_work (set_w_last_rel_kkt v (sv_work s')) s').
  Proof. intros []. constructor; rs; auto. apply tw_lastk; auto. Qed.
  Lemma ts_info b c d d' s s' i i' : ts b c d s s' -> ti c d' i i' -> i_setup_time i = i_setup_time (sv_info s) -> i_setup_time i' = i_setup_time (sv_info s') ->
    i_update_time i = i_update_time (sv_info s) -> i_update_time i' = i_update_time (sv_info s') -> ts b c d' (set_sv_info i s) (set_sv_info i' s').
  Proof.
    intros [] TI H1 H2 H3 H4. constructor; rs; auto.
    - destruct ts_q as (A & B & C). split; [auto|]. split; [auto|]. rs. rewrite H1, H3. auto.
    - destruct ts_q' as (A & B & C). split; [auto|]. split; [auto|]. rs. rewrite H2, H4. auto.
  Qed.

  Lemma est_eq st (w w' : work K) b : tw st b True w w' -> compute_rho_estimate st w' = compute_rho_estimate st w.
  Proof.
    intros T. unfold compute_rho_estimate. rewrite (tw_z _ _ _ _ _ T), (tw_Ax _ _ _ _ _ T I), (tw_Px _ _ _ _ _ T I), (tw_Aty _ _ _ _ _ T I), (tw_pr _ _ _ _ _ T I), (tw_dr _ _ _ _ _ T I), (ct_d _ _ _ (tw_c _ _ _ _ _ T)). reflexivity.
  Qed.

  Lemma update_rho_both b c d s s' rho : ts b c d s s' -> both (update_rho E s rho) (update_rho E' s' rho) (fun r r' => fst r' = fst r /\ ts b c d (snd r) (snd r') /\
    (w_rho_updated (sv_work s') = w_rho_updated (sv_work s) -> w_rho_updated (sv_work (snd r')) = w_rho_updated (sv_work (snd r)))).
  Proof.
    intros T. pose proof (ts_st _ _ _ _ _ _ _ _ _ _ T) as Est. pose proof (ts_w _ _ _ _ _ _ _ _ _ _ T) as TW.
    assert (FS : w_rho_update_from_solve (sv_work s) = 1) by apply (ts_q _ _ _ _ _ _ _ _ _ _ T). assert (FS' : w_rho_update_from_solve (sv_work s') = 1) by apply (ts_q' _ _ _ _ _ _ _ _ _ _ T).
    unfold update_rho. destruct (nleb rho n0); [apply both_ret; auto|]. rewrite FS, FS'. change (1 =? 0) with false. cbn [andb]. rs. rewrite Est.
    set (rho1 := c_min _ _). set (st := sv_settings s) in *.
    eapply both_bind with (R := fun a a' => tw (set_st_rho rho1 st) b c a a' /\ (w_rho_update_from_solve a = 1 /\ w_rho_update_from_solve a' = 1) /\
      (w_last_rel_kkt a = w_last_rel_kkt (sv_work s) /\ w_last_rel_kkt a' = w_last_rel_kkt (sv_work s')) /\ (w_rho_updated a = w_rho_updated (sv_work s) /\ w_rho_updated a' = w_rho_updated (sv_work s'))).
    { destruct TW. destruct tw_c as []. destruct (tr (st_rho_is_vec st)) eqn:Ev.
      - unfold refresh_rho_vec. rewrite ct_rv, (ct_riv eq_refl), (ct_ct eq_refl). bb. bb. bb. bb. bb. apply both_ret. split; [|rs; auto]. constructor; rs; auto. constructor; rs; fold st; rewrite ?Ev; auto; intros; discriminate.
      - apply both_ret. split; [|rs; auto]. constructor; rs; auto. constructor; rs; fold st; rewrite ?Ev; auto; intros; discriminate. }
    intros w w' (TW1 & (F1 & F1') & (K1 & K1') & (U1 & U1')). destruct (ct_ls _ _ _ (tw_c _ _ _ _ _ TW1)) as (ls & ls' & El & El' & LS). rewrite El, El', (ct_rv _ _ _ (tw_c _ _ _ _ _ TW1)).
    eapply both_bind; [apply (both_update_rho_vec E E' ES ls ls' _ _ LS)|]. intros [fl l] [fl' l'] (F & LS'). cbn [fst snd] in *. subst fl'. rs. rewrite F1, F1'. change (1 =? 0) with false. cbv iota. apply both_ret. cbn [fst snd].
    split; [reflexivity|]. split; [|rs; rewrite U1, U1'; auto].
    destruct T. constructor; rs; auto.
    - destruct TW1. constructor; rs; auto. destruct tw_c. constructor; rs; auto. eauto.
    - rewrite K1, K1'. auto.
    - destruct ts_q as (A & B & C). split; [auto|]. split; auto.
    - destruct ts_q' as (A & B & C). split; [auto|]. split; rs; auto. fold st. rewrite Est in C. auto.
  Qed.

  Lemma adapt_rho_both b d s s' : ts b True d s s' -> both (adapt_rho E s) (adapt_rho E' s') (fun r r' => fst r' = fst r /\ ts b True True (snd r) (snd r') /\
    (w_rho_updated (sv_work s') = w_rho_updated (sv_work s) -> w_rho_updated (sv_work (snd r')) = w_rho_updated (sv_work (snd r)))).
  Proof.
    intros T. unfold adapt_rho. rewrite (ts_st _ _ _ _ _ _ _ _ _ _ T), (est_eq _ _ _ _ (ts_w _ _ _ _ _ _ _ _ _ _ T)).
    set (rn := compute_rho_estimate _ _). cbv zeta.
    assert (T1 : ts b True True (set_sv_info (set_i_rho_estimate rn (sv_info s)) s) (set_sv_info (set_i_rho_estimate rn (sv_info s')) s')).
    { eapply ts_info; [exact T| |reflexivity|reflexivity|reflexivity|reflexivity]. destruct (ts_i _ _ _ _ _ _ _ _ _ _ T). constructor; rs; auto. }
    rs. rewrite (ts_st _ _ _ _ _ _ _ _ _ _ T). destruct (_ || _).
    - eapply both_bind; [apply (update_rho_both _ _ _ _ _ rn T1)|]. intros [fl a] [fl' a'] (F & TA & _). cbn [fst snd] in *. subst fl'. apply both_ret. cbn [fst snd]. split; [reflexivity|]. split; [|rs; auto].
      refine (ts_updated b True True (set_sv_info (set_i_rho_updates (i_rho_updates (sv_info a) + 1) (sv_info a)) a) (set_sv_info (set_i_rho_updates (i_rho_updates (sv_info a') + 1) (sv_info a')) a') 1 1 _).
      eapply ts_info; [exact TA| |reflexivity|reflexivity|reflexivity|reflexivity]. destruct (ts_i _ _ _ _ _ _ _ _ _ _ TA). constructor; rs; auto. intros H. rewrite ti_U; auto.
    - apply both_ret. cbn [fst snd]. split; [reflexivity|]. split; [exact T1|]. rs. auto.
  Qed.

  Lemma pop_both (s s' : solver K) : both (pop_sec s) (pop_sec s') (fun a b => exists g g', a = set_sv_world g s /\ b = set_sv_world g' s').
  Proof.
    intros a b. unfold pop_sec. destruct (g_sections (sv_world s)); [discriminate|]. destruct (g_sections (sv_world s')); [discriminate|]. intros [= <-] [= <-]. eauto.
  Qed.

  (** Assignments to scratch and iterates. *)
  Lemma ctw_xz st (w w' : work K) t t' : ctw st w w' -> ctw st (set_w_xz_tilde t w) (set_w_xz_tilde t' w').
  Proof. intros C. eapply ctw_core; [exact C|reflexivity|reflexivity]. Qed.
  Lemma ctw_xdx st (w w' : work K) x x' t t' : ctw st w w' -> ctw st (set_w_delta_x t (set_w_x x w)) (set_w_delta_x t' (set_w_x x' w')).
  Proof. intros []. constructor; rs; auto. Qed.
  Lemma ctw_z st (w w' : work K) t t' : ctw st w w' -> ctw st (set_w_z t w) (set_w_z t' w').
  Proof. intros []. constructor; rs; auto. Qed.
  Lemma ctw_ydy st (w w' : work K) x x' t t' : ctw st w w' -> ctw st (set_w_y t (set_w_delta_y x w)) (set_w_y t' (set_w_delta_y x' w')).
  Proof. intros []. constructor; rs; auto. Qed.

  (** What the step needs after the swap of the iterates. *)
  Record sw st (c : Prop) (w w' : work K) : Prop := {
    sw_c : ctw st w w'; sw_xp : w_x_prev w' = w_x_prev w; sw_zp : w_z_prev w' = w_z_prev w; sw_y : w_y w' = w_y w;
    sw_m0 : d_m (w_data w) = 0 -> w_Aty w' = w_Aty w /\ w_scaled_prim_res w' = w_scaled_prim_res w;
    sw_Ax : c -> w_Ax w' = w_Ax w; sw_Px : c -> w_Px w' = w_Px w; sw_Aty : c -> w_Aty w' = w_Aty w;
    sw_t : c -> w_xtPx w' = w_xtPx w /\ w_qtx w' = w_qtx w /\ w_SC w' = w_SC w;
    sw_gap : c -> w_scaled_dual_gap w' = w_scaled_dual_gap w;
    sw_pr : c -> w_scaled_prim_res w' = w_scaled_prim_res w; sw_dr : c -> w_scaled_dual_res w' = w_scaled_dual_res w }.
  Lemma sw_swap st b c (w w' : work K) : tw st b c w w' -> sw st c (swap_iterates w) (swap_iterates w').
  Proof. intros []. unfold swap_iterates. constructor; rs; auto. destruct tw_c. constructor; rs; auto. Qed.
  (** The iterates after a step. *)
  Lemma sw_step st c (w w' : work K) t x dx z y dy : sw st c w w' ->
    tw st True c (set_w_y y (set_w_delta_y dy (set_w_z z (set_w_delta_x dx (set_w_x x (set_w_xz_tilde t w)))))) (set_w_y y (set_w_delta_y dy (set_w_z z (set_w_delta_x dx (set_w_x x (set_w_xz_tilde t w')))))).
  Proof. intros []. constructor; rs; auto. destruct sw_c0. constructor; rs; auto. Qed.
  Lemma swap_fields (w : work K) : w_rho_update_from_solve (swap_iterates w) = w_rho_update_from_solve w /\ w_last_rel_kkt (swap_iterates w) = w_last_rel_kkt w.
  Proof. unfold swap_iterates. rs. auto. Qed.

  Lemma step_both b c d s s' : ts b c d s s' -> Inv s -> Inv s' -> both (admm_step E s) (admm_step E' s') (ts True c d).
  Proof.
    intros T HI HI'. pose proof (ts_st _ _ _ _ _ _ _ _ _ _ T) as Est. pose proof (ts_w _ _ _ _ _ _ _ _ _ _ T) as TW. pose proof (iv_w _ HI) as W. pose proof (iv_w _ HI') as W'. rewrite Est in W'.
    unfold admm_step, push_sec. rs. rewrite Est. set (st := sv_settings s) in *.
    pose proof (swap_safe st _ W) as K0. pose proof (swap_safe st _ W') as K0'. pose proof (wok_keeps _ _ _ W K0) as W0. pose proof (wok_keeps _ _ _ W' K0') as W0'.
    pose proof (sw_swap _ _ _ _ _ TW) as S0. pose proof (swap_fields (sv_work s)) as (R21 & R23). pose proof (swap_fields (sv_work s')) as (R22 & R24).
    set (w := swap_iterates (sv_work s)) in *. set (w' := swap_iterates (sv_work s')) in *. clearbody w w'. clear K0 K0' W W'.
    eapply both_bind; [apply (xz_both E E' ES EO EO' st _ _ (sw_c _ _ _ _ S0) W0 W0' (sw_xp _ _ _ _ S0) (sw_zp _ _ _ _ S0) (sw_y _ _ _ _ S0))|]. intros w1 w1' (t & -> & ->).
    eapply both_bind; [apply pop_both|]. intros ? ? (g1 & g1' & -> & ->). rs. rewrite ?Est. fold st.
    pose proof (ctw_xz _ _ _ t t (sw_c _ _ _ _ S0)) as C1.
    eapply both_bind; [apply (x_both st _ _ C1); rs; [reflexivity|apply (sw_xp _ _ _ _ S0)]|]. intros w2 w2' (x & dx & -> & ->).
    pose proof (ctw_xdx _ _ _ x x dx dx C1) as C2.
    eapply both_bind; [apply (z_both st _ _ C2); rs; [reflexivity|apply (sw_zp _ _ _ _ S0)|apply (sw_y _ _ _ _ S0)]|]. intros w3 w3' (z & -> & ->).
    eapply both_bind; [apply pop_both|]. intros ? ? (g2 & g2' & -> & ->). rs. rewrite ?Est. fold st.
    pose proof (ctw_z _ _ _ z z C2) as C3.
    eapply both_bind; [apply (y_both st _ _ C3); rs; [reflexivity|apply (sw_zp _ _ _ _ S0)|apply (sw_y _ _ _ _ S0)|reflexivity]|]. intros w4 w4' (y & dy & -> & ->).
    eapply both_bind; [apply pop_both|]. intros ? ? (g3 & g3' & -> & ->). eapply both_bind; [apply pop_both|]. intros ? ? (g4 & g4' & -> & ->). apply both_ret. rs.
    pose proof (sw_step _ _ _ _ t x dx z y dy S0) as TF.
    destruct T. constructor; rs; auto.
    - rewrite R23, R24. auto.
    - destruct ts_q as (A & B & C). split; [exact A|]. rs. split; [rewrite R21; exact B|exact C].
    - destruct ts_q' as (A & B & C). split; [exact A|]. rs. split; [rewrite R22; exact B|exact C].
  Qed.

  Lemma update_info_both c d s s' iter : ts True c d s s' -> Inv s -> Inv s' -> both (update_info E s iter) (update_info E' s' iter) (ts True True d).
  Proof.
    intros T HI HI'. pose proof (ts_st _ _ _ _ _ _ _ _ _ _ T) as Est. pose proof (ts_w _ _ _ _ _ _ _ _ _ _ T) as TW. pose proof (iv_w _ HI) as W. pose proof (iv_w _ HI') as W'. rewrite Est in W'.
    pose proof (wo_len _ _ W) as L. destruct L.
    unfold update_info. rs. rewrite Est, (tw_x _ _ _ _ _ TW), (tw_y _ _ _ _ _ TW), (tw_z _ _ _ _ _ TW).
    eapply both_bind.
    { eapply both_safe; [apply (res_both NZ (sv_settings s) True c _ _ (w_x (sv_work s)) (w_y (sv_work s)) (w_z (sv_work s)) TW W W'); auto|apply residuals_safe; auto|apply residuals_safe; auto; rewrite (ct_d _ _ _ (tw_c _ _ _ _ _ TW)); auto]. }
    intros [[[[[pr dr] p] dv] g] v] [[[[[pr' dr'] p'] dv'] g'] v'] ((F & TV & Fr & Fr') & _ & _). cbn [fst snd] in *. injection F as -> -> -> -> ->.
    unfold frm in Fr, Fr'. injection Fr as _ _ _ _ F1 F2 _. injection Fr' as _ _ _ _ F1' F2' _.
    unfold toc. rs. apply both_ret. destruct T. constructor; rs; auto.
    - apply tw_printed; auto.
    - destruct ts_i. constructor; rs; auto. intros H. rewrite ti_I; auto.
    - rewrite F2, F2'. auto.
    - destruct ts_q as (A & B & C). split; [exact A|]. split; [rs; rewrite F1; exact B|exact C].
    - destruct ts_q' as (A & B & C). split; [exact A|]. split; [rs; rewrite F1'; exact B|exact C].
  Qed.

  Lemma decide_eq b c d s s' iter old : ts b c d s s' -> exists x, decide_adapt E s iter old = (x, s) /\ decide_adapt E' s' iter old = (x, s').
  Proof.
    intros []. unfold decide_adapt. rewrite ts_st. destruct (_ =? ADAPTIVE_RHO_DISABLED); [eauto|]. destruct (Z.eqb_spec (st_adaptive_rho (sv_settings s)) ADAPTIVE_RHO_TIME) as [Et|Et].
    - destruct (Z.eqb_spec (st_adaptive_rho_interval (sv_settings s)) 0) as [E0|E0]; [exfalso; tauto|eauto].
    - destruct (_ || _); eauto.
  Qed.

  (** The outcomes of one pass. *)
  Definition oR (o o' : @outcome K) : Prop :=
    match o, o' with
    | Continue s f, Continue s' f' | Break s f, Break s' f' => f' = f /\ ts True True False s s'
    | Exit s f, Exit s' f' => f' = f /\ ts True True False s s'
    | _, _ => False
    end.

  Lemma pass_both (c : Prop) s s' iter f : ts False c False s s' -> (iter = 1 \/ c) -> Inv s -> Inv s' -> both (admm_pass E s iter f) (admm_pass E' s' iter f) oR.
  Proof.
    intros T Hc HI HI'. destruct f as [[cc cp] ca]. unfold admm_pass.
    eapply both_bind; [eapply both_safe; [apply (step_both _ _ _ _ _ T HI HI')|apply admm_step_safe; auto|apply admm_step_safe; auto]|].
    intros s1 s1' (T1 & (HO1 & _ & _) & (HO1' & _ & _)). pose proof (proj1 (proj1 HO1)) as I1. pose proof (proj1 (proj1 HO1')) as I1'. clear T HI HI' HO1 HO1'.
    unfold is_interrupted. destruct (ts_q _ _ _ _ _ _ _ _ _ _ T1) as (Q1 & _). destruct (ts_q' _ _ _ _ _ _ _ _ _ _ T1) as (Q1' & _). rewrite Q1, Q1'. clear Q1 Q1'.
    unfold temp_run_time, toc. rs.
    match goal with |- context [if tr (w_first_run (sv_work s1)) then (?a, ?x) else (?b, ?y)] => replace (if tr (w_first_run (sv_work s1)) then (a, x) else (b, y)) with (if tr (w_first_run (sv_work s1)) then a else b, x) by (destruct (tr _); reflexivity) end.
    match goal with |- context [if tr (w_first_run (sv_work s1')) then (?a, ?x) else (?b, ?y)] => replace (if tr (w_first_run (sv_work s1')) then (a, x) else (b, y)) with (if tr (w_first_run (sv_work s1')) then a else b, x) by (destruct (tr _); reflexivity) end.
    cbv iota beta. rs.
    match goal with |- context [ntruth (st_time_limit (sv_settings s1)) && ?x] => assert (EL : ntruth (st_time_limit (sv_settings s1)) && x = false) end.
    { destruct (ntruth _) eqn:En; auto. destruct (ts_q _ _ _ _ _ _ _ _ _ _ T1) as (_ & _ & Q). destruct (tr _); apply (Q En). }
    rewrite EL. clear EL.
    match goal with |- context [ntruth (st_time_limit (sv_settings s1')) && ?x] => assert (EL : ntruth (st_time_limit (sv_settings s1')) && x = false) end.
    { destruct (ntruth _) eqn:En; auto. destruct (ts_q' _ _ _ _ _ _ _ _ _ _ T1) as (_ & _ & Q). destruct (tr _); apply (Q En). }
    rewrite EL. clear EL.
    match goal with |- context [decide_adapt E ?x _ _] => set (s2 := x) end. match goal with |- context [decide_adapt E' ?x _ _] => set (s2' := x) end.
    assert (T2 : ts True c False s2 s2') by (subst s2 s2'; apply ts_world, ts_world; auto).
    assert (I2 : Inv s2) by (subst s2; apply Inv_world, Inv_world; auto). assert (I2' : Inv s2') by (subst s2'; apply Inv_world, Inv_world; auto).
    rewrite (ts_st _ _ _ _ _ _ _ _ _ _ T1). clearbody s2 s2'. clear T1 I1 I1'.
    destruct (decide_eq _ _ _ s2 s2' iter ca T2) as (x & -> & ->).
    set (c1 := tr _ && _). set (c2 := tr _ && _).
    eapply both_bind with (R := fun a b => ts True True False a b /\ Inv a /\ Inv b).
    { destruct (c1 || c2 || x || (iter =? 1)) eqn:Eb.
      - eapply both_imp; [apply (update_info_both _ _ _ _ iter T2 I2 I2')|apply update_info_safe; auto|apply update_info_safe; auto|]. intros a b TA (HA & _) (HB & _). split; auto. split; [apply HA|apply HB].
      - apply both_ret. split; [|auto]. destruct Hc as [Hc|Hc]; [subst iter; rewrite orb_true_r in Eb; discriminate|]. eapply ts_mono; eauto. }
    intros a b (TA & IA & IB).
    eapply both_bind with (R := fun r r' => fst r' = fst r /\ ts True True False (snd r) (snd r') /\ Inv (snd r) /\ Inv (snd r')).
    { destruct c1; [|apply both_ret; auto]. eapply both_imp; [apply (check_both E E' NZ pS pI pU _ _ _ false TA IA IB)|apply check_termination_safe; auto|apply check_termination_safe; auto|].
      intros r r' (F & TR) (HA & _) (HB & _). split; auto. split; auto. split; [apply HA|apply HB]. }
    intros [stop s3] [stop' s3'] (F & T3 & I3 & I3'). cbn [fst snd] in *. subst stop'. destruct stop; [apply both_ret; cbn; auto|].
    rs. rewrite (ts_st _ _ _ _ _ _ _ _ _ _ T3), (ti_k _ _ _ _ _ _ _ (ts_i _ _ _ _ _ _ _ _ _ _ T3) Logic.I).
    match goal with |- context [adapt_rho E ?y] => set (s4 := y) end. match goal with |- context [adapt_rho E' ?y] => set (s4' := y) end.
    assert (T4 : ts True True False s4 s4') by (subst s4 s4'; apply ts_updated; auto).
    assert (U4 : w_rho_updated (sv_work s4') = w_rho_updated (sv_work s4)) by reflexivity.
    match goal with |- both (match (if ?u then _ else _) with _ => _ end) (match (if ?u' then _ else _) with _ => _ end) _ => assert (Eu : u' = u) end.
    { destruct x; cbn [andb]; auto. destruct (Z.eqb_spec (st_adaptive_rho (sv_settings s3)) ADAPTIVE_RHO_KKT_ERROR) as [Ek|Ek]; auto. rewrite (ts_k _ _ _ _ _ _ _ _ _ _ T3 Ek). reflexivity. }
    rewrite Eu. clear Eu. set (x2 := if x && _ then _ else _).
    eapply both_bind with (R := fun r r' => fst r' = fst r /\ ts True True False (snd r) (snd r') /\ w_rho_updated (sv_work (snd r')) = w_rho_updated (sv_work (snd r))).
    { destruct x2; [|apply both_ret; auto]. eapply both_weaken; [apply (adapt_rho_both _ _ _ _ T4)|]. intros r r' (F & TR & U). split; auto. split; [eapply ts_mono; eauto; tauto|auto]. }
    intros [fl s5] [fl' s5'] (F & T5 & U5). cbn [fst snd] in *. subst fl'. destruct (tr fl); [apply both_ret; cbn; auto|].
    rewrite U5. destruct (tr (w_rho_updated (sv_work s5))) eqn:Eup.
    - rs. rewrite (ts_st _ _ _ _ _ _ _ _ _ _ T5), U5, Eup, (ti_k _ _ _ _ _ _ _ (ts_i _ _ _ _ _ _ _ _ _ _ T5) Logic.I).
      assert (T6 := ts_lastk _ _ _ _ _ (i_rel_kkt_error (sv_info s5)) T5). destruct (c2 || _); apply both_ret; cbn [oR]; split; auto. unfold print_summary. apply ts_print. auto.
    - rewrite (ts_st _ _ _ _ _ _ _ _ _ _ T5), U5, Eup. destruct (c2 || _); apply both_ret; cbn [oR]; split; auto. unfold print_summary. apply ts_print. auto.
  Qed.

  Hypothesis MM : nltb (OSQP_RHO_MIN K) (OSQP_RHO_MAX K) = true.

  Lemma loop_both k : forall iter f s s', ts True True False s s' -> Inv s -> Inv s' -> both (admm_loop E k iter f s) (admm_loop E' k iter f s') (fun r r' => snd r' = snd r /\ oR (fst r) (fst r')).
  Proof.
    induction k as [|k IH]; intros iter f s s' T HI HI'; cbn [admm_loop]; [apply both_ret; cbn; auto|].
    assert (T0 : ts False True False s s') by (eapply ts_mono; [exact T|tauto|tauto|tauto]).
    eapply both_bind; [eapply both_safe; [apply (pass_both True s s' iter f T0); auto|apply admm_pass_safe; auto|apply admm_pass_safe; auto]|].
    intros o o' (R & HO & HO'). destruct o as [a fa|a fa|a fa], o' as [a' fa'|a' fa'|a' fa']; cbn [oR out_ok] in *; try tauto; destruct R as (-> & R).
    - apply IH; auto; [apply HO|apply HO'].
    - apply both_ret. cbn. auto.
    - apply both_ret. cbn. auto.
  Qed.
  Lemma loop1_both k f s s' : ts False False False s s' -> Inv s -> Inv s' -> both (admm_loop E (S k) 1 f s) (admm_loop E' (S k) 1 f s') (fun r r' => snd r' = snd r /\ oR (fst r) (fst r')).
  Proof.
    intros T HI HI'. cbn [admm_loop].
    eapply both_bind; [eapply both_safe; [apply (pass_both False s s' 1 f T); auto|apply admm_pass_safe; auto|apply admm_pass_safe; auto]|].
    intros o o' (R & HO & HO'). destruct o as [a fa|a fa|a fa], o' as [a' fa'|a' fa'|a' fa']; cbn [oR out_ok] in *; try tauto; destruct R as (-> & R).
    - apply loop_both; auto; [apply HO|apply HO'].
    - apply both_ret. cbn. auto.
    - apply both_ret. cbn. auto.
  Qed.
End Solve.
