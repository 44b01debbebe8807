(** Termination tests, penalty updates and the stored solution, run side by side on two solvers. *)
From Coq Require Import ZArith String List Bool Lia.
From Verif Require Import Num Arr ArrFacts Csc CscSpec CscFacts CscFacts2 Scatter CscFacts3 CscFacts5 Vec Types RecSimp Kkt Linsys Scaling Validate Auxil VecFacts LinsysFacts LinsysSolve Inv InvStep InvApi InvPolish InvSolve Api TwinKer TwinStep.
Import ListNotations.
Open Scope Z_scope.
Local Open Scope opt_scope.

Section Term.
  Context {K : NumOps}.
  Variables E E' : Env K.
  Hypothesis ES : env_sim E E'.
  Hypothesis EO : env_ok E.
  Hypothesis EO' : env_ok E'.
  Hypothesis NZ : @neqb K n0 n0 = true.
  (** Whether the fields no solve resets agree before: status_polish, primdual_int, rho_updates. *)
  Variables pS pI pU : Prop.

  (** No time limit is ever reached: after the set-up or the update, plus any reading of the clock. *)
  Definition quiet (e : Env K) (s : solver K) : Prop :=
    (forall k, env_int e k = false) /\ w_rho_update_from_solve (sv_work s) = 1 /\
    (ntruth (st_time_limit (sv_settings s)) = true -> forall k,
       nleb (st_time_limit (sv_settings s)) (nadd (i_setup_time (sv_info s)) (env_clock e k)) = false /\
       nleb (st_time_limit (sv_settings s)) (nadd (i_update_time (sv_info s)) (env_clock e k)) = false).

  (** The information: c, the fields of the last evaluation; d, the estimate of rho. *)
  Record ti (c d : Prop) (i i' : info K) : Prop := {
    ti_s : i_status i' = i_status i; ti_v : i_status_val i' = i_status_val i;
    ti_o : c -> i_obj_val i' = i_obj_val i /\ i_dual_obj_val i' = i_dual_obj_val i /\ i_duality_gap i' = i_duality_gap i;
    ti_r : c -> i_prim_res i' = i_prim_res i /\ i_dual_res i' = i_dual_res i;
    ti_k : c -> i_rel_kkt_error i' = i_rel_kkt_error i;
    ti_it : c -> i_iter i' = i_iter i;
    ti_e : d -> i_rho_estimate i' = i_rho_estimate i;
    ti_S : pS -> i_status_polish i' = i_status_polish i;
    ti_I : pI -> i_primdual_int i' = i_primdual_int i;
    ti_U : pU -> i_rho_updates i' = i_rho_updates i }.

  Record ts (b c d : Prop) (s s' : solver K) : Prop := {
    ts_st : sv_settings s' = sv_settings s;
    ts_w : tw (sv_settings s) b c (sv_work s) (sv_work s');
    ts_i : ti c d (sv_info s) (sv_info s');
    ts_k : st_adaptive_rho (sv_settings s) = ADAPTIVE_RHO_KKT_ERROR -> w_last_rel_kkt (sv_work s') = w_last_rel_kkt (sv_work s);
    ts_t : st_adaptive_rho (sv_settings s) <> ADAPTIVE_RHO_TIME \/ st_adaptive_rho_interval (sv_settings s) <> 0;
    ts_n : sv_solution s = None <-> sv_solution s' = None;
    ts_q : quiet E s; ts_q' : quiet E' s' }.

  Lemma both_imp {A B} (e : option A) (e' : option B) (R Q : A -> B -> Prop) (P : A -> Prop) (P' : B -> Prop) : both e e' R -> safe e P -> safe e' P' -> (forall a b, R a b -> P a -> P' b -> Q a b) -> both e e' Q.
  Proof. intros H H1 H2 HQ a b Ha Hb. destruct (both_safe _ _ _ _ _ H H1 H2 a b Ha Hb) as (X & Y & Z). auto. Qed.

  Ltac bb := eapply both_bind; [first [apply both_add_scaled | apply both_add_scaled3 | apply both_v1 | apply both_v2 | apply both_v3 | apply both_same]; rs; auto; try congruence|rs; let v := fresh "v" in intros v ? <-].
  Ltac sc st Cw := match goal with |- context [if unscaled_termination st then _ else _] => destruct (unscaled_termination st) eqn:Eu; [pose proof (uterm_scd st Eu) as Es; rewrite ?(ct_sc _ _ _ Cw Es)|] end.

  (** Only scratch vectors differ from w. *)
  Definition scr (w v : work K) : Prop := exists t u p, v = set_w_Atdelta_y t (set_w_Adelta_x u (set_w_Pdelta_x p w)).
  Lemma scr_refl w : scr w w. Proof. exists (w_Atdelta_y w), (w_Adelta_x w), (w_Pdelta_x w). destruct w; reflexivity. Qed.
  Lemma scr_trans w v u : scr w v -> scr v u -> scr w u. Proof. intros (a & b & c & ->) (a' & b' & c' & ->). exists a', b', c'. reflexivity. Qed.
  Lemma scr_At w v : forall t, scr w v -> scr w (set_w_Atdelta_y t v). Proof. intros t (a & b & c & ->). exists t, b, c. reflexivity. Qed.
  Lemma scr_Ad w v : forall t, scr w v -> scr w (set_w_Adelta_x t v). Proof. intros t (a & b & c & ->). exists a, t, c. reflexivity. Qed.
  Lemma scr_Pd w v : forall t, scr w v -> scr w (set_w_Pdelta_x t v). Proof. intros t (a & b & c & ->). exists a, b, t. reflexivity. Qed.
  Hint Resolve scr_refl scr_At scr_Ad scr_Pd : core.
  Lemma scr_tw st b c w w' v v' : tw st b c w w' -> scr w v -> scr w' v' -> tw st b c v v'.
  Proof. intros [] (x & y & z & ->) (x' & y' & z' & ->). constructor; rs; auto. eapply ctw_core; [exact tw_c|reflexivity|reflexivity]. Qed.

  Lemma prim_inf_both st w w' e : ctw st w w' -> wok st w -> wok st w' -> w_delta_y w' = w_delta_y w ->
    both (is_primal_infeasible st w e) (is_primal_infeasible st w' e) (fun a b => fst b = fst a /\ exists dy, scr (set_w_delta_y dy w) (snd a) /\ scr (set_w_delta_y dy w') (snd b)).
  Proof.
    intros C W W' Hdy. pose proof (ct_d _ _ _ C) as Ed. pose proof (ln_Atdy _ _ _ _ (wo_len _ _ W)) as L. pose proof (ln_Atdy _ _ _ _ (wo_len _ _ W')) as L'. rewrite Ed in L'. destruct (wo_d _ _ W).
    unfold is_primal_infeasible. rewrite Ed, Hdy. bb. set (u := set_w_delta_y v w). set (u' := set_w_delta_y v w').
    assert (Cu : ctw st u u') by (eapply ctw_core; [exact C|reflexivity|reflexivity]).
    eapply both_bind with (R := fun a b => fst b = fst a /\ (exists t, snd a = set_w_Adelta_x t u) /\ (exists t, snd b = set_w_Adelta_x t u')).
    { sc st C.
      - bb. bb. apply both_ret. cbn [fst snd]. eauto.
      - apply both_ret. cbn [fst snd]. split; auto. split; [exists (w_Adelta_x w); destruct w; reflexivity|exists (w_Adelta_x w'); destruct w'; reflexivity]. }
    intros [nd a] [nd' a'] (F & (t & Ha) & (t' & Ha')). cbn [fst snd] in *. subst nd' a a'.
    assert (Fin : forall bo : bool, both (Some (bo, set_w_Adelta_x t u)) (Some (bo, set_w_Adelta_x t' u')) (fun a b => fst b = fst a /\ exists dy, scr (set_w_delta_y dy w) (snd a) /\ scr (set_w_delta_y dy w') (snd b))).
    { intros bo. apply both_ret. cbn [fst snd]. split; auto. exists v. subst u u'. auto. }
    destruct (nltb _ _); [|apply Fin]. bb. bb. destruct (nltb _ _); [|apply Fin].
    eapply both_bind; [apply both_Atxpy; subst u u'; rs; auto; lia|]. intros y ? <-.
    eapply both_bind with (R := eq). { subst u u'. rs. sc st C; [bb; apply both_v2; auto|apply both_same; auto]. }
    intros y' ? <-. apply both_ret. cbn [fst snd]. split; auto. exists v. subst u u'. auto.
  Qed.

  Lemma dual_inf_both st w w' e : ctw st w w' -> wok st w -> wok st w' -> w_delta_x w' = w_delta_x w ->
    both (is_dual_infeasible st w e) (is_dual_infeasible st w' e) (fun a b => fst b = fst a /\ scr w (snd a) /\ scr w' (snd b)).
  Proof.
    intros C W W' Hdx. pose proof (ct_d _ _ _ C) as Ed. destruct (wo_d _ _ W). destruct do_Pt as [Hsq _].
    pose proof (ln_Pdx _ _ _ _ (wo_len _ _ W)) as L. pose proof (ln_Pdx _ _ _ _ (wo_len _ _ W')) as L'. rewrite Ed in L'.
    pose proof (ln_Adx _ _ _ _ (wo_len _ _ W)) as M. pose proof (ln_Adx _ _ _ _ (wo_len _ _ W')) as M'. rewrite Ed in M'.
    unfold is_dual_infeasible. rewrite Ed, Hdx.
    eapply both_bind with (R := eq). { sc st C; apply both_same; auto. }
    intros [nd cs] ? <-.
    assert (Fin : forall (bo : bool) v v', scr w v -> scr w' v' -> both (Some (bo, v)) (Some (bo, v')) (fun a b => fst b = fst a /\ scr w (snd a) /\ scr w' (snd b))).
    { intros bo v v' H H'. apply both_ret. auto. }
    destruct (nltb _ _); [|apply Fin; auto]. bb. destruct (nltb _ _); [|apply Fin; auto].
    eapply both_bind; [apply both_symv; auto; lia|]. intros y ? <-.
    eapply both_bind with (R := eq). { sc st C; [bb; apply both_v2; auto|apply both_same; auto]. }
    intros y' ? <-. cbv zeta. destruct (nltb _ _); [|apply Fin; auto]. rs. rewrite Hdx.
    eapply both_bind; [apply both_Axpy; auto; lia|]. intros z ? <-.
    eapply both_bind with (R := eq). { sc st C; [bb; apply both_v2; auto|apply both_same; auto]. }
    intros z' ? <-. bb. apply Fin; auto.
  Qed.

  Lemma set_dy_tw (st : settings K) b c (w w' : work K) dy : tw st b c w w' -> tw st b c (set_w_delta_y dy w) (set_w_delta_y dy w').
  Proof. intros []. constructor; rs; auto; [eapply ctw_core; [exact tw_c|reflexivity|reflexivity]|intros Hb; split; auto; apply tw_b; auto]. Qed.
  Lemma set_dx_tw (st : settings K) b c (w w' : work K) dy : tw st b c w w' -> tw st b c (set_w_delta_x dy w) (set_w_delta_x dy w').
  Proof. intros []. constructor; rs; auto; [eapply ctw_core; [exact tw_c|reflexivity|reflexivity]|intros Hb; split; auto; apply tw_b; auto]. Qed.

  Lemma status_both c d i i' v : ti c d i i' -> both (update_status i v) (update_status i' v) (fun a b => exists m, a = set_i_status m (set_i_status_val v i) /\ b = set_i_status m (set_i_status_val v i')).
  Proof. intros T. unfold update_status. bb. apply both_ret. eauto. Qed.
  Lemma ti_status c d i i' m v : ti c d i i' -> ti c d (set_i_status m (set_i_status_val v i)) (set_i_status m (set_i_status_val v i')).
  Proof. intros []. constructor; rs; auto. Qed.
  Lemma ti_obj c d i i' v : ti c d i i' -> ti c d (set_i_obj_val v i) (set_i_obj_val v i').
  Proof. intros []. constructor; rs; auto. intros Hc. destruct (ti_o0 Hc) as (? & ? & ?). auto. Qed.

  (** Everything that is not in the workspace or the information stays. *)
  Lemma ts_set b c d b' c' d' s s' w w' i i' g g' : ts b c d s s' -> tw (sv_settings s) b' c' w w' -> ti c' d' i i' ->
    (w_last_rel_kkt w' = w_last_rel_kkt w \/ (w_last_rel_kkt w' = w_last_rel_kkt (sv_work s') /\ w_last_rel_kkt w = w_last_rel_kkt (sv_work s))) ->
    w_rho_update_from_solve w = 1 -> w_rho_update_from_solve w' = 1 ->
    i_setup_time i = i_setup_time (sv_info s) -> i_setup_time i' = i_setup_time (sv_info s') -> i_update_time i = i_update_time (sv_info s) -> i_update_time i' = i_update_time (sv_info s') ->
    ts b' c' d' (set_sv_info i (set_sv_work w (set_sv_world g s))) (set_sv_info i' (set_sv_work w' (set_sv_world g' s'))).
  Proof.
    intros [] TW TI HK F F' H1 H2 H3 H4. constructor; rs; auto.
    - intros Hm. destruct HK as [HK|[-> ->]]; auto.
    - destruct ts_q0 as (A & B & C). split; [auto|]. split; [auto|]. rs. rewrite H1, H3. auto.
    - destruct ts_q'0 as (A & B & C). split; [auto|]. split; [auto|]. rs. rewrite H2, H4. auto.
  Qed.

  Lemma check_both d s s' ap : ts True True d s s' -> Inv s -> Inv s' -> both (check_termination s ap) (check_termination s' ap) (fun r r' => fst r' = fst r /\ ts True True d (snd r) (snd r')).
  Proof.
    intros T I I'. pose proof (iv_w _ I) as W. pose proof (iv_w _ I') as W'. pose proof (ts_st _ _ _ _ _ T) as Est. rewrite Est in W'.
    pose proof (ts_w _ _ _ _ _ T) as TW. pose proof (ts_i _ _ _ _ _ T) as TI. pose proof (tw_c _ _ _ _ _ TW) as C. pose proof (ct_d _ _ _ C) as Ed.
    destruct (ti_r _ _ _ _ TI Logic.I) as (Hp & Hd). destruct (ti_o _ _ _ _ TI Logic.I) as (_ & _ & Hg). destruct (tw_b _ _ _ _ _ TW Logic.I) as (Hdx & Hdy).
    assert (FS : w_rho_update_from_solve (sv_work s) = 1) by apply (ts_q _ _ _ _ _ T). assert (FS' : w_rho_update_from_solve (sv_work s') = 1) by apply (ts_q' _ _ _ _ _ T).
    unfold check_termination. rewrite Est, Hp, Hd, Hg, Ed.
    destruct (_ || _).
    { eapply both_bind; [eapply status_both; exact TI|]. intros a b (m & -> & ->). apply both_ret. split; [reflexivity|]. cbn [snd].
      refine (ts_set True True d _ _ _ s s' (sv_work s) (sv_work s') _ _ (sv_world s) (sv_world s') T TW _ _ FS FS' _ _ _ _); auto. apply ti_obj, ti_status, TI. }
    set (st := sv_settings s) in *. set (w := sv_work s) in *. set (w' := sv_work s') in *.
    set (ea := if ap then _ else st_eps_abs st). set (er := if ap then _ else st_eps_rel st). set (ep := if ap then _ else st_eps_prim_inf st). set (ed := if ap then _ else st_eps_dual_inf st). cbv zeta.
    eapply both_bind with (R := fun a b => fst b = fst a /\ tw st True True (snd a) (snd b) /\ (wok st (snd a) /\ wok st (snd b)) /\ (exists dy, scr (set_w_delta_y dy w) (snd a)) /\ (exists dy, scr (set_w_delta_y dy w') (snd b))).
    { assert (Fin : forall x : bool * bool, both (Some (x, w)) (Some (x, w')) (fun a b => fst b = fst a /\ tw st True True (snd a) (snd b) /\ (wok st (snd a) /\ wok st (snd b)) /\ (exists dy, scr (set_w_delta_y dy w) (snd a)) /\ (exists dy, scr (set_w_delta_y dy w') (snd b)))).
      { intros x. apply both_ret. cbn [fst snd]. split; [reflexivity|]. split; [exact TW|]. split; [auto|]. split; [exists (w_delta_y w)|exists (w_delta_y w')];
          [replace (set_w_delta_y (w_delta_y w) w) with w by (destruct w; reflexivity)|replace (set_w_delta_y (w_delta_y w') w') with w' by (destruct w'; reflexivity)]; auto. }
      destruct (_ =? 0); [apply Fin|].
      eapply both_bind with (R := eq). { unfold compute_prim_tol. rewrite (tw_z _ _ _ _ _ TW), (tw_Ax _ _ _ _ _ TW Logic.I). sc st C; apply both_same; auto. }
      intros eps ? <-. destruct (nltb _ _); [apply Fin|].
      eapply both_bind; [eapply both_safe; [apply (prim_inf_both st w w' ep C W W' Hdy)|apply prim_inf_safe; auto|apply prim_inf_safe; auto]|].
      intros [b1 v] [b1' v'] ((F & dy & S1 & S2) & K1 & K2). cbn [fst snd] in *. subst b1'. apply both_ret. cbn [fst snd]. split; [reflexivity|].
      split; [eapply scr_tw; [apply (set_dy_tw _ _ _ _ _ dy TW)|auto|auto]|]. split; [exact (conj (wok_keeps _ _ _ W K1) (wok_keeps _ _ _ W' K2))|]. eauto. }
    intros [[prc pic] v] [[prc' pic'] v'] (F & TV & (V & V') & (dy0 & S0) & (dy0' & S0')). cbn [fst snd] in *. injection F as -> ->.
    pose proof (tw_c _ _ _ _ _ TV) as CV. destruct (tw_b _ _ _ _ _ TV Logic.I) as (Hdx1 & Hdy1). pose proof (ct_d _ _ _ CV) as Edv.
    eapply both_bind with (R := eq). { unfold compute_dual_tol. rewrite (tw_Px _ _ _ _ _ TV Logic.I), (tw_Aty _ _ _ _ _ TV Logic.I), Edv. sc st CV; apply both_same; auto. }
    intros epd ? <-.
    eapply both_bind with (R := fun a b => fst b = fst a /\ tw st True True (snd a) (snd b) /\ scr v (snd a) /\ scr v' (snd b)).
    { destruct (nltb _ _); [apply both_ret; cbn [fst snd]; auto|].
      eapply both_bind; [apply (dual_inf_both st v v' ed CV V V' Hdx1)|]. intros [b1 u] [b1' u'] (F & S1 & S2). cbn [fst snd] in *. subst b1'. apply both_ret. cbn [fst snd]. split; [reflexivity|].
      split; [eapply scr_tw; eauto|]. auto. }
    intros [[drc dic] u] [[drc' dic'] u'] (F & TU & S1 & S2). cbn [fst snd] in *. injection F as -> ->.
    pose proof (tw_c _ _ _ _ _ TU) as CU. destruct (tw_b _ _ _ _ _ TU Logic.I) as (Hdx2 & Hdy2).
    assert (FU : w_rho_update_from_solve u = 1). { destruct S0 as (? & ? & ? & ->). destruct S1 as (? & ? & ? & ->). rs. auto. }
    assert (FU' : w_rho_update_from_solve u' = 1). { destruct S0' as (? & ? & ? & ->). destruct S2 as (? & ? & ? & ->). rs. auto. }
    assert (KU : w_last_rel_kkt u = w_last_rel_kkt w). { destruct S0 as (? & ? & ? & ->). destruct S1 as (? & ? & ? & ->). rs. auto. }
    assert (KU' : w_last_rel_kkt u' = w_last_rel_kkt w'). { destruct S0' as (? & ? & ? & ->). destruct S2 as (? & ? & ? & ->). rs. auto. }
    eapply both_bind with (R := eq).
    { destruct (tr _); [|apply both_same; auto]. unfold compute_duality_gap_tol. destruct (tw_t _ _ _ _ _ TU Logic.I) as (-> & -> & ->). rewrite (tw_gap _ _ _ _ _ TU Logic.I). sc st CU; apply both_same; auto. }
    intros gc ? <-. destruct (prc && drc && gc).
    { eapply both_bind; [eapply status_both; exact TI|]. intros a b (m & -> & ->). apply both_ret. split; [reflexivity|]. cbn [snd].
      refine (ts_set True True d _ _ _ s s' u u' _ _ (sv_world s) (sv_world s') T TU _ _ FU FU' _ _ _ _); auto. apply ti_status, TI. }
    destruct pic.
    { eapply both_bind; [eapply status_both; exact TI|]. intros a b (m & -> & ->).
      eapply both_bind with (R := eq). { rewrite Hdy2. sc st CU; [bb; apply both_v2; auto|apply both_same; auto]. }
      intros dy ? <-. apply both_ret. split; [reflexivity|]. cbn [snd].
      refine (ts_set True True d _ _ _ s s' (set_w_delta_y dy u) (set_w_delta_y dy u') _ _ (sv_world s) (sv_world s') T (set_dy_tw _ _ _ _ _ _ TU) _ _ FU FU' _ _ _ _); auto. apply ti_obj, ti_status, TI. }
    destruct dic.
    { eapply both_bind; [eapply status_both; exact TI|]. intros a b (m & -> & ->).
      eapply both_bind with (R := eq). { rewrite Hdx2. sc st CU; [bb; apply both_v2; auto|apply both_same; auto]. }
      intros dx ? <-. apply both_ret. split; [reflexivity|]. cbn [snd].
      refine (ts_set True True d _ _ _ s s' (set_w_delta_x dx u) (set_w_delta_x dx u') _ _ (sv_world s) (sv_world s') T (set_dx_tw _ _ _ _ _ _ TU) _ _ FU FU' _ _ _ _); auto. apply ti_obj, ti_status, TI. }
    apply both_ret. split; [reflexivity|]. cbn [snd].
    refine (ts_set True True d _ _ _ s s' u u' (sv_info s) (sv_info s') (sv_world s) (sv_world s') T TU TI _ FU FU' _ _ _ _); auto.
  Qed.
End Term.
