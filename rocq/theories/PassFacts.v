(** How one pass of the main loop of osqp_solve ends, and what it leaves behind. *)
From Coq Require Import ZArith List Bool Lia String.
From Verif Require Import Num Arr ArrFacts Csc CscSpec CscFacts CscFacts2 Scatter Vec Types Kkt Linsys Scaling Validate Auxil Polish Api
  VecFacts LinsysFacts LinsysSolve Inv InvStep InvApi InvScale InvPolish InvSolve RecSimp Frame FrameSolve DataFacts Mid Trace.
Import ListNotations.
Open Scope Z_scope.

Lemma post_and {A} (e : option A) (P P' : A -> Prop) : post e P -> post e P' -> post e (fun a => P a /\ P' a).
Proof. intros H H' a Ha. split; auto. Qed.

Section PassFacts.
  Context {K : NumOps}.
  Variable E : Env K.

  (** The caller asked to stop while the iteration that ended in t1 was running. *)
  Definition stop_requested (t1 : solver K) : bool := env_int E (g_polls (sv_world t1)).
  (** The time the iteration that ended in t1 reads from the clock, counted from the start of setup (first solve) or of the last update. *)
  Definition clock_read (t1 : solver K) : K :=
    let base := if tr (w_first_run (sv_work t1)) then i_setup_time (sv_info t1) else i_update_time (sv_info t1) in
    nadd base (env_clock E (g_tocs (sv_world t1))).
  Definition time_over (t1 : solver K) : bool :=
    let limit := st_time_limit (sv_settings t1) in ntruth limit && nleb limit (clock_read t1).
  (** Iteration k is one at which the termination test is scheduled. *)
  Definition scheduled (st : settings K) (k : Z) : bool :=
    negb (st_check_termination st =? 0) && (Z.rem k (st_check_termination st) =? 0).

  Definition near (t1 t2 : solver K) : Prop :=
    sv_work t2 = sv_work t1 /\ sv_info t2 = sv_info t1 /\ sv_solution t2 = sv_solution t1 /\
    exists r, sv_settings t2 = set_st_adaptive_rho_interval r (sv_settings t1).

  (** What the rest of a pass keeps after its termination test. *)
  Definition tail_w (w : work K) :=
    (w_data w, w_scaling w, iter3 w, deltas w, prods w, w_x_prev w, w_z_prev w, (w_xtPx w, w_qtx w, w_SC w, w_scaled_dual_gap w), (w_scaled_prim_res w, w_scaled_dual_res w), w_pol w).
  Definition tail_i (i : info K) :=
    ((i_iter i, i_status_val i, i_status_polish i), (i_prim_res i, i_dual_res i, i_obj_val i, i_dual_obj_val i, i_duality_gap i), (i_solve_time i, i_polish_time i, i_setup_time i, i_rel_kkt_error i, i_primdual_int i, i_run_time i)).
  Definition settled (a b : solver K) : Prop :=
    tail_w (sv_work b) = tail_w (sv_work a) /\ tail_i (sv_info b) = tail_i (sv_info a) /\ sv_solution b = sv_solution a /\ same_st (sv_settings a) (sv_settings b).

  (** The new rho, if iteration k changed it: the estimate, and far enough from the old value. *)
  Definition rho_change (t4 t' : solver K) (k : Z) : Prop :=
    let st := sv_settings t4 in let r := compute_rho_estimate st (sv_work t4) in
    interval_hit st k = true /\ st_adaptive_rho st <> ADAPTIVE_RHO_DISABLED /\
    (nltb (nmul (st_rho st) (st_adaptive_rho_tolerance st)) r = true \/ nltb r (ndiv (st_rho st) (st_adaptive_rho_tolerance st)) = true) /\
    (nleb r n0 = true /\ st_rho (sv_settings t') = st_rho st \/ st_rho (sv_settings t') = clamp r) /\
    st_adaptive_rho_interval (sv_settings t') = st_adaptive_rho_interval st /\
    (st_adaptive_rho st = ADAPTIVE_RHO_KKT_ERROR -> nleb (i_rel_kkt_error (sv_info t4)) (nmul (st_adaptive_rho_fraction st) (w_last_rel_kkt (sv_work t4))) = true).

  Inductive pass_end (t : solver K) (k : Z) (f : flags) : outcome -> Prop :=
  | pe_intr : forall t1 s', admm_step E t = Some t1 -> stop_requested t1 = true -> sv_work s' = sv_work t1 -> sv_settings s' = sv_settings t1 -> sv_solution s' = sv_solution t1 ->
      i_status_val (sv_info s') = OSQP_SIGINT -> pass_end t k f (Exit s' 1)
  | pe_time : forall t1 s', admm_step E t = Some t1 -> stop_requested t1 = false -> time_over t1 = true -> sv_work s' = sv_work t1 -> sv_settings s' = sv_settings t1 -> sv_solution s' = sv_solution t1 ->
      (exists msg, sv_info s' = set_i_status msg (set_i_status_val OSQP_TIME_LIMIT_REACHED (sv_info t1))) ->
      pass_end t k f (Break s' (fst (fst f), false, snd f))
  | pe_stop : forall t1 t2 t3 s' cp ca, admm_step E t = Some t1 -> stop_requested t1 = false -> time_over t1 = false -> near t1 t2 -> scheduled (sv_settings t) k = true ->
      update_info E t2 k = Some t3 -> check_termination t3 false = Some (true, s') -> pass_end t k f (Break s' (true, cp, ca))
  | pe_fail : forall t1 t2 t3 t4 s' , admm_step E t = Some t1 -> stop_requested t1 = false -> time_over t1 = false -> near t1 t2 ->
      update_info E t2 k = Some t3 ->
      (if scheduled (sv_settings t) k then check_termination t3 false = Some (false, t4) else t4 = t3) ->
      (st_adaptive_rho (sv_settings t) < 4 -> 0 <= st_adaptive_rho (sv_settings t) -> rho_change t4 s' k) -> tail_i (sv_info s') = tail_i (sv_info t4) ->
      nleb (compute_rho_estimate (sv_settings t4) (sv_work t4)) n0 = true \/ (exists ls, w_linsys (sv_work s') = Some ls /\ env_fac E (ls_fac ls) < 0) -> pass_end t k f (Exit s' 1)
  | pe_cont : forall t1 t2 t3 t4 s' cp ca, admm_step E t = Some t1 -> stop_requested t1 = false -> time_over t1 = false -> near t1 t2 ->
      (update_info E t2 k = Some t3 \/ (scheduled (sv_settings t) k = false /\ cp = false /\ k <> 1 /\ st_rho (sv_settings s') = st_rho (sv_settings t) /\ t3 = t2)) ->
      (if scheduled (sv_settings t) k then check_termination t3 false = Some (false, t4) else t4 = t3) ->
      settled t4 s' ->
      (st_adaptive_rho (sv_settings t) < 4 -> 0 <= st_adaptive_rho (sv_settings t) -> st_rho (sv_settings s') = st_rho (sv_settings t) \/ rho_change t4 s' k) ->
      pass_end t k f (Continue s' (scheduled (sv_settings t) k, cp, ca)).

  Lemma decide_adapt_hit (s : solver K) it old : st_adaptive_rho (sv_settings s) < 4 -> 0 <= st_adaptive_rho (sv_settings s) ->
    fst (decide_adapt E s it old) = true -> interval_hit (sv_settings (snd (decide_adapt E s it old))) it = true /\ st_adaptive_rho (sv_settings s) <> ADAPTIVE_RHO_DISABLED.
  Proof.
    intros H4 H0. unfold decide_adapt, toc. destruct (_ =? ADAPTIVE_RHO_DISABLED) eqn:E0; [discriminate|].
    assert (ND : st_adaptive_rho (sv_settings s) <> ADAPTIVE_RHO_DISABLED) by lia.
    destruct (_ =? ADAPTIVE_RHO_TIME) eqn:E1.
    - destruct (_ =? 0) eqn:E2; [|cbn [fst snd]; auto]. destruct (nltb _ _); [|discriminate]. cbn [fst snd]. rs. auto.
    - destruct (_ || _) eqn:E3; [cbn [fst snd]; auto|]. exfalso. apply orb_false_iff in E3 as [E3 E4]. unfold ADAPTIVE_RHO_DISABLED, ADAPTIVE_RHO_TIME, ADAPTIVE_RHO_ITERATIONS, ADAPTIVE_RHO_KKT_ERROR in *. lia.
  Qed.

  Lemma update_rho_tail (s : solver K) r : post (update_rho E s r) (fun x => let s' := snd x in tail_w (sv_work s') = tail_w (sv_work s) /\ tail_i (sv_info s') = tail_i (sv_info s) /\ sv_solution s' = sv_solution s /\
     same_st (sv_settings s) (sv_settings s') /\ st_adaptive_rho_interval (sv_settings s') = st_adaptive_rho_interval (sv_settings s) /\ (nleb r n0 = true /\ st_rho (sv_settings s') = st_rho (sv_settings s) \/ st_rho (sv_settings s') = clamp r)).
  Proof.
    unfold update_rho. destruct (nleb r n0) eqn:ER.
    { apply post_ret. cbn [snd]. auto 10 using same_st_refl. }
    cbv zeta. set (s1 := if _ && _ then _ else s).
    assert (H1 : tail_w (sv_work s1) = tail_w (sv_work s) /\ tail_i (sv_info s1) = tail_i (sv_info s) /\ sv_solution s1 = sv_solution s /\ sv_settings s1 = sv_settings s) by (subst s1; destruct (_ && _); repeat split; reflexivity).
    clearbody s1. destruct H1 as (A1 & A2 & A3 & A4). rs.
    eapply post_bindP with (P := fun w => tail_w w = tail_w (sv_work s)).
    { destruct (tr _); [|apply post_ret; exact A1]. unfold refresh_rho_vec. do 5 (apply post_bind; intros ? _). apply post_ret. exact A1. }
    intros w Hw. apply post_bind; intros ls _. apply post_bind; intros r1 _. rs.
    assert (HS : same_st (sv_settings s) (set_st_rho (clamp r) (sv_settings s1))) by (rewrite A4; exists (clamp r), (st_adaptive_rho_interval (sv_settings s)); destruct (sv_settings s); reflexivity).
    destruct (_ =? 0); apply post_ret; cbn [snd]; unfold toc; rs; split; try exact Hw; (split; [exact A2|]); (split; [auto|]); (split; [auto|]); (split; [rewrite A4; reflexivity|auto]).
  Qed.

  Theorem pass_ends (t : solver K) k f : post (admm_pass E t k f) (pass_end t k f).
  Proof.
    destruct f as [[cc cp] ca]. unfold admm_pass. destruct (admm_step E t) as [t1|] eqn:ES; [|apply post_none].
    pose proof (admm_step_post E t t1 ES) as HA. cbv beta in HA. destruct HA as (HS & _).
    unfold is_interrupted. cbv zeta. set (s2 := set_sv_world _ t1). fold (stop_requested t1).
    destruct (stop_requested t1) eqn:EI.
    { eapply post_bindP; [apply update_status_post|]. intros i (msg & _ & ->). apply post_ret. eapply pe_intr; eauto; reflexivity. }
    assert (ET : temp_run_time E s2 = (clock_read t1, snd (toc E s2))).
    { unfold temp_run_time, clock_read, toc. subst s2. rs. destruct (tr _); reflexivity. }
    rewrite ET. set (s3 := snd (toc E s2)).
    assert (N3 : sv_work s3 = sv_work t1 /\ sv_info s3 = sv_info t1 /\ sv_solution s3 = sv_solution t1 /\ sv_settings s3 = sv_settings t1) by (repeat split; reflexivity).
    clearbody s3. clear ET s2. destruct N3 as (W3 & I3 & O3 & S3). rewrite S3. fold (time_over t1).
    destruct (time_over t1) eqn:ET.
    { eapply post_bindP; [apply update_status_post|]. intros i (msg & _ & ->). apply post_ret. eapply (pe_time t k (cc, cp, ca) t1); eauto. rs. rewrite I3. eauto. }
    pose proof (decide_adapt_hit s3 k ca) as HD. destruct (decide_adapt_post E s3 k ca) as (D1 & D2 & D3 & r & D4). destruct (decide_adapt E s3 k ca) as [ca4 s4]. cbn [fst snd] in *.
    assert (N4 : near t1 s4) by (split; [congruence|]; split; [congruence|]; split; [congruence|]; exists r; congruence).
    rewrite S3, HS in HD. rewrite HS.
    assert (H4 : sv_settings s4 = set_st_adaptive_rho_interval r (sv_settings t)) by congruence. clear D1 D2 D3 D4 W3 I3 O3 S3 s3.
    change (tr (st_check_termination (sv_settings t)) && (Z.rem k (st_check_termination (sv_settings t)) =? 0)) with (scheduled (sv_settings t) k).
    set (cc4 := scheduled (sv_settings t) k). set (cp4 := tr (st_verbose _) && _). clearbody cp4.
    apply post_bind. intros s5 E5.
    assert (HU : update_info E s4 k = Some s5 \/ (cc4 = false /\ cp4 = false /\ k <> 1 /\ ca4 = false /\ s5 = s4)).
    { destruct cc4; [auto|]. destruct cp4; [auto|]. destruct ca4; [auto|]. cbn [orb] in E5. destruct (k =? 1) eqn:EK; [auto|]. right. injection E5 as <-. repeat split; auto. lia. }
    assert (U5 : sv_settings s5 = sv_settings s4).
    { destruct HU as [H|H]; [|destruct H as (_ & _ & _ & _ & ->); auto]. apply update_info_post in H. apply H. }
    apply post_bind. intros [stop s6] E6.
    destruct stop.
    { apply post_ret. destruct cc4 eqn:EC; [|discriminate]. destruct HU as [H|H]; [|destruct H; discriminate]. eapply pe_stop; eauto. }
    assert (C6 : if cc4 then check_termination s5 false = Some (false, s6) else s6 = s5) by (destruct cc4; [auto|congruence]).
    assert (U6 : sv_settings s6 = sv_settings s5 /\ ifix (sv_info s6) = ifix (sv_info s5)).
    { destruct cc4; [|subst; auto]. apply check_termination_post in C6. cbv beta zeta in C6. split; apply C6. }
    destruct U6 as (U6 & _). rewrite U5, H4 in U6.
    set (s7 := set_sv_work (set_w_rho_updated 0 (sv_work s6)) s6).
    assert (T7 : settled s6 s7) by (split; [reflexivity|]; split; [reflexivity|]; split; [reflexivity|]; apply same_st_refl).
    assert (R7 : sv_settings s7 = sv_settings s6) by reflexivity.
    assert (Est : compute_rho_estimate (sv_settings s7) (sv_work s7) = compute_rho_estimate (sv_settings s6) (sv_work s6)) by reflexivity.
    assert (I7 : sv_info s7 = sv_info s6) by reflexivity. assert (L7 : w_last_rel_kkt (sv_work s7) = w_last_rel_kkt (sv_work s6)) by reflexivity.
    clearbody s7. set (ca7 := if ca4 && _ then _ else ca4). assert (HC7 : ca7 = true -> ca4 = true) by (subst ca7; destruct ca4; auto).
    assert (HK7 : ca7 = true -> st_adaptive_rho (sv_settings s6) = ADAPTIVE_RHO_KKT_ERROR -> nleb (i_rel_kkt_error (sv_info s6)) (nmul (st_adaptive_rho_fraction (sv_settings s6)) (w_last_rel_kkt (sv_work s6))) = true).
    { subst ca7. rewrite <- R7, <- I7, <- L7. intros H1 H2. rewrite H2 in H1. cbn [Z.eqb Pos.eqb ADAPTIVE_RHO_KKT_ERROR] in H1. destruct ca4; [exact H1|discriminate]. }
    clearbody ca7.
    set (Q := fun r : Z * solver K => (fst r <> 0 -> nleb (compute_rho_estimate (sv_settings s6) (sv_work s6)) n0 = true \/ (exists ls, w_linsys (sv_work (snd r)) = Some ls /\ env_fac E (ls_fac ls) < 0)) /\ settled s6 (snd r) /\ (st_adaptive_rho (sv_settings t) < 4 -> 0 <= st_adaptive_rho (sv_settings t) -> st_rho (sv_settings (snd r)) = st_rho (sv_settings t) /\ fst r = 0 \/ rho_change s6 (snd r) k) /\ (fst r <> 0 -> ca4 = true) /\ (ca4 = false -> st_rho (sv_settings (snd r)) = st_rho (sv_settings t))).
    eapply post_bindP with (P := Q).
    { destruct ca7; [|apply post_ret; split; [cbn [fst]; congruence|]; split; [exact T7|]; split; [|cbn [fst snd]; split; [congruence|intros _; rewrite R7, U6; reflexivity]]; intros _ _; left; cbn [fst snd]; split; auto; rewrite R7, U6; reflexivity].
      unfold adapt_rho. rs. match goal with |- post (if ?b then _ else _) _ => destruct b eqn:EO end.
      - eapply post_bindP; [apply post_and; [apply update_rho_tail|apply update_rho_flag]|]. intros [fl s8]. cbv beta zeta. cbn [fst snd]. intros ((B1 & B2 & B3 & B4 & B6 & B5) & BF). apply post_ret. rs_in B1. rs_in B2. rs_in B3. rs_in B4. rs_in B5. rs_in B6.
        destruct T7 as (G1 & G2 & G3 & G4). split. { cbn [fst snd]. rewrite Est in BF. destruct BF as [(BF & _)|(_ & [BF|(_ & BF)])]; [auto|congruence|]. intros _. right. exact BF. }
        split; [|split; [|split; [auto|intros HX; rewrite (HC7 eq_refl) in HX; discriminate]]]; cbn [fst snd].
        + split; [|split; [|split]]; rs.
          * transitivity (tail_w (sv_work s8)); [reflexivity|]. rewrite B1. exact G1.
          * transitivity (tail_i (sv_info s8)); [reflexivity|]. rewrite B2. transitivity (tail_i (sv_info s7)); [reflexivity|auto].
          * congruence.
          * eapply same_st_trans; eauto.
        + intros X1 X2. right. unfold rho_change. cbv zeta. rewrite <- Est, <- R7. destruct (HD X1 X2 (HC7 eq_refl)) as (HD1 & HD2).
          split; [rewrite R7, U6, <- H4; exact HD1|]. split; [rewrite R7, U6; exact HD2|]. split; [apply orb_true_iff in EO; exact EO|]. split; [exact B5|]. split; [exact B6|]. rewrite R7. auto.
      - apply post_ret. split; [cbn [fst]; congruence|]. split; [|split; [|cbn [fst snd]; split; [congruence|intros _; rs; rewrite R7, U6; reflexivity]]]; cbn [fst snd]; rs; [|intros _ _; left; split; auto; rewrite R7, U6; reflexivity]. destruct T7 as (G1 & G2 & G3 & G4). split; [|split; [|split]]; rs; auto. }
    intros [fl s8] (W8 & Q8 & R8 & F8 & V8). cbn [fst snd] in *. destruct (tr fl) eqn:EF.
    { apply post_ret. assert (fl <> 0) by (intros ->; discriminate). destruct HU as [HU|HU]; [|destruct HU as (_ & _ & _ & HU & _); rewrite (F8 H) in HU; discriminate].
      eapply pe_fail; eauto; [|apply Q8]. intros X1 X2. destruct (R8 X1 X2) as [(_ & Z8)|Z8]; [congruence|auto]. }
    set (s9 := if tr (w_rho_updated (sv_work s8)) then _ else s8).
    assert (Q9 : settled s6 s9 /\ sv_settings s9 = sv_settings s8) by (subst s9; destruct (tr (w_rho_updated _)); split; try exact Q8; reflexivity). clearbody s9. destruct Q9 as (Q9 & R9).
    apply post_ret. set (s10 := if _ || _ then _ else s9). assert (Q10 : settled s6 s10 /\ sv_settings s10 = sv_settings s8) by (subst s10; match goal with |- context [if ?b then _ else _] => destruct b end; split; try exact Q9; exact R9). clearbody s10. destruct Q10 as (Q10 & R10).
    eapply pe_cont; eauto.
    - destruct HU as [HU|(V1 & V2 & V3 & V4 & V5)]; [left; exact HU|right]. split; [auto|]. split; [auto|]. split; [auto|]. split; [rewrite R10; auto|auto].
    - intros X1 X2. unfold rho_change in *. rewrite R10. destruct (R8 X1 X2) as [(Z8 & _)|Z8]; auto.
  Qed.
End PassFacts.
