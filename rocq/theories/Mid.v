(** The states a solver passes through during one osqp_solve. *)
From Coq Require Import ZArith List Bool Lia String.
From Verif Require Import Num Arr ArrFacts Csc CscSpec CscFacts CscFacts2 Scatter Vec Types Kkt Linsys Scaling Validate Auxil Polish Api
  VecFacts LinsysFacts LinsysSolve Inv InvStep InvApi InvScale InvPolish InvSolve RecSimp Frame FrameSolve.
Import ListNotations.
Open Scope Z_scope.

Section Mid.
  Context {K : NumOps}.
  Variable E : Env K.

  (** t is the state in which iteration k of osqp_solve(s) begins, f its loop variables. *)
  Inductive before (s : solver K) : Z -> flags -> solver K -> Prop :=
  | bf_1 : forall t, begin_solve s = Some t -> before s 1 (false, tr (st_verbose (sv_settings t)), false) t
  | bf_S : forall k f t t' f', before s k f t -> k <= st_max_iter (sv_settings s) -> admm_pass E t k f = Some (Continue t' f') -> before s (k + 1) f' t'.

  (** t' is the state right after the ADMM step of iteration k of osqp_solve(s), t the state before it. *)
  Definition iterate (s : solver K) (k : Z) (t t' : solver K) : Prop :=
    exists f, before s k f t /\ k <= st_max_iter (sv_settings s) /\ admm_step E t = Some t'.

  Lemma begin_post (s : solver K) : post (begin_solve s) (fun t => sv_settings t = sv_settings s /\ fixed (sv_work t) = fixed (set_w_rho_update_from_solve 1 (sv_work s)) /\
    i_status_val (sv_info t) = i_status_val (sv_info s) /\ i_iter (sv_info t) = i_iter (sv_info s) /\ i_status_polish (sv_info t) = i_status_polish (sv_info s) /\
    i_polish_time (sv_info t) = i_polish_time (sv_info s) /\ i_setup_time (sv_info t) = i_setup_time (sv_info s) /\
    (tr (st_warm_starting (sv_settings s)) = true -> iter3 (sv_work t) = iter3 (sv_work s)) /\
    (tr (st_warm_starting (sv_settings s)) = false -> iter3 (sv_work t) = (map (fun _ => n0) (w_x (sv_work s)), map (fun _ => n0) (w_y (sv_work s)), map (fun _ => n0) (w_z (sv_work s)))) /\
    sv_solution t = sv_solution s).
  Proof.
    unfold begin_solve. cbv zeta. set (s1 := if _ =? 1 then _ else s).
    assert (H1 : sv_settings s1 = sv_settings s /\ sv_work s1 = sv_work s /\ i_status_val (sv_info s1) = i_status_val (sv_info s) /\ i_iter (sv_info s1) = i_iter (sv_info s) /\
      i_status_polish (sv_info s1) = i_status_polish (sv_info s) /\ i_polish_time (sv_info s1) = i_polish_time (sv_info s) /\ i_setup_time (sv_info s1) = i_setup_time (sv_info s) /\ sv_solution s1 = sv_solution s)
      by (subst s1; destruct (_ =? 1); auto 10).
    destruct H1 as (H1 & H2 & H3 & H4 & H5 & H6 & H7 & H8). clearbody s1. unfold start_interrupt_listener, push_sec. rs. rewrite H1.
    destruct (tr (st_warm_starting (sv_settings s))).
    - apply post_ret. rs. repeat match goal with |- _ /\ _ => split; [solve [auto]|] end. split; [discriminate|auto].
    - eapply post_bindP; [apply cold_start_post|]. intros w ->. apply post_ret. rs.
      repeat match goal with |- _ /\ _ => split; [solve [auto]|] end. split; [discriminate|]. auto.
  Qed.
  Lemma begin_sfr (s : solver K) : post (begin_solve s) (sfr s).
  Proof.
    eapply post_weaken; [apply begin_post|]. cbv beta. intros t (A1 & A2 & _). apply sfr_fixed; auto. apply fixed_core in A2. exact A2.
  Qed.

  Lemma before_sfr s k f t : before s k f t -> sfr s t.
  Proof.
    induction 1 as [t H|k f t t' f' H IH Hk HP]; [exact (begin_sfr s t H)|].
    eapply sfr_trans; [exact IH|]. exact (sfr_pass E t k f _ HP).
  Qed.
  Lemma before_ge s k f t : before s k f t -> 1 <= k.
  Proof. induction 1; lia. Qed.
  Lemma before_le s k f t : 1 <= st_max_iter (sv_settings s) -> before s k f t -> k <= st_max_iter (sv_settings s) + 1.
  Proof. induction 2; lia. Qed.

  Lemma same_st_max (a b : settings K) : same_st a b -> st_max_iter b = st_max_iter a.
  Proof. intros (r & t & ->). reflexivity. Qed.
  Lemma same_st_keep (a b : settings K) : same_st a b -> st_alpha b = st_alpha a /\ st_sigma b = st_sigma a /\ st_rho_is_vec b = st_rho_is_vec a /\ st_scaling b = st_scaling a /\
    st_check_termination b = st_check_termination a /\ st_polishing b = st_polishing a /\ st_scaled_termination b = st_scaled_termination a /\ st_check_dualgap b = st_check_dualgap a /\
    st_eps_abs b = st_eps_abs a /\ st_eps_rel b = st_eps_rel a /\ st_eps_prim_inf b = st_eps_prim_inf a /\ st_eps_dual_inf b = st_eps_dual_inf a /\ st_time_limit b = st_time_limit a /\ st_verbose b = st_verbose a /\
    st_adaptive_rho b = st_adaptive_rho a.
  Proof. intros (r & t & ->). auto 20. Qed.

  Section Safe.
  Hypothesis EO : env_ok E.
  Hypothesis MM : nltb (OSQP_RHO_MIN K) (OSQP_RHO_MAX K) = true.

  Lemma before_inv s k f t : Inv s -> before s k f t -> Inv t /\ fr s t.
  Proof.
    intros HI. induction 1 as [t H|k f t t' f' H (I1 & F1) Hk HP].
    - destruct (begin_solve_safe s HI) as (t' & Et & I1 & F1 & _). rewrite H in Et. injection Et as <-. auto.
    - destruct (admm_pass_safe E EO MM t k f I1) as (o & Eo & HO). rewrite HP in Eo. injection Eo as <-. cbn [out_ok] in HO.
      destruct HO as ((I2 & F2 & _) & _). split; auto. eapply fr_trans; eauto.
  Qed.
  Lemma iterate_inv s k t t' : Inv s -> iterate s k t t' -> Inv t /\ fr s t /\ Inv t' /\ fr s t'.
  Proof.
    intros HI (f & HB & Hk & HS). destruct (before_inv s k f t HI HB) as (I1 & F1).
    destruct (admm_step_safe E EO t I1) as (t2 & Et & ((I2 & F2 & _) & _) & _). rewrite HS in Et. injection Et as <-. split; auto. split; auto. split; auto. eapply fr_trans; eauto.
  Qed.
  End Safe.

  (** The loop stops in a state of the trace. *)
  Lemma loop_trace s : forall n k f t, before s k f t -> k + Z.of_nat n = st_max_iter (sv_settings s) + 1 -> forall o it, admm_loop E n k f t = Some (o, it) ->
    (it = st_max_iter (sv_settings s) + 1 /\ exists t' f', o = Break t' f' /\ before s it f' t') \/
    (1 <= it <= st_max_iter (sv_settings s) /\ exists f' t', before s it f' t' /\ admm_pass E t' it f' = Some o /\ forall t2 f2, o <> Continue t2 f2).
  Proof.
    induction n as [|n IH]; intros k f t HB Hk o it H; cbn [admm_loop] in H.
    - injection H as <- <-. left. split; [lia|]. exists t, f. auto.
    - destruct (admm_pass E t k f) as [o1|] eqn:EP; [|discriminate]. pose proof (before_ge _ _ _ _ HB).
      destruct o1 as [t1 f1|t1 f1|t1 fl].
      + apply (IH _ _ _ (bf_S _ _ _ _ _ _ HB ltac:(lia) EP)) in H; auto. lia.
      + injection H as <- <-. right. split; [lia|]. exists f, t. split; auto. split; auto. discriminate.
      + injection H as <- <-. right. split; [lia|]. exists f, t. split; auto. split; auto. discriminate.
  Qed.

  (** How a call of osqp_solve ran: it performed iterations 1 .. k, the last one from state t0 to t1. *)
  Inductive solve_trace (s : solver K) (fl : Z) (s' : solver K) : Prop :=
  | tr_all : forall f t, before s (st_max_iter (sv_settings s) + 1) f t ->
      finish_solve E t (st_max_iter (sv_settings s) + 1) f = Some (fl, s') -> solve_trace s fl s'
  | tr_break : forall k f t t' f', before s k f t -> 1 <= k <= st_max_iter (sv_settings s) -> admm_pass E t k f = Some (Break t' f') ->
      finish_solve E t' k f' = Some (fl, s') -> solve_trace s fl s'
  | tr_exit : forall k f t t', before s k f t -> 1 <= k <= st_max_iter (sv_settings s) -> admm_pass E t k f = Some (Exit t' fl) ->
      solve_exit t' fl = Some (fl, s') -> solve_trace s fl s'.

  Lemma solve_traced s fl s' : 0 <= st_max_iter (sv_settings s) -> solve E s = Some (fl, s') -> solve_trace s fl s'.
  Proof.
    intros HM H. unfold solve in H. destruct (begin_solve s) as [t|] eqn:EB; [|discriminate].
    pose proof (same_st_max _ _ (sf_st _ _ (begin_sfr s t EB))) as EM.
    destruct (admm_loop _ _ _ _ _) as [[o it]|] eqn:EL; [|discriminate].
    assert (EN : 1 + Z.of_nat (Z.to_nat (st_max_iter (sv_settings t))) = st_max_iter (sv_settings s) + 1) by lia.
    destruct (loop_trace s _ _ _ _ (bf_1 s t EB) EN _ _ EL) as [(Hit & t' & f' & -> & HB)|(Hit & f' & t' & HB & HP & HN)].
    - subst it. eapply tr_all; eauto.
    - destruct o as [t2 f2|t2 f2|t2 fl2]; [exfalso; eapply HN; eauto|eapply tr_break; eauto|].
      assert (fl2 = fl) as -> by (unfold solve_exit in H; destruct (pop_sec _); [|discriminate]; congruence). eapply tr_exit; eauto.
  Qed.
End Mid.
