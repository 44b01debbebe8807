(** What the status left by osqp_solve means for the machine-level reading of its last iterate, for every number system. *)
From Coq Require Import ZArith List Bool Lia String.
From Verif Require Import Num Arr ArrFacts Csc CscSpec CscFacts CscFacts2 Scatter Vec Types Kkt Linsys Scaling Validate Auxil Polish Api
  VecFacts LinsysFacts LinsysSolve Inv InvStep InvApi InvScale InvPolish InvSolve RecSimp Frame FrameSolve Mid Trace PassFacts SolveEnd KktErr AtyFacts MachineSpec MachineTerm MachineInfo.
Import ListNotations.
Open Scope Z_scope.
Local Open Scope opt_scope.

Ltac stc := unfold OSQP_SOLVED, OSQP_SOLVED_INACCURATE, OSQP_PRIMAL_INFEASIBLE, OSQP_PRIMAL_INFEASIBLE_INACCURATE, OSQP_DUAL_INFEASIBLE, OSQP_DUAL_INFEASIBLE_INACCURATE,
  OSQP_MAX_ITER_REACHED, OSQP_TIME_LIMIT_REACHED, OSQP_NON_CVX, OSQP_SIGINT, OSQP_UNSOLVED in *; first [lia|exfalso; lia].

Section Conv.
  Context {K : NumOps}.
  Lemma cur_st (a b : settings K) w i W V : same_st a b -> MachineTerm.cur a w i W V <-> MachineTerm.cur b w i W V.
  Proof. intros (r & t & ->). split; intros []; constructor; assumption. Qed.
  Lemma pcert_st (a b : settings K) d sc l v : same_st a b -> pcert b d sc l v -> pcert a d sc l v.
  Proof. intros (r & t & ->) H. exact H. Qed.
  Lemma dcert_st (a b : settings K) d sc l v : same_st a b -> dcert b d sc l v -> dcert a d sc l v.
  Proof. intros (r & t & ->) H. exact H. Qed.
  Lemma accepted_st (a b : settings K) m l V : same_st a b -> accepted b m l V = accepted a m l V.
  Proof. intros (r & t & ->). reflexivity. Qed.
  Lemma mverdict_st (a b : settings K) l s r s' : same_st a b -> mverdict b l s r s' -> mverdict a l s r s'.
  Proof.
    intros H V. assert (HC : forall W V, MachineTerm.cur a (sv_work s) (sv_info s) W V -> MachineTerm.cur b (sv_work s) (sv_info s) W V) by (intros; apply (cur_st a b); auto).
    pose proof (fun m V => accepted_st a b m l V H) as HA.
    destruct V as [s' V1 V2|s' V1 V2 V3|s' V1 V2 V3|s' V1 V2 V3|s' V1 V2].
    - apply mv_huge; eauto.
    - apply mv_solved; auto. intros W V0 C0. rewrite <- HA. eauto.
    - apply mv_pinf; auto; [intros W V0 C0; rewrite <- HA; eauto|]. eapply pcert_st; eauto.
    - apply mv_dinf; auto; [intros W V0 C0; rewrite <- HA; eauto|]. eapply dcert_st; eauto.
    - apply mv_no; auto. intros W V0 C0; rewrite <- HA; eauto.
  Qed.
End Conv.

Section Solve.
  Context {K : NumOps}.
  Variable G : Env K.
  Hypothesis EO : env_ok G.
  Hypothesis MM : nltb (OSQP_RHO_MIN K) (OSQP_RHO_MAX K) = true.
  Variable s : solver K.
  Notation st := (sv_settings s).
  Notation D := (w_data (sv_work s)). Notation SC := (w_scaling (sv_work s)). Notation M := (d_m (w_data (sv_work s))).
  Hypothesis HI : Inv s.
  Hypothesis HA : aty_zero (sv_work s).

  Definition good (t : solver K) : Prop := Inv t /\ sfr s t /\ aty_zero (sv_work t).
  Definition cur (t : solver K) (V : reading) : Prop := exists W, MachineTerm.cur st (sv_work t) (sv_info t) W V.
  Definition rep (t : solver K) (V : reading) : Prop := values (sv_info t) V.
  Notation ACC ap V := (accepted st M ap V = true).
  Notation REJ ap V := (accepted st M ap V = false).
  Notation stat t := (i_status_val (sv_info t)).

  Lemma good_start : good s.
  Proof. split; [auto|split; auto using sfr_refl]. Qed.
  Lemma good_same t t' : good t -> Inv t' -> sfr t t' -> kz (sv_work t) (sv_work t') -> good t'.
  Proof. intros (I1 & F1 & A1) I2 F2 HK. split; [auto|]. split; [eapply sfr_trans; eauto|]. eapply kz_zero; eauto. Qed.
  Lemma good_dsc t : good t -> w_data (sv_work t) = D /\ w_scaling (sv_work t) = SC.
  Proof. intros (_ & F1 & _). split; apply F1. Qed.

  Lemma info_good t k : good t -> post (update_info G t k) (fun t' => good t' /\ (exists V, cur t' V /\ rep t' V) /\ w_data (sv_work t') = w_data (sv_work t) /\ iter3 (sv_work t') = iter3 (sv_work t) /\ deltas (sv_work t') = deltas (sv_work t) /\
    stat t' = stat t /\ i_iter (sv_info t') = k /\ sv_settings t' = sv_settings t /\ sv_solution t' = sv_solution t).
  Proof.
    intros HG. pose proof HG as (I1 & F1 & A1).
    intros t' Et. destruct (update_info_safe G t k I1) as (t2 & Et2 & (I2 & F2 & _) & _). rewrite Et in Et2. injection Et2 as <-.
    pose proof (update_info_post G t k t' Et) as HP. cbv beta in HP. decompose [and] HP. clear HP.
    destruct (update_info_machine G (sv_settings t) t k eq_refl A1 t' Et) as (W & V & C1 & C2).
    assert (HG' : good t') by (apply (good_same t); auto; [exact (sfr_info G t k t' Et)|exact (update_info_kz G t k t' Et)]).
    split; [auto|]. split; [exists V; split; [exists W; apply (cur_st st (sv_settings t)); [apply F1|exact C1]|exact C2]|].
    split; [apply fx_data; auto|]. repeat (split; [solve [auto]|]). auto.
  Qed.

  Lemma check_good t ap : good t -> post (check_termination t ap) (fun r => let t' := snd r in good t' /\ mverdict st ap t (fst r) t' /\ same_cur (sv_work t) (sv_work t') /\ res4 (sv_info t') = res4 (sv_info t) /\
    i_iter (sv_info t') = i_iter (sv_info t) /\ sv_settings t' = sv_settings t /\ sv_solution t' = sv_solution t /\ (fst r = false -> sv_info t' = sv_info t)).
  Proof.
    intros HG. pose proof HG as (I1 & F1 & A1).
    intros r Er. cbv zeta. destruct (check_termination_safe t ap I1) as (r2 & Er2 & (I2 & F2 & _) & _). rewrite Er in Er2. injection Er2 as <-.
    pose proof (check_termination_post t ap r Er) as HP. cbv beta zeta in HP. decompose [and] HP. clear HP.
    assert (HG' : good (snd r)) by (apply (good_same t); auto; [exact (sfr_check t ap r Er)|exact (check_kz t ap r Er)]).
    split; [auto|]. split; [eapply mverdict_st; [apply F1|]; exact (mverdict_ok (sv_settings t) t ap eq_refl r Er)|]. split; [exact (check_keeps t ap r Er)|]. split; [unfold res4; congruence|]. auto 10.
  Qed.

  Lemma cur_same t t' V : same_cur (sv_work t) (sv_work t') -> res4 (sv_info t') = res4 (sv_info t) -> cur t V -> cur t' V.
  Proof. intros H1 H2 (W & HC). exists W. eapply MachineTerm.cur_same; eauto. Qed.

  Lemma near_good t1 t2 : good t1 -> near t1 t2 -> good t2.
  Proof.
    intros (I1 & F1 & A1) (N1 & N2 & N3 & r & N4). split; [|split].
    - destruct t1 as [st1 so1 i1 w1 g1], t2 as [st2 so2 i2 w2 g2]. cbn [sv_settings sv_solution sv_info sv_work] in *. subst. destruct I1 as [J1 J2 J3 J4]. constructor; cbn [sv_settings sv_solution sv_info sv_work] in *; auto.
      destruct J1. constructor; auto.
    - eapply sfr_trans; [exact F1|]. constructor; rewrite ?N1; auto; [rewrite N4; exists (st_rho (sv_settings t1)), r; destruct (sv_settings t1); reflexivity|]. unfold rsync. rewrite N1, N4. rs. auto.
    - rewrite N1. auto.
  Qed.

  Lemma objective_good t : good t -> post (final_objective t) (fun t' => good t' /\ w_data (sv_work t') = w_data (sv_work t) /\ iter3 (sv_work t') = iter3 (sv_work t) /\ deltas (sv_work t') = deltas (sv_work t) /\
    stat t' = stat t /\ i_iter (sv_info t') = i_iter (sv_info t) /\ sv_settings t' = sv_settings t /\ sv_solution t' = sv_solution t /\
    (forall V, cur t V -> cur t' V /\ (has_solution (sv_info t) = true -> rep t' V))).
  Proof.
    intros HG. pose proof HG as (I1 & F1 & A1).
    intros t' Et. destruct (final_objective_safe t I1) as (t2 & Et2 & (I2 & F2 & _) & _). rewrite Et in Et2. injection Et2 as <-.
    assert (HM : forall V, cur t V -> cur t' V /\ (has_solution (sv_info t) = true -> rep t' V)).
    { intros V (W & HC). destruct (objective_machine (sv_settings t) t W V eq_refl) with (a := t') as (C1 & C2); auto.
      - apply (cur_st st (sv_settings t)); [apply F1|auto].
      - split; [exists W; apply (cur_st st (sv_settings t)); [apply F1|auto]|auto]. }
    revert Et. unfold final_objective. destruct (has_solution (sv_info t)) eqn:EH.
    2:{ intros [= <-]. do 8 (split; [solve [auto]|]). exact HM. }
    destruct (compute_obj_val_dual_gap (sv_settings t) (sv_work t) (w_x (sv_work t)) (w_y (sv_work t))) as [[[[p dv] g] w]|] eqn:Eo; [|discriminate]. intros [= <-].
    pose proof (obj_post (sv_settings t) (sv_work t) _ _ _ Eo) as HP. cbv beta zeta in HP. cbn [snd] in HP. destruct HP as (P1 & P2 & P3 & P4 & P5 & P6 & P7 & P8 & P9).
    pose proof (fx_data _ _ P1) as ED.
    split. { apply (good_same t); auto; [apply sfr_fixed; rs; auto using fixed_core|]. apply kz_fp; rs; auto. }
    rs. do 7 (split; [solve [auto]|]). exact HM.
  Qed.

  (** What the state e that ends the solve says about the last iterate, held by w, with reading V.  timed: the time limit was hit; stale: it was hit
      right after an iteration with a scheduled test, so that the information belongs to the iterate before. *)
  Record ending (timed stale : bool) (V : reading) (w : work K) (e : solver K) : Prop := {
    en_good : good e;
    en_it : iter3 (sv_work e) = iter3 w;
    en_solved : stat e = OSQP_SOLVED -> ACC false V /\ stale = false;
    en_inacc : stat e = OSQP_SOLVED_INACCURATE -> stale = false -> ACC true V;
    en_pinf : stat e = OSQP_PRIMAL_INFEASIBLE -> pcert st D SC false (w_delta_y (sv_work e));
    en_pinfi : stat e = OSQP_PRIMAL_INFEASIBLE_INACCURATE -> pcert st D SC true (w_delta_y (sv_work e));
    en_dinf : stat e = OSQP_DUAL_INFEASIBLE -> dcert st D SC false (w_delta_x (sv_work e));
    en_dinfi : stat e = OSQP_DUAL_INFEASIBLE_INACCURATE -> dcert st D SC true (w_delta_x (sv_work e));
    en_ncvx : stale = false -> (stat e = OSQP_NON_CVX <-> exploded V = true);
    en_not : stat e <> OSQP_SOLVED -> stat e <> OSQP_NON_CVX -> stale = false -> REJ false V;
    en_max : stat e = OSQP_MAX_ITER_REACHED -> timed = false /\ REJ true V;
    en_time : stat e = OSQP_TIME_LIMIT_REACHED -> timed = true /\ (stale = false -> REJ true V);
    en_range : 1 <= stat e <= 9;
    en_cur : stale = false -> cur e V;
    en_rep : stale = false -> has_solution (sv_info e) = true -> rep e V;
    en_nt : stale = true -> timed = true }.

  Lemma print_good t : good t -> let t' := if tr (st_verbose (sv_settings t)) && negb (tr (w_summary_printed (sv_work t))) then print_summary t else t in
    good t' /\ same_cur (sv_work t) (sv_work t') /\ deltas (sv_work t') = deltas (sv_work t) /\ sv_info t' = sv_info t /\ sv_settings t' = sv_settings t /\ sv_solution t' = sv_solution t.
  Proof.
    intros HG. cbv zeta. destruct (_ && _); [|split; [auto|]; split; [apply same_cur_refl|auto 10]]. split; [|split; [repeat split; auto|auto 10]].
    pose proof HG as (I1 & F1 & A1). apply (good_same t); auto; [|apply sfr_fixed; reflexivity|exact (kz_refl (sv_work t))].
    destruct I1 as [J1 J2 J3 J4]. constructor; auto. destruct J1 as [a1 a2 a3 a4 a5]. constructor; auto. destruct a5. constructor; auto.
  Qed.

  Lemma status_fin t v : 1 <= v <= 11 -> good t -> post (update_status (sv_info t) v) (fun i => good (set_sv_info i t) /\ exists msg, i = set_i_status msg (set_i_status_val v (sv_info t))).
  Proof.
    intros Hv HG i Ei. destruct (status_safe (sv_info t) v Hv) as (i' & Ei' & SO & _). assert (i' = i) by congruence. subst i'.
    destruct (update_status_post _ _ _ Ei) as (msg & Em & ->). split; [|eauto]. pose proof HG as (I1 & F1 & A1). apply (good_same t); auto; [|apply sfr_fixed; reflexivity|exact (kz_refl (sv_work t))].
    destruct I1 as [J1 J2 J3 J4]. constructor; auto.
  Qed.

  Lemma status_range (i : info K) : has_solution i = true <-> ~ (3 <= i_status_val i <= 6 \/ i_status_val i = 9).
  Proof. unfold has_solution. rewrite !andb_true_iff, !negb_true_iff, !Z.eqb_neq. split; intros H; stc. Qed.

  Lemma approx_good t timed stale V w target : good t -> iter3 (sv_work t) = iter3 w -> (stale = true -> timed = true) ->
    (target = OSQP_MAX_ITER_REACHED /\ timed = false \/ target = OSQP_TIME_LIMIT_REACHED /\ timed = true) ->
    has_solution (sv_info t) = true -> (stale = false -> REJ false V) -> (stale = false -> cur t V) -> (stale = false -> rep t V) ->
    post (check_termination t true) (fun r =>
      (fst r = true -> ending timed stale V w (snd r)) /\
      (fst r = false -> forall i, (exists msg, i = set_i_status msg (set_i_status_val target (sv_info (snd r)))) -> good (set_sv_info i (snd r)) -> ending timed stale V w (set_sv_info i (snd r))) /\
      i_iter (sv_info (snd r)) = i_iter (sv_info t) /\ sv_settings (snd r) = sv_settings t /\ sv_solution (snd r) = sv_solution t /\ good (snd r) /\
      (fst r = true -> stat (snd r) <> OSQP_TIME_LIMIT_REACHED)).
  Proof.
    intros HG EI HTS Htg HSOL NS HC HR. destruct (good_dsc t HG) as (Dt & SCt).
    eapply post_weaken; [apply check_good; auto|]. cbv beta zeta. intros [b t'] (G1 & Vd & Sc & R3 & It & Es & Eo & Ef). cbn [fst snd] in *.
    assert (EI' : iter3 (sv_work t') = iter3 w) by (destruct Sc as (_ & _ & ? & _); congruence).
    assert (CC : stale = false -> cur t' V) by (intros Hs; eapply cur_same; [exact Sc|exact R3|auto]).
    assert (RR : res5 (sv_info t') = res5 (sv_info t) -> stale = false -> rep t' V).
    { intros H5 Hs. destruct (HR Hs) as (A1 & A2). unfold res5 in H5. injection H5 as _ _ B1 B2 _. split; congruence. }
    split; [|split; [|repeat (split; [solve [auto]|]); intros ->; inversion Vd; subst; stc]].
    - intros ->. inversion Vd as [t2 V1 V2|t2 V1 V2 V3|t2 V1 V2 V3|t2 V1 V2 V3|]; subst t2; rewrite ?Dt, ?SCt in *; constructor; auto; rewrite ?V2; try stc.
      + intros Hs. destruct (HC Hs) as (W & C0). split; [intros _; exact (V1 W V C0)|reflexivity].
      + rewrite status_range, V2. stc.
      + intros _ Hs. destruct (HC Hs) as (W & C0). exact (proj2 (V1 W V C0)).
      + intros Hs. destruct (HC Hs) as (W & C0). rewrite (proj1 (V1 W V C0)). split; [stc|discriminate].
      + intros Hs. destruct (HC Hs) as (W & C0). rewrite (proj1 (V1 W V C0)). split; [stc|discriminate].
      + rewrite status_range, V2. stc.
      + intros Hs. destruct (HC Hs) as (W & C0). rewrite (proj1 (V1 W V C0)). split; [stc|discriminate].
      + rewrite status_range, V2. stc.
    - intros -> i (msg & ->) Gi. inversion Vd as [| | | |t2 V1 V2]; subst t2. rewrite Dt in *. constructor; rs; auto; try stc.
      + intros Hs. destruct (HC Hs) as (W & C0). rewrite (proj1 (V1 W V C0)). split; [stc|discriminate].
      + intros Et. destruct Htg as [[_ ->]|[-> _]]; [|stc]. split; [auto|]. assert (Hs : stale = false) by (destruct stale; [discriminate (HTS eq_refl)|reflexivity]). destruct (HC Hs) as (W & C0). exact (proj2 (V1 W V C0)).
      + intros Et. destruct Htg as [[-> _]|[_ ->]]; [stc|]. split; [auto|]. intros Hs. destruct (HC Hs) as (W & C0). exact (proj2 (V1 W V C0)).
      + intros Hs. apply (cur_same t'); [apply same_cur_refl|reflexivity|exact (CC Hs)].
      + intros Hs _. assert (HR' : rep t' V) by (apply RR; auto; rewrite V2; auto). exact HR'.
  Qed.

  (** The last step: the status is final, or the test is made once more with tolerances ten times larger. *)
  Definition pending (t : solver K) (timed stale : bool) (V : reading) (w : work K) : Prop :=
    good t /\ iter3 (sv_work t) = iter3 w /\ (stale = true -> timed = true) /\
    (stat t = OSQP_UNSOLVED -> timed = false) /\ (stat t = OSQP_TIME_LIMIT_REACHED -> timed = true) /\
    (stat t = OSQP_UNSOLVED \/ stat t = OSQP_TIME_LIMIT_REACHED \/ stale = false /\ (stat t = OSQP_SOLVED \/ stat t = OSQP_PRIMAL_INFEASIBLE \/ stat t = OSQP_DUAL_INFEASIBLE \/ stat t = OSQP_NON_CVX)) /\
    (stat t = OSQP_SOLVED -> ACC false V) /\ (stat t = OSQP_PRIMAL_INFEASIBLE -> pcert st D SC false (w_delta_y (sv_work t))) /\ (stat t = OSQP_DUAL_INFEASIBLE -> dcert st D SC false (w_delta_x (sv_work t))) /\
    (stale = false -> stat t <> OSQP_UNSOLVED -> stat t <> OSQP_TIME_LIMIT_REACHED -> (stat t = OSQP_NON_CVX <-> exploded V = true)) /\
    (stat t <> OSQP_SOLVED -> stat t <> OSQP_NON_CVX -> stale = false -> REJ false V) /\
    (stale = false -> cur t V).
  Lemma final_good t timed stale V w : pending t timed stale V w -> (stale = false -> has_solution (sv_info t) = true -> rep t V) ->
    post (final_status t) (fun e => ending timed stale V w e /\ i_iter (sv_info e) = i_iter (sv_info t) /\ sv_settings e = sv_settings t /\ sv_solution e = sv_solution t).
  Proof.
    intros (HG & EI & HTS & H1 & H2 & H3 & S1 & S2 & S3 & S4 & S5 & HC) HR.
    destruct (Z.eq_dec (stat t) OSQP_UNSOLVED) as [Eun|Eun].
    { unfold final_status. rewrite Eun. change (OSQP_UNSOLVED =? OSQP_UNSOLVED) with true. cbv iota.
      assert (HS : has_solution (sv_info t) = true) by (apply status_range; stc).
      assert (CG := approx_good t timed stale V w OSQP_MAX_ITER_REACHED HG EI HTS (or_introl (conj eq_refl (H1 Eun))) HS ltac:(apply S5; stc) HC ltac:(auto)).
      eapply post_bindP with (P := fun e => (ending timed stale V w e /\ i_iter (sv_info e) = i_iter (sv_info t) /\ sv_settings e = sv_settings t /\ sv_solution e = sv_solution t) /\ stat e <> OSQP_TIME_LIMIT_REACHED).
      - eapply post_bindP; [exact CG|]. cbv beta. intros [b t'] (K1 & K2 & K3 & K4 & K5 & K6 & K7). cbn [fst snd] in *. destruct b; [apply post_ret; auto 10|].
        eapply post_bindP; [apply (status_fin t' OSQP_MAX_ITER_REACHED); [stc|auto]|]. intros i (Gi & Hi). apply post_ret. split; [split; [apply K2; auto|rs; destruct Hi as (msg & ->); auto]|]. destruct Hi as (msg & ->). rs. stc.
      - intros e (He & Ne). apply Z.eqb_neq in Ne. rewrite Ne. apply post_ret. auto. }
    unfold final_status. replace (stat t =? OSQP_UNSOLVED) with false by (symmetry; apply Z.eqb_neq; auto). cbv iota.
    destruct (Z.eq_dec (stat t) OSQP_TIME_LIMIT_REACHED) as [Et|Et].
    { rewrite Et. change (OSQP_TIME_LIMIT_REACHED =? OSQP_TIME_LIMIT_REACHED) with true. cbv iota.
      assert (HS : has_solution (sv_info t) = true) by (apply status_range; stc).
      assert (CG := approx_good t timed stale V w OSQP_TIME_LIMIT_REACHED HG EI HTS (or_intror (conj eq_refl (H2 Et))) HS ltac:(apply S5; stc) HC ltac:(auto)).
      eapply post_bindP; [exact CG|]. cbv beta. intros [b t'] (K1 & K2 & K3 & K4 & K5 & K6 & K7). cbn [fst snd] in *. destruct b; [apply post_ret; auto 10|].
      eapply post_bindP; [apply (status_fin t' OSQP_TIME_LIMIT_REACHED); [stc|auto]|]. intros i (Gi & Hi). apply post_ret. split; [apply K2; auto|rs; destruct Hi as (msg & ->); auto]. }
    replace (stat t =? OSQP_TIME_LIMIT_REACHED) with false by (symmetry; apply Z.eqb_neq; auto).
    destruct H3 as [H3|[H3|(Hst & H3)]]; [contradiction..|].
    apply post_ret. split; [|auto]. constructor; auto; try (intros; contradiction); try stc.
  Qed.

  Definition tail (t : solver K) : option (solver K) :=
    match final_objective t with
    | Some s => let s := if tr (st_verbose (sv_settings s)) && negb (tr (w_summary_printed (sv_work s))) then print_summary s else s in final_status s
    | None => None
    end.
  Lemma tail_good t timed stale V w : pending t timed stale V w ->
    post (tail t) (fun e => ending timed stale V w e /\ i_iter (sv_info e) = i_iter (sv_info t) /\ sv_settings e = sv_settings t /\ sv_solution e = sv_solution t).
  Proof.
    intros (HG & EI & HTS & H1 & H2 & H3 & S1 & S2 & S3 & S4 & S5 & HC). unfold tail.
    eapply post_bindP; [apply objective_good; auto|]. cbv beta. intros t2 (G2 & D2 & I2 & DD2 & V2 & It2 & St2 & So2 & C2).
    cbv zeta. destruct (print_good t2 G2) as (G3 & SC3 & D3 & N3 & St3 & So3). set (t3 := if _ && _ then _ else t2) in *. clearbody t3.
    assert (VV : stat t3 = stat t) by (rewrite N3; auto).
    assert (DY : w_delta_y (sv_work t3) = w_delta_y (sv_work t) /\ w_delta_x (sv_work t3) = w_delta_x (sv_work t)) by (unfold deltas in *; split; congruence). destruct DY as [DY DX].
    pose proof SC3 as (SA & SB & SD & SE).
    eapply post_weaken; [apply (final_good t3 timed stale V w); [unfold pending; rewrite VV, DY, DX; repeat (split; [solve [auto|congruence]|]); intros Hs; apply (cur_same t2); [auto|rewrite N3; auto|]; apply C2; auto|]|].
    - intros Hs Hh. unfold rep. rewrite N3. apply C2; auto. apply status_range in Hh. apply status_range. rewrite VV in Hh. auto.
    - cbv beta. intros e (He & I5 & St5 & So5). split; [auto|]. rewrite I5, N3, It2, St5, St3, St2, So5, So3, So2. auto.
  Qed.

  Lemma conclude_tail t it f : conclude G t it f = match final_check G t it f with Some s => tail s | None => None end.
  Proof. reflexivity. Qed.

  (** A status set by the termination test is final. *)
  Lemma tail_stat t : good t -> stat t <> OSQP_UNSOLVED -> stat t <> OSQP_TIME_LIMIT_REACHED -> post (tail t) (fun e => stat e = stat t).
  Proof.
    intros HG N1 N2. unfold tail. eapply post_bindP; [apply objective_good; auto|]. cbv beta. intros t2 (G2 & _ & _ & _ & V2 & _).
    cbv zeta. destruct (print_good t2 G2) as (_ & _ & _ & N3 & _). set (t3 := if _ && _ then _ else t2) in *. clearbody t3.
    assert (VV : stat t3 = stat t) by (rewrite N3; auto). unfold final_status. rewrite VV.
    apply Z.eqb_neq in N1, N2. rewrite N1. rewrite VV, N2. apply post_ret. exact VV.
  Qed.

  (** The verdict of a test made on a current state. *)
  Lemma verdict_false t b t' v V : good t -> cur t V -> mverdict st false t b t' -> stat t = v -> (v = OSQP_UNSOLVED \/ v = OSQP_TIME_LIMIT_REACHED) ->
    (b = false -> stat t' = v) /\ (b = true -> stat t' = OSQP_NON_CVX \/ stat t' = OSQP_SOLVED \/ stat t' = OSQP_PRIMAL_INFEASIBLE \/ stat t' = OSQP_DUAL_INFEASIBLE) /\
    (stat t' = OSQP_SOLVED -> ACC false V) /\ (stat t' = OSQP_PRIMAL_INFEASIBLE -> pcert st D SC false (w_delta_y (sv_work t'))) /\ (stat t' = OSQP_DUAL_INFEASIBLE -> dcert st D SC false (w_delta_x (sv_work t'))) /\
    (stat t' = OSQP_NON_CVX <-> exploded V = true) /\ (stat t' <> OSQP_SOLVED -> stat t' <> OSQP_NON_CVX -> REJ false V).
  Proof.
    intros HG (W & HC) Vd Ev Hv. destruct (good_dsc t HG) as (Dt & SCt).
    inversion Vd as [t2 V1 V2|t2 V1 V2 V3|t2 V1 V2 V3|t2 V1 V2 V3|t2 V1 V2]; subst t2 b; cbv iota in *; specialize (V1 W V HC); rewrite ?Dt, ?SCt in *; try destruct V1 as (V1 & V4); rewrite ?V1.
    - rewrite V2. split; [intros; stc|]. split; [auto|]. do 3 (split; [intros; stc|]). split; [split; auto|intros _ HN; destruct (HN eq_refl)].
    - rewrite V2. split; [intros; stc|]. split; [auto|]. split; [auto|]. do 2 (split; [intros; stc|]). split; [split; [stc|discriminate]|]. intros HN; destruct (HN eq_refl).
    - rewrite V2. split; [intros; stc|]. split; [auto|]. split; [intros; stc|]. split; [auto|]. split; [intros; stc|]. split; [split; [stc|discriminate]|]. auto.
    - rewrite V2. split; [intros; stc|]. split; [auto|]. split; [intros; stc|]. split; [intros; stc|]. split; [auto|]. split; [split; [stc|discriminate]|]. auto.
    - rewrite V2. split; [auto|]. split; [discriminate|]. assert (Ev' : stat t = 11 \/ stat t = 8) by (rewrite Ev; stc). do 3 (split; [intros; stc|]). split; [split; [stc|discriminate]|]. auto.
  Qed.

  Definition no_reading : reading := mkreading (n0 : K) n0 n0 n0 n0 n0 n0 n0 n0.

  Lemma conclude_open t it cc cp ca timed : good t -> stat t = (if timed : bool then OSQP_TIME_LIMIT_REACHED else OSQP_UNSOLVED) ->
    (timed = false -> cc = true -> exists V, cur t V /\ REJ false V) -> (cc = false -> cp = true -> exists V, cur t V) ->
    post (conclude G t it (cc, cp, ca)) (fun e => exists V, ending timed (timed && cc) V (sv_work t) e /\ i_iter (sv_info e) = (if cc || cp then i_iter (sv_info t) else it - 1) /\ sv_settings e = sv_settings t /\ sv_solution e = sv_solution t).
  Proof.
    intros HG Hs H1 H2. rewrite conclude_tail. unfold final_check. destruct cc.
    { cbv iota beta. cbn [orb]. rewrite andb_true_r.
      assert (HV : exists V, timed = false -> cur t V /\ REJ false V). { destruct timed; [exists no_reading; discriminate|]. destruct (H1 eq_refl eq_refl) as (V & HV). exists V. auto. }
      destruct HV as (V & HV). eapply post_weaken; [apply (tail_good t timed timed V (sv_work t))|intros e He; exists V; exact He].
      unfold pending. rewrite Hs. destruct timed; repeat (split; [solve [auto|intros; stc]|]); [discriminate|]. split; [intros _ _ _; apply HV; auto|intros _; apply HV; auto]. }
    rewrite andb_false_r. cbn [orb].
    eapply post_bindP with (P := fun t' => exists t2 b V, good t2 /\ cur t2 V /\ mverdict st false t2 b t' /\ same_cur (sv_work t2) (sv_work t') /\ stat t2 = stat t /\ good t' /\ cur t' V /\ iter3 (sv_work t2) = iter3 (sv_work t) /\
      i_iter (sv_info t') = (if cp then i_iter (sv_info t) else it - 1) /\ sv_settings t' = sv_settings t /\ sv_solution t' = sv_solution t).
    { eapply post_bindP with (P := fun t1 => exists V, good t1 /\ cur t1 V /\ iter3 (sv_work t1) = iter3 (sv_work t) /\ stat t1 = stat t /\
        i_iter (sv_info t1) = (if cp then i_iter (sv_info t) else it - 1) /\ sv_settings t1 = sv_settings t /\ sv_solution t1 = sv_solution t).
      { destruct cp; [apply post_ret; destruct (H2 eq_refl eq_refl) as (V & HV); exists V; auto 10|]. eapply post_weaken; [apply info_good; auto|]. cbv beta. intros t1 (A1 & (V & A2 & _) & HH). exists V. decompose [and] HH. auto 10. }
      intros t1 (V & G1 & C1 & I1 & S1 & It1 & St1 & So1). destruct (print_good t1 G1) as (G2 & SC2 & DD2 & N2 & St2 & So2). cbv zeta. set (t2 := if _ && _ then _ else t1) in *. clearbody t2.
      pose proof SC2 as (SA & SB & SD & SE). assert (C2 : cur t2 V) by (eapply cur_same; [exact SC2|rewrite N2; auto|auto]).
      eapply post_bindP; [apply check_good; exact G2|]. cbv beta zeta. intros [b t3] (G3 & V3 & SC3 & R3 & It3 & St3 & So3 & F3). cbn [fst snd] in *. apply post_ret. cbn [snd].
      exists t2, b, V. split; [auto|]. split; [auto|]. split; [auto|]. split; [auto|]. split; [congruence|]. split; [auto|]. split; [eapply cur_same; [exact SC3|auto|auto]|]. repeat (split; [congruence|]). congruence. }
    intros t' (t2 & b & V & G2 & C2 & Vd & Sc & S2 & G' & C' & I2 & It' & St' & So').
    destruct (verdict_false t2 b t' _ V G2 C2 Vd eq_refl ltac:(rewrite S2, Hs; destruct timed; auto)) as (B0 & B1 & B2 & B3 & B4 & B5 & B6).
    rewrite S2, Hs in B0. pose proof Sc as (SA & SB & SD & SE). rewrite <- It', <- St', <- So'.
    eapply post_weaken; [apply (tail_good t' timed false V (sv_work t))|intros e He; exists V; exact He].
    unfold pending. split; [auto|]. split; [congruence|]. split; [discriminate|].
    split; [intros Hv; destruct b; [specialize (B1 eq_refl); stc|rewrite (B0 eq_refl) in Hv; destruct timed; [stc|auto]]|].
    split; [intros Hv; destruct b; [specialize (B1 eq_refl); stc|rewrite (B0 eq_refl) in Hv; destruct timed; [auto|stc]]|].
    split; [destruct b; [specialize (B1 eq_refl); right; right; split; [auto|tauto]|rewrite (B0 eq_refl); destruct timed; auto]|].
    repeat (split; [solve [auto]|]). auto.
  Qed.

  (** The statuses the termination test sets when it stops the iteration. *)
  Definition decided (v : Z) : Prop := v = OSQP_NON_CVX \/ v = OSQP_SOLVED \/ v = OSQP_PRIMAL_INFEASIBLE \/ v = OSQP_DUAL_INFEASIBLE.
  Lemma conclude_stop t0 t it cp ca V : good t0 -> good t -> cur t0 V -> mverdict st false t0 true t -> stat t0 = OSQP_UNSOLVED -> same_cur (sv_work t0) (sv_work t) -> res4 (sv_info t) = res4 (sv_info t0) ->
    post (conclude G t it (true, cp, ca)) (fun e => (ending false false V (sv_work t) e /\ i_iter (sv_info e) = i_iter (sv_info t) /\ sv_settings e = sv_settings t /\ sv_solution e = sv_solution t) /\ decided (stat e)).
  Proof.
    intros HG0 HG HC Vd S0 Sc R3. destruct (verdict_false t0 true t _ V HG0 HC Vd S0 ltac:(auto)) as (_ & B1 & B2 & B3 & B4 & B5 & B6). specialize (B1 eq_refl).
    rewrite conclude_tail. unfold final_check. cbv iota beta.
    apply post_and; [|eapply post_weaken; [apply tail_stat; auto; stc|]; cbv beta; intros e ->; exact B1].
    apply tail_good. unfold pending. split; [auto|]. split; [auto|]. split; [discriminate|]. split; [stc|]. split; [stc|]. split; [tauto|].
    repeat (split; [solve [auto]|]). intros _. eapply cur_same; eauto.
  Qed.

  Lemma ending_w timed stale V w w' e : iter3 w' = iter3 w -> ending timed stale V w e -> ending timed stale V w' e.
  Proof. intros H2 []. constructor; rewrite ?H2; auto. Qed.

  Lemma begin_kz : post (begin_solve s) (fun t => kz (sv_work s) (sv_work t)).
  Proof.
    unfold begin_solve. cbv zeta. set (s1 := if _ =? 1 then _ else s). assert (H1 : sv_work s1 = sv_work s) by (subst s1; destruct (_ =? 1); auto). clearbody s1.
    unfold start_interrupt_listener, push_sec. rs. match goal with |- post (if ?b then _ else _) _ => destruct b end.
    - apply post_ret. rs. exact (kz_refl (sv_work s)).
    - eapply post_bindP; [apply cold_kz|]. intros w Hw. apply post_ret. rs. exact Hw.
  Qed.
  Lemma before_good k f t : before G s k f t -> good t.
  Proof.
    intros HB. destruct (before_inv G EO MM s k f t HI HB) as (I1 & _). pose proof (before_sfr G s k f t HB) as F1.
    apply (good_same s); auto; [apply good_start|]. clear I1 F1. induction HB as [t H|k f t t' f' H IH Hk HP]; [exact (begin_kz t H)|].
    eapply kz_trans; [exact IH|]. exact (pass_kz G t k f _ HP).
  Qed.
  Lemma step_good t t1 : good t -> admm_step G t = Some t1 -> good t1 /\ stat t1 = stat t /\ sv_settings t1 = sv_settings t /\ sv_solution t1 = sv_solution t /\ sv_info t1 = sv_info t.
  Proof.
    intros HG HS. pose proof HG as (I1 & _). destruct (admm_step_safe G EO t I1) as (t2 & Et & ((I2 & _) & Eso) & Est & Ein). rewrite HS in Et. injection Et as <-.
    split; [apply (good_same t); auto; [exact (sfr_admm G t t1 HS)|exact (admm_step_kz G t t1 HS)]|]. rewrite Ein. auto.
  Qed.

  (** The state in which iteration k begins. *)
  Lemma before_facts k f t : before G s k f t -> stat s = OSQP_UNSOLVED -> stat t = OSQP_UNSOLVED /\ sv_solution t = sv_solution s /\
    (1 < k -> (fst (fst f) = true -> (exists V, cur t V /\ REJ false V) /\ i_iter (sv_info t) = k - 1) /\ (snd (fst f) = true -> (exists V, cur t V) /\ i_iter (sv_info t) = k - 1)).
  Proof.
    intros HB H0. induction HB as [t H|k f t t' f' H IH Hk HP].
    { pose proof (begin_post s t H) as HP. cbv beta in HP. decompose [and] HP. split; [congruence|]. split; [auto|]. lia. }
    destruct IH as (IS & IO & _). pose proof (before_good k f t H) as HG. assert (HB' : before G s (k + 1) f' t') by (eapply bf_S; eauto). pose proof (before_good _ _ _ HB') as HG'.
    pose proof (pass_ends G t k f _ HP) as HE. inversion HE as [| | | |t1 t2 t3 t4 s' cp ca HS HR HTm HN HU3 HCk HSt HRh]; subst s' f'.
    destruct (step_good t t1 HG HS) as (G1 & S1 & Es1 & Eo1 & Ei1). pose proof (near_good t1 t2 G1 HN) as G2. destruct HN as (N1 & N2 & N3 & _).
    assert (A3 : good t3 /\ stat t3 = OSQP_UNSOLVED /\ sv_solution t3 = sv_solution s /\ (cp = true \/ scheduled (sv_settings t) k = true -> (exists V, cur t3 V) /\ i_iter (sv_info t3) = k)).
    { destruct HU3 as [HU3|(X1 & X2 & X3 & _ & ->)].
      - destruct (info_good t2 k G2 t3 HU3) as (Q1 & (V & Q2 & Q3) & Q4 & Q5 & Q6 & Q7 & Q8 & Q9 & Q10). split; [auto|]. split; [congruence|]. split; [congruence|]. eauto.
      - split; [auto|]. split; [congruence|]. split; [congruence|]. rewrite X1, X2. intros [|]; discriminate. }
    destruct A3 as (G3 & S3 & O3 & C3).
    assert (A4 : stat t4 = OSQP_UNSOLVED /\ sv_solution t4 = sv_solution s /\ (cp = true \/ scheduled (sv_settings t) k = true -> (exists V, cur t4 V) /\ i_iter (sv_info t4) = k) /\ (scheduled (sv_settings t) k = true -> exists V, cur t4 V /\ REJ false V)).
    { destruct (scheduled (sv_settings t) k) eqn:Esc.
      - destruct (check_good t3 false G3 _ HCk) as (Q1 & Q2 & Q3 & Q4 & Q5 & Q6 & Q7 & Q8). cbn [fst snd] in *. specialize (Q8 eq_refl). destruct (C3 (or_intror eq_refl)) as ((V & C3') & I3').
        assert (CV : cur t4 V) by (eapply cur_same; eauto).
        split; [congruence|]. split; [congruence|]. split; [intros _; split; [eauto|congruence]|]. intros _. exists V. split; [auto|].
        destruct (verdict_false t3 false t4 _ V G3 C3' Q2 S3 ltac:(auto)) as (B0 & _ & _ & _ & _ & _ & B6). specialize (B0 eq_refl). apply B6; rewrite B0; stc.
      - subst t4. split; [auto|]. split; [auto|]. split; [auto|discriminate]. }
    destruct A4 as (S4 & O4 & C4 & N4). destruct HSt as (T1 & T2 & T3 & T4). cbn [fst snd].
    unfold tail_i in T2. injection T2 as T20 T21 T22 T23 T24 T25 T26 T27. unfold tail_w in T1.
    assert (Sc : same_cur (sv_work t4) (sv_work t')) by (unfold same_cur, scalars; repeat split; congruence).
    assert (R3 : res4 (sv_info t') = res4 (sv_info t4)) by (unfold res4; congruence).
    split; [congruence|]. split; [congruence|]. intros _. replace (k + 1 - 1) with k by lia. split.
    - intros Hsc. destruct (N4 Hsc) as (V & C5 & N5). split; [exists V; split; [eapply cur_same; eauto|auto]|]. destruct (C4 (or_intror Hsc)). congruence.
    - intros Hcp. destruct (C4 (or_introl Hcp)) as ((V & C5) & I5). split; [exists V; eapply cur_same; eauto|congruence].
  Qed.

  (** How the solve ended: t1 is its last iterate. *)
  Inductive solved_as (fl : Z) (s' : solver K) (k : Z) (t t1 : solver K) : Prop :=
  | sa_intr : stop_requested G t1 = true -> stat s' = OSQP_SIGINT -> fl = 1 -> sv_solution s' = sv_solution s -> solved_as fl s' k t t1
  | sa_fail : stop_requested G t1 = false -> time_over G t1 = false -> stat s' = OSQP_UNSOLVED -> fl = 1 -> (0 <= st_adaptive_rho st < 4 -> exists t4 : solver K, sfr s t4 /\ rho_change t4 s' k) ->
      (exists ls, w_linsys (sv_work s') = Some ls /\ env_fac G (ls_fac ls) < 0) \/ (exists t4 : solver K, sfr s t4 /\ nleb (compute_rho_estimate (sv_settings t4) (sv_work t4)) n0 = true) -> solved_as fl s' k t t1
  | sa_end : forall timed stale V e, stop_requested G t1 = false -> time_over G t1 = timed -> ending timed stale V (sv_work t1) e -> finished G e fl s' -> sv_solution e = sv_solution s ->
      i_iter (sv_info e) = (if timed then k - 1 else k) -> (timed = true \/ k = st_max_iter st \/ scheduled st k = true /\ decided (stat e)) -> error_kept e s' -> solved_as fl s' k t t1.

  Theorem solve_ends fl s' : 1 <= st_max_iter st -> stat s = OSQP_UNSOLVED -> solve G s = Some (fl, s') ->
    exists k t t1, 1 <= k <= st_max_iter st /\ iterate G s k t t1 /\ solved_as fl s' k t t1.
  Proof.
    intros HM H0 HSv. 
    assert (HST : forall t, good t -> scheduled (sv_settings t) = scheduled st) by (intros t (_ & F1 & _); destruct (sf_st _ _ F1) as (r0 & x0 & ->); reflexivity).
    destruct (solve_traced G s fl s' ltac:(lia) HSv) as [f t HB HF|k f t t' f' HB Hk HP HF|k f t t' HB Hk HP HF].
    - (* all iterations *)
      inversion HB as [t0 Hb Ek|k f0 t0 t2 f2 HB0 Hk HP Ek]; [lia|]. assert (k = st_max_iter st) by lia. subst t2 f2.
      pose proof (before_good _ _ _ HB) as HG. pose proof (before_good _ _ _ HB0) as HG0. destruct (before_facts _ _ _ HB H0) as (S1 & O1 & C1). destruct (C1 ltac:(lia)) as (C2 & C3). clear C1.
      pose proof (before_facts _ _ _ HB0 H0) as (S01 & _).
      pose proof (pass_ends G t0 k f0 _ HP) as HE. inversion HE as [| | | |t1 t2 t3 t4 s0 cp ca HS HR HTm HN HU3 HCk HSt HRh]; subst s0 f.
      destruct (pass_iter3 G t0 k f0 _ HP) as (t1' & ES & E3 & _). rewrite HS in ES. injection ES as <-. cbn [outS] in E3.
      exists k, t0, t1. pose proof (before_ge _ _ _ _ _ HB0). split; [lia|]. split; [exists f0; auto|].
      destruct (finish_ends G EO t _ _ _ HF) as (e & Ee & Hfin). pose proof (finish_error G t _ _ _ HF e Ee) as Hke. cbn [fst snd] in Hfin, C2, C3.
      destruct (conclude_open t (st_max_iter st + 1) (scheduled (sv_settings t0) k) cp ca false HG S1) with (a := e) as (V & En & Ei & Est & Eso); auto.
      { intros _ Hc. destruct (C2 Hc) as (? & ?). auto. } { intros _ Hc. destruct (C3 Hc). auto. }
      eapply sa_end with (timed := false); eauto.
      + eapply ending_w; [symmetry; exact E3|exact En].
      + congruence.
      + rewrite Ei. destruct (scheduled _ _); cbn [orb]; [destruct (C2 eq_refl) as (_ & ->); lia|]. destruct cp; [destruct (C3 eq_refl) as (_ & ->); lia|lia].
    - (* break *)
      pose proof (before_good _ _ _ HB) as HG. destruct (before_facts _ _ _ HB H0) as (S1 & O1 & C1).
      pose proof (pass_ends G t k f _ HP) as HE. destruct (finish_ends G EO t' _ _ _ HF) as (e & Ee & Hfin). pose proof (finish_error G t' _ _ _ HF e Ee) as Hke. cbn [fst snd] in Hfin.
      inversion HE as [|t1 s0 HS HR HTm W1 W2 W3 (msg & W4)|t1 t2 t3 s0 cp ca HS HR HTm HN HSc HU3 HCk| |]; subst s0 f'.
      + destruct (step_good t t1 HG HS) as (G1 & S2 & Es1 & Eo1 & Ei1).
        assert (G' : good t'). { destruct G1 as (I1 & F1 & A1). split; [|split].
          - destruct (before_inv G EO MM s k f t HI HB) as (It & _). destruct (admm_pass_safe G EO MM t k f It) as (o & Eo & HO). rewrite HP in Eo. injection Eo as <-. cbn [out_ok] in HO. apply HO.
          - eapply sfr_trans; [exact F1|]. apply sfr_fixed; rewrite ?W1; auto.
          - rewrite W1. auto. }
        destruct f as [[cc cp] ca]. cbn [fst snd] in *.
        exists k, t, t1. split; [lia|]. split; [exists (cc, cp, ca); split; auto; split; [lia|auto]|].
        destruct (conclude_open t' k cc false ca true G') with (a := e) as (V & En & Ei & Est & Eso); auto; try (intros; discriminate).
        { rewrite W4. reflexivity. }
        rewrite W1 in En. eapply sa_end with (timed := true); eauto.
        * congruence.
        * rewrite Ei. destruct cc; cbn [orb]; [|reflexivity]. rewrite W4. cbn. rewrite Ei1. destruct (Z.eq_dec k 1) as [->|Nk].
          { inversion HB as [t0 Hb Ek Ef|k0 f0 t0 t2 f2 HB0 Hk0 HP0 Ek Ef]. pose proof (before_ge _ _ _ _ _ HB0). lia. }
          { destruct (C1 ltac:(lia)) as (C2 & _). destruct (C2 eq_refl) as (_ & ->). reflexivity. }
      + destruct (step_good t t1 HG HS) as (G1 & S2 & Es1 & Eo1 & Ei1). pose proof (near_good t1 t2 G1 HN) as G2. destruct HN as (N1 & N2 & N3 & _).
        destruct (info_good t2 k G2 t3 HU3) as (Q1 & (V & Q2 & Q3) & Q4 & Q5 & Q6 & Q7 & Q8 & Q9 & Q10).
        destruct (check_good t3 false Q1 _ HCk) as (R1 & R2 & R3 & R4 & R5 & R6 & R7 & _). cbn [fst snd] in *.
        exists k, t, t1. split; [lia|]. split; [exists f; split; auto; split; [lia|auto]|].
        destruct (conclude_stop t3 t' k cp ca V Q1 R1 Q2 R2 ltac:(congruence) R3 R4 e Ee) as ((En & Ei & Est & Eso) & Edc). destruct R3 as (SA & _ & SD & _).
        eapply sa_end with (timed := false); eauto.
        * eapply ending_w; [|exact En]; congruence.
        * congruence.
        * congruence.
        * right. right. rewrite <- (HST t HG). auto.
    - (* exit *)
      pose proof (before_good _ _ _ HB) as HG. destruct (before_facts _ _ _ HB H0) as (S1 & O1 & C1).
      pose proof (pass_ends G t k f _ HP) as HE. destruct (solve_exit_eq _ _ _ HF) as (X1 & X2 & X3 & X4 & _). cbn [snd] in X1, X2, X3, X4.
      inversion HE as [t1 s0 HS HR W1 W2 W3 W4| | |t1 t2 t3 t4 s0 HS HR HTm HN HU3 HCk HRc HTi HFl|]; subst s0.
      + destruct (step_good t t1 HG HS) as (G1 & S2 & Es1 & Eo1 & Ei1). exists k, t, t1. split; [lia|]. split; [exists f; split; auto; split; [lia|auto]|]. apply sa_intr; auto; congruence.
      + destruct (step_good t t1 HG HS) as (G1 & S2 & Es1 & Eo1 & Ei1). pose proof (near_good t1 t2 G1 HN) as G2. destruct HN as (N1 & N2 & N3 & _).
        destruct (info_good t2 k G2 t3 HU3) as (Q1 & (V & Q2 & Q3) & Q4 & Q5 & Q6 & Q7 & Q8 & Q9 & Q10).
        assert (S4 : stat t4 = OSQP_UNSOLVED /\ sfr s t4). { destruct (scheduled _ _); [|subst t4; split; [congruence|exact (proj1 (proj2 Q1))]]. destruct (check_good t3 false Q1 _ HCk) as (R1 & _ & _ & _ & _ & _ & _ & R8). cbn [fst snd] in R1, R8. rewrite (R8 eq_refl). split; [congruence|exact (proj1 (proj2 R1))]. }
        destruct S4 as (S4 & F4).
        exists k, t, t1. split; [lia|]. split; [exists f; split; auto; split; [lia|auto]|]. apply sa_fail; auto.
        * rewrite X2. unfold tail_i in HTi. congruence.
        * intros Har. exists t4. split; [exact F4|]. assert (Ear : st_adaptive_rho (sv_settings t) = st_adaptive_rho st) by (destruct HG as (_ & F1 & _); destruct (sf_st _ _ F1) as (r0 & x0 & ->); reflexivity).
          rewrite Ear in HRc. specialize (HRc ltac:(lia) ltac:(lia)). unfold rho_change in *. rewrite X3. exact HRc.
        * destruct HFl as [HFl|HFl]; [right; eauto|left; rewrite X1; exact HFl].
  Qed.

  Lemma loop_before : forall k f t, before G s k f t -> forall t0, begin_solve s = Some t0 -> k <= st_max_iter st + 1 ->
    admm_loop G (Z.to_nat (st_max_iter st)) 1 (false, tr (st_verbose (sv_settings t0)), false) t0 = admm_loop G (Z.to_nat (st_max_iter st + 1 - k)) k f t.
  Proof.
    induction 1 as [t H|k f t t' f' H IH Hk HP]; intros t0 E0 Hle.
    - rewrite H in E0. injection E0 as <-. f_equal. f_equal. lia.
    - rewrite (IH t0 E0) by lia. replace (Z.to_nat (st_max_iter st + 1 - k)) with (S (Z.to_nat (st_max_iter st + 1 - (k + 1)))).
      + cbn [admm_loop]. rewrite HP. reflexivity.
      + pose proof (before_ge _ _ _ _ _ H). lia.
  Qed.
  Lemma before_begin k f t : before G s k f t -> exists t0, begin_solve s = Some t0.
  Proof. induction 1; eauto. Qed.
  Lemma solve_break k f t t' f' : before G s k f t -> k <= st_max_iter st -> admm_pass G t k f = Some (Break t' f') -> solve G s = finish_solve G t' k f'.
  Proof.
    intros HB Hk HP. destruct (before_begin _ _ _ HB) as (t0 & E0). unfold solve. rewrite E0.
    assert (EM : st_max_iter (sv_settings t0) = st_max_iter st) by (exact (same_st_max _ _ (sf_st _ _ (begin_sfr s t0 E0)))). rewrite EM.
    rewrite (loop_before k f t HB t0 E0) by lia. replace (Z.to_nat (st_max_iter st + 1 - k)) with (S (Z.to_nat (st_max_iter st - k))) by lia. cbn [admm_loop]. rewrite HP. reflexivity.
  Qed.

  (** The solve stops at the first scheduled test that finds the iterate acceptable or exploded, with that outcome. *)
  Theorem solve_found fl s' k t t1 : stat s = OSQP_UNSOLVED -> iterate G s k t t1 -> scheduled st k = true -> stop_requested G t1 = false -> time_over G t1 = false ->
    solve G s = Some (fl, s') -> exists V, reads st D SC (w_x (sv_work t1)) (w_y (sv_work t1)) (w_z (sv_work t1)) V /\
      (exploded V = true \/ ACC false V -> exists e, good e /\ finished G e fl s' /\ stat e = (if exploded V then OSQP_NON_CVX else OSQP_SOLVED) /\ i_iter (sv_info e) = k /\ iter3 (sv_work e) = iter3 (sv_work t1)).
  Proof.
    intros H0 (f & HB & Hk & HS) Hsc HR HTm HSv.
    pose proof (before_good _ _ _ HB) as HG. destruct (before_facts _ _ _ HB H0) as (S1 & O1 & _).
    destruct (before_inv G EO MM s k f t HI HB) as (It & _). destruct (admm_pass_safe G EO MM t k f It) as (o & HP & _).
    assert (ESc : scheduled (sv_settings t) k = true) by (pose proof HG as (_ & F1 & _); destruct (sf_st _ _ F1) as (r0 & x0 & ->); exact Hsc).
    destruct (step_good t t1 HG HS) as (G1 & S2 & Es1 & Eo1 & Ei1).
    assert (CORE : forall t2 t3 b t4, near t1 t2 -> update_info G t2 k = Some t3 -> check_termination t3 false = Some (b, t4) ->
      exists V, reads st D SC (w_x (sv_work t1)) (w_y (sv_work t1)) (w_z (sv_work t1)) V /\ (exploded V = true \/ ACC false V -> b = true /\ stat t4 = (if exploded V then OSQP_NON_CVX else OSQP_SOLVED)) /\
        i_iter (sv_info t4) = k /\ good t3 /\ good t4 /\ cur t3 V /\ mverdict st false t3 b t4 /\ stat t3 = OSQP_UNSOLVED /\ same_cur (sv_work t3) (sv_work t4) /\ res4 (sv_info t4) = res4 (sv_info t3) /\ iter3 (sv_work t4) = iter3 (sv_work t1)).
    { intros t2 t3 b t4 HN HU3 HCk. pose proof (near_good t1 t2 G1 HN) as G2. destruct HN as (N1 & N2 & N3 & _).
      destruct (info_good t2 k G2 t3 HU3) as (Q1 & (V & Q2 & Q3) & Q4 & Q5 & Q6 & Q7 & Q8 & Q9 & Q10).
      destruct (check_good t3 false Q1 _ HCk) as (R1 & R2 & R3 & R4 & R5 & R6 & R7 & _). cbn [fst snd] in *.
      assert (S3 : stat t3 = OSQP_UNSOLVED) by congruence. exists V.
      destruct (verdict_false t3 b t4 _ V Q1 Q2 R2 S3 ltac:(auto)) as (B0 & B1 & B2 & B3 & B4 & B5 & B6).
      split. { destruct Q2 as (W & Q2). apply cur_reads in Q2. destruct (good_dsc t3 Q1) as (X1 & X2). rewrite X1, X2 in Q2. rewrite N1 in Q5. unfold iter3 in Q5. injection Q5 as Y1 Y2 Y3. rewrite Y1, Y2, Y3 in Q2. exact Q2. }
      split.
      - intros HV. destruct (exploded V) eqn:EX.
        + assert (Hn : stat t4 = OSQP_NON_CVX) by (apply B5; auto). split; [|auto]. destruct b; [auto|]. rewrite (B0 eq_refl) in Hn. stc.
        + destruct HV as [HV|HV]; [discriminate|]. assert (Hx : stat t4 <> OSQP_NON_CVX) by (rewrite B5; discriminate).
          assert (Hs : stat t4 = OSQP_SOLVED). { destruct (Z.eq_dec (stat t4) OSQP_SOLVED) as [e|n]; [auto|]. rewrite (B6 n Hx) in HV. discriminate. }
          split; [|auto]. destruct b; [auto|]. rewrite (B0 eq_refl) in Hs. stc.
      - destruct R3 as (SA & SB & SD & SE). split; [congruence|]. repeat (split; [solve [auto]|]). split; [repeat split; tauto|]. split; [auto|]. congruence. }
    pose proof (pass_ends G t k f _ HP) as HE.
    inversion HE as [t1' s0 HS' HR'|t1' s0 HS' HR' HTm'|t1' t2 t3 s0 cp ca HS' HR' HTm' HN HSc HU3 HCk|t1' t2 t3 t4 s0 HS' HR' HTm' HN HU3 HCk HRc HTi|t1' t2 t3 t4 s0 cp ca HS' HR' HTm' HN HU3 HCk HSt HRh]; subst o;
      rewrite HS in HS'; injection HS' as <-; try congruence.
    - destruct (CORE t2 t3 true s0 HN HU3 HCk) as (V & A0 & A1 & A2 & A3 & A3' & A4 & A5 & A6 & A7 & A8 & A9). exists V. split; [exact A0|]. intros HV. destruct (A1 HV) as (_ & A1').
      rewrite (solve_break _ _ _ _ _ HB Hk HP) in HSv.
      destruct (finish_ends G EO s0 _ _ _ HSv) as (e & Ee & Hfin). cbn [fst snd] in Hfin. exists e.
      destruct (conclude_stop t3 s0 k cp ca V A3 A3' A4 A5 A6 A7 A8 e Ee) as ((En & Ei & Est & Eso) & Edc).
      split; [apply (en_good _ _ _ _ _ En)|]. split; [auto|]. split; [|split; [congruence|rewrite (en_it _ _ _ _ _ En); auto]].
      rewrite conclude_tail in Ee. unfold final_check in Ee. cbv iota beta in Ee. rewrite <- A1'. apply (tail_stat s0 A3') in Ee; auto; rewrite A1'; destruct (exploded V); stc.
    - rewrite ESc in HCk. destruct (CORE t2 t3 false t4 HN HU3 HCk) as (V & A0 & A1 & _). exists V. split; [exact A0|]. intros HV. destruct (A1 HV). discriminate.
    - rewrite ESc in HU3, HCk. destruct HU3 as [HU3|HU3]; [|destruct HU3; discriminate]. destruct (CORE t2 t3 false t4 HN HU3 HCk) as (V & A0 & A1 & _). exists V. split; [exact A0|]. intros HV. destruct (A1 HV). discriminate.
  Qed.
End Solve.
