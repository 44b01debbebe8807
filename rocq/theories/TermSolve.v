(** What the status left by osqp_solve means for its last iterate, in exact arithmetic. *)
From Coq Require Import ZArith Reals List Bool Lia Lra String.
From Verif Require Import Num Arr ArrFacts RSum Csc CscSpec CscFacts CscFacts2 Scatter Vec VecFacts Types Kkt KktSpec KktDense Linsys LinsysFacts LinsysSolve Scaling Validate Auxil Polish Api
  Inv RecSimp InvStep InvApi InvScale InvPolish InvSolve RealVec RealStep Frame FrameSolve ProbSpec ScaleReal Ldl QpSpec Mid Trace PassFacts SolveEnd TermSpec TermFacts TermCheck AtyFacts.
Import ListNotations.
Open Scope Z_scope.

Ltac stc := unfold OSQP_SOLVED, OSQP_SOLVED_INACCURATE, OSQP_PRIMAL_INFEASIBLE, OSQP_PRIMAL_INFEASIBLE_INACCURATE, OSQP_DUAL_INFEASIBLE, OSQP_DUAL_INFEASIBLE_INACCURATE,
  OSQP_MAX_ITER_REACHED, OSQP_TIME_LIMIT_REACHED, OSQP_NON_CVX, OSQP_SIGINT, OSQP_UNSOLVED in *; lia.

Section Conv.
  Variables (Q : qp) (c : R) (D E : Z -> R).
  Lemma current_st (a b : settings Rops) w i : same_st a b -> current a Q c D E w i <-> current b Q c D E w i.
  Proof. intros (r & t & ->). split; intros []; constructor; assumption. Qed.
  Lemma swithin_st (a b : settings Rops) ap w : same_st a b -> swithin a Q c D E ap w <-> swithin b Q c D E ap w.
  Proof. intros (r & t & ->). split; intros H; exact H. Qed.
  Lemma verdict_st (a b : settings Rops) ap s r s' : same_st a b -> verdict b Q c D E ap s r s' -> verdict a Q c D E ap s r s'.
  Proof.
    intros H. pose proof (current_st a b (sv_work s) (sv_info s) H) as HC. pose proof (swithin_st a b ap (sv_work s) H) as HS. destruct H as (r0 & t & ->).
    destruct 1; [apply vd_huge|apply vd_solved|apply vd_pinf|apply vd_dinf|apply vd_no]; auto; tauto.
  Qed.
  Lemma tunits_st (a b : settings Rops) w : same_st a b -> tunits a w Q c D E -> tunits b w Q c D E.
  Proof. intros (r0 & t & ->) []. constructor; auto. Qed.

  Lemma current_same (a : settings Rops) w w' i i' : same_cur w w' -> res3 i' = res3 i -> current a Q c D E w i -> current a Q c D E w' i'.
  Proof.
    intros (H1 & H2 & H3 & H4 & H5) H6 []. unfold iter3 in H3. unfold prods in H4. unfold scalars in H5. unfold res3 in H6.
    injection H3 as X1 X2 X3. injection H4 as P1 P2 P3. injection H5 as S1 S2 S3 S4 S5 S6. injection H6 as R1 R2 R3.
    assert (EC : cutv w' = cutv w) by (unfold cutv; rewrite H1, X2; reflexivity).
    constructor; rewrite ?H1, ?X1, ?X2, ?X3, ?P1, ?P2, ?P3, ?S1, ?S2, ?S3, ?S4, ?S5, ?S6, ?R1, ?R2, ?R3, ?EC; auto.
  Qed.
  Lemma swithin_same (a : settings Rops) ap w w' : w_data w' = w_data w -> iter3 w' = iter3 w -> swithin a Q c D E ap w' <-> swithin a Q c D E ap w.
  Proof.
    intros H1 H3. unfold iter3 in H3. injection H3 as X1 X2 X3. unfold swithin, cutv. rewrite H1, X1, X2, X3. tauto.
  Qed.
  Lemma reported_same w w' i i' : w_data w' = w_data w -> iter3 w' = iter3 w -> res5 i' = res5 i -> reported Q c D E w i -> reported Q c D E w' i'.
  Proof.
    intros H1 H3 H5. unfold iter3 in H3. injection H3 as X1 X2 X3. unfold res5 in H5. injection H5 as R1 R2 R3 R4 R5. unfold reported, cutv. rewrite H1, X1, X2, R3, R4, R5. auto.
  Qed.
End Conv.

Section Solve.
  Variable G : Env Rops.
  Hypothesis EO : env_ok G.
  Variable s : solver Rops.
  Variables (Q U : qp) (c cu : R) (D E Du Eu : Z -> R).
  Notation st := (sv_settings s).
  Notation nn w := (d_n (w_data w)). Notation mm w := (d_m (w_data w)).
  Notation X x := (unx D (rnth x)). Notation Zv z := (unz E (rnth z)). Notation Y y := (uny c E (rnth y)).
  Hypothesis HI : Inv s.
  Hypothesis HT : tunits st (sv_work s) Q c D E.
  Hypothesis HU : scaled_qp cu Du Eu U (qp_of (w_data (sv_work s))).
  Hypothesis HUs : tr (st_scaling st) = true -> exists sc, w_scaling (sv_work s) = Some sc /\ sc_cinv sc = (/ cu)%R.
  Hypothesis HUn : tr (st_scaling st) = false -> cu = 1%R.
  Hypothesis HA : aty0 (sv_work s).

  Definition good (t : solver Rops) : Prop := Inv t /\ sfr s t /\ aty0 (sv_work t).
  Definition cur (t : solver Rops) : Prop := current st Q c D E (sv_work t) (sv_info t).
  Definition rep (t : solver Rops) : Prop := reported U cu Du Eu (sv_work t) (sv_info t).
  Notation SW ap w := (swithin st Q c D E ap w).
  Notation vdt := (verdict st Q c D E).
  Notation stat t := (i_status_val (sv_info t)).
  Definition big (w : work Rops) : Prop :=
    (10 ^ 30 < ninf (mm w) (fun j => Amul Q (X (w_x w)) j - Zv (w_z w) j) \/ 10 ^ 30 < ninf (nn w) (fun j => q_q Q j + Pmul Q (X (w_x w)) j + Atmul Q (Y (w_y w)) j))%R.

  Lemma good_start : good s.
  Proof. split; [auto|split; auto using sfr_refl]. Qed.
  Lemma good_same t t' : good t -> Inv t' -> sfr t t' -> kz (sv_work t) (sv_work t') -> good t'.
  Proof.
    intros (I1 & F1 & A1) I2 F2 (K1 & K2). split; [auto|]. split; [eapply sfr_trans; eauto|]. unfold aty0 in *. rewrite K1. intros Em i Hi. rewrite K2 by auto. apply A1; auto.
    rewrite (sf_d _ _ F2) in Hi. auto.
  Qed.
  Lemma good_wok t : good t -> wok (sv_settings t) (sv_work t) /\ tunits (sv_settings t) (sv_work t) Q c D E.
  Proof.
    intros (I1 & F1 & A1). split; [apply I1|]. apply (tunits_st _ _ _ _ st); [apply F1|]. eapply tunits_same; [apply F1|apply F1|exact HT].
  Qed.

  Lemma info_good t k : good t -> post (update_info G t k) (fun t' => good t' /\ cur t' /\ rep t' /\ w_data (sv_work t') = w_data (sv_work t) /\ iter3 (sv_work t') = iter3 (sv_work t) /\ deltas (sv_work t') = deltas (sv_work t) /\
    stat t' = stat t /\ i_iter (sv_info t') = k /\ sv_settings t' = sv_settings t /\ sv_solution t' = sv_solution t).
  Proof.
    intros HG. destruct (good_wok t HG) as (HW & HTt). pose proof HG as (I1 & F1 & A1).
    intros t' Et. destruct (update_info_safe G t k I1) as (t2 & Et2 & (I2 & F2 & _) & _). rewrite Et in Et2. injection Et2 as <-.
    pose proof (update_info_post G t k t' Et) as HP. cbv beta in HP. decompose [and] HP. clear HP.
    assert (HR : post (update_info G t k) (fun s' => current (sv_settings t) Q c D E (sv_work s') (sv_info s') /\ aty0 (sv_work s') /\ reported U cu Du Eu (sv_work s') (sv_info s'))).
    { apply update_info_real; auto; rewrite ?(sf_d _ _ F1), ?(sf_sc _ _ F1); auto; destruct (sf_st _ _ F1) as (r0 & t0 & ->); auto. }
    destruct (HR t' Et) as (C1 & C2 & C3).
    assert (HG' : good t') by (apply (good_same t); auto; [exact (sfr_info G t k t' Et)|exact (update_info_kz G t k t' Et)]).
    repeat (split; [solve [auto]|]). split; [apply (current_st _ _ _ _ st (sv_settings t)); [apply F1|exact C1]|]. split; [exact C3|].
    split; [apply fx_data; auto|]. repeat (split; [solve [auto]|]). auto.
  Qed.

  Lemma check_good t ap : good t -> post (check_termination t ap) (fun r => let t' := snd r in good t' /\ vdt ap t (fst r) t' /\ same_cur (sv_work t) (sv_work t') /\ res3 (sv_info t') = res3 (sv_info t) /\
    i_iter (sv_info t') = i_iter (sv_info t) /\ sv_settings t' = sv_settings t /\ sv_solution t' = sv_solution t /\ (fst r = false -> sv_info t' = sv_info t)).
  Proof.
    intros HG. destruct (good_wok t HG) as (HW & HTt). pose proof HG as (I1 & F1 & A1).
    intros r Er. cbv zeta. destruct (check_termination_safe t ap I1) as (r2 & Er2 & (I2 & F2 & _) & _). rewrite Er in Er2. injection Er2 as <-.
    pose proof (check_termination_post t ap r Er) as HP. cbv beta zeta in HP. decompose [and] HP. clear HP.
    assert (HG' : good (snd r)) by (apply (good_same t); auto; [exact (sfr_check t ap r Er)|exact (check_kz t ap r Er)]).
    split; [auto|]. split; [eapply verdict_st; [apply F1|]; exact (verdict_ok _ _ _ _ _ t ap HW HTt eq_refl r Er)|]. split; [exact (check_keeps t ap r Er)|]. split; [unfold res3; congruence|]. auto 10.
  Qed.

  Lemma cur_same t t' : same_cur (sv_work t) (sv_work t') -> res3 (sv_info t') = res3 (sv_info t) -> cur t -> cur t'.
  Proof. apply current_same. Qed.
  Lemma big_huge t : cur t -> huge (sv_info t) -> big (sv_work t).
  Proof. intros HC. unfold huge, big. rewrite (cu_pr _ _ _ _ _ _ _ HC), (cu_dr _ _ _ _ _ _ _ HC). auto. Qed.

  Lemma near_good t1 t2 : good t1 -> near t1 t2 -> good t2.
  Proof.
    intros (I1 & F1 & A1) (N1 & N2 & N3 & r & N4). split; [|split].
    - destruct t1 as [st1 so1 i1 w1 g1], t2 as [st2 so2 i2 w2 g2]. cbn [sv_settings sv_solution sv_info sv_work] in *. subst. destruct I1 as [J1 J2 J3 J4]. constructor; cbn [sv_settings sv_solution sv_info sv_work] in *; auto.
      destruct J1. constructor; auto.
    - eapply sfr_trans; [exact F1|]. constructor; rewrite ?N1; auto; [rewrite N4; exists (st_rho (sv_settings t1)), r; destruct (sv_settings t1); reflexivity|]. unfold rsync. rewrite N1, N4. rs. auto.
    - rewrite N1. auto.
  Qed.

  Lemma objective_good t : good t -> post (final_objective t) (fun t' => good t' /\ w_data (sv_work t') = w_data (sv_work t) /\ iter3 (sv_work t') = iter3 (sv_work t) /\ deltas (sv_work t') = deltas (sv_work t) /\
    stat t' = stat t /\ i_iter (sv_info t') = i_iter (sv_info t) /\ sv_settings t' = sv_settings t /\ sv_solution t' = sv_solution t /\
    (cur t -> cur t' /\ (has_solution (sv_info t) = true -> rep t'))).
  Proof.
    intros HG. destruct (good_wok t HG) as (HW & HTt). pose proof HG as (I1 & F1 & A1).
    intros t' Et. destruct (final_objective_safe t I1) as (t2 & Et2 & (I2 & F2 & _) & _). rewrite Et in Et2. injection Et2 as <-.
    revert Et. unfold final_objective. destruct (has_solution (sv_info t)) eqn:EH.
    2:{ intros [= <-]. do 8 (split; [solve [auto]|]). intros HC. split; [auto|discriminate]. }
    destruct (compute_obj_val_dual_gap (sv_settings t) (sv_work t) (w_x (sv_work t)) (w_y (sv_work t))) as [[[[p dv] g] w]|] eqn:Eo; [|discriminate]. intros [= <-].
    pose proof (obj_post (sv_settings t) (sv_work t) _ _ _ Eo) as HP. cbv beta zeta in HP. cbn [snd] in HP. destruct HP as (P1 & P2 & P3 & P4 & P5 & P6 & P7 & P8 & P9).
    pose proof (fx_data _ _ P1) as ED. assert (ES : w_scaling w = w_scaling (sv_work t)) by (apply fixed_core, core_eq in P1; tauto).
    split. { apply (good_same t); auto; [apply sfr_fixed; rs; auto using fixed_core|]. apply kz_fp; rs; auto. }
    rs. do 7 (split; [solve [auto]|]). intros HC.
    pose proof (wo_len _ _ HW) as HL.
    assert (HO : forall V cv Dv Ev, scaled_qp cv Dv Ev V (qp_of (w_data (sv_work t))) -> (tr (st_scaling (sv_settings t)) = true -> exists sc, w_scaling (sv_work t) = Some sc /\ sc_cinv sc = (/ cv)%R) -> (tr (st_scaling (sv_settings t)) = false -> cv = 1%R) ->
      (let S := support V (uny cv Ev (cutv (sv_work t))) in p = objective V (unx Dv (rnth (w_x (sv_work t)))) /\ dv = (- (/ 2) * quad V (unx Dv (rnth (w_x (sv_work t)))) - S)%R /\ g = (quad V (unx Dv (rnth (w_x (sv_work t)))) + lin V (unx Dv (rnth (w_x (sv_work t)))) + S)%R) /\
      w_xtPx w = quad (qp_of (w_data (sv_work t))) (rnth (w_x (sv_work t))) /\ w_qtx w = lin (qp_of (w_data (sv_work t))) (rnth (w_x (sv_work t))) /\ w_SC w = support (qp_of (w_data (sv_work t))) (cutv (sv_work t)) /\
      w_scaled_dual_gap w = (quad (qp_of (w_data (sv_work t))) (rnth (w_x (sv_work t))) + lin (qp_of (w_data (sv_work t))) (rnth (w_x (sv_work t))) + support (qp_of (w_data (sv_work t))) (cutv (sv_work t)))%R).
    { intros V cv Dv Ev A0 B0 C0.
      pose proof (TermCheck.safe_post _ _ (obj_real (sv_settings t) (sv_work t) (w_x (sv_work t)) (w_y (sv_work t)) V cv Dv Ev HW (ln_x _ _ _ _ HL) (ln_y _ _ _ _ HL) (cu_Px _ _ _ _ _ _ _ HC) A0 B0 C0) _ Eo) as HR.
      cbv beta iota zeta in HR. unfold cutv. decompose [and] HR. auto 10. }
    assert (Sst : st_scaling (sv_settings t) = st_scaling st) by (destruct (sf_st _ _ F1) as (r0 & t0 & ->); reflexivity).
    destruct (HO U cu Du Eu) as (RU & W1 & W2 & W3 & W4); [rewrite (sf_d _ _ F1); exact HU|rewrite Sst, (sf_sc _ _ F1); exact HUs|rewrite Sst; exact HUn|].
    unfold iter3 in P2. injection P2 as X1 X2 X3. unfold prods in P4. injection P4 as Q1 Q2 Q3.
    assert (EC : cutv w = cutv (sv_work t)) by (unfold cutv; rewrite ED, X2; reflexivity).
    split.
    - destruct HC as [C1 C2 C3 C4 C5 C6 C7 C8 C9 C10 C11]. unfold cur. rs. constructor; rs; rewrite ?ED, ?X1, ?X2, ?X3, ?Q1, ?Q2, ?Q3, ?P8, ?P9, ?EC; auto.
      destruct (unscaled_termination st) eqn:Eu1.
      + assert (Eut : unscaled_termination (sv_settings t) = true) by (destruct (sf_st _ _ F1) as (r0 & t0 & ->); exact Eu1).
        destruct (tu_sc _ _ _ _ _ _ HTt Eut) as (sc & Es & _ & Hc & Hci & _). assert (Esc : tr (st_scaling (sv_settings t)) = true) by (unfold unscaled_termination in Eut; apply andb_true_iff in Eut; tauto).
        destruct (HO Q c D E (tu_sq _ _ _ _ _ _ HTt)) as ((_ & _ & Hg) & _); [intros _; exists sc; auto|rewrite Esc; discriminate|]. exact Hg.
      + rewrite W4. clear - C11 HT Eu1 F1. destruct (tu_id _ _ _ _ _ _ HT Eu1) as (Hc & _ & _). pose proof (tu_sq _ _ _ _ _ _ HT) as HQ. rewrite (sf_d _ _ F1).
        rewrite (un_quad _ _ _ _ _ HQ), (un_lin _ _ _ _ _ HQ), (un_support _ _ _ _ _ (cutv (sv_work t)) HQ), Hc, !Rmult_1_l. reflexivity.
    - intros _. unfold rep, reported. rs. rewrite X1, EC. exact RU.
  Qed.

  (** What the state e that ends the solve says about the last iterate, held by w.  timed: the time limit was hit; stale: it was hit
      right after an iteration with a scheduled test, so that the information belongs to the iterate before. *)
  Record ending (timed stale : bool) (w : work Rops) (e : solver Rops) : Prop := {
    en_good : good e;
    en_data : w_data (sv_work e) = w_data w;
    en_it : iter3 (sv_work e) = iter3 w;
    en_solved : stat e = OSQP_SOLVED -> SW false w /\ stale = false;
    en_inacc : stat e = OSQP_SOLVED_INACCURATE -> stale = false -> SW true w /\ ~ SW false w;
    en_pinf : stat e = OSQP_PRIMAL_INFEASIBLE -> infeasible_within Q (st_eps_prim_inf st) (rnth (w_delta_y (sv_work e)));
    en_pinfi : stat e = OSQP_PRIMAL_INFEASIBLE_INACCURATE -> infeasible_within Q (st_eps_prim_inf st * 10) (rnth (w_delta_y (sv_work e)));
    en_dinf : stat e = OSQP_DUAL_INFEASIBLE -> unbounded_within (absl w) (absu w) Q (st_eps_dual_inf st) (rnth (w_delta_x (sv_work e)));
    en_dinfi : stat e = OSQP_DUAL_INFEASIBLE_INACCURATE -> unbounded_within (absl w) (absu w) Q (st_eps_dual_inf st * 10) (rnth (w_delta_x (sv_work e)));
    en_ncvx : stat e = OSQP_NON_CVX -> stale = false -> big w;
    en_not : stat e <> OSQP_SOLVED -> stat e <> OSQP_NON_CVX -> stale = false -> ~ SW false w;
    en_max : stat e = OSQP_MAX_ITER_REACHED -> timed = false /\ ~ SW true w;
    en_time : stat e = OSQP_TIME_LIMIT_REACHED -> timed = true /\ (stale = false -> ~ SW true w);
    en_range : 1 <= stat e <= 9;
    en_cur : stale = false -> cur e;
    en_rep : stale = false -> has_solution (sv_info e) = true -> rep e;
    en_nt : stale = true -> timed = true }.

  Lemma print_good t : good t -> let t' := if tr (st_verbose (sv_settings t)) && negb (tr (w_summary_printed (sv_work t))) then print_summary t else t in
    good t' /\ same_cur (sv_work t) (sv_work t') /\ deltas (sv_work t') = deltas (sv_work t) /\ sv_info t' = sv_info t /\ sv_settings t' = sv_settings t /\ sv_solution t' = sv_solution t.
  Proof.
    intros HG. cbv zeta. destruct (_ && _); [|split; [auto|]; split; [apply same_cur_refl|auto 10]]. split; [|split; [repeat split; auto|auto 10]].
    pose proof HG as (I1 & F1 & A1). apply (good_same t); auto; [|apply sfr_fixed; reflexivity|exact (kz_refl (sv_work t))].
    destruct I1 as [J1 J2 J3 J4]. constructor; auto. destruct J1 as [a1 a2 a3 a4 a5]. constructor; auto. destruct a5. constructor; auto.
  Qed.

  Lemma status_fin t v : 1 <= v <= 11 -> good t -> post (update_status (sv_info t) v) (fun i => good (set_sv_info i t) /\ exists msg, i = set_i_status msg (set_i_status_val v (sv_info t))).
  Proof.
    intros Hv HG i Ei. destruct (status_safe (sv_info t) v Hv) as (i' & Ei' & SO & _). assert (i' = i) by congruence. subst i'.
    destruct (update_status_post _ _ _ Ei) as (msg & Em & ->). split; [|eauto]. pose proof HG as (I1 & F1 & A1). apply (good_same t); auto; [|apply sfr_fixed; reflexivity|exact (kz_refl (sv_work t))].
    destruct I1 as [J1 J2 J3 J4]. constructor; auto.
  Qed.

  Notation PI t k := (infeasible_within Q (st_eps_prim_inf st * k) (rnth (w_delta_y (sv_work t)))).
  Notation DI w t k := (unbounded_within (absl w) (absu w) Q (st_eps_dual_inf st * k) (rnth (w_delta_x (sv_work t)))).

  Lemma status_range (i : info Rops) : has_solution i = true <-> ~ (3 <= i_status_val i <= 6 \/ i_status_val i = 9).
  Proof. unfold has_solution. rewrite !andb_true_iff, !negb_true_iff, !Z.eqb_neq. split; intros H; stc. Qed.

  Lemma abs_data (w w' : work Rops) al au p e v : w_data w' = w_data w -> al = absl w' -> au = absu w' -> unbounded_within al au p e v -> unbounded_within (absl w) (absu w) p e v.
  Proof. intros H -> ->. unfold absl, absu. rewrite H. auto. Qed.


  Lemma approx_good t timed stale w target : good t -> w_data (sv_work t) = w_data w -> iter3 (sv_work t) = iter3 w -> (stale = true -> timed = true) ->
    (target = OSQP_MAX_ITER_REACHED /\ timed = false \/ target = OSQP_TIME_LIMIT_REACHED /\ timed = true) ->
    has_solution (sv_info t) = true -> (stale = false -> ~ SW false w) -> (stale = false -> cur t) -> (stale = false -> rep t) ->
    post (check_termination t true) (fun r =>
      (fst r = true -> ending timed stale w (snd r)) /\
      (fst r = false -> forall i, (exists msg, i = set_i_status msg (set_i_status_val target (sv_info (snd r)))) -> good (set_sv_info i (snd r)) -> ending timed stale w (set_sv_info i (snd r))) /\
      i_iter (sv_info (snd r)) = i_iter (sv_info t) /\ sv_settings (snd r) = sv_settings t /\ sv_solution (snd r) = sv_solution t /\ good (snd r) /\
      (fst r = true -> stat (snd r) <> OSQP_TIME_LIMIT_REACHED)).
  Proof.
    intros HG ED EI HTS Htg HSOL NS HC HR.
    eapply post_weaken; [apply check_good; auto|]. cbv beta zeta. intros [b t'] (G1 & V & SC & R3 & It & Es & Eo & Ef). cbn [fst snd] in *.
    assert (ED' : w_data (sv_work t') = w_data w) by (destruct SC; congruence). assert (EI' : iter3 (sv_work t') = iter3 w) by (destruct SC as (_ & _ & ? & _); congruence).
    assert (SWt : SW true (sv_work t) <-> SW true w) by (apply swithin_same; auto).
    assert (CC : stale = false -> cur t') by (intros Hs; eapply cur_same; [exact SC|exact R3|auto]).
    assert (HB : stale = false -> huge (sv_info t) -> big w).
    { intros Hs Hh. pose proof (big_huge t (HC Hs) Hh) as HB. unfold big in *. unfold iter3 in EI. injection EI as X1 X2 X3. rewrite ED, X1, X2, X3 in HB. exact HB. }
    assert (RR : res5 (sv_info t') = res5 (sv_info t) -> stale = false -> rep t').
    { intros H5 Hs. eapply reported_same; [| |exact H5|exact (HR Hs)]; congruence. }
    split; [|split; [|repeat (split; [solve [auto]|]); intros ->; inversion V; subst; stc]].
    - intros ->. inversion V as [t2 V1 V2 V3 V4 Eb|t2 V1 V2 V3 V4 Eb|t2 V1 V2 V3 V4 Eb|t2 V1 V2 V3 V4 Eb|]; subst t2; constructor; auto; rewrite ?V2; try stc.
      + rewrite status_range, V2. stc.
      + intros _ Hs. split; [|auto]. apply SWt, V4, HC; auto.
      + intros Hs _. apply RR; auto. rewrite V3. reflexivity.
      + rewrite status_range, V2. stc.
      + intros _. eapply abs_data; [exact ED|reflexivity|reflexivity|exact V4].
      + rewrite status_range, V2. stc.
    - intros -> i (msg & ->) Gi. inversion V as [| | | |t2 V1 V2 V3]; subst t2. constructor; rs; auto; try stc.
      + intros Et. destruct Htg as [[_ ->]|[-> _]]; [|stc]. split; [auto|]. assert (Hs : stale = false) by (destruct stale; [discriminate (HTS eq_refl)|reflexivity]). rewrite <- SWt. exact (proj1 (V3 (HC Hs))).
      + intros Et. destruct Htg as [[-> _]|[_ ->]]; [stc|]. split; [auto|]. intros Hs. rewrite <- SWt. exact (proj1 (V3 (HC Hs))).
      + intros Hs. unfold cur. rs. eapply current_same; [apply same_cur_refl| |exact (CC Hs)]. reflexivity.
      + intros Hs _. unfold rep. rs. assert (HR' : rep t') by (apply RR; auto; rewrite V2; auto). exact HR'.
  Qed.

  (** The last step: the status is final, or the test is made once more with tolerances ten times larger. *)
  Lemma final_good t timed stale w : good t -> w_data (sv_work t) = w_data w -> iter3 (sv_work t) = iter3 w -> (stale = true -> timed = true) ->
    (stat t = OSQP_UNSOLVED -> timed = false) -> (stat t = OSQP_TIME_LIMIT_REACHED -> timed = true) ->
    1 <= stat t <= 11 -> stat t <> OSQP_SIGINT -> stat t <> OSQP_SOLVED_INACCURATE -> stat t <> OSQP_PRIMAL_INFEASIBLE_INACCURATE -> stat t <> OSQP_DUAL_INFEASIBLE_INACCURATE -> stat t <> OSQP_MAX_ITER_REACHED ->
    (stat t = OSQP_SOLVED -> SW false w /\ stale = false) -> (stat t = OSQP_PRIMAL_INFEASIBLE -> PI t 1) -> (stat t = OSQP_DUAL_INFEASIBLE -> DI w t 1) -> (stat t = OSQP_NON_CVX -> stale = false -> big w) ->
    (stat t <> OSQP_SOLVED -> stat t <> OSQP_NON_CVX -> stale = false -> ~ SW false w) ->
    (stale = false -> cur t) -> (stale = false -> has_solution (sv_info t) = true -> rep t) ->
    post (final_status t) (fun e => ending timed stale w e /\ i_iter (sv_info e) = i_iter (sv_info t) /\ sv_settings e = sv_settings t /\ sv_solution e = sv_solution t).
  Proof.
    intros HG ED EI HTS H1 H2 H3 H4 H5 H6 H7 H8 S1 S2 S3 S4 S5 HC HR.
    destruct (Z.eq_dec (stat t) OSQP_UNSOLVED) as [Eun|Eun].
    { unfold final_status. rewrite Eun. change (OSQP_UNSOLVED =? OSQP_UNSOLVED) with true. cbv iota.
      assert (HS : has_solution (sv_info t) = true) by (apply status_range; stc).
      assert (CG := approx_good t timed stale w OSQP_MAX_ITER_REACHED HG ED EI HTS (or_introl (conj eq_refl (H1 Eun))) HS ltac:(apply S5; stc) HC ltac:(auto)).
      eapply post_bindP with (P := fun e => (ending timed stale w e /\ i_iter (sv_info e) = i_iter (sv_info t) /\ sv_settings e = sv_settings t /\ sv_solution e = sv_solution t) /\ stat e <> OSQP_TIME_LIMIT_REACHED).
      - eapply post_bindP; [exact CG|]. cbv beta. intros [b t'] (K1 & K2 & K3 & K4 & K5 & K6 & K7). cbn [fst snd] in *. destruct b; [apply post_ret; auto 10|].
        eapply post_bindP; [apply (status_fin t' OSQP_MAX_ITER_REACHED); [stc|auto]|]. intros i (Gi & Hi). apply post_ret. split; [split; [apply K2; auto|rs; destruct Hi as (msg & ->); auto]|]. destruct Hi as (msg & ->). rs. stc.
      - intros e (He & Ne). apply Z.eqb_neq in Ne. rewrite Ne. apply post_ret. auto. }
    unfold final_status. replace (stat t =? OSQP_UNSOLVED) with false by (symmetry; apply Z.eqb_neq; auto). cbv iota.
    destruct (Z.eq_dec (stat t) OSQP_TIME_LIMIT_REACHED) as [Et|Et].
    { rewrite Et. change (OSQP_TIME_LIMIT_REACHED =? OSQP_TIME_LIMIT_REACHED) with true. cbv iota.
      assert (HS : has_solution (sv_info t) = true) by (apply status_range; stc).
      assert (CG := approx_good t timed stale w OSQP_TIME_LIMIT_REACHED HG ED EI HTS (or_intror (conj eq_refl (H2 Et))) HS ltac:(apply S5; stc) HC ltac:(auto)).
      eapply post_bindP; [exact CG|]. cbv beta. intros [b t'] (K1 & K2 & K3 & K4 & K5 & K6 & K7). cbn [fst snd] in *. destruct b; [apply post_ret; auto 10|].
      eapply post_bindP; [apply (status_fin t' OSQP_TIME_LIMIT_REACHED); [stc|auto]|]. intros i (Gi & Hi). apply post_ret. split; [apply K2; auto|rs; destruct Hi as (msg & ->); auto]. }
    replace (stat t =? OSQP_TIME_LIMIT_REACHED) with false by (symmetry; apply Z.eqb_neq; auto).
    apply post_ret. split; [|auto]. constructor; auto; try (intros; contradiction); try stc.
    - intros E3. rewrite <- (Rmult_1_r (st_eps_prim_inf st)). auto.
    - intros E3. rewrite <- (Rmult_1_r (st_eps_dual_inf st)). auto.
  Qed.

  Definition tail (t : solver Rops) : option (solver Rops) :=
    match final_objective t with
    | Some s => let s := if tr (st_verbose (sv_settings s)) && negb (tr (w_summary_printed (sv_work s))) then print_summary s else s in final_status s
    | None => None
    end.
  Lemma tail_good t timed stale w : good t -> w_data (sv_work t) = w_data w -> iter3 (sv_work t) = iter3 w -> (stale = true -> timed = true) ->
    (stat t = OSQP_UNSOLVED -> timed = false) -> (stat t = OSQP_TIME_LIMIT_REACHED -> timed = true) ->
    1 <= stat t <= 11 -> stat t <> OSQP_SIGINT -> stat t <> OSQP_SOLVED_INACCURATE -> stat t <> OSQP_PRIMAL_INFEASIBLE_INACCURATE -> stat t <> OSQP_DUAL_INFEASIBLE_INACCURATE -> stat t <> OSQP_MAX_ITER_REACHED ->
    (stat t = OSQP_SOLVED -> SW false w /\ stale = false) -> (stat t = OSQP_PRIMAL_INFEASIBLE -> PI t 1) -> (stat t = OSQP_DUAL_INFEASIBLE -> DI w t 1) -> (stat t = OSQP_NON_CVX -> stale = false -> big w) ->
    (stat t <> OSQP_SOLVED -> stat t <> OSQP_NON_CVX -> stale = false -> ~ SW false w) ->
    (stale = false -> cur t) ->
    post (tail t) (fun e => ending timed stale w e /\ i_iter (sv_info e) = i_iter (sv_info t) /\ sv_settings e = sv_settings t /\ sv_solution e = sv_solution t).
  Proof.
    intros HG ED EI HTS H1 H2 H3 H4 H5 H6 H7 H8 S1 S2 S3 S4 S5 HC. unfold tail.
    eapply post_bindP; [apply objective_good; auto|]. cbv beta. intros t2 (G2 & D2 & I2 & DD2 & V2 & It2 & St2 & So2 & C2).
    cbv zeta. destruct (print_good t2 G2) as (G3 & SC3 & D3 & N3 & St3 & So3). set (t3 := if _ && _ then _ else t2) in *. clearbody t3.
    assert (VV : stat t3 = stat t) by (rewrite N3; auto).
    assert (DY : w_delta_y (sv_work t3) = w_delta_y (sv_work t) /\ w_delta_x (sv_work t3) = w_delta_x (sv_work t)) by (unfold deltas in *; split; congruence). destruct DY as [DY DX].
    destruct SC3 as (SA & SB & SD & SE).
    eapply post_weaken; [apply (final_good t3 timed stale w); rewrite ?VV, ?DY, ?DX; auto; try congruence|].
    - intros Hs. apply (cur_same t2); [repeat split; auto; tauto|rewrite N3; auto|]. apply C2; auto.
    - intros Hs Hh. eapply reported_same; [exact SA|exact SD|rewrite N3; auto|]. apply C2; auto. apply status_range in Hh. apply status_range. rewrite VV in Hh. auto.
    - cbv beta. intros e (He & I5 & St5 & So5). split; [auto|]. rewrite I5, N3, It2, St5, St3, St2, So5, So3, So2. auto.
  Qed.

  Lemma conclude_tail t it f : conclude G t it f = match final_check G t it f with Some s => tail s | None => None end.
  Proof. reflexivity. Qed.

  (** A status set by the termination test is final. *)
  Lemma tail_stat t : good t -> stat t <> OSQP_UNSOLVED -> stat t <> OSQP_TIME_LIMIT_REACHED -> post (tail t) (fun e => stat e = stat t).
  Proof.
    intros HG N1 N2. unfold tail. eapply post_bindP; [apply objective_good; auto|]. cbv beta. intros t2 (G2 & _ & _ & _ & V2 & _).
    cbv zeta. destruct (print_good t2 G2) as (_ & _ & _ & N3 & _). set (t3 := if _ && _ then _ else t2) in *. clearbody t3.
    assert (VV : stat t3 = stat t) by (rewrite N3; auto). unfold final_status. rewrite VV.
    apply Z.eqb_neq in N1, N2. rewrite N1. rewrite VV, N2. apply post_ret. exact VV.
  Qed.

  (** The verdict of a test made on a current state. *)
  Lemma verdict_false t b t' v : cur t -> vdt false t b t' -> stat t = v -> (v = OSQP_UNSOLVED \/ v = OSQP_TIME_LIMIT_REACHED) -> same_cur (sv_work t) (sv_work t') ->
    (b = false -> stat t' = v) /\ (b = true -> stat t' = OSQP_NON_CVX \/ stat t' = OSQP_SOLVED \/ stat t' = OSQP_PRIMAL_INFEASIBLE \/ stat t' = OSQP_DUAL_INFEASIBLE) /\
    (stat t' = OSQP_SOLVED -> SW false (sv_work t)) /\ (stat t' = OSQP_PRIMAL_INFEASIBLE -> PI t' 1) /\ (stat t' = OSQP_DUAL_INFEASIBLE -> DI (sv_work t) t' 1) /\ (stat t' = OSQP_NON_CVX -> big (sv_work t)) /\
    (stat t' <> OSQP_SOLVED -> stat t' <> OSQP_NON_CVX -> ~ SW false (sv_work t)).
  Proof.
    intros HC V Ev Hv SC. inversion V as [t2 V1 V2 V3 V4 Eb|t2 V1 V2 V3 V4 Eb|t2 V1 V2 V3 V4 Eb|t2 V1 V2 V3 V4 Eb|t2 V1 V2 V3]; subst t2 b; cbv iota in *.
    - rewrite V2. repeat (split; [solve [auto|intros; stc]|]). split; [|intros; stc]. intros _. apply big_huge; auto.
    - rewrite V2. split; [intros; stc|]. split; [auto|]. split; [intros _; apply V4, HC|]. repeat (split; [intros; stc|]). intros; stc.
    - rewrite V2. split; [intros; stc|]. split; [auto|]. split; [intros; stc|]. split; [intros _; exact V4|]. repeat (split; [intros; stc|]). intros _ _. apply V3, HC.
    - rewrite V2. split; [intros; stc|]. split; [auto|]. split; [intros; stc|]. split; [intros; stc|]. split; [intros _; exact V4|]. repeat (split; [intros; stc|]). intros _ _. apply V3, HC.
    - rewrite V2. split; [auto|]. split; [discriminate|]. assert (Ev' : stat t = 11 \/ stat t = 8) by (rewrite Ev; stc). repeat (split; [intros; stc|]). intros _ _. apply V3, HC.
  Qed.

  Lemma conclude_open t it cc cp ca timed : good t -> stat t = (if timed : bool then OSQP_TIME_LIMIT_REACHED else OSQP_UNSOLVED) ->
    (timed = false -> cc = true -> cur t /\ ~ SW false (sv_work t)) -> (cc = false -> cp = true -> cur t) ->
    post (conclude G t it (cc, cp, ca)) (fun e => ending timed (timed && cc) (sv_work t) e /\ i_iter (sv_info e) = (if cc || cp then i_iter (sv_info t) else it - 1) /\ sv_settings e = sv_settings t /\ sv_solution e = sv_solution t).
  Proof.
    intros HG Hs H1 H2. rewrite conclude_tail. unfold final_check. destruct cc.
    { cbv iota beta. cbn [orb]. rewrite andb_true_r. apply tail_good; auto; try (rewrite Hs; destruct timed; intros; stc).
      - intros _ _ ->. apply (H1 eq_refl eq_refl).
      - intros ->. apply (H1 eq_refl eq_refl). }
    rewrite andb_false_r. cbn [orb].
    eapply post_bindP with (P := fun t' => exists t2 b, cur t2 /\ vdt false t2 b t' /\ same_cur (sv_work t2) (sv_work t') /\ stat t2 = stat t /\ good t' /\ cur t' /\ w_data (sv_work t2) = w_data (sv_work t) /\ iter3 (sv_work t2) = iter3 (sv_work t) /\
      i_iter (sv_info t') = (if cp then i_iter (sv_info t) else it - 1) /\ sv_settings t' = sv_settings t /\ sv_solution t' = sv_solution t).
    { eapply post_bindP with (P := fun t1 => good t1 /\ cur t1 /\ w_data (sv_work t1) = w_data (sv_work t) /\ iter3 (sv_work t1) = iter3 (sv_work t) /\ stat t1 = stat t /\
        i_iter (sv_info t1) = (if cp then i_iter (sv_info t) else it - 1) /\ sv_settings t1 = sv_settings t /\ sv_solution t1 = sv_solution t).
      { destruct cp; [apply post_ret; auto 10|]. eapply post_weaken; [apply info_good; auto|]. cbv beta. intros t1 HH. decompose [and] HH. auto 10. }
      intros t1 (G1 & C1 & D1 & I1 & S1 & It1 & St1 & So1). destruct (print_good t1 G1) as (G2 & SC2 & DD2 & N2 & St2 & So2). cbv zeta. set (t2 := if _ && _ then _ else t1) in *. clearbody t2.
      pose proof SC2 as (SA & SB & SD & SE). assert (C2 : cur t2) by (eapply cur_same; [exact SC2|rewrite N2; auto|auto]).
      eapply post_bindP; [apply check_good; exact G2|]. cbv beta zeta. intros [b t3] (G3 & V3 & SC3 & R3 & It3 & St3 & So3 & F3). cbn [fst snd] in *. apply post_ret. cbn [snd].
      exists t2, b. split; [auto|]. split; [auto|]. split; [auto|]. split; [congruence|]. split; [auto|]. split; [eapply cur_same; [exact SC3|auto|auto]|]. repeat (split; [congruence|]). congruence. }
    intros t' (t2 & b & C2 & V & SC & S2 & G' & C' & D2 & I2 & It' & St' & So').
    destruct (verdict_false t2 b t' _ C2 V eq_refl ltac:(rewrite S2, Hs; destruct timed; auto) SC) as (B0 & B1 & B2 & B3 & B4 & B5 & B6).
    rewrite S2, Hs in B0. assert (SWE : SW false (sv_work t2) <-> SW false (sv_work t)) by (apply swithin_same; auto).
    assert (BIG : big (sv_work t2) -> big (sv_work t)). { unfold big. unfold iter3 in I2. injection I2 as X1 X2 X3. rewrite D2, X1, X2, X3. auto. }
    pose proof SC as (SA & SB & SD & SE). rewrite <- It', <- St', <- So'.
    apply tail_good; auto; try congruence.
    all: try (destruct b; [specialize (B1 eq_refl); intros; stc|rewrite (B0 eq_refl); destruct timed; intros; solve [auto|stc]]).
    - intros HH. split; [apply SWE; auto|reflexivity].
    - intros HH. eapply abs_data; [exact D2|reflexivity|reflexivity|auto].
    - intros HA1 HB1 _. rewrite <- SWE. auto.
  Qed.

  (** The statuses the termination test sets when it stops the iteration. *)
  Definition decided (v : Z) : Prop := v = OSQP_NON_CVX \/ v = OSQP_SOLVED \/ v = OSQP_PRIMAL_INFEASIBLE \/ v = OSQP_DUAL_INFEASIBLE.
  Lemma conclude_stop t0 t it cp ca : good t -> cur t0 -> vdt false t0 true t -> stat t0 = OSQP_UNSOLVED -> same_cur (sv_work t0) (sv_work t) -> res3 (sv_info t) = res3 (sv_info t0) ->
    post (conclude G t it (true, cp, ca)) (fun e => (ending false false (sv_work t) e /\ i_iter (sv_info e) = i_iter (sv_info t) /\ sv_settings e = sv_settings t /\ sv_solution e = sv_solution t) /\ decided (stat e)).
  Proof.
    intros HG HC V S0 SC R3. destruct (verdict_false t0 true t _ HC V S0 ltac:(auto) SC) as (_ & B1 & B2 & B3 & B4 & B5 & B6). specialize (B1 eq_refl).
    rewrite conclude_tail. unfold final_check. cbv iota beta.
    pose proof SC as (SA & SB & SD & SE). assert (SWE : SW false (sv_work t0) <-> SW false (sv_work t)) by (apply swithin_same; auto).
    assert (BIG : big (sv_work t0) -> big (sv_work t)). { unfold big. unfold iter3 in SD. injection SD as X1 X2 X3. rewrite SA, X1, X2, X3. auto. }
    apply post_and; [|eapply post_weaken; [apply tail_stat; auto; stc|]; cbv beta; intros e ->; exact B1].
    apply tail_good; auto; try (intros; stc).
    - intros HH. split; [apply SWE; auto|reflexivity].
    - intros HH. eapply abs_data; [symmetry; exact SA|reflexivity|reflexivity|auto].
    - intros HA1 HB1 _. rewrite <- SWE. auto.
    - intros _. eapply cur_same; eauto.
  Qed.

  Lemma big_same w w' : w_data w' = w_data w -> iter3 w' = iter3 w -> big w -> big w'.
  Proof. intros H1 H2. unfold big. unfold iter3 in H2. injection H2 as X1 X2 X3. rewrite H1, X1, X2, X3. auto. Qed.
  Lemma ending_w timed stale w w' e : w_data w' = w_data w -> iter3 w' = iter3 w -> ending timed stale w e -> ending timed stale w' e.
  Proof.
    intros H1 H2 []. pose proof (swithin_same Q c D E st false _ _ H1 H2) as S1. pose proof (swithin_same Q c D E st true _ _ H1 H2) as S2. pose proof (big_same _ _ H1 H2) as B1.
    assert (EL : absl w' = absl w) by (unfold absl; rewrite H1; auto). assert (EU : absu w' = absu w) by (unfold absu; rewrite H1; auto).
    constructor; rewrite ?EL, ?EU, ?H1, ?H2; auto; try tauto.
  Qed.

  Lemma begin_kz : post (begin_solve s) (fun t => kz (sv_work s) (sv_work t)).
  Proof.
    unfold begin_solve. cbv zeta. set (s1 := if _ =? 1 then _ else s). assert (H1 : sv_work s1 = sv_work s) by (subst s1; destruct (_ =? 1); auto). clearbody s1.
    unfold start_interrupt_listener, push_sec. rs. match goal with |- post (if ?b then _ else _) _ => destruct b end.
    - apply post_ret. rs. exact (kz_refl (sv_work s)).
    - eapply post_bindP; [apply cold_kz|]. intros w Hw. apply post_ret. rs. exact Hw.
  Qed.
  Lemma before_good k f t : before G s k f t -> good t.
  Proof.
    intros HB. destruct (before_inv G EO MM_R s k f t HI HB) as (I1 & _). pose proof (before_sfr G s k f t HB) as F1.
    apply (good_same s); auto; [apply good_start|]. clear I1 F1. induction HB as [t H|k f t t' f' H IH Hk HP]; [exact (begin_kz t H)|].
    eapply kz_trans; [exact IH|]. exact (pass_kz G t k f _ HP).
  Qed.
  Lemma step_good t t1 : good t -> admm_step G t = Some t1 -> good t1 /\ stat t1 = stat t /\ sv_settings t1 = sv_settings t /\ sv_solution t1 = sv_solution t /\ sv_info t1 = sv_info t.
  Proof.
    intros HG HS. pose proof HG as (I1 & _). destruct (admm_step_safe G EO t I1) as (t2 & Et & ((I2 & _) & Eso) & Est & Ein). rewrite HS in Et. injection Et as <-.
    split; [apply (good_same t); auto; [exact (sfr_admm G t t1 HS)|exact (admm_step_kz G t t1 HS)]|]. rewrite Ein. auto.
  Qed.

  (** The state in which iteration k begins. *)
  Lemma before_facts k f t : before G s k f t -> stat s = OSQP_UNSOLVED -> stat t = OSQP_UNSOLVED /\ sv_solution t = sv_solution s /\
    (1 < k -> (fst (fst f) = true -> cur t /\ ~ SW false (sv_work t) /\ i_iter (sv_info t) = k - 1) /\ (snd (fst f) = true -> cur t /\ i_iter (sv_info t) = k - 1)).
  Proof.
    intros HB H0. induction HB as [t H|k f t t' f' H IH Hk HP].
    { pose proof (begin_post s t H) as HP. cbv beta in HP. decompose [and] HP. split; [congruence|]. split; [auto|]. lia. }
    destruct IH as (IS & IO & _). pose proof (before_good k f t H) as HG. assert (HB' : before G s (k + 1) f' t') by (eapply bf_S; eauto). pose proof (before_good _ _ _ HB') as HG'.
    pose proof (pass_ends G t k f _ HP) as HE. inversion HE as [| | | |t1 t2 t3 t4 s' cp ca HS HR HTm HN HU3 HCk HSt HRh]; subst s' f'.
    destruct (step_good t t1 HG HS) as (G1 & S1 & Es1 & Eo1 & Ei1). pose proof (near_good t1 t2 G1 HN) as G2. destruct HN as (N1 & N2 & N3 & _).
    assert (A3 : good t3 /\ stat t3 = OSQP_UNSOLVED /\ sv_solution t3 = sv_solution s /\ (cp = true \/ scheduled (sv_settings t) k = true -> cur t3 /\ i_iter (sv_info t3) = k)).
    { destruct HU3 as [HU3|(X1 & X2 & X3 & _ & ->)].
      - destruct (info_good t2 k G2 t3 HU3) as (Q1 & Q2 & Q3 & Q4 & Q5 & Q6 & Q7 & Q8 & Q9 & Q10). split; [auto|]. split; [congruence|]. split; [congruence|]. auto.
      - split; [auto|]. split; [congruence|]. split; [congruence|]. rewrite X1, X2. intros [|]; discriminate. }
    destruct A3 as (G3 & S3 & O3 & C3).
    assert (A4 : stat t4 = OSQP_UNSOLVED /\ sv_solution t4 = sv_solution s /\ (cp = true \/ scheduled (sv_settings t) k = true -> cur t4 /\ i_iter (sv_info t4) = k) /\ (scheduled (sv_settings t) k = true -> ~ SW false (sv_work t4))).
    { destruct (scheduled (sv_settings t) k) eqn:Esc.
      - destruct (check_good t3 false G3 _ HCk) as (Q1 & Q2 & Q3 & Q4 & Q5 & Q6 & Q7 & Q8). cbn [fst snd] in *. specialize (Q8 eq_refl). destruct (C3 (or_intror eq_refl)) as (C3' & I3').
        split; [congruence|]. split; [congruence|]. split; [intros _; split; [eapply cur_same; eauto|congruence]|]. intros _.
        destruct (verdict_false t3 false t4 _ C3' Q2 S3 ltac:(auto) Q3) as (B0 & _ & _ & _ & _ & _ & B6). specialize (B0 eq_refl). destruct Q3 as (SA & _ & SD & _). rewrite (swithin_same Q c D E st false _ _ SA SD). apply B6; rewrite B0; stc.
      - subst t4. split; [auto|]. split; [auto|]. split; [auto|discriminate]. }
    destruct A4 as (S4 & O4 & C4 & N4). destruct HSt as (T1 & T2 & T3 & T4). cbn [fst snd].
    unfold tail_i in T2. injection T2 as T20 T21 T22 T23 T24 T25 T26 T27. unfold tail_w in T1.
    assert (SC : same_cur (sv_work t4) (sv_work t')) by (unfold same_cur, scalars; repeat split; congruence).
    assert (R3 : res3 (sv_info t') = res3 (sv_info t4)) by (unfold res3; congruence).
    pose proof SC as (SA & _ & SD & _).
    split; [congruence|]. split; [congruence|]. intros _. replace (k + 1 - 1) with k by lia. split.
    - intros Hsc. destruct (C4 (or_intror Hsc)) as (C5 & I5). split; [eapply cur_same; eauto|]. split; [|congruence]. rewrite (swithin_same Q c D E st false _ _ SA SD). auto.
    - intros Hcp. destruct (C4 (or_introl Hcp)) as (C5 & I5). split; [eapply cur_same; eauto|congruence].
  Qed.

  (** A pass changes rho only by an adaptation computed from the iterate it has just made. *)
  Lemma pass_rho k f t t1 t' f' : before G s k f t -> admm_step G t = Some t1 -> admm_pass G t k f = Some (Continue t' f') -> 0 <= st_adaptive_rho st < 4 ->
    st_rho (sv_settings t') = st_rho (sv_settings t) \/
    exists t4, cur t4 /\ iter3 (sv_work t4) = iter3 (sv_work t1) /\ w_data (sv_work t4) = w_data (sv_work s) /\ st_rho (sv_settings t4) = st_rho (sv_settings t) /\ same_st st (sv_settings t4) /\
      good t4 /\ rho_change t4 t' k.
  Proof.
    intros HB HS1 HP Had. pose proof (before_good k f t HB) as HG. pose proof (pass_ends G t k f _ HP) as HE.
    inversion HE as [| | | |t1' t2 t3 t4 s0 cp ca HS' HR' HTm' HN HU3 HCk HSt HRh]; subst. rewrite HS1 in HS'. injection HS' as <-.
    destruct (step_good t t1 HG HS1) as (G1 & S1 & Es1 & Eo1 & Ei1). pose proof (near_good t1 t2 G1 HN) as G2. destruct HN as (N1 & N2 & N3 & x2 & N4).
    assert (Ea : st_adaptive_rho (sv_settings t) = st_adaptive_rho st) by (destruct HG as (_ & [_ _ _ (? & ? & ->) _] & _); reflexivity).
    rewrite Ea in HRh. destruct (HRh ltac:(lia) ltac:(lia)) as [HRc|HRc]; [auto|]. destruct HU3 as [HU3|(_ & _ & _ & X4 & _)]; [|auto]. right. exists t4.
    destruct (info_good t2 k G2 t3 HU3) as (Q1 & Q2 & Q3 & Q4 & Q5 & Q6 & Q7 & Q8 & Q9 & Q10).
    assert (R2 : st_rho (sv_settings t2) = st_rho (sv_settings t)) by (rewrite N4, Es1; reflexivity).
    destruct (scheduled (sv_settings t) k).
    - destruct (check_good t3 false Q1 _ HCk) as (C1 & C2 & C3 & C4 & C5 & C6 & C7 & C8). cbn [fst snd] in *. split; [eapply cur_same; eauto|]. pose proof C3 as (D1 & _ & D3 & _).
      split; [rewrite D3, Q5, N1; auto|]. pose proof C1 as (_ & F4 & _). split; [apply F4|]. split; [congruence|]. split; [apply F4|]. auto.
    - subst t4. split; [auto|]. split; [rewrite Q5, N1; auto|]. pose proof Q1 as (_ & F4 & _). split; [apply F4|]. split; [congruence|]. split; [apply F4|]. auto.
  Qed.

  (** How the solve ended: t1 is its last iterate. *)
  Inductive solved_as (fl : Z) (s' : solver Rops) (k : Z) (t t1 : solver Rops) : Prop :=
  | sa_intr : stop_requested G t1 = true -> stat s' = OSQP_SIGINT -> fl = 1 -> sv_solution s' = sv_solution s -> solved_as fl s' k t t1
  | sa_fail : stop_requested G t1 = false -> time_over G t1 = false -> stat s' = OSQP_UNSOLVED -> fl = 1 -> (0 <= st_adaptive_rho st < 4 -> exists t4 : solver Rops, sfr s t4 /\ rho_change t4 s' k) ->
      (exists ls, w_linsys (sv_work s') = Some ls /\ env_fac G (ls_fac ls) < 0) -> solved_as fl s' k t t1
  | sa_end : forall timed stale e, stop_requested G t1 = false -> time_over G t1 = timed -> ending timed stale (sv_work t1) e -> finished G e fl s' -> sv_solution e = sv_solution s ->
      i_iter (sv_info e) = (if timed then k - 1 else k) -> (timed = true \/ k = st_max_iter st \/ scheduled st k = true /\ decided (stat e)) -> solved_as fl s' k t t1.

  Theorem solve_ends fl s' : 1 <= st_max_iter st -> stat s = OSQP_UNSOLVED -> solve G s = Some (fl, s') ->
    exists k t t1, 1 <= k <= st_max_iter st /\ iterate G s k t t1 /\ solved_as fl s' k t t1.
  Proof.
    intros HM H0 HSv. 
    assert (HST : forall t, good t -> scheduled (sv_settings t) = scheduled st) by (intros t (_ & F1 & _); destruct (sf_st _ _ F1) as (r0 & x0 & ->); reflexivity).
    destruct (solve_traced G s fl s' ltac:(lia) HSv) as [f t HB HF|k f t t' f' HB Hk HP HF|k f t t' HB Hk HP HF].
    - (* all iterations *)
      inversion HB as [t0 Hb Ek|k f0 t0 t2 f2 HB0 Hk HP Ek]; [lia|]. assert (k = st_max_iter st) by lia. subst t2 f2.
      pose proof (before_good _ _ _ HB) as HG. pose proof (before_good _ _ _ HB0) as HG0. destruct (before_facts _ _ _ HB H0) as (S1 & O1 & C1). destruct (C1 ltac:(lia)) as (C2 & C3). clear C1.
      pose proof (before_facts _ _ _ HB0 H0) as (S01 & _).
      pose proof (pass_ends G t0 k f0 _ HP) as HE. inversion HE as [| | | |t1 t2 t3 t4 s0 cp ca HS HR HTm HN HU3 HCk HSt HRh]; subst s0 f.
      destruct (pass_iter3 G t0 k f0 _ HP) as (t1' & ES & E3 & _). rewrite HS in ES. injection ES as <-. cbn [outS] in E3.
      assert (ED : w_data (sv_work t1) = w_data (sv_work t)). { destruct (step_good t0 t1 HG0 HS) as ((_ & F1 & _) & _). destruct HG as (_ & F2 & _). rewrite (sf_d _ _ F1), (sf_d _ _ F2). auto. }
      exists k, t0, t1. pose proof (before_ge _ _ _ _ _ HB0). split; [lia|]. split; [exists f0; auto|].
      destruct (finish_ends G EO t _ _ _ HF) as (e & Ee & Hfin). cbn [fst snd] in Hfin, C2, C3.
      destruct (conclude_open t (st_max_iter st + 1) (scheduled (sv_settings t0) k) cp ca false HG S1) with (a := e) as (En & Ei & Est & Eso); auto.
      { intros _ Hc. destruct (C2 Hc) as (? & ? & ?). auto. } { intros _ Hc. destruct (C3 Hc). auto. }
      eapply sa_end with (timed := false); eauto.
      + eapply ending_w; [exact ED|symmetry; exact E3|exact En].
      + congruence.
      + rewrite Ei. destruct (scheduled _ _); cbn [orb]; [destruct (C2 eq_refl) as (_ & _ & ->); lia|]. destruct cp; [destruct (C3 eq_refl) as (_ & ->); lia|lia].
    - (* break *)
      pose proof (before_good _ _ _ HB) as HG. destruct (before_facts _ _ _ HB H0) as (S1 & O1 & C1).
      pose proof (pass_ends G t k f _ HP) as HE. destruct (finish_ends G EO t' _ _ _ HF) as (e & Ee & Hfin). cbn [fst snd] in Hfin.
      inversion HE as [|t1 s0 HS HR HTm W1 W2 W3 (msg & W4)|t1 t2 t3 s0 cp ca HS HR HTm HN HSc HU3 HCk| |]; subst s0 f'.
      + destruct (step_good t t1 HG HS) as (G1 & S2 & Es1 & Eo1 & Ei1).
        assert (G' : good t'). { destruct G1 as (I1 & F1 & A1). split; [|split].
          - destruct (before_inv G EO MM_R s k f t HI HB) as (It & _). destruct (admm_pass_safe G EO MM_R t k f It) as (o & Eo & HO). rewrite HP in Eo. injection Eo as <-. cbn [out_ok] in HO. apply HO.
          - eapply sfr_trans; [exact F1|]. apply sfr_fixed; rewrite ?W1; auto.
          - rewrite W1. auto. }
        destruct f as [[cc cp] ca]. cbn [fst snd] in *.
        exists k, t, t1. split; [lia|]. split; [exists (cc, cp, ca); split; auto; split; [lia|auto]|].
        destruct (conclude_open t' k cc false ca true G') with (a := e) as (En & Ei & Est & Eso); auto; try (intros; discriminate).
        { rewrite W4. reflexivity. }
        rewrite W1 in En. eapply sa_end with (timed := true); eauto.
        * congruence.
        * rewrite Ei. destruct cc; cbn [orb]; [|reflexivity]. rewrite W4. cbn. rewrite Ei1. destruct (Z.eq_dec k 1) as [->|Nk].
          { inversion HB as [t0 Hb Ek Ef|k0 f0 t0 t2 f2 HB0 Hk0 HP0 Ek Ef]. pose proof (before_ge _ _ _ _ _ HB0). lia. }
          { destruct (C1 ltac:(lia)) as (C2 & _). destruct (C2 eq_refl) as (_ & _ & ->). reflexivity. }
      + destruct (step_good t t1 HG HS) as (G1 & S2 & Es1 & Eo1 & Ei1). pose proof (near_good t1 t2 G1 HN) as G2. destruct HN as (N1 & N2 & N3 & _).
        destruct (info_good t2 k G2 t3 HU3) as (Q1 & Q2 & Q3 & Q4 & Q5 & Q6 & Q7 & Q8 & Q9 & Q10).
        destruct (check_good t3 false Q1 _ HCk) as (R1 & R2 & R3 & R4 & R5 & R6 & R7 & _). cbn [fst snd] in *.
        exists k, t, t1. split; [lia|]. split; [exists f; split; auto; split; [lia|auto]|].
        destruct (conclude_stop t3 t' k cp ca R1 Q2 R2 ltac:(congruence) R3 R4 e Ee) as ((En & Ei & Est & Eso) & Edc). destruct R3 as (SA & _ & SD & _).
        eapply sa_end with (timed := false); eauto.
        * eapply ending_w; [| |exact En]; congruence.
        * congruence.
        * congruence.
        * right. right. rewrite <- (HST t HG). auto.
    - (* exit *)
      pose proof (before_good _ _ _ HB) as HG. destruct (before_facts _ _ _ HB H0) as (S1 & O1 & C1).
      pose proof (pass_ends G t k f _ HP) as HE. destruct (solve_exit_eq _ _ _ HF) as (X1 & X2 & X3 & X4 & _). cbn [snd] in X1, X2, X3, X4.
      inversion HE as [t1 s0 HS HR W1 W2 W3 W4| | |t1 t2 t3 t4 s0 HS HR HTm HN HU3 HCk HRc HTi HFl|]; subst s0.
      + destruct (step_good t t1 HG HS) as (G1 & S2 & Es1 & Eo1 & Ei1). exists k, t, t1. split; [lia|]. split; [exists f; split; auto; split; [lia|auto]|]. apply sa_intr; auto; congruence.
      + destruct (step_good t t1 HG HS) as (G1 & S2 & Es1 & Eo1 & Ei1). pose proof (near_good t1 t2 G1 HN) as G2. destruct HN as (N1 & N2 & N3 & _).
        destruct (info_good t2 k G2 t3 HU3) as (Q1 & Q2 & Q3 & Q4 & Q5 & Q6 & Q7 & Q8 & Q9 & Q10).
        assert (S4 : stat t4 = OSQP_UNSOLVED /\ sfr s t4). { destruct (scheduled _ _); [|subst t4; split; [congruence|exact (proj1 (proj2 Q1))]]. destruct (check_good t3 false Q1 _ HCk) as (R1 & _ & _ & _ & _ & _ & _ & R8). cbn [fst snd] in R1, R8. rewrite (R8 eq_refl). split; [congruence|exact (proj1 (proj2 R1))]. }
        destruct S4 as (S4 & F4).
        exists k, t, t1. split; [lia|]. split; [exists f; split; auto; split; [lia|auto]|]. apply sa_fail; auto.
        * rewrite X2. unfold tail_i in HTi. congruence.
        * intros Har. exists t4. split; [exact F4|]. assert (Ear : st_adaptive_rho (sv_settings t) = st_adaptive_rho st) by (destruct HG as (_ & F1 & _); destruct (sf_st _ _ F1) as (r0 & x0 & ->); reflexivity).
          rewrite Ear in HRc. specialize (HRc ltac:(lia) ltac:(lia)). unfold rho_change in *. rewrite X3. exact HRc.
        * rewrite X1. destruct HFl as [HFl|HFl]; [exfalso|exact HFl]. revert HFl. unfold compute_rho_estimate. rewrite n0_R. cbn [nleb Rops]. rewrite c_min_R, !c_max_R, rho_min_R, rho_max_R. unfold Rleb.
          match goal with |- (if Rle_dec ?e 0 then _ else _) = true -> _ => assert (HX : (0 < e)%R); [|destruct (Rle_dec e 0); [lra|discriminate]] end.
          assert (0 < / 10 ^ 6)%R by (apply Rinv_0_lt_compat, pow_lt; lra). apply Rmin_glb_lt; [eapply Rlt_le_trans; [|apply Rmax_r]; auto|apply pow_lt; lra].
  Qed.

  (** What the termination test must answer on the iterate held by w. *)
  Inductive answer (w : work Rops) : Z -> Prop :=
  | an_big : big w -> answer w OSQP_NON_CVX
  | an_solved : ~ big w -> SW false w -> answer w OSQP_SOLVED
  | an_pinf : ~ big w -> ~ SW false w -> pfound st Q D E false w -> answer w OSQP_PRIMAL_INFEASIBLE
  | an_dinf : ~ big w -> ~ SW false w -> ~ pfound st Q D E false w -> dfound st Q c D E false w -> answer w OSQP_DUAL_INFEASIBLE.

  Lemma answer_verdict t b t' v : cur t -> vdt false t b t' -> answer (sv_work t) v -> b = true /\ stat t' = v.
  Proof.
    intros HC V HAn. assert (HB : huge (sv_info t) <-> big (sv_work t)) by (unfold huge, big; rewrite (cu_pr _ _ _ _ _ _ _ HC), (cu_dr _ _ _ _ _ _ _ HC); reflexivity).
    inversion V as [t2 V1 V2 V3 V4 Eb|t2 V1 V2 V3 V4 Eb|t2 V1 V2 V3 V4 Eb|t2 V1 V2 V3 V4 Eb|t2 V1 V2 V3]; subst t2 b; rewrite HB in V1; cbv iota in *; inversion HAn; subst v; try contradiction; auto; exfalso; first [specialize (V4 HC); tauto|specialize (V3 HC); tauto].
  Qed.

  Lemma loop_before : forall k f t, before G s k f t -> forall t0, begin_solve s = Some t0 -> k <= st_max_iter st + 1 ->
    admm_loop G (Z.to_nat (st_max_iter st)) 1 (false, tr (st_verbose (sv_settings t0)), false) t0 = admm_loop G (Z.to_nat (st_max_iter st + 1 - k)) k f t.
  Proof.
    induction 1 as [t H|k f t t' f' H IH Hk HP]; intros t0 E0 Hle.
    - rewrite H in E0. injection E0 as <-. f_equal. f_equal. lia.
    - rewrite (IH t0 E0) by lia. replace (Z.to_nat (st_max_iter st + 1 - k)) with (S (Z.to_nat (st_max_iter st + 1 - (k + 1)))).
      + cbn [admm_loop]. rewrite HP. reflexivity.
      + pose proof (before_ge _ _ _ _ _ H). lia.
  Qed.
  Lemma before_begin k f t : before G s k f t -> exists t0, begin_solve s = Some t0.
  Proof. induction 1; eauto. Qed.
  Lemma solve_break k f t t' f' : before G s k f t -> k <= st_max_iter st -> admm_pass G t k f = Some (Break t' f') -> solve G s = finish_solve G t' k f'.
  Proof.
    intros HB Hk HP. destruct (before_begin _ _ _ HB) as (t0 & E0). unfold solve. rewrite E0.
    assert (EM : st_max_iter (sv_settings t0) = st_max_iter st) by (exact (same_st_max _ _ (sf_st _ _ (begin_sfr s t0 E0)))). rewrite EM.
    rewrite (loop_before k f t HB t0 E0) by lia. replace (Z.to_nat (st_max_iter st + 1 - k)) with (S (Z.to_nat (st_max_iter st - k))) by lia. cbn [admm_loop]. rewrite HP. reflexivity.
  Qed.

  Lemma answer_same w w' v : w_data w' = w_data w -> iter3 w' = iter3 w -> deltas w' = deltas w -> answer w v -> answer w' v.
  Proof.
    intros H1 H2 H3 HAn. pose proof (swithin_same Q c D E st false _ _ H1 H2) as S1.
    assert (B1 : big w' <-> big w) by (split; [apply big_same; congruence|apply big_same; auto]).
    unfold iter3 in H2. injection H2 as X1 X2 X3. unfold deltas in H3. injection H3 as X4 X5.
    assert (P1 : pfound st Q D E false w' <-> pfound st Q D E false w) by (unfold pfound, prim_ok, step_y; rewrite H1, X1, X3, X5; reflexivity).
    assert (D1 : dfound st Q c D E false w' <-> dfound st Q c D E false w) by (unfold dfound, dual_ok, step_x, absl, absu; rewrite H1, X1, X2, X4; reflexivity).
    destruct HAn; constructor; tauto.
  Qed.

  (** The solve stops at the first scheduled test that finds one of the four outcomes, with that outcome. *)
  Theorem solve_found fl s' k t t1 v : stat s = OSQP_UNSOLVED -> iterate G s k t t1 -> scheduled st k = true -> stop_requested G t1 = false -> time_over G t1 = false ->
    answer (sv_work t1) v -> solve G s = Some (fl, s') -> exists e, good e /\ finished G e fl s' /\ stat e = v /\ i_iter (sv_info e) = k.
  Proof.
    intros H0 (f & HB & Hk & HS) Hsc HR HTm HAn HSv.
    pose proof (before_good _ _ _ HB) as HG. destruct (before_facts _ _ _ HB H0) as (S1 & O1 & _).
    destruct (before_inv G EO MM_R s k f t HI HB) as (It & _). destruct (admm_pass_safe G EO MM_R t k f It) as (o & HP & _).
    assert (ESc : scheduled (sv_settings t) k = true) by (pose proof HG as (_ & F1 & _); destruct (sf_st _ _ F1) as (r0 & x0 & ->); exact Hsc).
    destruct (step_good t t1 HG HS) as (G1 & S2 & Es1 & Eo1 & Ei1).
    assert (CORE : forall t2 t3 b t4, near t1 t2 -> update_info G t2 k = Some t3 -> check_termination t3 false = Some (b, t4) ->
      b = true /\ stat t4 = v /\ i_iter (sv_info t4) = k /\ good t4 /\ cur t3 /\ vdt false t3 b t4 /\ stat t3 = OSQP_UNSOLVED /\ same_cur (sv_work t3) (sv_work t4) /\ res3 (sv_info t4) = res3 (sv_info t3)).
    { intros t2 t3 b t4 HN HU3 HCk. pose proof (near_good t1 t2 G1 HN) as G2. destruct HN as (N1 & N2 & N3 & _).
      destruct (info_good t2 k G2 t3 HU3) as (Q1 & Q2 & Q3 & Q4 & Q5 & Q6 & Q7 & Q8 & Q9 & Q10).
      destruct (check_good t3 false Q1 _ HCk) as (R1 & R2 & R3 & R4 & R5 & R6 & R7 & _). cbn [fst snd] in *.
      destruct (answer_verdict t3 b t4 v Q2 R2) as (A1 & A2). { eapply answer_same; [| | |exact HAn]; congruence. }
      repeat (split; [solve [auto|congruence]|]). auto. }
    pose proof (pass_ends G t k f _ HP) as HE.
    inversion HE as [t1' s0 HS' HR'|t1' s0 HS' HR' HTm'|t1' t2 t3 s0 cp ca HS' HR' HTm' HN HSc HU3 HCk|t1' t2 t3 t4 s0 HS' HR' HTm' HN HU3 HCk HRc HTi|t1' t2 t3 t4 s0 cp ca HS' HR' HTm' HN HU3 HCk HSt HRh]; subst o;
      rewrite HS in HS'; injection HS' as <-; try congruence.
    - destruct (CORE t2 t3 true s0 HN HU3 HCk) as (_ & A1 & A2 & A3 & A4 & A5 & A6 & A7 & A8).
      rewrite (solve_break _ _ _ _ _ HB Hk HP) in HSv.
      destruct (finish_ends G EO s0 _ _ _ HSv) as (e & Ee & Hfin). cbn [fst snd] in Hfin. exists e.
      destruct (conclude_stop t3 s0 k cp ca A3 A4 A5 A6 A7 A8 e Ee) as ((En & Ei & Est & Eso) & Edc).
      split; [apply (en_good _ _ _ _ En)|]. split; [auto|]. split; [|congruence].
      rewrite conclude_tail in Ee. unfold final_check in Ee. cbv iota beta in Ee. rewrite <- A1. apply (tail_stat s0 A3) in Ee; auto; destruct HAn; rewrite A1; stc.
    - rewrite ESc in HCk. destruct (CORE t2 t3 false t4 HN HU3 HCk) as (A0 & _). discriminate.
    - rewrite ESc in HU3, HCk. destruct HU3 as [HU3|HU3]; [|destruct HU3; discriminate]. destruct (CORE t2 t3 false t4 HN HU3 HCk) as (A0 & _). discriminate.
  Qed.
End Solve.
