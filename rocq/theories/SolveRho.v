(** When a solve changes its penalty rho, and to what (exact arithmetic). *)
From Coq Require Import ZArith Reals List Bool Lia Lra String.
From Verif Require Import Num Arr ArrFacts RSum Csc CscSpec CscFacts CscFacts2 Scatter Vec VecFacts Types Kkt KktSpec KktDense Linsys LinsysFacts LinsysSolve Scaling Validate Auxil Polish Api
  Inv RecSimp InvStep InvApi InvScale InvPolish InvSolve ValidFacts InvUpd InvSetup History RealVec RealStep Frame FrameSolve ProbSpec ScaleReal FrameUpd UserSpec Refine ExEnv Ldl LdlEnv Session ExReal DataFacts Obs DataClaims ApiClaims KktClaims
  QpSpec AdmmSpec Mid Trace AdmmClaims PassFacts SolveEnd TermSpec TermFacts TermCheck AtyFacts TermSolve SolveClaims SolveUser SolveEx.
Import ListNotations.
Open Scope Z_scope.

(** ** The interval between adaptations is a setting, except in the time-based mode *)
Section Interval.
  Context {K : NumOps}.
  Variable E : Env K.
  Lemma decide_interval (s : solver K) it old : st_adaptive_rho (sv_settings s) <> ADAPTIVE_RHO_TIME -> sv_settings (snd (decide_adapt E s it old)) = sv_settings s.
  Proof.
    intros HN. unfold decide_adapt. destruct (_ =? ADAPTIVE_RHO_DISABLED); [reflexivity|]. destruct (_ =? ADAPTIVE_RHO_TIME) eqn:E1; [apply Z.eqb_eq in E1; contradiction|].
    destruct (_ || _); reflexivity.
  Qed.
  Definition keeps_interval (s s' : solver K) : Prop := st_adaptive_rho_interval (sv_settings s') = st_adaptive_rho_interval (sv_settings s).
  Lemma pass_interval (t : solver K) k f : st_adaptive_rho (sv_settings t) <> ADAPTIVE_RHO_TIME ->
    post (admm_pass E t k f) (fun o => match o with Continue t' _ => keeps_interval t t' | _ => True end).
  Proof.
    intros HN. destruct f as [[cc cp] ca]. unfold admm_pass. eapply post_bindP; [apply admm_step_post|]. intros t1 HA. cbv beta in HA. destruct HA as (HS & _).
    unfold is_interrupted. cbv zeta. match goal with |- post (if ?b then _ else _) _ => destruct b end.
    { apply post_bind; intros; apply post_ret; exact I. }
    match goal with |- post (let '(_, _) := temp_run_time E ?x in _) _ => set (s2 := x) end.
    assert (S3 : sv_settings (snd (temp_run_time E s2)) = sv_settings t) by (subst s2; unfold temp_run_time, toc; rs; destruct (tr _); cbn [snd]; rs; exact HS).
    destruct (temp_run_time E s2) as [run s3]. cbn [snd] in S3.
    match goal with |- post (if ?b then _ else _) _ => destruct b end.
    { apply post_bind; intros; apply post_ret; exact I. }
    pose proof (decide_interval s3 k ca) as HD. rewrite S3 in HD. specialize (HD HN). destruct (decide_adapt E s3 k ca) as [ca4 s4]. cbn [snd] in HD.
    eapply post_bindP with (P := fun s5 => sv_settings s5 = sv_settings t).
    { match goal with |- post (if ?b then _ else _) _ => destruct b end; [|apply post_ret; auto].
      eapply post_weaken; [apply update_info_post|]. cbv beta. intros s5 H5. rewrite <- HD. apply H5. }
    intros s5 H5. eapply post_bindP with (P := fun r => sv_settings (snd r) = sv_settings t).
    { match goal with |- post (if ?b then _ else _) _ => destruct b end; [|apply post_ret; auto].
      eapply post_weaken; [apply check_termination_post|]. cbv beta zeta. intros [a s6] H6. cbn [snd] in *. rewrite <- H5. apply H6. }
    intros [stop s6] H6. cbn [snd] in H6. destruct stop; [apply post_ret; exact I|].
    eapply post_bindP with (P := fun r => keeps_interval t (snd r)).
    { match goal with |- post (if ?b then _ else _) _ => destruct b end; [|apply post_ret; unfold keeps_interval; cbn [snd]; rs; rewrite H6; reflexivity].
      unfold adapt_rho. rs. match goal with |- post (if ?b then _ else _) _ => destruct b end; [|apply post_ret; unfold keeps_interval; cbn [snd]; rs; rewrite H6; reflexivity].
      refine (post_bindP _ _ _ _ (update_rho_tail E _ _) _). intros [fl s8]. cbn [snd]. intros (_ & _ & _ & _ & B6 & _). apply post_ret. unfold keeps_interval. cbn [snd]. rs. rs_in B6. rewrite B6, H6. reflexivity. }
    intros [fl s8] H8. cbn [snd] in H8. destruct (tr fl); [apply post_ret; exact I|]. apply post_ret. unfold keeps_interval in *.
    match goal with |- context [if ?b then _ else _] => destruct b end; match goal with |- context [if ?b then _ else _] => destruct b end; rs; exact H8.
  Qed.
  Lemma before_interval (s : solver K) k f t : st_adaptive_rho (sv_settings s) <> ADAPTIVE_RHO_TIME -> before E s k f t -> keeps_interval s t.
  Proof.
    intros HN HB. induction HB as [t H|k f t t' f' H IH Hk HP].
    - destruct (begin_post s t H) as (H1 & _). unfold keeps_interval. rewrite H1. reflexivity.
    - pose proof (sf_st _ _ (before_sfr E s k f t H)) as (r0 & x0 & ES).
      assert (HN' : st_adaptive_rho (sv_settings t) <> ADAPTIVE_RHO_TIME) by (rewrite ES; exact HN).
      pose proof (pass_interval t k f HN' _ HP) as HX. unfold keeps_interval in *. congruence.
  Qed.
End Interval.

(** ** The estimate: rho times the square root of the ratio of the relative residuals *)
Definition relative_prim (p : qp) (x z : Z -> R) : R :=
  (ninf (q_m p) (fun i => Amul p x i - z i) / (Rmax (ninf (q_m p) z) (ninf (q_m p) (Amul p x)) + / 10 ^ 30))%R.
Definition relative_dual (p : qp) (x y : Z -> R) : R :=
  (ninf (q_n p) (fun i => q_q p i + Pmul p x i + Atmul p y i) / (Rmax (Rmax (ninf (q_n p) (q_q p)) (ninf (q_n p) (Atmul p y))) (ninf (q_n p) (Pmul p x)) + / 10 ^ 30))%R.
Definition balanced_rho (p : qp) (rho : R) (x z y : Z -> R) : R :=
  clipR (/ 10 ^ 6) (10 ^ 6) (rho * sqrt (relative_prim p x z / relative_dual p x y)).

Lemma clipR_range l u v : (l <= u -> l <= clipR l u v <= u)%R.
Proof. intros H. unfold clipR, Rmin, Rmax. destruct (Rle_dec v l), (Rle_dec _ u); lra. Qed.
Section Rho.
  Variable E : Env Rops.
  Hypothesis EO : env_ok E.
  Variables (P A : csc Rops) (q0 l0 u0 : option (list R)) (m n : Z) (ust : settings Rops).
  Notation ses := (session E P A q0 l0 u0 m n ust).
  Notation stat s := (i_status_val (sv_info s)).

  Lemma estimate_real (s t4 : solver Rops) Q c D Es : Inv t4 -> w_data (sv_work t4) = w_data (sv_work s) -> current (sv_settings s) Q c D Es (sv_work t4) (sv_info t4) -> 0 < d_m (w_data (sv_work s)) ->
    @compute_rho_estimate Rops (sv_settings t4) (sv_work t4) = balanced_rho (qp_of (w_data (sv_work s))) (st_rho (sv_settings t4)) (rnth (w_x (sv_work t4))) (rnth (w_z (sv_work t4))) (rnth (w_y (sv_work t4))).
  Proof.
    intros HI ED HC Hm. pose proof (wo_d _ _ (iv_w _ HI)) as HD. pose proof (wo_len _ _ (iv_w _ HI)) as HL. set (w := sv_work t4) in *.
    unfold compute_rho_estimate, balanced_rho, relative_prim, relative_dual. rewrite !c_max_R, c_min_R, rho_min_R, rho_max_R, div_tol_R, !vnorm_ninf.
    rewrite (cu_sp _ _ _ _ _ _ _ HC) by (rewrite ED; auto). rewrite (cu_sd _ _ _ _ _ _ _ HC). rewrite ED. cbn [q_n q_m q_q qp_of].
    assert (L1 : rlen (w_z w) = d_m (w_data (sv_work s))) by (rewrite <- ED; apply HL). assert (L2 : rlen (w_Ax w) = d_m (w_data (sv_work s))) by (rewrite <- ED; apply HL).
    assert (L3 : rlen (d_q (w_data (sv_work s))) = d_n (w_data (sv_work s))) by (rewrite <- ED; apply HD).
    assert (L4 : rlen (w_Aty w) = d_n (w_data (sv_work s))) by (rewrite <- ED; apply HL). assert (L5 : rlen (w_Px w) = d_n (w_data (sv_work s))) by (rewrite <- ED; apply HL).
    rewrite L1, L2, L3, L4, L5.
    rewrite (ninf_ext _ (rnth (w_Ax w)) (Amul (qp_of (w_data (sv_work s))) (rnth (w_x w)))) by (intros i Hi; rewrite <- ED; apply (cu_Ax _ _ _ _ _ _ _ HC); rewrite ED; auto).
    rewrite (ninf_ext _ (rnth (w_Aty w)) (Atmul (qp_of (w_data (sv_work s))) (rnth (w_y w)))) by (intros i Hi; rewrite <- ED; apply (cu_Aty _ _ _ _ _ _ _ HC); rewrite ED; auto).
    rewrite (ninf_ext _ (rnth (w_Px w)) (Pmul (qp_of (w_data (sv_work s))) (rnth (w_x w)))) by (intros i Hi; rewrite <- ED; apply (cu_Px _ _ _ _ _ _ _ HC); rewrite ED; auto).
    unfold clipR. reflexivity.
  Qed.

  (** The penalty with which the next iteration is made. *)
  Theorem rho_next s d k t t1 t2 t3 : ses s d -> 0 < m -> iterate E s k t t1 -> iterate E s (k + 1) t2 t3 ->
    let st := sv_settings s in let old := st_rho (sv_settings t) in let new := st_rho (sv_settings t2) in
    new = old \/
    st_adaptive_rho st <> ADAPTIVE_RHO_DISABLED /\
    new = balanced_rho (qp_of (w_data (sv_work s))) old (rnth (w_x (sv_work t1))) (rnth (w_z (sv_work t1))) (rnth (w_y (sv_work t1))) /\
    (old * st_adaptive_rho_tolerance st < new \/ new < old / st_adaptive_rho_tolerance st)%R /\
    (let i := st_adaptive_rho_interval (sv_settings t2) in i <> 0 /\ Z.rem k i = 0 /\ (st_adaptive_rho st <> ADAPTIVE_RHO_TIME -> i = st_adaptive_rho_interval st)).
  Proof.
    intros HS Hm (f & HB & _ & HS1) (f2 & HB2 & _) st old new.
    destruct (session_facts E EO _ _ _ _ _ _ _ _ _ _ HS) as (HI & HR & _ & HK & _). destruct (session_size E EO _ _ _ _ _ _ _ _ _ _ HS) as (En & Em).
    destruct (vs_adaptive _ _ HK) as (K1 & K2). specialize (K1 eq_refl). unfold keep_settings in K1, K2. rs_in K1. rs_in K2.
    inversion HB2 as [|k0 f0 t0 t2' f2' HB0 Hk0 HP Ek Ef Et]; [pose proof (before_ge _ _ _ _ _ HB); lia|]. assert (k0 = k) by lia. subst k0 t2' f2'. clear Ek.
    destruct (before_det _ _ _ _ _ HB0 _ _ HB) as (-> & ->).
    assert (HX : exists Q c D Es, tunits (sv_settings s) (sv_work s) Q c D Es).
    { destruct (tests_users_dec (sv_settings s)) as [HT|HT]; do 4 eexists; [apply (ref_tunits s d HI HR HT)|apply (stored_tunits s HT)]. }
    destruct HX as (Q & c & D & Es & HT).
    assert (HRho : st_rho (sv_settings t2) = st_rho (sv_settings t) \/
      exists t4, current (sv_settings s) Q c D Es (sv_work t4) (sv_info t4) /\ iter3 (sv_work t4) = iter3 (sv_work t1) /\ w_data (sv_work t4) = w_data (sv_work s) /\ st_rho (sv_settings t4) = st_rho (sv_settings t) /\
        same_st (sv_settings s) (sv_settings t4) /\ Inv t4 /\ rho_change t4 t2 k).
    { destruct (pass_rho E EO s Q (qp_of d) c (uc s) D Es (uD s) (uE s) HI HT) with (k := k) (f := f) (t := t) (t1 := t1) (t' := t2) (f' := f2) as [X|(t4 & X1 & X2 & X3 & X4 & X5 & X6 & X7)]; auto.
      - apply ref_scaled_qp; auto.
      - intros H1. pose proof (rf_sc _ _ HR) as HX. destruct (wo_sc _ _ (iv_w _ HI) H1) as (sc & Ew & _). exists sc. split; auto.
        unfold uc, uscal in *. rewrite H1, Ew in *. destruct (HX sc eq_refl) as (_ & _ & [I1 _ _]). auto.
      - intros H1. unfold uc, uscal. rewrite H1. auto.
      - eapply session_aty; eauto.
      - unfold ADAPTIVE_RHO_KKT_ERROR in K2. lia.
      - right. exists t4. destruct X6. auto 10. }
    destruct HRho as [HR1|(t4 & C1 & C2 & C3 & C4 & C5 & C6 & (R1 & R2 & R3 & R4 & R5 & _))]; [left; exact HR1|right].
    destruct C5 as (r0 & x0 & C5). assert (Ead : st_adaptive_rho (sv_settings t4) = st_adaptive_rho st) by (rewrite C5; reflexivity).
    assert (Etl : st_adaptive_rho_tolerance (sv_settings t4) = st_adaptive_rho_tolerance st) by (rewrite C5; reflexivity).
    rewrite (estimate_real s t4 Q c D Es C6 C3 C1) in R3, R4 by lia. unfold iter3 in C2. injection C2 as X1 X2 X3. rewrite C4, X1, X2, X3 in R3, R4. rewrite Etl in R3. fold old in R3, R4.
    set (b := balanced_rho (qp_of (w_data (sv_work s))) old (rnth (w_x (sv_work t1))) (rnth (w_z (sv_work t1))) (rnth (w_y (sv_work t1)))) in *.
    assert (Hb : (/ 10 ^ 6 <= b <= 10 ^ 6)%R).
    { subst b. apply clipR_range. lra. }
    assert (Enew : new = b).
    { destruct R4 as [(R4 & _)|R4].
      - exfalso. rewrite n0_R in R4. cbn [nleb Rops] in R4. unfold Rleb in R4. destruct (Rle_dec b 0); [lra|discriminate].
      - unfold new. rewrite R4. unfold clamp. rewrite c_max_R, c_min_R, rho_min_R, rho_max_R. rewrite Rmax_left, Rmin_left; lra. }
    split; [rewrite <- Ead; exact R2|]. split; [exact Enew|]. rewrite Enew.
    split. { cbn [nltb nmul ndiv Rops] in R3. rewrite !Rltb_iff in R3. exact R3. }
    cbv zeta. unfold interval_hit in R1. rewrite <- R5 in R1. apply andb_true_iff in R1 as (R1 & R6). split; [intros HZ; rewrite HZ in R1; discriminate|]. split; [lia|].
    intros HN. exact (before_interval E s _ _ t2 HN HB2).
  Qed.
End Rho.

(** ** When the next iteration is made *)
Section Go.
  Variable E : Env Rops.
  Hypothesis EO : env_ok E.
  Variables (P A : csc Rops) (q0 l0 u0 : option (list R)) (m n : Z) (ust : settings Rops).
  Notation ses := (session E P A q0 l0 u0 m n ust).

  (** An iteration without a termination test is followed by another one, if there is neither an interrupt nor a time out. *)
  Theorem goes_on s d k t t1 : exact_ldl E -> ses s d -> convex d -> iterate E s k t t1 -> k < st_max_iter (sv_settings s) -> stop_requested E t1 = false -> time_over E t1 = false ->
    scheduled (sv_settings s) k = false -> exists t2 t3, iterate E s (k + 1) t2 t3.
  Proof.
    intros EX HS HC HIt Hk HR HTm HSc. destruct (session_facts E EO _ _ _ _ _ _ _ _ _ _ HS) as (HI & HRf & Hsg & _).
    pose proof HIt as (f & HB & Hk1 & HS1). destruct (before_inv E EO MM_R s k f t HI HB) as (It & _). destruct (admm_pass_safe E EO MM_R t k f It) as (o & HP & HO).
    pose proof (before_sfr E s k f t HB) as F0. pose proof (sfr_trans _ _ _ F0 (sfr_pass E t k f _ HP)) as F1.
    assert (ESc : scheduled (sv_settings t) k = scheduled (sv_settings s) k) by (destruct (sf_st _ _ F0) as (r0 & x0 & ->); reflexivity).
    pose proof (pass_ends E t k f _ HP) as HE.
    inversion HE as [t1' s0 HS' HR'|t1' s0 HS' HR' HTm'|t1' t2 t3 s0 cp ca HS' HR' HTm' HN HSc' HU3 HCk|t1' t2 t3 t4 s0 HS' HR' HTm' HN HU3 HCk HRc HTi HFl|t1' t2 t3 t4 s0 cp ca HS' HR' HTm' HN HU3 HCk HSt HRh]; subst o; rewrite HS1 in HS'; injection HS' as <-.
    - congruence.
    - congruence.
    - congruence.
    - exfalso. destruct HFl as [HFl|(ls & Els & Hneg)].
      + revert HFl. unfold compute_rho_estimate. rewrite n0_R. cbn [nleb Rops]. rewrite c_min_R, !c_max_R, rho_min_R, rho_max_R. unfold Rleb.
        match goal with |- (if Rle_dec ?e 0 then _ else _) = true -> _ => assert (HX : (0 < e)%R); [|destruct (Rle_dec e 0); [lra|discriminate]] end.
        assert (0 < / 10 ^ 6)%R by (apply Rinv_0_lt_compat, pow_lt; lra). apply Rmin_glb_lt; [eapply Rlt_le_trans; [|apply Rmax_r]; auto|apply pow_lt; lra].
      + cbn [out_ok] in HO. cbn [outS] in F1. pose proof (proj1 (proj1 HO)) as I0.
        assert (R0 : ref d s0) by (destruct F1 as [F1 F2 F3 F4 F5]; eapply ref_same; [exact F1|exact F2| |exact HRf]; apply same_st_keep in F4; apply F4).
        assert (Sg : (0 < st_sigma (sv_settings s0))%R) by (destruct (sf_st _ _ F1) as (r0 & x0 & ->); exact Hsg).
        destruct (convex_exact_w E EX _ _ (iv_w _ I0)) with (ls := ls) as (_ & Hfac & _); eauto using inv_rho_pos, ref_convex.
        pose proof (do_n _ (wo_d _ _ (iv_w _ I0))). lia.
    - assert (HB2 : before E s (k + 1) (scheduled (sv_settings t) k, cp, ca) s0) by (apply (bf_S E s k f t); [auto|lia|rewrite HP; reflexivity]).
      destruct (before_inv E EO MM_R s _ _ s0 HI HB2) as (I2 & _). destruct (admm_step_safe E EO s0 I2) as (t6 & E6 & _).
      exists s0, t6. eexists. split; [exact HB2|]. split; [lia|exact E6].
  Qed.
End Go.

(** ** Exit codes *)
Section Exit.
  Variable E : Env Rops.
  Hypothesis EO : env_ok E.
  Variables (P A : csc Rops) (q0 l0 u0 : option (list R)) (m n : Z) (ust : settings Rops).
  Notation ses := (session E P A q0 l0 u0 m n ust).
  Notation stat s := (i_status_val (sv_info s)).
  Lemma some_units s d : ses s d -> exists Q c D Es, tunits (sv_settings s) (sv_work s) Q c D Es.
  Proof.
    intros HS. destruct (session_facts E EO _ _ _ _ _ _ _ _ _ _ HS) as (HI & HR & _).
    destruct (tests_users_dec (sv_settings s)) as [HT|HT]; do 4 eexists; [apply (ref_tunits s d HI HR HT)|apply (stored_tunits s HT)].
  Qed.
  Theorem session_flag s d fl s' : ses s d -> stat s = OSQP_UNSOLVED -> solve E s = Some (fl, s') ->
    fl = 0 \/ (stat s' = OSQP_SIGINT \/ stat s' = OSQP_UNSOLVED) /\ fl = 1 \/ stat s' = OSQP_SOLVED /\ tr (st_polishing (sv_settings s)) = true.
  Proof. intros HS HU HE. destruct (some_units s d HS) as (Q & c & D & Es & HT). exact (claim_flag E EO P A q0 l0 u0 m n ust s d _ _ _ _ fl s' HS HT HU HE). Qed.
  Theorem session_convex s d fl s' : exact_ldl E -> ses s d -> convex d -> stat s = OSQP_UNSOLVED -> solve E s = Some (fl, s') -> stat s' <> OSQP_UNSOLVED.
  Proof. intros EX HS HC HU HE. destruct (some_units s d HS) as (Q & c & D & Es & HT). exact (claim_convex E EO P A q0 l0 u0 m n ust s d _ _ _ _ fl s' HS HT HU HE EX HC). Qed.
End Exit.

(** A solve whose penalty may be adapted after every iteration *)
Definition ast : settings Rops := set_st_check_termination 0 (set_st_adaptive_rho_interval 1 (set_st_adaptive_rho ADAPTIVE_RHO_ITERATIONS rst)).
Lemma ast_ok : settings_ok true ast.
Proof.
  pose proof rst_ok as [H1 H2 H3 H4 H5 H6 H7 H8 H9 H10 H11 H12 H13 H14 H15 H16 H17 H18 H19 H20 H21 H22 H23 H24 H25 H26 H27 H28 H29 H30].
  unfold ast, ADAPTIVE_RHO_ITERATIONS. constructor; rs; auto; try lia. all: unfold ADAPTIVE_RHO_DISABLED, ADAPTIVE_RHO_TIME, ADAPTIVE_RHO_KKT_ERROR in *; intros; try lia.
Qed.
Lemma ex_adapting : exists s d t t1 t2 t3, session rE rP rA (Some rq) (Some rl) (Some ru) 3 2 ast s d /\ iterate rE s 1 t t1 /\ iterate rE s 2 t2 t3 /\ st_adaptive_rho (sv_settings s) = ADAPTIVE_RHO_ITERATIONS /\ st_adaptive_rho_interval (sv_settings s) = 1.
Proof.
  destruct (session_start rE rE_ok rE_exact (mkworld 0%nat 0%nat 0 0 []) rP (Some rq) rA (Some rl) (Some ru) 3 2 ast rdata_readable rdata_ok ast_ok rP_psd) as (s & g & d & ES & U & S).
  destruct (setup_fresh rE rE_ok _ _ _ _ _ _ _ _ _ _ _ rdata_readable ES) as (_ & HF & _). pose proof (rdat_init d U) as RD.
  destruct (session_facts rE rE_ok _ _ _ _ _ _ _ _ _ _ S) as (HI & HR & _).
  assert (HST : exists r, sv_settings s = set_st_rho r ast).
  { rewrite (fs_settings _ _ _ _ _ _ _ _ _ _ HF). exists (@clamp Rops (st_rho ast)). generalize (@clamp Rops (st_rho ast)). unfold ast. generalize rst. intros [] ?. unfold setup_adaptive_rho. vm_compute. reflexivity. }
  destruct HST as (r & HST).
  assert (HM : st_max_iter (sv_settings s) = 4000) by (rewrite HST; reflexivity).
  destruct (first_iterate rE s rE_ok HI ltac:(lia)) as (t & t1 & HIt).
  destruct (goes_on rE rE_ok _ _ _ _ _ _ _ _ s d 1 t t1 rE_exact S (rt_cvx _ RD) HIt) as (t2 & t3 & HIt2); [lia|reflexivity| |rewrite HST; reflexivity|].
  { apply (first_time s t t1 rE HIt); [reflexivity|apply (fs_first _ _ _ _ _ _ _ _ _ _ HF)|eapply setup_clock; eauto|rewrite HST; apply rlit_pos; lia]. }
  exists s, d, t, t1, t2, t3. split; [auto|]. split; [auto|]. split; [auto|]. rewrite HST. split; reflexivity.
Qed.

(** The objective values a solve reports are those of the point it returns. *)
Lemma user_objective : forall E, env_ok E -> forall P A q l u m n ust s d fl s', session E P A q l u m n ust s d -> tests_users (sv_settings s) -> stat s = OSQP_UNSOLVED -> solve E s = Some (fl, s') ->
  final (stat s') -> ~ polished s' -> has_solution (sv_info s') = true -> exists k t t1, 1 <= k <= st_max_iter (sv_settings s) /\ iterate E s k t t1 /\ (time_over E t1 = true \/
    i_obj_val (sv_info s') = objective (qp_of d) (ux s') /\
    exists v, trimmed (uc s) (uE s) m (rnth (d_l d)) (rnth (d_u d)) (uy s') v /\
    i_dual_obj_val (sv_info s') = (- / 2 * quad (qp_of d) (ux s') - support (qp_of d) v)%R /\
    i_duality_gap (sv_info s') = (i_obj_val (sv_info s') - i_dual_obj_val (sv_info s'))%R).
Proof.
  intros E HE P A q l u m n ust s d fl s' S HT HU HS HF HP HH.
  destruct (user_info E HE P A q l u m n ust s d fl s' S HT HU HS HF HP) as (k & t & t1 & Hk & HIt & [HO|(_ & _ & _ & HR)]); exists k, t, t1; do 2 (split; [assumption|]); [left; exact HO|right].
  destruct (HR HH) as (EX & EZ & EY & v & TV & H1 & H2 & H3). rewrite EX, EY. split; [exact H1|]. exists v. auto.
Qed.
