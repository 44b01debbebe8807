(** Reusing a solver: one that has been given new data, a new rho and a cold start solves exactly like one freshly set up with that data. *)
From Coq Require Import ZArith String List Bool Lia.
From Verif Require Import Num Arr ArrFacts Csc CscSpec CscFacts CscFacts2 Scatter CscFacts3 CscFacts5 Vec Types RecSimp Kkt Linsys Scaling Validate Auxil VecFacts LinsysFacts LinsysSolve Inv InvStep InvApi InvPolish InvSolve Polish Api
  InvScale ValidFacts InvUpd InvSetup History Frame FrameSolve FrameUpd DataFacts LinFrame SolLen TwinInit TwinKer TwinStep TwinTerm TwinSolve TwinFinish TwinHist AtyFacts MachineClaims TwinClaims Runs.
Import ListNotations.
Open Scope Z_scope.
Local Open Scope opt_scope.

Section Reuse.
  Context {K : NumOps}.
  Variables E E' : Env K.
  Hypothesis ES : env_sim E E'.
  Hypothesis EO : env_ok E.
  Hypothesis EO' : env_ok E'.
  Hypothesis NZ : @neqb K n0 n0 = true.
  Hypothesis MM : nltb (OSQP_RHO_MIN K) (OSQP_RHO_MAX K) = true.

  (** The reciprocals of the penalties are not zeros of the sign for which 0 - v and -v differ. *)
  Definition signs (rho : K) : Prop := forall t, nsub n0 (ndiv n1 (rho_of rho t)) = nopp (ndiv n1 (rho_of rho t)).

  (** The same problem, settings, units and starting point. *)
  Record agree (s s' : solver K) : Prop := {
    ag_st : sv_settings s' = sv_settings s;
    ag_d : w_data (sv_work s') = w_data (sv_work s);
    ag_ct : tr (st_rho_is_vec (sv_settings s)) = true -> w_constr_type (sv_work s') = w_constr_type (sv_work s);
    ag_ri : tr (st_rho_is_vec (sv_settings s)) = false -> w_rho_inv (sv_work s') = w_rho_inv (sv_work s);
    ag_sc : tr (st_scaling (sv_settings s)) = true -> w_scaling (sv_work s') = w_scaling (sv_work s);
    ag_x : w_x (sv_work s') = w_x (sv_work s); ag_y : w_y (sv_work s') = w_y (sv_work s); ag_z : w_z (sv_work s') = w_z (sv_work s);
    ag_v : i_status_val (sv_info s') = i_status_val (sv_info s);
    ag_U : i_rho_updates (sv_info s') = i_rho_updates (sv_info s);
    ag_k : st_adaptive_rho (sv_settings s) = ADAPTIVE_RHO_KKT_ERROR -> w_last_rel_kkt (sv_work s') = w_last_rel_kkt (sv_work s);
    ag_n : sv_solution s = None <-> sv_solution s' = None;
    ag_so : forall o, sv_solution s = Some o -> solex (w_data (sv_work s)) o;
    ag_so' : forall o, sv_solution s' = Some o -> solex (w_data (sv_work s')) o;
    ag_lf : option_map lf (w_linsys (sv_work s')) = option_map lf (w_linsys (sv_work s));
    ag_ex : forall ls, w_linsys (sv_work s) = Some ls -> exactly ls }.

  Lemma agree_te s s' : agree s s' -> Inv s -> Inv s' -> 0 < d_m (w_data (sv_work s)) -> signs (st_rho (sv_settings s)) -> te False False True False False s s'.
  Proof.
    intros [] HI HI' HM HN. pose proof (iv_w _ HI) as W. pose proof (iv_w _ HI') as W'. rewrite ag_st0 in W'.
    pose proof (wo_rho _ _ W) as RO. pose proof (wo_rho _ _ W') as RO'. unfold rho_ok in RO, RO'.
    destruct (wo_ls _ _ W) as (ls & r & El & O & RR & LR). destruct (wo_ls _ _ W') as (ls' & r' & El' & _ & _ & _).
    assert (EL : lf ls' = lf ls). { rewrite El, El' in ag_lf0. exact (f_equal (fun o => match o with Some v => v | None => lf ls end) ag_lf0). }
    assert (SI : forall j, 0 <= j < d_m (w_data (sv_work s)) -> nsub n0 (rinv ls j) = nopp (rinv ls j)).
    { intros j Hj. unfold rinv, ls_rho in *. destruct (tr (st_rho_is_vec (sv_settings s))).
      - destruct LR as (ct & Ec & ->). destruct RO as (ct1 & Ec1 & Lc & _). rewrite Ec in Ec1. injection Ec1 as <-.
        rewrite (znth_map _ 0) by lia. apply HN.
      - destruct LR as (-> & ->). specialize (HN 0). exact HN. }
    constructor; auto; try tauto.
    - constructor; auto; try tauto; try lia. constructor; auto; rewrite ?ag_st0.
      + exists ls, ls'. split; auto. split; auto. eapply lsim_det; [exact W|exact W'|exact El|exact El'|exact EL|apply ag_ex0; auto|auto|auto|exact SI].
      + destruct (tr (st_rho_is_vec (sv_settings s))); [|congruence]. destruct RO as (ct & C1 & _ & C2 & _), RO' as (ct' & C1' & _ & C2' & _). rewrite ag_ct0 in C1' by auto. congruence.
      + intros Hv. rewrite Hv in *. destruct RO as (ct & C1 & _ & _ & C2), RO' as (ct' & C1' & _ & _ & C2'). rewrite ag_ct0 in C1' by auto. congruence.
    - destruct (iv_stat _ HI) as (_ & S1), (iv_stat _ HI') as (_ & S1'). constructor; auto; try tauto. congruence.
  Qed.

  (** ** The calls that give a solver new data *)
  Definition new_data (P A : csc K) (q l u : list K) (rho : K) : list (call K) :=
    [CUpdMat (Some (cx P)) None 0 (Some (cx A)) None 0; CUpdVec (Some q) (Some l) (Some u); CUpdRho rho; CCold].

  Lemma values_all (M M' N B : csc K) jz jx nz : wf M -> wf M' -> same_pat B M -> alike N M' -> wf N -> csc_copy jz jx N = Some B -> zget (cp M) (cn M) = Some nz ->
    forall N', csc_update_values M (cx M') None nz = Some N' -> csc_copy jz jx M' = Some N'.
  Proof.
    intros W W' (HP & HL) HA WN HC Hz N' HU. destruct (csc_copy_spec N jz jx n0 WN) as (B1 & EB & B2 & B3 & B4 & B5 & B6 & B7 & B8 & B9 & B10). rewrite HC in EB. injection EB as <-.
    destruct (csc_copy_spec M' jz jx n0 W') as (C & EC & C1 & C2 & C3 & C4 & C5 & C6 & C7 & C8 & C9). rewrite EC. f_equal.
    pose proof (copy_qp jz jx jx N M' B C WN W' HA HC EC) as HQ. apply qp_eq in HQ as (Q1 & Q2 & Q3 & Q4). pose proof HA as (A1 & A2 & A3 & A4). pose proof (wf_n _ WN).
    assert (EN : nnz M' = nnz N) by (unfold nnz; rewrite A2; apply A3; lia).
    assert (NB : nnz B = nnz N) by (unfold nnz; rewrite B3; apply B9; lia).
    rewrite (zget_nnz M W) in Hz. injection Hz as <-. assert (NM : nnz M = nnz N) by (rewrite HP; exact NB).
    pose proof (nnz_nonneg _ WN). pose proof (wf_xlen _ W').
    destruct (csc_update_values_all M n0 (cx M') (nnz M)) as (N1 & EU & D1 & D2 & D3 & D4 & D5 & D6 & D7 & D8); [lia|lia|apply wf_xlen; auto|].
    rewrite HU in EU. injection EU as <-.
    assert (F : cm M = cm B /\ cn M = cn B /\ cp M = cp B /\ ci M = ci B /\ cnzmax M = cnzmax B /\ cnz M = cnz B) by (rewrite HP; cbn; auto 10). destruct F as (F1 & F2 & F3 & F4 & F5 & F6).
    assert (EX : cx C = cx N').
    { apply (list_ext_znth n0); [lia|]. intros i Hi. rewrite (proj2 (C9 i ltac:(lia))), D8. replace ((0 <=? i) && (i <? nnz M)) with true by lia. auto. }
    destruct C, N'. cbn in *. f_equal; try congruence; lia.
  Qed.

  Lemma update_rho_sync (s : solver K) rho : post (update_rho E s rho) (fun r => fst r <> 1 \/ nleb rho n0 = false -> tr (st_rho_is_vec (sv_settings s)) = false -> w_rho_inv (sv_work (snd r)) = ndiv n1 (st_rho (sv_settings (snd r)))).
  Proof.
    unfold update_rho. destruct (nleb rho n0); [apply post_ret; cbn [fst]; intros [H|H]; congruence|]. set (b := _ && _).
    change (if b then _ else s) with (forget b s). assert (H0 : sv_settings (forget b s) = sv_settings s) by (destruct b; reflexivity). set (s1 := forget b s) in *. clearbody s1 b. rs. rewrite H0.
    apply post_bindP with (P := fun w => tr (st_rho_is_vec (sv_settings s)) = false -> w_rho_inv w = ndiv n1 (c_min (c_max rho (OSQP_RHO_MIN K)) (OSQP_RHO_MAX K))).
    { destruct (tr (st_rho_is_vec (sv_settings s))) eqn:Ev; [intros w _; congruence|]. apply post_ret. intros _. reflexivity. }
    intros w Hw. apply post_bind. intros ls _. apply post_bind. intros [fl ls'] _. apply post_ret. cbn [fst snd]. intros _ Hv.
    destruct (_ =? 0); unfold toc; rs; auto.
  Qed.

  Lemma update_vec_count (s : solver K) q l u : post (update_data_vec E s q l u) (fun r => fst r <> OSQP_DATA_VALIDATION_ERROR -> i_rho_updates (sv_info (snd r)) = 0).
  Proof.
    unfold update_data_vec. set (s0 := begin_update s). clearbody s0. cbv zeta.
    apply post_bindP with (P := fun r => snd r = true -> fst (fst r) = OSQP_DATA_VALIDATION_ERROR).
    { destruct l, u; try (apply post_ret; cbn; discriminate); apply post_bind; intros ? _; apply post_bind; intros ? _; apply post_bind; intros [|] _; cbn [negb];
        try (apply post_ret; auto); (destruct (tr _); [apply post_bind; intros [? ?] _; apply post_ret; cbn; discriminate|apply post_ret; cbn; discriminate]). }
    intros [[fl s1] [|]] H; cbn [fst snd] in H; [apply post_ret; cbn [fst]; intros HH; exfalso; auto|].
    apply post_bind. intros s2 _. unfold end_update, reset_info, update_status. apply post_bindP with (P := fun s3 => i_rho_updates (sv_info s3) = 0); [|intros s3 H3; apply post_ret; auto].
    apply post_bindP with (P := fun i => i_rho_updates i = 0); [apply post_bind; intros ? _; apply post_ret; rs; auto|]. intros i Hi. unfold toc. apply post_ret. rs. exact Hi.
  Qed.

  Lemma bounds_det ct0 ct0' (l u : list K) tol inf ct ct' ch ch' : vf_ew_bounds_type ct0 l u tol inf = Some (ct, ch) -> vf_ew_bounds_type ct0' l u tol inf = Some (ct', ch') -> ct' = ct.
  Proof.
    unfold vf_ew_bounds_type, v2. destruct (_ && _); [|discriminate]. destruct (_ && _); [|discriminate]. intros H1 H2. injection H1 as <- _. injection H2 as <- _. reflexivity.
  Qed.

  Lemma zeros_of (a : list K) k : zlen a = k -> map (fun _ => n0) a = zrep k (@n0 K).
  Proof. intros H. exact (set_scalar_zrep a k n0 H). Qed.

  (** The data of a fresh solver without scaling. *)
  Lemma fresh_plain (e : Env K) P q A l u m n ust (s : solver K) : fresh_data e (Some P) q (Some A) l u m n ust s -> tr (st_scaling ust) = false ->
    exists P1 q1 A1 l1 u1, csc_copy (env_jz e) (env_jx e) P = Some P1 /\ csc_copy (env_jz e) (env_jx e) A = Some A1 /\ vf_new q n = Some q1 /\ vf_new l m = Some l1 /\ vf_new u m = Some u1 /\
      w_data (sv_work s) = mkdata n m P1 A1 q1 l1 u1.
  Proof.
    intros (P0 & A0 & P1 & q1 & A1 & l1 & u1 & w1 & [= <-] & [= <-] & C1 & C2 & C3 & C4 & C5 & C6 & C7 & _) Hs. rewrite Hs in C6. injection C6 as <-.
    exists P1, q1, A1, l1, u1. rewrite C7. auto 10.
  Qed.

  Lemma reach_lk s0 s : reach E s0 s -> lk (sv_work s0) (sv_work s).
  Proof. intros R. induction R as [|s c fl s' R IH HA HC]; [apply lk_refl|]. eapply lk_trans; [exact IH|]. exact (run_lk E c s fl s' HC). Qed.
  Lemma reach_sl s0 s : reach E s0 s -> sl s0 s.
  Proof. intros R. induction R as [|s c fl s' R IH HA HC]; [apply sl_refl|]. eapply sl_trans; [exact IH|]. exact (run_sl E c s fl s' EO HC). Qed.

  Lemma z01 : 0 <> 1. Proof. discriminate. Qed.
  Lemma z0e : 0 <> OSQP_DATA_VALIDATION_ERROR. Proof. discriminate. Qed.

  (** What the four calls leave behind, without scaling. *)
  Lemma new_data_state (P P' A A' : csc K) q l u m n ust (s t : solver K) q' l' u' rho :
    lives E P A q l u m n ust s -> wf P' -> wf A' -> alike P P' -> alike A A' -> n <= zlen q' -> m <= zlen l' -> m <= zlen u' -> tr (st_scaling ust) = false ->
    calls E (new_data P' A' q' l' u' rho) s = Some ([0; 0; 0; 0], t) ->
    lives E P A q l u m n ust t /\
    (exists P1 A1 q1 l1 u1, csc_copy (env_jz E) (env_jx E) P' = Some P1 /\ csc_copy (env_jz E) (env_jx E) A' = Some A1 /\ vf_new (Some q') n = Some q1 /\ vf_new (Some l') m = Some l1 /\ vf_new (Some u') m = Some u1 /\
      w_data (sv_work t) = mkdata n m P1 A1 q1 l1 u1) /\
    ctsync t /\ (tr (st_rho_is_vec (sv_settings t)) = false -> w_rho_inv (sv_work t) = ndiv n1 (st_rho (sv_settings t))) /\
    w_x (sv_work t) = zrep n n0 /\ w_z (sv_work t) = zrep m n0 /\ w_y (sv_work t) = zrep m n0 /\
    i_status_val (sv_info t) = OSQP_UNSOLVED /\ i_rho_updates (sv_info t) = 0.
  Proof.
    intros L WP' WA' AP AA Lq Ll Lu Hsc HC. pose proof L as [g s0 g' HDR HS RC]. destruct (setup_result_of MM E EO _ _ _ _ _ _ _ _ _ _ _ HDR HS) as (HI0 & Hn0 & Hm0 & HF & _ & _).
    destruct (fresh_plain E _ _ _ _ _ _ _ _ _ (fs_data _ _ _ _ _ _ _ _ _ _ HF) Hsc) as (P1 & q1 & A1 & l1 & u1 & CP & CA & Cq & Cl & Cu & D0).
    destruct (reach_inv E EO MM s0 s HI0 RC) as (HI & FR & _). pose proof (wo_d _ _ (iv_w _ HI)) as DK.
    assert (S0 : st_scaling (sv_settings s0) = st_scaling ust).
    { rewrite (fs_settings _ _ _ _ _ _ _ _ _ _ HF). unfold setup_adaptive_rho. repeat match goal with |- context [if ?b then _ else _] => destruct b end; destruct ust; reflexivity. }
    unfold new_data in HC. cbn [calls] in HC.
    destruct (run E (CUpdMat _ _ _ _ _ _) s) as [[f1 [| |s1]]|] eqn:R1; try discriminate HC. destruct (run E (CUpdVec _ _ _) s1) as [[f2 [| |s2]]|] eqn:R2; try discriminate HC.
    destruct (run E (CUpdRho rho) s2) as [[f3 [| |s3]]|] eqn:R3; try discriminate HC. destruct (run E CCold s3) as [[f4 [| |s4]]|] eqn:R4; try discriminate HC. injection HC as -> -> -> -> ->.
    (* the arguments fit *)
    pose proof (fr_P _ _ FR) as SP. pose proof (fr_A _ _ FR) as SA. rewrite D0 in SP, SA. cbn [d_P d_A] in SP, SA.
    pose proof (dr_P _ _ _ _ _ _ _ HDR P eq_refl) as WP. pose proof (dr_A _ _ _ _ _ _ _ HDR A eq_refl) as WA.
    assert (NP : nnz (d_P (w_data (sv_work s))) <= zlen (cx P')).
    { rewrite (same_pat_nnz _ _ SP). destruct (csc_copy_spec P (env_jz E) (env_jx E) n0 WP) as (B & EB & B2 & B3 & _ & _ & _ & _ & _ & B9 & _). rewrite CP in EB. injection EB as <-.
      pose proof AP as (X1 & X2 & X3 & _). pose proof (wf_n _ WP). pose proof (wf_xlen _ WP') as WX. unfold nnz in *. rewrite B3, B9 by lia. rewrite <- X3 by lia. rewrite X2 in WX. exact WX. }
    assert (NA : nnz (d_A (w_data (sv_work s))) <= zlen (cx A')).
    { rewrite (same_pat_nnz _ _ SA). destruct (csc_copy_spec A (env_jz E) (env_jx E) n0 WA) as (B & EB & B2 & B3 & _ & _ & _ & _ & _ & B9 & _). rewrite CA in EB. injection EB as <-.
      pose proof AA as (X1 & X2 & X3 & _). pose proof (wf_n _ WA). pose proof (wf_xlen _ WA') as WX. unfold nnz in *. rewrite B3, B9 by lia. rewrite <- X3 by lia. rewrite X2 in WX. exact WX. }
    assert (AR1 : args_ok (CUpdMat (Some (cx P')) None 0 (Some (cx A')) None 0) s).
    { cbn. unfold mat_arg. cbn. repeat split; intros; try discriminate; match goal with X : Some _ = Some _ |- _ => injection X as <- end; auto. }
    pose proof (fr_n _ _ FR) as Fn. pose proof (fr_m _ _ FR) as Fm. rewrite D0 in Fn, Fm. cbn [d_n d_m] in Fn, Fm.
    assert (RC1 : reach E s0 s1) by (econstructor 2; eauto). destruct (reach_inv E EO MM s0 s1 HI0 RC1) as (HI1 & FR1 & _).
    pose proof (fr_n _ _ FR1) as Fn1. pose proof (fr_m _ _ FR1) as Fm1. rewrite D0 in Fn1, Fm1. cbn [d_n d_m] in Fn1, Fm1.
    assert (AR2 : args_ok (CUpdVec (Some q') (Some l') (Some u')) s1). { cbn. rewrite Fn1, Fm1. unfold vec_arg. repeat split; intros v [= <-]; lia. }
    assert (RC2 : reach E s0 s2) by (econstructor 2; [exact RC1|exact AR2|exact R2]).
    assert (RC3 : reach E s0 s3) by (econstructor 2; [exact RC2| |exact R3]; exact I).
    assert (RC4 : reach E s0 t) by (econstructor 2; [exact RC3| |exact R4]; exact I).
    destruct (reach_inv E EO MM s0 s3 HI0 RC3) as (HI3 & FR3 & _).
    (* the matrices *)
    cbn [run] in R1. unfold osqp_update_data_mat, on_solver in R1. destruct (update_data_mat E s _ _ _ _ _ _) as [[f1 s1']|] eqn:U1; [|discriminate]. injection R1 as -> ->.
    destruct (update_data_mat_shape E s _ _ _ _ _ _ _ U1) as (nP & nA & ZP & ZA & [([(_ & X)|(_ & _ & X)] & _)|(_ & _ & t1 & c1 & w1 & P2 & A2 & w4 & ls & ls' & i & gg & M1 & M2 & M3 & M4 & M5 & M6 & M7 & _)]); [discriminate X|discriminate X|].
    cbn [fst snd] in *. rewrite (fr_sc _ _ FR), S0, Hsc in M1, M4. subst w1. rs_in M2. rs_in M3. cbn [Z.eqb] in M2, M3.
    pose proof (values_all _ _ _ _ _ _ _ (do_P _ DK) WP' SP AP WP CP ZP _ M2) as EP. pose proof (values_all _ _ _ _ _ _ _ (do_A _ DK) WA' SA AA WA CA ZA _ M3) as EA.
    assert (D1 : w_data (sv_work s1) = set_d_A A2 (set_d_P P2 (w_data (sv_work s)))). { rewrite M7, M4. rs. reflexivity. }
    (* the vectors *)
    cbn [run] in R2. unfold osqp_update_data_vec, on_solver in R2. destruct (update_data_vec E s1 _ _ _) as [[f2 s2']|] eqn:U2; [|discriminate]. injection R2 as -> ->.
    pose proof (update_vec_count s1 _ _ _ _ U2) as CN. cbn [fst snd] in CN. specialize (CN z0e).
    destruct (update_data_vec_shape E s1 _ _ _ _ U2) as (lt & ut & okb & VS). destruct okb.
    2:{ destruct (vs_rej _ _ _ _ _ _ _ _ VS eq_refl) as (X & _). discriminate X. }
    destruct (vs_acc _ _ _ _ _ _ _ _ VS eq_refl) as (q2 & Q1 & D2 & _ & _ & _ & _ & _ & _ & _ & ST & CT & _). cbn [fst snd pick given orb] in *. specialize (CT eq_refl).
    pose proof (vs_l _ _ _ _ _ _ _ _ VS) as VL. pose proof (vs_u _ _ _ _ _ _ _ _ VS) as VU. unfold load_bound in VL, VU.
    rewrite (fr_sc _ _ FR1), S0, Hsc in VL, VU, Q1. destruct Q1 as (q3 & Q1 & ->).
    assert (VL' : view l' 0 m = Some lt). { destruct (vf_from_raw (w_z_prev (sv_work s1)) l') as [x|] eqn:EX; [|discriminate VL]. injection VL as <-. unfold vf_from_raw in EX. rewrite (ln_zp _ _ _ _ (wo_len _ _ (iv_w _ HI1))), Fm1 in EX. exact EX. }
    assert (VU' : view u' 0 m = Some ut). { destruct (vf_from_raw (w_delta_y (sv_work s1)) u') as [x|] eqn:EX; [|discriminate VU]. injection VU as <-. unfold vf_from_raw in EX. rewrite (ln_dy _ _ _ _ (wo_len _ _ (iv_w _ HI1))), Fm1 in EX. exact EX. }
    unfold vf_from_raw in Q1. rewrite (do_q _ (wo_d _ _ (iv_w _ HI1))), Fn1 in Q1.
    (* rho *)
    cbn [run] in R3. unfold osqp_update_rho, on_solver in R3. destruct (update_rho E s2 rho) as [[f3 s3']|] eqn:U3; [|discriminate]. injection R3 as -> ->.
    pose proof (update_rho_sync s2 rho _ U3) as SY. cbn [fst snd] in SY. specialize (SY (or_introl z01)).
    destruct (update_rho_post E s2 rho _ U3) as (SF & _ & _ & _ & _ & _ & _ & _ & (ti & EI) & (rr & ES3) & _). cbn [snd] in *.
    (* cold start *)
    cbn [run] in R4. unfold osqp_cold_start in R4. destruct (cold_start (sv_work s3)) as [w5|] eqn:U4; [|discriminate]. injection R4 as <-. pose proof (cold_start_post _ _ U4) as CW.
    pose proof (fr_n _ _ FR3) as Fn3. pose proof (fr_m _ _ FR3) as Fm3. rewrite D0 in Fn3, Fm3. cbn [d_n d_m] in Fn3, Fm3. pose proof (wo_len _ _ (iv_w _ HI3)) as LN.
    assert (DT : w_data w5 = w_data (sv_work s2)). { rewrite CW. rs. apply (sf_d _ _ SF). }
    rs. split; [econstructor; eauto|]. split; [exists P2, A2, q3, lt, ut; repeat (split; [assumption|]); rewrite DT, D2, D1, <- Fn, <- Fm; destruct (w_data (sv_work s)); reflexivity|].
    split.
    { unfold ctsync in *. rs. rewrite DT, CW. rs. rewrite (sf_ct _ _ SF). intros Hv. apply CT. rewrite ES3 in Hv. exact Hv. }
    split. { intros Hv. rewrite CW. rs. apply SY. rewrite ES3 in Hv. exact Hv. }
    split; [rewrite CW; rs; apply zeros_of; rewrite (ln_x _ _ _ _ LN); auto|]. split; [rewrite CW; rs; apply zeros_of; rewrite (ln_z _ _ _ _ LN); auto|]. split; [rewrite CW; rs; apply zeros_of; rewrite (ln_y _ _ _ _ LN); auto|].
    rewrite EI. rs. auto.
  Qed.

  (** ** The solve that follows *)
  (** What a solve reports, without the times, the integral of the gap and the status of polishing. *)
  Definition results (s : solver K) :=
    (sv_settings s, (i_status (sv_info s), i_status_val (sv_info s)),
     (i_obj_val (sv_info s), i_dual_obj_val (sv_info s), i_duality_gap (sv_info s), i_prim_res (sv_info s), i_dual_res (sv_info s)),
     (i_iter (sv_info s), i_rho_updates (sv_info s), i_rel_kkt_error (sv_info s))).
  (** The same solution; certificates too unless the problem was found not to be convex. *)
  Definition same_solution (s s' : solver K) : Prop :=
    match sv_solution s, sv_solution s' with
    | None, None => True
    | Some o, Some o' => so_x o' = so_x o /\ so_y o' = so_y o /\
        (i_status_val (sv_info s) <> OSQP_NON_CVX -> so_prim_inf_cert o' = so_prim_inf_cert o /\ so_dual_inf_cert o' = so_dual_inf_cert o)
    | _, _ => False
    end.
  Definition same_outcome (fl : Z) (s s' : solver K) : Prop :=
    results s' = results s /\
    (fl <= 0 -> i_rho_estimate (sv_info s') = i_rho_estimate (sv_info s) /\ same_solution s s' /\
       (tr (st_polishing (sv_settings s)) = true -> i_status_val (sv_info s) = OSQP_SOLVED -> i_status_polish (sv_info s') = i_status_polish (sv_info s))).

  Lemma te_results (s s' : solver K) d : te False False True True d s s' -> results s' = results s.
  Proof.
    intros [Est _ [] _ _ _ _]. unfold results. destruct (ti_o I) as (-> & -> & ->). destruct (ti_r I) as (-> & ->). rewrite Est, ti_s, ti_v, (ti_it I), (ti_U I), (ti_k I). reflexivity.
  Qed.

  Lemma agree_solve (s s' : solver K) : agree s s' -> Inv s -> Inv s' -> 0 < d_m (w_data (sv_work s)) -> signs (st_rho (sv_settings s)) ->
    unhurried E s -> unhurried E' s' -> 1 <= st_max_iter (sv_settings s) ->
    exists fl t t', run E CSolve s = Some (fl, HSolver t) /\ run E' CSolve s' = Some (fl, HSolver t') /\ same_outcome fl t t'.
  Proof.
    intros AG HI HI' HM HN (Q & U1 & U2) (Q' & U1' & _) Hmx. pose proof (agree_te s s' AG HI HI' HM HN) as T.
    destruct (solve_twin E E' ES EO EO' NZ False False True MM s s' T HI HI') as ([fl t] & [fl' t'] & Er & Er' & SR); auto.
    { split; auto. } { split; auto. }
    destruct SR as [SF ST SP SS SK]. cbn [fst snd] in *. subst fl'. exists fl, t, t'. cbn [run]. unfold osqp_solve, on_solver. rewrite Er, Er'. cbn [fst snd]. split; auto. split; auto.
    split. { destruct ST as [ST|(_ & ST)]; eapply te_results; exact ST. }
    intros Hf. split; [|split].
    - destruct ST as [ST|(X & _)]; [|exfalso; lia]. exact (ti_e _ _ _ _ _ _ _ (te_i _ _ _ _ _ _ _ ST) I).
    - specialize (SS Hf). unfold solr, same_solution, nc in *. destruct (sv_solution t) as [o|], (sv_solution t') as [o'|]; auto. destruct SS as (S1 & S2 & S3). auto.
    - intros H1 H2. apply SP; auto. split; auto.
  Qed.

  Theorem reset_solve (P P' A A' : csc K) q l u m n ust (s t : solver K) q' l' u' rho ust' g s' g' :
    lives E P A q l u m n ust s -> alike P P' -> alike A A' -> data_readable (Some P') (Some q') (Some A') (Some l') (Some u') m n ->
    osqp_setup E' g (Some P') (Some q') (Some A') (Some l') (Some u') m n (Some ust') = Some (0, Some s', g') ->
    calls E (new_data P' A' q' l' u' rho) s = Some ([0; 0; 0; 0], t) -> sv_settings t = sv_settings s' ->
    0 < m -> tr (st_scaling ust) = false -> tr (st_allocate_solution ust) = tr (st_allocate_solution ust') -> st_adaptive_rho ust' <> ADAPTIVE_RHO_KKT_ERROR ->
    (tr (st_rho_is_vec ust') = false -> clamp (st_rho ust') = st_rho ust') -> signs (st_rho (sv_settings t)) ->
    unhurried E t -> unhurried E' s' ->
    exists fl t1 t1', run E CSolve t = Some (fl, HSolver t1) /\ run E' CSolve s' = Some (fl, HSolver t1') /\ same_outcome fl t1 t1'.
  Proof.
    intros L AP AA HR' HS' HC EST HM Hsc Hal Hk Hcl HN HU HU'.
    pose proof (dr_P _ _ _ _ _ _ _ HR' P' eq_refl) as WP'. pose proof (dr_A _ _ _ _ _ _ _ HR' A' eq_refl) as WA'.
    destruct (new_data_state P P' A A' q l u m n ust s t q' l' u' rho) as (L2 & (P1 & A1 & q1 & l1 & u1 & C1 & C2 & C3 & C4 & C5 & DT) & CT & SY & X1 & X2 & X3 & V1 & V2); auto.
    { exact (dr_q _ _ _ _ _ _ _ HR' _ eq_refl). } { exact (dr_l0 _ _ _ _ _ _ _ HR' _ eq_refl). } { exact (dr_u0 _ _ _ _ _ _ _ HR' _ eq_refl). }
    destruct (setup_result_of MM E' EO' _ _ _ _ _ _ _ _ _ _ _ HR' HS') as (HI' & Hn' & Hm' & HF' & _).
    destruct (lives_facts E EO MM _ _ _ _ _ _ _ _ _ L2) as (HI & _ & Hmx & Hm & Hn).
    pose proof L2 as [g0 s0 g1 HR HS RC]. destruct (setup_result_of MM E EO _ _ _ _ _ _ _ _ _ _ _ HR HS) as (HI0 & Hn0 & Hm0 & HF & _).
    assert (KEEP : forall (st : settings K), st_scaling (setup_adaptive_rho st) = st_scaling st /\ st_rho_is_vec (setup_adaptive_rho st) = st_rho_is_vec st /\ st_adaptive_rho (setup_adaptive_rho st) = st_adaptive_rho st /\ st_rho (setup_adaptive_rho st) = st_rho st).
    { intros st. unfold setup_adaptive_rho. repeat match goal with |- context [if ?b then _ else _] => destruct b end; destruct st; cbn; auto. }
    pose proof (fs_settings _ _ _ _ _ _ _ _ _ _ HF') as F1. pose proof (fs_settings _ _ _ _ _ _ _ _ _ _ HF) as F0.
    destruct (KEEP (set_st_rho (clamp (st_rho ust')) (copy_settings ust'))) as (K1 & K2 & K3 & K4). rewrite <- F1 in K1, K2, K3, K4.
    destruct (KEEP (set_st_rho (clamp (st_rho ust)) (copy_settings ust))) as (J1 & J2 & J3 & J4). rewrite <- F0 in J1, J2, J3, J4. clear KEEP.
    destruct (reach_inv E EO MM s0 t HI0 RC) as (_ & FR & _).
    assert (Hsc' : tr (st_scaling ust') = false).
    { replace (st_scaling ust') with (st_scaling (sv_settings s')) by (rewrite K1; destruct ust'; reflexivity). rewrite <- EST, (fr_sc _ _ FR), J1. destruct ust; exact Hsc. }
    destruct (fresh_plain E' _ _ _ _ _ _ _ _ _ (fs_data _ _ _ _ _ _ _ _ _ _ HF') Hsc') as (P2 & q2 & A2 & l2 & u2 & G1 & G2 & G3 & G4 & G5 & DS).
    rewrite (es_jz _ _ ES), (es_jx _ _ ES) in G1, G2. rewrite G1 in C1. rewrite G2 in C2. rewrite G3 in C3. rewrite G4 in C4. rewrite G5 in C5.
    assert (ED : w_data (sv_work s') = w_data (sv_work t)) by (rewrite DS, DT; congruence).
    (* the solutions *)
    assert (ZN : 0 <= n /\ 0 <= m) by (pose proof (wo_d _ _ (iv_w _ HI')) as []; split; lia). destruct ZN as (ZN & ZM).
    assert (SX' : forall o, sv_solution s' = Some o -> solex (w_data (sv_work s')) o).
    { intros o Ho. pose proof (setup_sol E' _ _ _ _ _ _ _ _ _ _ _ _ _ HS' Ho) as ->. unfold solex. cbn [so_x so_y so_prim_inf_cert so_dual_inf_cert]. rewrite !zlen_zrep; auto. }
    pose proof (reach_sl s0 t RC) as SL. unfold sl in SL.
    assert (SX : forall o, sv_solution t = Some o -> solex (w_data (sv_work t)) o).
    { intros o Ho. rewrite Ho in SL. destruct (sv_solution s0) as [o0|] eqn:E0; [|discriminate SL]. pose proof (setup_sol E _ _ _ _ _ _ _ _ _ _ _ _ _ HS E0) as ->.
      cbn [option_map] in SL. injection SL as S1 S2 S3 S4. cbn in S1, S2, S3, S4. rewrite zlen_zrep in * by auto. unfold solex. rewrite Hn, Hm. auto. }
    assert (NN : sv_solution t = None <-> sv_solution s' = None).
    { rewrite (fs_sol _ _ _ _ _ _ _ _ _ _ HF'), <- Hal, <- (fs_sol _ _ _ _ _ _ _ _ _ _ HF). destruct (sv_solution t), (sv_solution s0); try discriminate SL; split; congruence. }
    (* the factorisation *)
    destruct (wo_ls _ _ (iv_w _ HI0)) as (ls0 & r0 & El0 & _). destruct (wo_ls _ _ (iv_w _ HI')) as (ls' & r' & El' & _). destruct (wo_ls _ _ (iv_w _ HI)) as (lst & rt & Elt & _).
    pose proof (reach_lk s0 t RC) as LK. unfold lk in LK. rewrite El0, Elt in LK. assert (LK1 : lf lst = lf ls0) by exact (f_equal (fun o => match o with Some v => v | None => lf lst end) LK). clear LK.
    destruct (setup_calls E _ _ _ _ _ _ _ _ _ _ _ _ HS El0) as (Pa & Aa & Pb & Ab & rv & st & fl & l0 & T1 & T2 & T3 & T4 & T5 & T6).
    destruct (setup_calls E' _ _ _ _ _ _ _ _ _ _ _ _ HS' El') as (Pc & Ac & Pd & Ad & rv' & st' & fl' & l0' & T1' & T2' & T3' & T4' & T5' & T6').
    rewrite (es_jz _ _ ES) in T1', T2'.
    pose proof (copy_qp _ _ _ _ _ _ _ (dr_P _ _ _ _ _ _ _ HR P eq_refl) WP' AP T1 T1') as YP. pose proof (copy_qp _ _ _ _ _ _ _ (dr_A _ _ _ _ _ _ _ HR A eq_refl) WA' AA T2 T2') as YA.
    pose proof (init2 E E' ES Pb Pd Ab Ad rv rv' st st' ltac:(congruence) ltac:(congruence) _ _ T5 T5' l0 l0' eq_refl eq_refl) as YL.
    apply agree_solve; auto; [|rewrite Hm; auto].
    constructor; auto.
    - intros Hv. rewrite EST in Hv. destruct (fs_types _ _ _ _ _ _ _ _ _ _ HF') as (c0 & c1 & ch & B1 & B2). { rewrite K2 in Hv. destruct ust'; exact Hv. }
      rewrite <- EST in Hv. destruct (CT Hv) as (c0' & c1' & ch' & B1' & B2'). rewrite B2, B2'. f_equal. rewrite ED in B1. exact (bounds_det _ _ _ _ _ _ _ _ _ _ B1' B1).
    - intros Hv. rewrite (SY Hv). rewrite EST in *. rewrite K4. assert (Hv' : tr (st_rho_is_vec ust') = false) by (rewrite K2 in Hv; destruct ust'; exact Hv).
      rewrite (fs_rho_inv _ _ _ _ _ _ _ _ _ _ HF' Hv'). rs. rewrite (Hcl Hv'). reflexivity.
    - intros Hv. exfalso. rewrite EST, K1 in Hv. replace (st_scaling _) with (st_scaling ust') in Hv by (destruct ust'; reflexivity). rewrite Hsc' in Hv. discriminate.
    - rewrite (fs_x _ _ _ _ _ _ _ _ _ _ HF'). auto.
    - rewrite (fs_y _ _ _ _ _ _ _ _ _ _ HF'). auto.
    - rewrite (fs_z _ _ _ _ _ _ _ _ _ _ HF'). auto.
    - rewrite (fs_status _ _ _ _ _ _ _ _ _ _ HF'). auto.
    - rewrite (fs_rupd _ _ _ _ _ _ _ _ _ _ HF'). auto.
    - intros Hv. exfalso. rewrite EST, K3 in Hv. apply Hk. rewrite <- Hv. destruct ust'; reflexivity.
    - rewrite Elt, El'. cbn [option_map]. f_equal. congruence.
    - intros ls Hls. rewrite Elt in Hls. injection Hls as <-. eapply exactly_lf; [exact LK1|]. eapply setup_exact; [exact HS|exact El0].
  Qed.
End Reuse.
