(** What a fresh solver holds, how the calls keep time, and what survives of properties that are false in general. *)
From Coq Require Import ZArith Reals String List Bool Lia Lra.
From Verif Require Import Num Arr ArrFacts RSum Csc CscSpec CscFacts CscFacts2 Scatter CscExamples Vec VecFacts Types Kkt KktSpec KktDense Linsys LinsysFacts LinsysSolve Scaling Validate Auxil Polish Api
  Inv RecSimp InvStep InvApi InvScale InvPolish InvSolve ValidFacts InvUpd InvSetup History RealVec RealStep Frame FrameSolve ProbSpec ScaleReal FrameUpd UserSpec Refine ExEnv Ldl LdlEnv Session ExReal DataFacts Obs DataClaims ApiClaims KktClaims
  SolveEnd TimeFacts Runs.
Import ListNotations.
Open Scope Z_scope.

(** ** Setup *)
Section Fresh.
  Context {K : NumOps}.
  Variable E : Env K.
  Hypothesis EO : env_ok E.
  Hypothesis MM : nltb (OSQP_RHO_MIN K) (OSQP_RHO_MAX K) = true.

  Lemma setup_fresh_any g P q A l u m n ust s g' : data_readable P q A l u m n -> osqp_setup E g P q A l u m n (Some ust) = Some (0, Some s, g') ->
    fresh E P q A l u m n ust s /\ settings_ok true ust.
  Proof.
    intros HDR HS. destruct (osqp_setup_safe E EO MM g P q A l u m n (Some ust) HDR) as (r & Er & HRes). rewrite HS in Er. injection Er as <-. cbn [fst snd] in HRes.
    inversion HRes as [| |? ? ? ? ? ? ? ? ? ? EE|s1 g1 HDO HV HI Dn Dm HF Hw HLF Hsec Hhan EE]; subst; try discriminate.
    apply validate_settings_spec in HV as (st' & [= <-] & HV). auto.
  Qed.

  (** The adaptation interval osqp_setup chooses. *)
  Definition chosen_interval (st : settings K) : Z :=
    if st_adaptive_rho_interval st =? 0 then
      if st_adaptive_rho st =? ADAPTIVE_RHO_ITERATIONS then (if st_check_termination st =? 0 then 100 else 4 * st_check_termination st)
      else if st_adaptive_rho st =? ADAPTIVE_RHO_KKT_ERROR then 1 else 0
    else st_adaptive_rho_interval st.

  Lemma set_interval_same (st : settings K) : set_st_adaptive_rho_interval (st_adaptive_rho_interval st) st = st.
  Proof. destruct st; reflexivity. Qed.
  Lemma chosen_eq r (ust : settings K) : setup_adaptive_rho (set_st_rho r (copy_settings ust)) = set_st_adaptive_rho_interval (chosen_interval ust) (set_st_rho r ust).
  Proof.
    assert (C : copy_settings ust = ust) by (destruct ust; reflexivity). rewrite C. clear C. assert (EC : chosen_interval ust = chosen_interval (set_st_rho r ust)) by reflexivity. rewrite EC. generalize (set_st_rho r ust). intros st.
    pose proof (set_interval_same st) as HI. unfold setup_adaptive_rho, chosen_interval, tr.
    destruct (st_adaptive_rho_interval st =? 0) eqn:E1, (st_adaptive_rho st =? ADAPTIVE_RHO_ITERATIONS), (st_adaptive_rho st =? ADAPTIVE_RHO_KKT_ERROR), (st_check_termination st =? 0); cbn [negb];
      rewrite ?HI; try reflexivity; apply Z.eqb_eq in E1; rewrite E1 in HI; symmetry; exact HI.
  Qed.

  Theorem setup_settings g P q A l u m n ust s g' : data_readable P q A l u m n -> osqp_setup E g P q A l u m n (Some ust) = Some (0, Some s, g') ->
    sv_settings s = set_st_adaptive_rho_interval (chosen_interval ust) (set_st_rho (c_min (c_max (st_rho ust) (OSQP_RHO_MIN K)) (OSQP_RHO_MAX K)) ust).
  Proof.
    intros HDR HS. destruct (setup_fresh_any _ _ _ _ _ _ _ _ _ _ _ HDR HS) as ([_ -> _ _ _ _ _ _ _ _ _ _ _ _] & _).
    apply chosen_eq.
  Qed.

  (** ** Time *)
  (** A sequence of calls on the solver, all returning 0, latest first. *)
  Inductive calls_ok (s0 : solver K) : list (call K) -> solver K -> Prop :=
  | co_0 : calls_ok s0 [] s0
  | co_S : forall log s c s', calls_ok s0 log s -> run E c s = Some (0, HSolver s') -> calls_ok s0 (c :: log) s'.

  Definition is_solve (c : call K) : bool := match c with CSolve => true | _ => false end.
  (** Updates since the last solve. *)
  Fixpoint pending (log : list (call K)) : nat :=
    match log with
    | [] | CSolve :: _ => 0
    | CUpdVec _ _ _ :: r | CUpdMat _ _ _ _ _ _ :: r | CUpdRho _ :: r => S (pending r)
    | _ :: r => pending r
    end.
  (** New data since the last solve, or no solve yet. *)
  Fixpoint new_data (log : list (call K)) : bool :=
    match log with
    | [] => true
    | CSolve :: _ => false
    | CUpdVec _ _ _ :: _ | CUpdMat _ _ _ _ _ _ :: _ => true
    | _ :: r => new_data r
    end.
  Definition total (ks : list nat) : K := fold_left (fun t k => nadd t (env_clock E k)) ks n0.
  Lemma total_snoc ks k : total (ks ++ [k]) = nadd (total ks) (env_clock E k).
  Proof. unfold total. rewrite fold_left_app. reflexivity. Qed.

  Record kept (s0 : solver K) (log : list (call K)) (s : solver K) : Prop := {
    kp_rest : rest s = (if existsb is_solve log then 0 else 1, 0, i_setup_time (sv_info s0));
    kp_spent : exists ks, length ks = pending log /\ spent s = total ks;
    kp_pol : new_data log = true -> i_polish_time (sv_info s) = n0;
    kp_status : new_data log = true -> i_status_val (sv_info s) = OSQP_UNSOLVED;
    kp_ct : 0 <= st_check_termination (sv_settings s) }.

  Lemma kept_start g P q A l u m n ust s g' : data_readable P q A l u m n -> osqp_setup E g P q A l u m n (Some ust) = Some (0, Some s, g') -> kept s [] s.
  Proof.
    intros HDR HS. pose proof (setup_settings _ _ _ _ _ _ _ _ _ _ _ HDR HS) as Est. destruct (setup_fresh_any _ _ _ _ _ _ _ _ _ _ _ HDR HS) as ([] & HV).
    constructor; auto.
    - unfold rest. rewrite fs_first, fs_rufs. reflexivity.
    - exists []. split; auto. unfold spent. rewrite fs_clear. cbn [Z.eqb]. exact fs_upd.
    - rewrite Est. rs. destruct ust. exact (vs_check _ _ HV).
  Qed.

  Lemma on_solver_inv (s s' : solver K) f fl : on_solver (HSolver s) f = Some (fl, HSolver s') -> f s = Some (fl, s').
  Proof. unfold on_solver. destruct (f s) as [[a b]|]; [|discriminate]. intros [= <- <-]. reflexivity. Qed.

  Lemma kept_step s0 log s c s' : kept s0 log s -> run E c s = Some (0, HSolver s') -> kept s0 (c :: log) s'.
  Proof.
    intros [K1 (ks & K2 & K3) K4 K5 K6] HC.
    assert (HU : forall c, updated E s s' -> match c with CUpdVec _ _ _ | CUpdMat _ _ _ _ _ _ | CUpdRho _ => True | _ => False end -> 
      (new_data (c :: log) = true -> i_polish_time (sv_info s') = n0 /\ i_status_val (sv_info s') = OSQP_UNSOLVED) -> 0 <= st_check_termination (sv_settings s') -> kept s0 (c :: log) s').
    { intros c0 [(k & U1) U2] Hc H1 H2. constructor; auto; try (intros H; apply H1; auto; fail).
      - rewrite U2, K1. destruct c0; try contradiction; reflexivity.
      - exists (ks ++ [k]). rewrite total_snoc, U1, K3, app_length, K2. destruct c0; try contradiction; cbn [pending length]; split; auto; lia. }
    assert (HQ : match c with CWarm _ _ | CCold | CUpdSettings _ | CGetSol _ => True | _ => False end -> 0 <= st_check_termination (sv_settings s') -> kept s0 (c :: log) s').
    { intros Hc H2. destruct (quiet_times E c s 0 s' Hc HC) as ((Q1 & Q2) & Q3). constructor; rewrite ?Q3; auto.
      - rewrite Q2, K1. destruct c; try contradiction; reflexivity.
      - exists ks. rewrite Q1. destruct c; try contradiction; auto.
      - intros H. apply K4. destruct c; try contradiction; auto.
      - intros H. apply K5. destruct c; try contradiction; auto. }
    assert (SS : forall st' r, st' = set_st_rho r (sv_settings s) -> st_check_termination st' = st_check_termination (sv_settings s)) by (intros st' r ->; destruct (sv_settings s); reflexivity).
    destruct c; cbn [run] in HC; try (apply HQ; auto; fail).
    - unfold osqp_solve, osqp_update_data_vec, osqp_update_data_mat, osqp_update_rho in HC. apply on_solver_inv in HC. destruct (solve_timed E s K6 _ HC) as (H1 & H2). cbn [fst snd] in *. destruct (H2 eq_refl) as [S1 S2 S3 S4 S5 S6]. unfold wflag in S6. injection S6 as Z1 Z2 Z3.
      constructor; try discriminate.
      + unfold rest in *. injection K1 as _ _ K1. rewrite Z1, Z3, S2, K1. reflexivity.
      + exists []. split; auto. unfold spent. rewrite Z2. reflexivity.
      + destruct H1 as (_ & -> & _). exact K6.
    - unfold osqp_solve, osqp_update_data_vec, osqp_update_data_mat, osqp_update_rho in HC. apply on_solver_inv in HC. pose proof (update_vec_times E s q l u _ HC) as H1. destruct (update_data_vec_shape E s q l u _ HC) as (lt & ut & okb & [_ _ _ V1 V2]). cbn [fst snd] in *.
      cbn [Z.eqb OSQP_DATA_VALIDATION_ERROR] in H1. destruct H1 as [H1 H2 H3 H4 H5 H6]. apply HU; auto.
      destruct okb; [|destruct (V1 eq_refl); discriminate]. destruct (V2 eq_refl) as (q' & _ & _ & _ & _ & _ & _ & _ & V3 & _). cbv zeta in V3. destruct (_ && _) in V3; [rewrite (SS _ _ V3)|rewrite V3]; exact K6.
    - unfold osqp_solve, osqp_update_data_vec, osqp_update_data_mat, osqp_update_rho in HC. apply on_solver_inv in HC. pose proof (update_mat_times E s Px Pidx Pn Ax Aidx An _ HC) as [H1|([H1|H1] & _)]; [|discriminate..].
      destruct (update_data_mat_shape E s Px Pidx Pn Ax Aidx An _ HC) as (nP & nA & _ & _ & [([(_ & X)|(_ & _ & X)] & _)|(_ & _ & t & c & w1 & P2 & A2 & w4 & ls & ls' & i & g & _ & _ & _ & _ & _ & _ & X & _)]); [discriminate..|].
      cbn [fst snd] in *. destruct H1 as [H1 H2 H3 H4 H5 H6]. apply HU; auto. rewrite X. exact K6.
    - unfold osqp_solve, osqp_update_data_vec, osqp_update_data_mat, osqp_update_rho in HC. apply on_solver_inv in HC. assert (HR : w_rho_update_from_solve (sv_work s) = 0) by (unfold rest in K1; congruence).
      pose proof (update_rho_times E s rho HR _ HC) as H1. destruct (update_rho_post E s rho _ HC) as (_ & _ & _ & _ & _ & _ & _ & _ & (t & X1) & (r & X2) & _). cbn [fst snd] in *.
      destruct H1 as [(H1 & H2)|(H1 & _)]; [|discriminate]. apply HU; [auto|exact I| |rewrite (SS _ _ X2); exact K6]. cbn [new_data]. intros HN. rewrite X1. rs. auto.
    - apply HQ; auto. unfold osqp_update_settings in HC. destruct (validate_settings new false) eqn:EV; [discriminate|]. apply validate_settings_spec in EV as (st & -> & HV).
      destruct (w_linsys (sv_work s)); [|discriminate]. injection HC as <-. exact (vs_check _ _ HV).
    - apply HQ; auto. unfold osqp_warm_start in HC. apply on_solver_inv in HC. assert (HW : sv_settings s' = sv_settings s \/ sv_settings s' = set_st_warm_starting 1 (sv_settings s)).
      { assert (HP : post (warm_start s x y) (fun r => sv_settings (snd r) = sv_settings s \/ sv_settings (snd r) = set_st_warm_starting 1 (sv_settings s))); [|exact (HP _ HC)].
        unfold warm_start. cbv zeta. set (s1 := if negb _ then _ else s). assert (H1 : sv_settings s1 = sv_settings s \/ sv_settings s1 = set_st_warm_starting 1 (sv_settings s)) by (subst s1; destruct (negb _); auto).
        clearbody s1. do 4 (apply post_bind; intros ? _). apply post_ret. exact H1. }
      destruct HW as [-> | ->]; [exact K6|]. destruct (sv_settings s); exact K6.
    - apply HQ; auto. unfold osqp_cold_start in HC. destruct (cold_start (sv_work s)); [|discriminate]. injection HC as <-. exact K6.
    - apply HQ; auto. unfold osqp_get_solution in HC. destruct sol as [o|]; [|discriminate].
      destruct (store_solution s (Some o)) as [[s1 o1]|] eqn:Er; [|discriminate]. injection HC as <-. destruct (store_solution_post s (Some o) _ Er) as (B1 & _). cbn [fst] in B1. rewrite B1. exact K6.
  Qed.

  Lemma kept_all g P q A l u m n ust s0 g' log s : data_readable P q A l u m n -> osqp_setup E g P q A l u m n (Some ust) = Some (0, Some s0, g') -> calls_ok s0 log s -> kept s0 log s.
  Proof. intros HDR HS HL. induction HL; [eapply kept_start; eauto|eapply kept_step; eauto]. Qed.

  (** The times a solve reports, after any sequence of calls. *)
  Theorem run_time_log g P q A l u m n ust s0 g' log s s' : data_readable P q A l u m n -> osqp_setup E g P q A l u m n (Some ust) = Some (0, Some s0, g') ->
    calls_ok s0 log s -> run E CSolve s = Some (0, HSolver s') ->
    exists ks ksol, length ks = pending log /\ i_solve_time (sv_info s') = env_clock E ksol /\ i_setup_time (sv_info s') = i_setup_time (sv_info s0) /\ i_update_time (sv_info s') = total ks /\
      i_run_time (sv_info s') = nadd (nadd (if existsb is_solve log then total ks else i_setup_time (sv_info s0)) (i_solve_time (sv_info s'))) (i_polish_time (sv_info s')) /\
      (i_polish_time (sv_info s') = i_polish_time (sv_info s) \/
        tr (st_polishing (sv_settings s)) = true /\ i_status_val (sv_info s') = OSQP_SOLVED /\ exists k, i_polish_time (sv_info s') = env_clock E k) /\
      (new_data log = true -> i_polish_time (sv_info s) = n0).
  Proof.
    intros HDR HS HL HC. destruct (kept_all _ _ _ _ _ _ _ _ _ _ _ _ _ HDR HS HL) as [K1 (ks & K2 & K3) K4 K5 K6].
    cbn [run] in HC. apply on_solver_inv in HC. destruct (solve_timed E s K6 _ HC) as (_ & H2). cbn [fst snd] in H2. destruct (H2 eq_refl) as [S1 S2 S3 (k & S4) S5 S6].
    exists ks, k. split; [exact K2|]. split; [exact S4|]. unfold rest in K1. injection K1 as Z1 Z2 Z3. split; [congruence|]. fold (spent s) in S3. split; [congruence|]. split; [|auto].
    rewrite S1. unfold first_time. rewrite Z1, Z3. fold (spent s). rewrite K3. destruct (existsb is_solve log); reflexivity.
  Qed.

  (** Status before any solve of the present data. *)
  Theorem status_log g P q A l u m n ust s0 g' log s : data_readable P q A l u m n -> osqp_setup E g P q A l u m n (Some ust) = Some (0, Some s0, g') ->
    calls_ok s0 log s -> new_data log = true -> i_status_val (sv_info s) = OSQP_UNSOLVED.
  Proof. intros HDR HS HL HN. exact (kp_status _ _ _ (kept_all _ _ _ _ _ _ _ _ _ _ _ _ _ HDR HS HL) HN). Qed.

  (** The adaptation interval during a solve. *)
  Theorem interval_log g P q A l u m n ust s0 g' log s fl s' : data_readable P q A l u m n -> osqp_setup E g P q A l u m n (Some ust) = Some (0, Some s0, g') ->
    calls_ok s0 log s -> run E CSolve s = Some (fl, HSolver s') ->
    st_adaptive_rho_interval (sv_settings s') = st_adaptive_rho_interval (sv_settings s) \/
    st_adaptive_rho (sv_settings s) = ADAPTIVE_RHO_TIME /\ st_adaptive_rho_interval (sv_settings s) = 0 /\ st_adaptive_rho_interval (sv_settings s') = 1.
  Proof.
    intros HDR HS HL HC. destruct (kept_all _ _ _ _ _ _ _ _ _ _ _ _ _ HDR HS HL) as [_ _ _ _ K6].
    cbn [run] in HC. apply on_solver_inv in HC. destruct (solve_timed E s K6 _ HC) as ((_ & _ & H1) & _). exact H1.
  Qed.
End Fresh.

(** ** Bounds given as infinite *)
Section Infinite.
  Local Open Scope R_scope.
  Lemma infinite_bound E (EO : env_ok E) P A q l u m n ust s d i : session E P A q l u m n ust s d -> (0 <= i < m)%Z ->
    (st_scaling ust <= 1)%Z \/ / 10 ^ 4 < uE s i ->
    (10 ^ 30 <= rnth (d_u d) i -> 10 ^ 26 < rnth (d_u (w_data (sv_work s))) i) /\
    (rnth (d_l d) i <= - 10 ^ 30 -> rnth (d_l (w_data (sv_work s))) i < - 10 ^ 26).
  Proof.
    intros HS Hi HE. assert (HE' : / 10 ^ 4 < uE s i).
    { destruct HE as [HE|]; auto. pose proof (session_units E EO _ _ _ _ _ _ _ _ _ _ HS) as HU. destruct (st_scaling ust =? 0)%Z eqn:E0.
      - destruct HU as (_ & _ & ->). lra.
      - destruct HU as (sc & _ & _ & _ & _ & _ & _ & _ & HU). cbv zeta in HU. destruct HU as (_ & _ & HU). specialize (HU i Hi). destruct HU as [HU _].
        destruct (Z.eq_dec (st_scaling ust) 1) as [E1|]; [rewrite E1 in HU; change (Z.to_nat 1) with 1%nat in HU; lra|].
        replace (Z.to_nat (st_scaling ust)) with 0%nat in HU by lia. lra. }
    destruct (session_facts E EO _ _ _ _ _ _ _ _ _ _ HS) as (_ & [_ SB _ _ _] & _ & _ & _ & Em & _).
    destruct (sb_l _ _ _ _ _ SB) as (_ & L). destruct (sb_u _ _ _ _ _ SB) as (_ & U). rewrite L, U by lia. split; intros HB; nra.
  Qed.

  (** A row given without bounds gets the smallest penalty. *)
  Theorem infinite_row E (EO : env_ok E) g P q A m n ust s g' i lv uv : data_readable (Some P) q (Some A) (Some lv) (Some uv) m n ->
    osqp_setup E g (Some P) q (Some A) (Some lv) (Some uv) m n (Some ust) = Some (0%Z, Some s, g') ->
    (0 <= i < m)%Z -> (st_scaling ust <= 1)%Z \/ / 10 ^ 4 < uE s i -> tr (st_rho_is_vec ust) = true -> rnth lv i <= - 10 ^ 30 -> 10 ^ 30 <= rnth uv i ->
    rho_at (sv_settings s) (sv_work s) i = / 10 ^ 6.
  Proof.
    intros HDR HS Hi HE HV H1 H2. destruct (setup_session E g _ _ _ _ _ _ _ _ _ _ EO HDR HS) as (d & UI & HSS & _).
    pose proof (setup_kinds E EO g _ _ _ _ _ _ _ _ _ _ HDR HS) as HK. pose proof (setup_settings E EO MM_R g _ _ _ _ _ _ _ _ _ _ HDR HS) as Est.
    destruct (infinite_bound E EO _ _ _ _ _ _ _ _ _ _ i HSS Hi HE) as (B1 & B2). destruct (session_size E EO _ _ _ _ _ _ _ _ _ _ HSS) as (En & Em).
    rewrite HK; [|rewrite Est; rs; exact HV|rewrite Em; exact Hi].
    destruct UI as (_ & _ & _ & _ & _ & (_ & L) & (_ & U)); [reflexivity..|]. rewrite L in B2 by auto. rewrite U in B1 by auto. specialize (B1 H2). specialize (B2 H1).
    unfold penalty. destruct (Rlt_dec _ _); [|contradiction]. destruct (Rlt_dec _ _); [reflexivity|contradiction].
  Qed.
End Infinite.

(** ** Reading after a rejected update *)
Section Rejected.
  Variables (E : Env Rops) (EO : env_ok E) (P A : csc Rops) (q0 l0 u0 : option (list R)) (m n : Z) (ust : settings Rops).
  Notation ses := (session E P A q0 l0 u0 m n ust).

  Lemma filled_same k f g (v0 v1 v2 : list R) : filled k f v0 v1 -> filled k g v0 v2 -> (forall i, f i = g i) -> v1 = v2.
  Proof. intros (A1 & A2 & A3) (B1 & B2 & B3) HE. apply rlist_ext; [congruence|]. intros i Hi. destruct (Z.lt_ge_cases i k); [rewrite B2, A2, HE by lia; auto|rewrite A3, B3 by lia; auto]. Qed.

  (** What a read shows depends on the status, the iterate and the certificate directions. *)
  Lemma shown_same s1 s2 o o1 o2 : shown s1 o o1 -> shown s2 o o2 ->
    i_status_val (sv_info s1) = i_status_val (sv_info s2) -> d_n (w_data (sv_work s1)) = d_n (w_data (sv_work s2)) -> d_m (w_data (sv_work s1)) = d_m (w_data (sv_work s2)) ->
    (forall i, ux s1 i = ux s2 i) -> (forall i, uy s1 i = uy s2 i) -> w_delta_x (sv_work s1) = w_delta_x (sv_work s2) ->
    (i_status_val (sv_info s1) <> OSQP_PRIMAL_INFEASIBLE /\ i_status_val (sv_info s1) <> OSQP_PRIMAL_INFEASIBLE_INACCURATE) -> o1 = o2.
  Proof.
    intros [S1 S2 S3 S4 S5] [T1 T2 T3 T4 T5] Es En Em Hx Hy Hd (N1 & N2). rewrite <- Es, <- En, <- Em, <- Hd in *.
    assert (D : reports (i_status_val (sv_info s1)) \/ ~ reports (i_status_val (sv_info s1))) by (unfold reports; lia).
    destruct o1 as [x1 y1 p1 d1], o2 as [x2 y2 p2 d2]. rs_all. destruct D as [D|D].
    - destruct (S1 D) as (A1 & A2 & A3 & A4). destruct (T1 D) as (B1 & B2 & B3 & B4). f_equal; eapply filled_same; eauto.
    - destruct (S2 D) as (A1 & A2). destruct (T2 D) as (B1 & B2).
      assert (X : x1 = x2 /\ y1 = y2) by (split; eapply filled_same; eauto). destruct X as [-> ->].
      assert (C : (i_status_val (sv_info s1) = OSQP_DUAL_INFEASIBLE \/ i_status_val (sv_info s1) = OSQP_DUAL_INFEASIBLE_INACCURATE) \/ i_status_val (sv_info s1) = OSQP_NON_CVX) by (unfold reports in D; lia).
      destruct C as [C|C].
      + destruct (S4 C) as (A3 & e1 & M1 & A4). destruct (T4 C) as (B3 & e2 & M2 & B4). rewrite (is_maxabs_unique _ _ _ M1 M2) in *. f_equal; eapply filled_same; eauto.
      + destruct (S5 C) as (-> & ->). destruct (T5 C) as (-> & ->). reflexivity.
  Qed.

  Theorem rejected_same_reads s d q l u l' u' o : ses s d -> vec_arg n q -> vec_arg m l -> vec_arg m u ->
    new_vec m l (d_l d) l' -> new_vec m u (d_u d) u' -> ~ all_le m l' u' -> solok n m o ->
    i_status_val (sv_info s) <> OSQP_PRIMAL_INFEASIBLE -> i_status_val (sv_info s) <> OSQP_PRIMAL_INFEASIBLE_INACCURATE ->
    exists s' s1 s2 o', osqp_update_data_vec E (HSolver s) q l u = Some (OSQP_DATA_VALIDATION_ERROR, HSolver s') /\
      osqp_get_solution (HSolver s) (Some o) = Some (0, HSolver s1, Some o') /\ osqp_get_solution (HSolver s') (Some o) = Some (0, HSolver s2, Some o').
  Proof.
    intros HS Hq Hl Hu L U HA HO N1 N2. destruct (update_vec_rejected E EO _ _ _ _ _ _ _ _ s d q l u l' u' HS Hq Hl Hu L U HA) as (s' & Er & HS' & t & c & lt & ut & Es).
    destruct (session_get_solution E EO _ _ _ _ _ _ _ _ s d o HS HO) as (s1 & o1 & E1 & _ & SH1 & _).
    destruct (session_get_solution E EO _ _ _ _ _ _ _ _ s' d o HS' HO) as (s2 & o2 & E2 & _ & SH2 & _).
    exists s', s1, s2, o1. split; [exact Er|]. split; [exact E1|]. rewrite E2. repeat f_equal. symmetry.
    assert (Q : i_status_val (sv_info s) = i_status_val (sv_info s') /\ w_data (sv_work s) = w_data (sv_work s') /\ (forall i, ux s i = ux s' i) /\ (forall i, uy s i = uy s' i) /\ w_delta_x (sv_work s) = w_delta_x (sv_work s')) by (rewrite Es; do 4 (split; [reflexivity|]); reflexivity).
    destruct Q as (Q1 & Q2 & Q3 & Q4 & Q5). apply (shown_same s s' o o1 o2); auto; congruence.
  Qed.
End Rejected.

(** ** Literal cases *)
Lemma calls_log {K : NumOps} (E : Env K) s0 cs : forall log s1 fls s, calls_ok E s0 log s1 -> calls E cs s1 = Some (fls, s) -> Forall (fun z => z = 0) fls -> calls_ok E s0 (rev cs ++ log) s.
Proof.
  induction cs as [|c cs IH]; intros log s1 fls s HL HC HF; cbn [calls rev app] in *; [injection HC as _ <-; exact HL|].
  destruct (run E c s1) as [[f h]|] eqn:Er; [|discriminate]. destruct h as [| |s2]; try discriminate. destruct (calls E cs s2) as [[fl s3]|] eqn:Ec; [|discriminate].
  injection HC as <- <-. inversion HF as [|? ? H0 HF']; subst. rewrite <- app_assoc. apply (IH (c :: log) s2 fl s3); auto. econstructor; eauto.
Qed.
Lemma fdata_readable : data_readable (Some fP) (Some fq) (Some fA) (Some fl) (Some fu) 3 2.
Proof.
  constructor; try (intros v [= <-]; unfold zlen; cbn; lia); try (intros _; eexists; split; [reflexivity|unfold zlen; cbn; lia]).
  - intros P [= <-]. apply wfb_ok. vm_compute. reflexivity.
  - intros A [= <-]. apply wfb_ok. vm_compute. reflexivity.
Qed.
Lemma MM_F64 : nltb (OSQP_RHO_MIN F64) (OSQP_RHO_MAX F64) = true. Proof. vm_compute. reflexivity. Qed.

(** Solve, change q, change rho, solve again: a polished solve, where every clock reading is 1. *)
Definition tcalls : list (call F64) := [CSolve; CUpdVec (Some [nofZ 2; nofZ 1]) None None; CUpdRho (nofZ 1)].
Lemma timed_case : exists s0 g' s s', osqp_setup secE g0 (Some fP) (Some fq) (Some fA) (Some fl) (Some fu) 3 2 (Some polishing) = Some (0, Some s0, g') /\
  calls_ok secE s0 (rev tcalls) s /\ run secE CSolve s = Some (0, HSolver s') /\ pending (rev tcalls) = 2%nat /\ new_data (rev tcalls) = true /\
  neqb (i_run_time (sv_info s')) (nofZ 4) = true /\ neqb (i_polish_time (sv_info s')) n1 = true.
Proof.
  destruct (script_ok secE g0 fP fq fA fl fu 3 2 polishing (tcalls ++ [CSolve]) [0; 0; 0; 0]
    (fun _ s => neqb (i_run_time (sv_info s)) (nofZ 4) && neqb (i_polish_time (sv_info s)) n1)) as (s0 & g' & s' & H1 & H2 & H3); [vm_compute; reflexivity|].
  apply andb_prop in H3 as (H3 & H4). exists s0, g'.
  assert (HL := calls_log secE s0 (tcalls ++ [CSolve]) [] s0 _ s' (co_0 secE s0) H2 ltac:(repeat constructor)).
  rewrite app_nil_r in HL. change (rev (tcalls ++ [CSolve])) with (CSolve :: rev tcalls) in HL. inversion HL as [|log s c s1 HL' HR]; subst.
  exists s, s'. auto 10.
Qed.

(** The demo problem with a free first row and one scaling pass. *)
Definition free_l : list R := [- 10 ^ 30; 0; 0]%R.
Definition free_u : list R := [10 ^ 30; 7 / 10; 7 / 10]%R.
Definition one_pass : settings Rops := set_st_scaling 1 rst.
Lemma free_case : data_readable (Some rP) (Some rq) (Some rA) (Some free_l) (Some free_u) 3 2 /\
  exists s g', osqp_setup rE (mkworld 0%nat 0%nat 0 0 []) (Some rP) (Some rq) (Some rA) (Some free_l) (Some free_u) 3 2 (Some one_pass) = Some (0, Some s, g').
Proof.
  assert (HR : data_readable (Some rP) (Some rq) (Some rA) (Some free_l) (Some free_u) 3 2).
  { constructor; try (intros v [= <-]; unfold zlen; cbn; lia); try (intros _; eexists; split; [reflexivity|unfold zlen; cbn; lia]); [intros P [= <-]; apply rP_wf|intros A [= <-]; apply rA_wf]. }
  split; [exact HR|].
  assert (HO : data_ok (Some rP) (Some rq) (Some rA) (Some free_l) (Some free_u) 3 2).
  { destruct rdata_ok as [D1 D2 D3 D4 D5 D6]. constructor; auto.
    intros lv uv j [= <-] [= <-] Hj. assert (H : j = 0 \/ j = 1 \/ j = 2) by lia. pose proof (pow_lt 10 30 ltac:(lra)) as HP.
    destruct H as [-> |[-> | ->]]; cbn [nltb Rops]; unfold Rltb; match goal with |- context [Rlt_dec ?a ?b] => destruct (Rlt_dec a b) as [H|] end; auto; exfalso; unfold znth, free_l, free_u in H; generalize dependent (10 ^ 30)%R; intros b HP H; simpl in H; lra. }
  assert (HV : settings_ok true one_pass) by (destruct rst_ok; unfold one_pass; constructor; rs; auto; lia).
  destruct (session_start rE rE_ok rE_exact (mkworld 0%nat 0%nat 0 0 []) rP (Some rq) rA (Some free_l) (Some free_u) 3 2 one_pass HR HO HV rP_psd) as (s & g & d & H & _).
  exists s, g. exact H.
Qed.

Lemma defaults_accepted : settings_ok true (default_settings (K := Rops)) /\
  validate_settings (Some (default_settings (K := Rops))) true = false /\ validate_settings (Some (default_settings (K := Rops))) false = false /\
  validate_settings (Some (default_settings (K := F64))) true = false /\ validate_settings (Some (default_settings (K := F64))) false = false.
Proof.
  pose proof rst_ok as H. split; [exact H|]. split; [apply validate_settings_spec; eauto|]. split; [|split; vm_compute; reflexivity].
  apply validate_settings_spec. exists rst. split; [reflexivity|]. destruct H. constructor; auto; try discriminate.
Qed.

Lemma one_solve_time (K : NumOps) (E : Env K) (s s' : solver K) : 0 <= st_check_termination (sv_settings s) -> run E CSolve s = Some (0, HSolver s') ->
  i_run_time (sv_info s') = nadd (nadd (if tr (w_first_run (sv_work s)) then i_setup_time (sv_info s) else if w_clear_update_time (sv_work s) =? 1 then n0 else i_update_time (sv_info s))
    (i_solve_time (sv_info s'))) (i_polish_time (sv_info s')).
Proof.
  intros H HC. cbn [run] in HC. unfold osqp_solve in HC. apply on_solver_inv in HC. destruct (solve_timed E s H _ HC) as (_ & H2). cbn [fst snd] in H2. destruct (H2 eq_refl) as [S1 _ _ _ _ _]. exact S1.
Qed.

Lemma interval_case : exists s0 g' s, osqp_setup secE g0 (Some fP) (Some fq) (Some fA) (Some fl) (Some fu) 3 2 (Some timed) = Some (0, Some s0, g') /\
  calls_ok secE s0 [CSolve] s /\ st_adaptive_rho_interval (sv_settings s0) = 0 /\ st_adaptive_rho_interval (sv_settings s) = 1.
Proof.
  destruct interval_one as (s0 & g' & s & H1 & H2 & _ & H4). exists s0, g', s. split; [exact H1|]. split.
  - assert (HL := calls_log secE s0 [CSolve] [] s0 _ s (co_0 secE s0) H2 ltac:(repeat constructor)). exact HL.
  - split; [|exact H4]. rewrite (setup_settings secE (exEnv_ok _ _) MM_F64 _ _ _ _ _ _ _ _ _ _ _ fdata_readable H1). reflexivity.
Qed.

Lemma rejected_case : exists s d l' u', session rE rP rA (Some rq) (Some rl) (Some ru) 3 2 rst s d /\ vec_arg 3 (Some [2; 0; 0]%R) /\
  new_vec 3 (Some [2; 0; 0]%R) (d_l d) l' /\ new_vec 3 None (d_u d) u' /\ ~ all_le 3 l' u' /\ i_status_val (sv_info s) = OSQP_UNSOLVED.
Proof.
  destruct (session_start rE rE_ok rE_exact (mkworld 0%nat 0%nat 0 0 []) rP (Some rq) rA (Some rl) (Some ru) 3 2 rst rdata_readable rdata_ok rst_ok rP_psd) as (s & g & d & H & U & HS).
  exists s, d, [2; 0; 0]%R, (d_u d). split; [exact HS|]. split; [intros v [= <-]; unfold zlen; cbn; lia|]. split; [split; [reflexivity|auto]|]. split; [reflexivity|].
  destruct U as (_ & _ & _ & _ & _ & _ & HU). destruct (HU ru eq_refl) as (_ & HU'). split.
  - intros HN. specialize (HN 0 ltac:(lia)). rewrite HU' in HN by lia. unfold rnth, znth, ru in HN. simpl in HN. lra.
  - destruct (setup_fresh_any rE rE_ok MM_R _ _ _ _ _ _ _ _ _ _ _ rdata_readable H) as ([] & _). assumption.
Qed.
