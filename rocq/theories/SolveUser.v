(** What the status of a solve says about the user's problem (exact arithmetic). *)
From Coq Require Import ZArith Reals List Bool Lia Lra String.
From Verif Require Import Num Arr ArrFacts RSum Csc CscSpec CscFacts CscFacts2 Scatter Vec VecFacts Types Kkt KktSpec KktDense Linsys LinsysFacts LinsysSolve Scaling Validate Auxil Polish Api
  Inv RecSimp InvStep InvApi InvScale InvPolish InvSolve ValidFacts InvUpd InvSetup History RealVec RealStep Frame FrameSolve ProbSpec ScaleReal FrameUpd UserSpec Refine ExEnv Ldl LdlEnv Session ExReal DataFacts Obs DataClaims ApiClaims KktClaims
  QpSpec AdmmSpec Mid Trace AdmmClaims PassFacts SolveEnd TermSpec TermFacts TermCheck AtyFacts TermSolve SolveClaims.
Import ListNotations.
Open Scope Z_scope.

(** (x, z, y) meets the optimality conditions of p up to f times the tolerances of the settings st. *)
Definition meets (st : settings Rops) (p : qp) (c : R) (Es : Z -> R) (f : R) (x z y : Z -> R) : Prop :=
  exists v, trimmed c Es (q_m p) (q_l p) (q_u p) y v /\ solved_within p (f * st_eps_abs st) (f * st_eps_rel st) (tr (st_check_dualgap st)) x z y v.

Lemma drops_unique l u y a b : drops l u y a -> drops l u y b -> a = b.
Proof.
  intros (A1 & A2 & A3 & A4) (B1 & B2 & B3 & B4). destruct (Rlt_dec (10 ^ 26) u) as [H1|H1], (Rlt_dec l (- 10 ^ 26)) as [H2|H2].
  - rewrite A1, B1; auto.
  - rewrite A2, B2; auto.
  - rewrite A3, B3; auto.
  - rewrite A4, B4; auto.
Qed.
Lemma drops_small_unique l u y a b : drops_small l u y a -> drops_small l u y b -> a = b.
Proof.
  intros (w1 & D1 & A1 & A2) (w2 & D2 & B1 & B2). rewrite (drops_unique _ _ _ _ _ D2 D1) in *.
  destruct (Rlt_le_dec (Rabs w1) (/ 10 ^ 15)) as [H|H]; [rewrite A1, B1|rewrite A2, B2]; auto.
Qed.
Lemma trimmed_unique c Es m l u y v v' : trimmed c Es m l u y v -> trimmed c Es m l u y v' -> forall i, 0 <= i < m -> v i = v' i.
Proof.
  intros H1 H2 i Hi. destruct (H1 i Hi) as (a & D1 & ->). destruct (H2 i Hi) as (b & D2 & ->). rewrite (drops_small_unique _ _ _ _ _ D1 D2). auto.
Qed.
Lemma trimmed_ext c Es m l u y y' v : (forall i, 0 <= i < m -> y i = y' i) -> trimmed c Es m l u y v -> trimmed c Es m l u y' v.
Proof. intros H H1 i Hi. rewrite <- H by auto. auto. Qed.

Lemma solved_ext p ea er g x z y v x' z' y' v' : (forall i, 0 <= i < q_n p -> x i = x' i) -> (forall i, 0 <= i < q_m p -> z i = z' i) -> (forall i, 0 <= i < q_m p -> y i = y' i) ->
  (forall i, 0 <= i < q_m p -> v i = v' i) -> solved_within p ea er g x z y v -> solved_within p ea er g x' z' y' v'.
Proof.
  intros Hx Hz Hy Hv [S1 S2 S3].
  assert (EA : forall i, Amul p x i = Amul p x' i) by (intros; apply mulR_ext; auto). assert (EP : forall i, Pmul p x i = Pmul p x' i) by (intros; apply mulR_ext; auto).
  assert (ET : forall i, Atmul p y i = Atmul p y' i) by (intros; apply mulR_ext; auto).
  constructor.
  - destruct S1 as [S1|S1]; [auto|right]. rewrite (ninf_ext _ (fun i => (Amul p x' i - z' i)%R) (fun i => (Amul p x i - z i)%R)) by (intros; rewrite EA, Hz; auto).
    rewrite (ninf_ext _ z' z) by (intros; symmetry; auto). rewrite (ninf_ext _ (Amul p x') (Amul p x)) by (intros; symmetry; auto). exact S1.
  - rewrite (ninf_ext _ (fun i => (q_q p i + Pmul p x' i + Atmul p y' i)%R) (fun i => (q_q p i + Pmul p x i + Atmul p y i)%R)) by (intros; rewrite EP, ET; auto).
    rewrite (ninf_ext _ (Atmul p y') (Atmul p y)) by (intros; symmetry; auto). rewrite (ninf_ext _ (Pmul p x') (Pmul p x)) by (intros; symmetry; auto). exact S2.
  - intros Hg. specialize (S3 Hg).
    assert (EQ : quad p x' = quad p x) by (unfold quad; apply sumn_ext; intros; rewrite Hx, EP; auto).
    assert (EL : lin p x' = lin p x) by (unfold lin; apply sumn_ext; intros; rewrite Hx; auto).
    rewrite EQ, EL, (support_ext p v' v) by (intros; symmetry; auto). exact S3.
Qed.
Lemma meets_ext st p c Es f x z y x' z' y' : (forall i, 0 <= i < q_n p -> x i = x' i) -> (forall i, 0 <= i < q_m p -> z i = z' i) -> (forall i, 0 <= i < q_m p -> y i = y' i) ->
  meets st p c Es f x z y -> meets st p c Es f x' z' y'.
Proof. intros Hx Hz Hy (v & T & S). exists v. split; [eapply trimmed_ext; eauto|]. eapply solved_ext; [| | | |exact S]; auto. Qed.

(** A point that satisfies the optimality conditions exactly meets any positive tolerance, if the multipliers to be dropped are already zero. *)
Lemma kkt_gap p x z y : kkt p x z y -> (quad p x + lin p x + support p y = 0)%R.
Proof.
  intros [K1 K2 K3].
  assert (ES : support p y = sumn (q_m p) (fun i => y i * Amul p x i)%R).
  { unfold support. apply sumn_ext. intros i Hi. rewrite K2 by auto. destruct (K3 i Hi) as (_ & Hu & Hl). destruct (Rtotal_order (y i) 0) as [Hy|[Hy|Hy]].
    - rewrite (Hl Hy), Rmax_right, Rmin_left by lra. ring.
    - rewrite Hy, Rmax_left, Rmin_left by lra. ring.
    - rewrite (Hu Hy), Rmax_left, Rmin_right by lra. ring. }
  rewrite ES, At_adjoint. unfold quad, lin. rewrite <- !sumn_plus. unfold sumn. apply zsum_0. intros i Hi. specialize (K1 i Hi). replace (x i * Pmul p x i + q_q p i * x i + Atmul p y i * x i)%R with (x i * (Pmul p x i + q_q p i + Atmul p y i))%R by ring.
  rewrite K1. ring.
Qed.
Lemma kkt_meets st p c Es x z y : (0 < st_eps_abs st)%R -> (0 <= st_eps_rel st)%R -> kkt p x z y ->
  (exists v, trimmed c Es (q_m p) (q_l p) (q_u p) y v) ->
  (tr (st_check_dualgap st) = true -> trimmed c Es (q_m p) (q_l p) (q_u p) y y) -> meets st p c Es 1 x z y.
Proof.
  intros Ha Hr HK (v & HT) HG.
  assert (HP : forall a, (0 <= a -> 0 < 1 * st_eps_abs st + 1 * st_eps_rel st * a)%R) by (intros a H; assert (0 <= st_eps_rel st * a)%R by (apply Rmult_le_pos; auto); lra).
  exists v. split; [auto|]. pose proof HK as [K1 K2 K3]. constructor.
  - right. rewrite (ninf_ext _ _ (fun i => 0 * z i)%R) by (intros i Hi; rewrite K2 by auto; ring). rewrite ninf_scal, Rabs_R0, Rmult_0_l. apply HP.
    eapply Rle_trans; [apply ninf_nonneg|apply Rmax_l].
  - rewrite (ninf_ext _ (fun i => (q_q p i + Pmul p x i + Atmul p y i)%R) (fun i => 0 * x i)%R) by (intros i Hi; specialize (K1 i Hi); lra). rewrite ninf_scal, Rabs_R0, Rmult_0_l. apply HP.
    eapply Rle_trans; [apply ninf_nonneg|]. apply Rmax_r.
  - intros Hg. specialize (HG Hg). rewrite (support_ext p v y) by (apply (trimmed_unique _ _ _ _ _ _ _ _ HT HG)). rewrite (kkt_gap p x z y HK), Rabs_R0. apply HP.
    eapply Rle_trans; [apply Rabs_pos|apply Rmax_r].
Qed.

Section User.
  Variable E : Env Rops.
  Hypothesis EO : env_ok E.
  Variables (P A : csc Rops) (q0 l0 u0 : option (list R)) (m n : Z) (ust : settings Rops).
  Notation ses := (session E P A q0 l0 u0 m n ust).
  Notation stat s := (i_status_val (sv_info s)).

  (** The solution structure holds the iterate the solver is left with. *)
  Theorem solution_state s d fl s' o : ses s d -> stat s = OSQP_UNSOLVED -> solve E s = Some (fl, s') -> fl <= 0 -> has_solution (sv_info s') = true -> sv_solution s' = Some o ->
    (forall i, 0 <= i < n -> rnth (so_x o) i = ux s' i) /\ (forall i, 0 <= i < m -> rnth (so_y o) i = uy s' i).
  Proof.
    intros HS HU HE Hfl HH Ho. destruct (session_facts E EO _ _ _ _ _ _ _ _ _ _ HS) as (HI & HR & _). destruct (session_size E EO _ _ _ _ _ _ _ _ _ _ HS) as (En & Em).
    destruct (tests_users_dec (sv_settings s)) as [HT|HT].
    - pose proof (ref_tunits s d HI HR HT) as TU.
      destruct (claim_run E EO P A q0 l0 u0 m n ust s d _ _ _ _ fl s' HS TU HU HE) as (k & t & t1 & Hk & HIt & [(_ & _ & X & _)|[(_ & _ & _ & X & _)|(stale & e & _ & HN & RE & _)]]); [lia..|].
      destruct (re_sol _ _ _ _ RE Hfl o Ho) as (s7 & o0 & SH & S7 & D7 & DL & HL). destruct (HL HH) as (L1 & L2).
      assert (DD : w_data (sv_work s7) = w_data (sv_work s)) by (rewrite D7, (en_data _ _ _ _ _ _ _ _ _ _ _ _ _ HN); eapply iterate_data; eauto).
      destruct (sh_sol _ _ _ SH) as (F1 & F2 & _). { rewrite S7, <- (re_stat _ _ _ _ RE). apply has_solution_iff. auto. }
      rewrite DD, En in F1. rewrite DD, Em in F2. destruct F1 as (_ & F1 & _). destruct F2 as (_ & F2 & _). split; intros i Hi; [rewrite F1, L1|rewrite F2, L2]; auto.
    - pose proof (stored_tunits s HT) as TU.
      destruct (claim_run E EO P A q0 l0 u0 m n ust s d _ _ _ _ fl s' HS TU HU HE) as (k & t & t1 & Hk & HIt & [(_ & _ & X & _)|[(_ & _ & _ & X & _)|(stale & e & _ & HN & RE & _)]]); [lia..|].
      destruct (re_sol _ _ _ _ RE Hfl o Ho) as (s7 & o0 & SH & S7 & D7 & DL & HL). destruct (HL HH) as (L1 & L2).
      assert (DD : w_data (sv_work s7) = w_data (sv_work s)) by (rewrite D7, (en_data _ _ _ _ _ _ _ _ _ _ _ _ _ HN); eapply iterate_data; eauto).
      destruct (sh_sol _ _ _ SH) as (F1 & F2 & _). { rewrite S7, <- (re_stat _ _ _ _ RE). apply has_solution_iff. auto. }
      rewrite DD, En in F1. rewrite DD, Em in F2. destruct F1 as (_ & F1 & _). destruct F2 as (_ & F2 & _). split; intros i Hi; [rewrite F1, L1|rewrite F2, L2]; auto.
  Qed.

  Section Run.
  Variables (s : solver Rops) (d : data Rops) (fl : Z) (s' : solver Rops).
  Hypothesis HS : ses s d.
  Hypothesis HT : tests_users (sv_settings s).
  Hypothesis HU : stat s = OSQP_UNSOLVED.
  Hypothesis HE : solve E s = Some (fl, s').
  Notation st := (sv_settings s).
  Notation p := (qp_of d).

  Lemma run_units : tunits st (sv_work s) p (uc s) (uD s) (uE s).
  Proof. destruct (session_facts E EO _ _ _ _ _ _ _ _ _ _ HS) as (HI & HR & _). apply ref_tunits; auto. Qed.
  Lemma run_uscal : uscal s' = uscal s.
  Proof. exact (units_sfr _ _ (solve_sfr E s _ HE)). Qed.
  Lemma run_iter_uscal k t t1 : iterate E s k t t1 -> uscal t1 = uscal s.
  Proof. intros H. destruct (iterate_facts E EO P A q0 l0 u0 m n ust s d k t t1 HS H) as (_ & _ & _ & _ & _ & _ & _ & H6 & _). auto. Qed.

  (** The solution structure, when it holds a solution. *)
  Definition solution_is (x y : Z -> R) : Prop := fl <= 0 -> forall o, sv_solution s' = Some o -> (forall i, 0 <= i < n -> rnth (so_x o) i = x i) /\ (forall i, 0 <= i < m -> rnth (so_y o) i = y i).

  Theorem user_solved : stat s' = OSQP_SOLVED -> ~ polished s' -> meets st p (uc s) (uE s) 1 (ux s') (uz s') (uy s') /\ solution_is (ux s') (uy s').
  Proof.
    intros H1 H2. pose proof (claim_solved E EO P A q0 l0 u0 m n ust s d _ _ _ _ fl s' HS run_units HU HE H1 H2) as HP.
    destruct (un_state s s' run_uscal) as (<- & <- & <-). split; [exact HP|].
    destruct (un_state s s' run_uscal) as (-> & _ & ->). intros Hfl o Ho. eapply solution_state; eauto. apply has_solution_iff. unfold reports. stc.
  Qed.
  Theorem user_solved_last : stat s' = OSQP_SOLVED -> exists k t t1, 1 <= k <= st_max_iter st /\ iterate E s k t t1 /\ meets st p (uc s) (uE s) 1 (ux t1) (uz t1) (uy t1).
  Proof.
    intros H1. destruct (claim_solved_last E EO P A q0 l0 u0 m n ust s d _ _ _ _ fl s' HS run_units HU HE H1) as (k & t & t1 & Hk & HIt & HP).
    exists k, t, t1. split; [auto|]. split; [auto|]. destruct (un_state s t1 (run_iter_uscal _ _ _ HIt)) as (<- & <- & <-). exact HP.
  Qed.
  Lemma fails_not f x z y : fails s p (uc s) (uE s) f x z y -> ~ meets st p (uc s) (uE s) f x z y.
  Proof.
    intros (v & T & H) (v' & T' & H'). apply H. eapply solved_ext; [| | | |exact H']; auto. apply (trimmed_unique _ _ _ _ _ _ _ _ T' T).
  Qed.
  Theorem user_inaccurate : stat s' = OSQP_SOLVED_INACCURATE -> exists k t t1, 1 <= k <= st_max_iter st /\ iterate E s k t t1 /\
    (time_over E t1 = true \/ k = st_max_iter st /\ meets st p (uc s) (uE s) 10 (ux s') (uz s') (uy s') /\ ~ meets st p (uc s) (uE s) 1 (ux s') (uz s') (uy s')).
  Proof.
    intros H1. destruct (claim_inaccurate E EO P A q0 l0 u0 m n ust s d _ _ _ _ fl s' HS run_units HU HE H1) as (k & t & t1 & Hk & HIt & HP).
    exists k, t, t1. split; [auto|]. split; [auto|]. destruct HP as [HP|(HP & H2 & H3)]; [auto|right]. split; [auto|].
    destruct (un_state s s' run_uscal) as (<- & <- & <-). split; [exact H2|]. apply fails_not. exact H3.
  Qed.
  Theorem user_max_iter : stat s' = OSQP_MAX_ITER_REACHED -> i_iter (sv_info s') = st_max_iter st /\ ~ meets st p (uc s) (uE s) 10 (ux s') (uz s') (uy s') /\
    exists t t1, iterate E s (st_max_iter st) t t1 /\ time_over E t1 = false /\ ux s' = ux t1 /\ uz s' = uz t1 /\ uy s' = uy t1.
  Proof.
    intros H1. destruct (claim_max_iter E EO P A q0 l0 u0 m n ust s d _ _ _ _ fl s' HS run_units HU HE H1) as (H2 & H3 & t & t1 & HIt & H4 & H5).
    split; [auto|]. split.
    - destruct (un_state s s' run_uscal) as (<- & <- & <-). apply fails_not. exact H3.
    - exists t, t1. split; [auto|]. split; [auto|]. apply iter3_u; auto. rewrite run_uscal. symmetry. eapply run_iter_uscal; eauto.
  Qed.
  Theorem user_pinf f : (stat s' = OSQP_PRIMAL_INFEASIBLE /\ f = 1%R \/ stat s' = OSQP_PRIMAL_INFEASIBLE_INACCURATE /\ f = 10%R) -> fl <= 0 /\
    forall o, sv_solution s' = Some o -> let v := rnth (so_prim_inf_cert o) in
      infeasible_within p (f * st_eps_prim_inf st) v /\ ninf m v = 1%R /\
      forall x, feasible p x -> (- support p v / (f * st_eps_prim_inf st) < norm1 n x)%R.
  Proof.
    intros H1. destruct (claim_pinf E EO P A q0 l0 u0 m n ust s d _ _ _ _ fl s' HS run_units HU HE f H1) as (H2 & H3). split; [auto|].
    intros o Ho v. destruct (H3 o Ho) as (H4 & H5). fold v in H4, H5. destruct (session_facts E EO _ _ _ _ _ _ _ _ _ _ HS) as (_ & _ & _ & _ & Dn & Dm & _).
    cbn [q_m qp_of] in H5. rewrite Dm in H5. split; [auto|]. split; [auto|]. intros x HF. pose proof (infeasible_far p _ v H4 x HF) as HX.
    cbn [q_m q_n qp_of] in HX. rewrite Dm, Dn, H5, Rmult_1_r in HX. exact HX.
  Qed.
  (** Bounds the solver treats as absent: those beyond 1e26 in its units. *)
  Definition absent_l (i : Z) : Prop := (uE s i * rnth (d_l d) i <= - 10 ^ 26)%R.
  Definition absent_u (i : Z) : Prop := (10 ^ 26 <= uE s i * rnth (d_u d) i)%R.
  Theorem user_dinf f : (stat s' = OSQP_DUAL_INFEASIBLE /\ f = 1%R \/ stat s' = OSQP_DUAL_INFEASIBLE_INACCURATE /\ f = 10%R) -> fl <= 0 /\
    forall o, sv_solution s' = Some o -> let v := rnth (so_dual_inf_cert o) in let e := (f * st_eps_dual_inf st)%R in
      unbounded_within absent_l absent_u p e v /\ ninf n v = 1%R /\
      forall x r, feasible_but absent_l absent_u p x -> (0 <= r)%R ->
        (forall i, 0 <= i < m -> (~ absent_l i -> rnth (d_l d) i - r * e <= Amul p (fun j => x j + r * v j) i)%R /\ (~ absent_u i -> Amul p (fun j => x j + r * v j) i <= rnth (d_u d) i + r * e)%R) /\
        (objective p (fun j => x j + r * v j) <= objective p x + r * (lin p v + e * norm1 n x) + r ^ 2 / 2 * e * norm1 n v)%R.
  Proof.
    intros H1. destruct (claim_dinf E EO P A q0 l0 u0 m n ust s d _ _ _ _ fl s' HS run_units HU HE f H1) as (H2 & H3). split; [auto|].
    intros o Ho v e. destruct (H3 o Ho) as (H4 & H5). fold v in H4, H5. fold e in H4. destruct (session_facts E EO _ _ _ _ _ _ _ _ _ _ HS) as (_ & _ & _ & _ & Dn & Dm & _).
    cbn [q_n qp_of] in H5. rewrite Dn in H5. split; [exact H4|]. split; [auto|]. intros x r HF Hr.
    pose proof (unbounded_far _ _ p _ v (qp_symmetric d) H4 x r HF Hr) as HX. cbv zeta in HX. cbn [q_m q_n q_l q_u qp_of] in HX. rewrite Dm, Dn, H5, Rmult_1_r in HX. exact HX.
  Qed.
  Theorem user_ncvx : stat s' = OSQP_NON_CVX -> exists k t t1, 1 <= k <= st_max_iter st /\ iterate E s k t t1 /\
    (time_over E t1 = true \/ (10 ^ 30 < ninf m (fun j => Amul p (ux t1) j - uz t1 j))%R \/ (10 ^ 30 < ninf n (fun j => rnth (d_q d) j + Pmul p (ux t1) j + Atmul p (uy t1) j))%R).
  Proof.
    intros H1. destruct (claim_ncvx E EO P A q0 l0 u0 m n ust s d _ _ _ _ fl s' HS run_units HU HE H1) as (k & t & t1 & Hk & HIt & HP).
    exists k, t, t1. split; [auto|]. split; [auto|]. destruct (un_state s t1 (run_iter_uscal _ _ _ HIt)) as (<- & <- & <-).
    destruct (session_facts E EO _ _ _ _ _ _ _ _ _ _ HS) as (_ & _ & _ & _ & Dn & Dm & _). destruct HP as [HP|HP]; [auto|right].
    unfold huge_residual in HP. cbn [q_m q_n q_q qp_of] in HP. rewrite Dm, Dn in HP. exact HP.
  Qed.
  (** The residuals, objectives and gap reported are those of the last iterate. *)
  Theorem user_info : final (stat s') -> ~ polished s' -> exists k t t1, 1 <= k <= st_max_iter st /\ iterate E s k t t1 /\ (time_over E t1 = true \/
    i_iter (sv_info s') = k /\ i_prim_res (sv_info s') = ninf m (fun j => Amul p (ux t1) j - uz t1 j)%R /\ i_dual_res (sv_info s') = ninf n (fun j => rnth (d_q d) j + Pmul p (ux t1) j + Atmul p (uy t1) j)%R /\
    (has_solution (sv_info s') = true -> ux s' = ux t1 /\ uz s' = uz t1 /\ uy s' = uy t1 /\ exists v, trimmed (uc s) (uE s) m (rnth (d_l d)) (rnth (d_u d)) (uy t1) v /\
       i_obj_val (sv_info s') = objective p (ux t1) /\ i_dual_obj_val (sv_info s') = (- / 2 * quad p (ux t1) - support p v)%R /\
       i_duality_gap (sv_info s') = (i_obj_val (sv_info s') - i_dual_obj_val (sv_info s'))%R)).
  Proof.
    intros H1 H2. destruct (claim_info E EO P A q0 l0 u0 m n ust s d _ _ _ _ fl s' HS run_units HU HE H1 H2) as (k & t & t1 & Hk & HIt & HP).
    exists k, t, t1. split; [auto|]. split; [auto|]. pose proof (run_iter_uscal _ _ _ HIt) as U1. destruct (un_state s t1 U1) as (E1 & E2 & E3).
    destruct (session_facts E EO _ _ _ _ _ _ _ _ _ _ HS) as (_ & _ & _ & _ & Dn & Dm & _). destruct HP as [HP|(H3 & H4 & H5 & H6)]; [auto|right].
    rewrite E1, E2, E3 in *. cbn [q_m q_n q_q qp_of] in *. rewrite Dm in H4, H6. rewrite Dn in H5. split; [auto|]. split; [auto|]. split; [auto|]. intros HH. destruct (H6 HH) as (H7 & H8).
    destruct (iter3_u t1 s' ltac:(rewrite run_uscal; auto) H7) as (-> & -> & ->). auto.
  Qed.
  Theorem user_count : exists k t t1, 1 <= k <= st_max_iter st /\ iterate E s k t t1 /\
    (k < st_max_iter st -> stop_requested E t1 = true /\ stat s' = OSQP_SIGINT \/ time_over E t1 = true \/ stat s' = OSQP_UNSOLVED /\ fl = 1 \/ scheduled st k = true /\ decided (stat s')) /\
    (final (stat s') -> i_iter (sv_info s') = (if time_over E t1 then k - 1 else k)).
  Proof. exact (claim_count E EO P A q0 l0 u0 m n ust s d _ _ _ _ fl s' HS run_units HU HE). Qed.

  (** ** Completeness *)
  Definition huge_at (t : solver Rops) : Prop :=
    (10 ^ 30 < ninf m (fun j => Amul p (ux t) j - uz t j) \/ 10 ^ 30 < ninf n (fun j => rnth (d_q d) j + Pmul p (ux t) j + Atmul p (uy t) j))%R.
  Lemma big_at k t t1 : iterate E s k t t1 -> big p (uc s) (uD s) (uE s) (sv_work t1) <-> huge_at t1.
  Proof.
    intros HIt. destruct (un_state s t1 (run_iter_uscal _ _ _ HIt)) as (E1 & E2 & E3). destruct (session_size E EO _ _ _ _ _ _ _ _ _ _ HS) as (En & Em).
    destruct (iterate_facts E EO P A q0 l0 u0 m n ust s d k t t1 HS HIt) as (_ & _ & _ & _ & _ & D1 & _). unfold big, huge_at. rewrite E1, E2, E3, D1, En, Em. cbn [q_q qp_of]. tauto.
  Qed.
  Lemma meets_at k t t1 : iterate E s k t t1 -> swithin st p (uc s) (uD s) (uE s) false (sv_work t1) <-> meets st p (uc s) (uE s) 1 (ux t1) (uz t1) (uy t1).
  Proof.
    intros HIt. destruct (un_state s t1 (run_iter_uscal _ _ _ HIt)) as (E1 & E2 & E3). destruct (iterate_facts E EO P A q0 l0 u0 m n ust s d k t t1 HS HIt) as (_ & _ & _ & _ & _ & D1 & _).
    pose proof (scaled_trim s p (uc s) (uD s) (uE s) run_units (sv_work t1) D1) as TR. rewrite E3 in TR. split.
    - intros H. rewrite <- E1, <- E2, <- E3. apply (passes_w s p (uc s) (uD s) (uE s) run_units false); auto.
    - intros (v & T & H). unfold swithin, fac. rewrite !(Rmult_comm _ 1). rewrite E1, E2, E3. eapply solved_ext; [| | | |exact H]; auto. apply (trimmed_unique _ _ _ _ _ _ _ _ T TR).
  Qed.
  (** The first scheduled test whose iterate meets the tolerances ends the solve as solved. *)
  Theorem user_found_solved k t t1 : iterate E s k t t1 -> scheduled st k = true -> stop_requested E t1 = false -> time_over E t1 = false -> ~ huge_at t1 ->
    meets st p (uc s) (uE s) 1 (ux t1) (uz t1) (uy t1) -> stat s' = OSQP_SOLVED /\ i_iter (sv_info s') = k.
  Proof.
    intros HIt Hsc HR HTm HB HM. apply (claim_found E EO P A q0 l0 u0 m n ust s d _ _ _ _ fl s' HS run_units HU HE k t t1 OSQP_SOLVED HIt Hsc HR HTm).
    apply an_solved; [rewrite (big_at _ _ _ HIt); auto|]. apply (meets_at _ _ _ HIt). auto.
  Qed.
  Theorem user_found_huge k t t1 : iterate E s k t t1 -> scheduled st k = true -> stop_requested E t1 = false -> time_over E t1 = false -> huge_at t1 ->
    stat s' = OSQP_NON_CVX /\ i_iter (sv_info s') = k.
  Proof.
    intros HIt Hsc HR HTm HB. apply (claim_found E EO P A q0 l0 u0 m n ust s d _ _ _ _ fl s' HS run_units HU HE k t t1 OSQP_NON_CVX HIt Hsc HR HTm).
    apply an_big. rewrite (big_at _ _ _ HIt). auto.
  Qed.

  Definition prim_small (t : solver Rops) : Prop := m = 0 \/
    (ninf m (fun j => Amul p (ux t) j - uz t j) < st_eps_abs st + st_eps_rel st * Rmax (ninf m (uz t)) (ninf m (Amul p (ux t))))%R.
  Definition dual_small (t : solver Rops) : Prop :=
    (ninf n (fun j => rnth (d_q d) j + Pmul p (ux t) j + Atmul p (uy t) j) < st_eps_abs st + st_eps_rel st * Rmax (Rmax (ninf n (rnth (d_q d))) (ninf n (Atmul p (uy t)))) (ninf n (Pmul p (ux t))))%R.
  (** The last step of the multipliers, without those that push against an absent bound. *)
  Definition certifies_infeasible (t t1 : solver Rops) : Prop :=
    exists v, (forall i, 0 <= i < m -> drops (uE s i * rnth (d_l d) i) (uE s i * rnth (d_u d) i) (uy t1 i - uy t i) (v i)) /\
      (/ 10 ^ 30 < uc s * ninf m v)%R /\ infeasible_within p (st_eps_prim_inf st) v.
  Definition certifies_unbounded (t t1 : solver Rops) : Prop :=
    let v := fun i => (ux t1 i - ux t i)%R in (/ 10 ^ 30 < ninf n v)%R /\ unbounded_within absent_l absent_u p (st_eps_dual_inf st) v.

  Lemma polar_scal a l u y : (0 < a)%R -> polar l u (a * y) = (a * polar l u y)%R.
  Proof.
    intros Ha. unfold polar. assert (E1 : Rmin (a * y) 0 = (a * Rmin y 0)%R /\ Rmax (a * y) 0 = (a * Rmax y 0)%R).
    { destruct (Rle_lt_dec 0 y) as [Hy|Hy].
      - assert (0 <= a * y)%R by (apply Rmult_le_pos; lra). rewrite !Rmin_right, !Rmax_left by lra. split; ring.
      - assert (a * y < 0)%R by (apply Rmult_neg_pos_l || (assert (0 < a * - y)%R by (apply Rmult_lt_0_compat; lra); lra)). rewrite !Rmin_left, !Rmax_right by lra. split; ring. }
    destruct E1 as (-> & ->). destruct (Rltb _ u), (Rltb l _); auto; ring.
  Qed.
  Lemma infeasible_scal_inv a e v : (0 < a)%R -> infeasible_within p e (fun i => a * v i)%R -> infeasible_within p e v.
  Proof.
    intros Ha H. assert (Hi : (0 < / a)%R) by (apply Rinv_0_lt_compat; auto). pose proof (infeasible_scal _ _ _ (/ a) Hi H) as H2.
    eapply infeasible_ext; [|exact H2]. intros i _. cbv beta. field. lra.
  Qed.
  Lemma step_y_eq k t t1 : iterate E s k t t1 -> forall i, 0 <= i < m ->
    step_y (uE s) (sv_work t1) i = (uc s * polar (uE s i * rnth (d_l d) i) (uE s i * rnth (d_u d) i) (uy t1 i - uy t i))%R.
  Proof.
    intros HIt i Hi. destruct (session_facts E EO _ _ _ _ _ _ _ _ _ _ HS) as (HI & HR & _ & _ & Dn & Dm & _). destruct (session_size E EO _ _ _ _ _ _ _ _ _ _ HS) as (En & Em).
    destruct (iterate_facts E EO P A q0 l0 u0 m n ust s d k t t1 HS HIt) as (I1 & I2 & S1 & S2 & D1 & D2 & U1 & U2 & _ & _ & W & _).
    destruct (step_deltas E EO t t1 I1 W) as (_ & HD). rewrite D1, Em in HD. pose proof (ref_scaled_qp d s HR) as [Q1 Q2 Q3 Q4 Q5 Q6 Q7 Q8 Q9 Q10]. cbn [q_l q_u q_m q_n qp_of] in *.
    assert (Hi' : 0 <= i < d_m d) by lia.
    unfold step_y. rewrite D2, HD, Q9, Q10 by auto. destruct (uscal_all _ _ U1) as (V1 & V2 & V3). destruct (uscal_all _ _ U2) as (W1 & W2 & W3). unfold uy. rewrite V1, V3, W1, W3.
    pose proof (Q5 i Hi') as HEi. assert (Ha : (0 < uE s i / uc s)%R) by (apply Rdiv_lt_0_compat; auto).
    replace (uE s i * rnth (w_y (sv_work t1)) i / uc s - uE s i * rnth (w_y (sv_work t)) i / uc s)%R with (uE s i / uc s * (rnth (w_y (sv_work t1)) i - rnth (w_y (sv_work t)) i))%R by (field; lra).
    rewrite polar_scal by auto. field. lra.
  Qed.
  Lemma pfound_at k t t1 : iterate E s k t t1 -> pfound st p (uD s) (uE s) false (sv_work t1) <-> ~ prim_small t1 /\ certifies_infeasible t t1.
  Proof.
    intros HIt. destruct (session_facts E EO _ _ _ _ _ _ _ _ _ _ HS) as (HI & HR & _ & _ & Dn & Dm & _). destruct (session_size E EO _ _ _ _ _ _ _ _ _ _ HS) as (En & Em).
    destruct (iterate_facts E EO P A q0 l0 u0 m n ust s d k t t1 HS HIt) as (_ & _ & _ & _ & _ & D1 & _). destruct (un_state s t1 (run_iter_uscal _ _ _ HIt)) as (E1 & E2 & E3).
    pose proof (step_y_eq k t t1 HIt) as SY. pose proof (sq_c _ _ _ _ _ (ref_scaled_qp d s HR)) as Hc.
    assert (PO : prim_ok st p (uD s) (uE s) false (sv_work t1) <-> prim_small t1).
    { unfold prim_ok, prim_small, fac. rewrite E1, E2, !Rmult_1_r. cbn [q_m qp_of]. rewrite Dm. reflexivity. }
    set (pv := fun i => polar (uE s i * rnth (d_l d) i) (uE s i * rnth (d_u d) i) (uy t1 i - uy t i)).
    assert (EN : ninf m (step_y (uE s) (sv_work t1)) = (uc s * ninf m pv)%R). { rewrite (ninf_ext m _ (fun i => uc s * pv i)%R) by exact SY. rewrite ninf_scal, Rabs_right by lra. auto. }
    unfold pfound. rewrite PO, D1, Em, EN. unfold fac. rewrite Rmult_1_r. split.
    - intros (H1 & H2 & H3). split; [auto|]. exists pv. split; [intros; apply polar_drops|]. split; [auto|]. apply (infeasible_scal_inv (uc s)); auto.
      eapply infeasible_ext; [|exact H3]. cbn [q_m qp_of]. rewrite Dm. exact SY.
    - intros (H1 & v & H2 & H3 & H4). split; [auto|]. assert (EV : forall i, 0 <= i < m -> v i = pv i) by (intros i Hi; eapply drops_unique; [apply H2; auto|apply polar_drops]).
      rewrite <- (ninf_ext m v pv) by auto. split; [auto|].
      eapply infeasible_ext; [|exact (infeasible_scal _ _ _ (uc s) Hc H4)]. cbn [q_m qp_of]. rewrite Dm. intros i Hi. cbv beta. rewrite SY by auto. rewrite EV by auto. reflexivity.
  Qed.
  Lemma dfound_at k t t1 : iterate E s k t t1 -> dfound st p (uc s) (uD s) (uE s) false (sv_work t1) <-> ~ dual_small t1 /\ certifies_unbounded t t1.
  Proof.
    intros HIt. destruct (session_facts E EO _ _ _ _ _ _ _ _ _ _ HS) as (HI & HR & _ & _ & Dn & Dm & _). destruct (session_size E EO _ _ _ _ _ _ _ _ _ _ HS) as (En & Em).
    destruct (iterate_facts E EO P A q0 l0 u0 m n ust s d k t t1 HS HIt) as (I1 & I2 & _ & _ & D0 & D1 & U1 & U2 & _ & _ & W & _). destruct (un_state s t1 U2) as (E1 & E2 & E3).
    destruct (step_deltas E EO t t1 I1 W) as (HD & _). rewrite D0, En in HD. destruct (uscal_all _ _ U1) as (V1 & V2 & V3). destruct (uscal_all _ _ U2) as (W1 & W2 & W3).
    assert (SX : forall i, 0 <= i < n -> step_x (uD s) (sv_work t1) i = (ux t1 i - ux t i)%R) by (intros i Hi; unfold step_x, ux; rewrite HD, V2, W2 by auto; ring).
    pose proof (ref_scaled_qp d s HR) as [Q1 Q2 Q3 Q4 Q5 Q6 Q7 Q8 Q9 Q10]. cbn [q_l q_u q_m q_n qp_of] in *.
    assert (DO : dual_ok st p (uc s) (uD s) (uE s) false (sv_work t1) <-> dual_small t1).
    { unfold dual_ok, dual_small, fac. rewrite E1, E3, !Rmult_1_r. cbn [q_n q_q qp_of]. rewrite Dn. reflexivity. }
    unfold dfound, certifies_unbounded. cbv zeta. rewrite DO, D1, En, (ninf_ext n _ _ SX). unfold fac. rewrite Rmult_1_r.
    assert (UB : unbounded_within (absl (sv_work t1)) (absu (sv_work t1)) p (st_eps_dual_inf st) (step_x (uD s) (sv_work t1)) <-> unbounded_within absent_l absent_u p (st_eps_dual_inf st) (fun i => (ux t1 i - ux t i)%R)).
    { assert (AL : forall i, 0 <= i < d_m d -> absl (sv_work t1) i <-> absent_l i) by (intros i Hi; unfold absl, absent_l; rewrite D1, Q9 by auto; tauto).
      assert (AU : forall i, 0 <= i < d_m d -> absu (sv_work t1) i <-> absent_u i) by (intros i Hi; unfold absu, absent_u; rewrite D1, Q10 by auto; tauto).
      split; intros H.
      - eapply unbounded_ext; [cbn [q_n qp_of]; rewrite Dn; exact SX|]. eapply unbounded_abs; [| |exact H]; cbn [q_m qp_of]; intros i Hi; [apply AL|apply AU]; auto.
      - eapply unbounded_ext; [cbn [q_n qp_of]; rewrite Dn; intros i Hi; symmetry; apply SX; auto|]. eapply unbounded_abs; [| |exact H]; cbn [q_m qp_of]; intros i Hi; [apply AL|apply AU]; auto. }
    rewrite UB. tauto.
  Qed.
  Theorem user_found_pinf k t t1 : iterate E s k t t1 -> scheduled st k = true -> stop_requested E t1 = false -> time_over E t1 = false -> ~ huge_at t1 ->
    ~ prim_small t1 -> certifies_infeasible t t1 -> stat s' = OSQP_PRIMAL_INFEASIBLE /\ i_iter (sv_info s') = k.
  Proof.
    intros HIt Hsc HR HTm HB HM HP. apply (claim_found E EO P A q0 l0 u0 m n ust s d _ _ _ _ fl s' HS run_units HU HE k t t1 OSQP_PRIMAL_INFEASIBLE HIt Hsc HR HTm).
    apply an_pinf; [rewrite (big_at _ _ _ HIt); auto| |apply (pfound_at _ _ _ HIt); auto].
    rewrite (meets_at _ _ _ HIt). intros (v & _ & [S1 _ _]). apply HM. destruct (session_facts E EO _ _ _ _ _ _ _ _ _ _ HS) as (_ & _ & _ & _ & Dn & Dm & _).
    cbn [q_m qp_of] in S1. rewrite Dm, !Rmult_1_l in S1. exact S1.
  Qed.
  Theorem user_found_dinf k t t1 : iterate E s k t t1 -> scheduled st k = true -> stop_requested E t1 = false -> time_over E t1 = false -> ~ huge_at t1 ->
    (prim_small t1 \/ ~ certifies_infeasible t t1) -> ~ dual_small t1 -> certifies_unbounded t t1 -> stat s' = OSQP_DUAL_INFEASIBLE /\ i_iter (sv_info s') = k.
  Proof.
    intros HIt Hsc HR HTm HB HM HD HP. apply (claim_found E EO P A q0 l0 u0 m n ust s d _ _ _ _ fl s' HS run_units HU HE k t t1 OSQP_DUAL_INFEASIBLE HIt Hsc HR HTm).
    apply an_dinf; [rewrite (big_at _ _ _ HIt); auto| |rewrite (pfound_at _ _ _ HIt); tauto|apply (dfound_at _ _ _ HIt); auto].
    rewrite (meets_at _ _ _ HIt). intros (v & _ & [_ S2 _]). apply HD. destruct (session_facts E EO _ _ _ _ _ _ _ _ _ _ HS) as (_ & _ & _ & _ & Dn & Dm & _).
    cbn [q_n q_q qp_of] in S2. rewrite Dn, !Rmult_1_l in S2. exact S2.
  Qed.

  (** ** What a solved problem is worth *)
  Theorem user_quality : rho_in_range ust -> convex d -> stat s' = OSQP_SOLVED -> ~ polished s' ->
    let ep := (st_eps_abs st + st_eps_rel st * Rmax (ninf m (uz s')) (ninf m (Amul p (ux s'))))%R in
    let ed := (st_eps_abs st + st_eps_rel st * Rmax (Rmax (ninf n (rnth (d_q d))) (ninf n (Atmul p (uy s')))) (ninf n (Pmul p (ux s'))))%R in
    solution_is (ux s') (uy s') /\
    (forall i, 0 <= i < m -> (rnth (d_l d) i - ep <= Amul p (ux s') i <= rnth (d_u d) i + ep)%R) /\
    (forall x, feasible p x -> objective p (ux s') <= objective p x + ed * norm1 n (fun i => x i - ux s' i) + ep * norm1 m (uy s'))%R.
  Proof.
    intros HRR HC H1 H2 ep ed. destruct (user_solved H1 H2) as ((v & _ & [S1 S2 _]) & SI). split; [auto|].
    destruct (session_facts E EO _ _ _ _ _ _ _ _ _ _ HS) as (_ & _ & _ & _ & Dn & Dm & _). cbn [q_n q_m q_q qp_of] in S1, S2. rewrite Dm in S1. rewrite Dn in S2. rewrite !Rmult_1_l in S1, S2. fold ep in S1. fold ed in S2.
    assert (HH : has_solution (sv_info s') = true) by (apply has_solution_iff; unfold reports; stc).
    pose proof (solve_cone E EO P A q0 l0 u0 m n ust s d fl s' HS HRR HE HH H2) as CO.
    destruct (solved_quality p (ux s') (uz s') (uy s') ep ed (qp_symmetric d) HC) as (Q1 & Q2).
    - cbn [q_m qp_of]. rewrite Dm. intros i Hi. destruct S1 as [S1|S1]; [lia|]. pose proof (ninf_bound m (fun j => Amul p (ux s') j - uz s' j)%R i Hi) as H. cbv beta in H. lra.
    - pose proof (ninf_nonneg n (fun i => rnth (d_q d) i + Pmul p (ux s') i + Atmul p (uy s') i)%R). lra.
    - cbn [q_n q_q qp_of]. rewrite Dn. intros i Hi. pose proof (ninf_bound n (fun j => rnth (d_q d) j + Pmul p (ux s') j + Atmul p (uy s') j)%R i Hi) as H. cbv beta in H. lra.
    - cbn [q_m q_l q_u qp_of]. rewrite Dm. auto.
    - cbn [q_n q_m q_l q_u qp_of] in Q1, Q2. rewrite Dm in Q1, Q2. rewrite Dn in Q2. auto.
  Qed.

  (** A solve started at the optimum stops there, at the first scheduled test. *)
  Theorem user_from_optimum : exact_ldl E -> rho_in_range ust -> convex d -> tr (st_warm_starting st) = true -> kkt p (ux s) (uz s) (uy s) ->
    meets st p (uc s) (uE s) 1 (ux s) (uz s) (uy s) ->
    forall k t t1, iterate E s k t t1 -> scheduled st k = true -> stop_requested E t1 = false -> time_over E t1 = false -> stat s' = OSQP_SOLVED /\ i_iter (sv_info s') = k.
  Proof.
    intros EX HRR HC HW HK HM k t t1 HIt Hsc HR HTm. destruct (session_facts E EO _ _ _ _ _ _ _ _ _ _ HS) as (_ & _ & _ & _ & Dn & Dm & _).
    pose proof HIt as (f & HB & _). destruct (kkt_stays E EO P A q0 l0 u0 m n ust EX s d HS HC HRR HW HK k f t HB) as (_ & I1 & I2 & I3).
    assert (KT : kkt p (ux t) (uz t) (uy t)).
    { eapply kkt_ext; [| | |exact HK]; cbn [q_n q_m qp_of]; rewrite ?Dn, ?Dm; intros i Hi; symmetry; auto. }
    destruct (iterate_kkt_fixed E EO P A q0 l0 u0 m n ust EX s d k t t1 HS HC HRR HIt KT) as (F1 & F2 & F3).
    assert (K1 : kkt p (ux t1) (uz t1) (uy t1)).
    { eapply kkt_ext; [| | |exact KT]; cbn [q_n q_m qp_of]; rewrite ?Dn, ?Dm; intros i Hi; symmetry; auto. }
    apply (user_found_solved k t t1); auto.
    - destruct K1 as [K1 K2 K3]. cbn [q_n q_m q_q q_l q_u qp_of] in *. rewrite Dm in K2. rewrite Dn in K1. intros [H|H].
      + rewrite (ninf_ext _ _ (fun i => 0 * uz t1 i)%R) in H by (intros i Hi; cbv beta; rewrite K2 by auto; ring). rewrite ninf_scal, Rabs_R0, Rmult_0_l in H. assert (0 < 10 ^ 30)%R by (apply pow_lt; lra). lra.
      + rewrite (ninf_ext _ _ (fun i => 0 * ux t1 i)%R) in H by (intros i Hi; cbv beta; specialize (K1 i Hi); lra). rewrite ninf_scal, Rabs_R0, Rmult_0_l in H. assert (0 < 10 ^ 30)%R by (apply pow_lt; lra). lra.
    - eapply meets_ext; [| | |exact HM]; cbn [q_n q_m qp_of]; rewrite ?Dn, ?Dm; intros i Hi; symmetry; [rewrite F1|rewrite F2|rewrite F3]; auto.
  Qed.
  End Run.

  (** With scaled_termination on (and scaling on) the tests are those of the scaled problem: the one stored in the workspace, on the scaled iterate. *)
  Theorem stored_solved s d fl s' : ses s d -> ~ tests_users (sv_settings s) -> stat s = OSQP_UNSOLVED -> solve E s = Some (fl, s') -> stat s' = OSQP_SOLVED -> ~ polished s' ->
    meets (sv_settings s) (qp_of (w_data (sv_work s))) 1 (fun _ => 1%R) 1 (rnth (w_x (sv_work s'))) (rnth (w_z (sv_work s'))) (rnth (w_y (sv_work s'))).
  Proof.
    intros HS HT HU HE H1 H2. pose proof (claim_solved E EO P A q0 l0 u0 m n ust s d _ _ _ _ fl s' HS (stored_tunits s HT) HU HE H1 H2) as HP.
    eapply meets_ext; [| | |exact HP]; intros i Hi; unfold unx, unz, uny; field.
  Qed.
  Theorem stored_from_optimum s d fl s' : ses s d -> ~ tests_users (sv_settings s) -> stat s = OSQP_UNSOLVED -> solve E s = Some (fl, s') ->
    exact_ldl E -> rho_in_range ust -> convex d -> tr (st_warm_starting (sv_settings s)) = true -> kkt (qp_of d) (ux s) (uz s) (uy s) ->
    tr (st_check_dualgap (sv_settings s)) = false -> (0 < st_eps_abs (sv_settings s))%R -> (0 <= st_eps_rel (sv_settings s))%R ->
    forall k t t1, iterate E s k t t1 -> scheduled (sv_settings s) k = true -> stop_requested E t1 = false -> time_over E t1 = false -> stat s' = OSQP_SOLVED /\ i_iter (sv_info s') = k.
  Proof.
    intros HS HT HU HE EX HRR HC HW HK HG He1 He2 k t t1 HIt Hsc HR HTm. destruct (session_facts E EO _ _ _ _ _ _ _ _ _ _ HS) as (_ & _ & _ & _ & Dn & Dm & _).
    pose proof HIt as (f & HB & _). destruct (kkt_stays E EO P A q0 l0 u0 m n ust EX s d HS HC HRR HW HK k f t HB) as (_ & I1 & I2 & I3).
    assert (KT : kkt (qp_of d) (ux t) (uz t) (uy t)).
    { eapply kkt_ext; [| | |exact HK]; cbn [q_n q_m qp_of]; rewrite ?Dn, ?Dm; intros i Hi; symmetry; auto. }
    destruct (iterate_kkt_fixed E EO P A q0 l0 u0 m n ust EX s d k t t1 HS HC HRR HIt KT) as (F1 & F2 & F3).
    assert (K1 : kkt (qp_of d) (ux t1) (uz t1) (uy t1)).
    { eapply kkt_ext; [| | |exact KT]; cbn [q_n q_m qp_of]; rewrite ?Dn, ?Dm; intros i Hi; symmetry; auto. }
    destruct (iterate_facts E EO P A q0 l0 u0 m n ust s d k t t1 HS HIt) as (_ & _ & _ & _ & _ & D1 & _ & U1 & _).
    destruct (un_state s t1 U1) as (E1 & E2 & E3). rewrite <- E1, <- E2, <- E3 in K1.
    destruct (session_units E EO P A q0 l0 u0 m n ust s d HS) as (_ & _ & _ & SU). destruct (SU (rnth (w_x (sv_work t1))) (rnth (w_z (sv_work t1))) (rnth (w_y (sv_work t1)))) as (_ & _ & _ & SK).
    assert (KS : kkt (qp_of (w_data (sv_work s))) (rnth (w_x (sv_work t1))) (rnth (w_z (sv_work t1))) (rnth (w_y (sv_work t1)))) by (apply SK; exact K1). clear SU SK K1.
    pose proof (stored_tunits s HT) as TU. set (one := fun _ : Z => 1%R) in *.
    assert (KU : kkt (qp_of (w_data (sv_work s))) (unx one (rnth (w_x (sv_work t1)))) (unz one (rnth (w_z (sv_work t1)))) (uny 1 one (rnth (w_y (sv_work t1))))).
    { eapply kkt_ext; [| | |exact KS]; intros i _; unfold unx, unz, uny, one; field. }
    apply (claim_found E EO P A q0 l0 u0 m n ust s d _ _ _ _ fl s' HS TU HU HE k t t1 OSQP_SOLVED HIt Hsc HR HTm). apply an_solved.
    - unfold big. rewrite D1. destruct KU as [K1 K2 _]. cbn [q_n q_m q_q qp_of] in K1, K2. assert (0 < 10 ^ 30)%R by (apply pow_lt; lra). intros [H1|H1].
      + rewrite (ninf_ext _ _ (fun i => 0 * rnth (w_z (sv_work t1)) i)%R) in H1 by (intros i Hi; cbv beta; rewrite K2 by auto; ring). rewrite ninf_scal, Rabs_R0, Rmult_0_l in H1. lra.
      + rewrite (ninf_ext _ _ (fun i => 0 * rnth (w_x (sv_work t1)) i)%R) in H1 by (intros i Hi; cbv beta; specialize (K1 i Hi); cbn [q_q qp_of]; lra). rewrite ninf_scal, Rabs_R0, Rmult_0_l in H1. lra.
    - pose proof (scaled_trim s _ _ _ _ TU (sv_work t1) D1) as TR.
      destruct (kkt_meets (sv_settings s) _ 1 one _ _ _ He1 He2 KU) as (v & T & H); [eauto|congruence|].
      unfold swithin, fac. rewrite !(Rmult_comm _ 1). eapply solved_ext; [| | | |exact H]; auto. apply (trimmed_unique _ _ _ _ _ _ _ _ T TR).
  Qed.
End User.
