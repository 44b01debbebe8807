(** The iterations of osqp_solve on the user's problem, over any session. *)
From Coq Require Import ZArith Reals List Bool Lia Lra String.
From Verif Require Import Num Arr ArrFacts RSum Csc CscSpec CscFacts CscFacts2 Vec VecFacts Types Kkt KktSpec KktDense Linsys LinsysFacts LinsysSolve Scaling Validate Auxil Polish Api
  Inv RecSimp InvStep InvApi InvScale InvSolve ValidFacts InvUpd InvSetup History RealVec RealStep Frame FrameSolve ProbSpec ScaleReal FrameUpd UserSpec Refine ExEnv Ldl LdlEnv Session ExReal DataFacts Obs DataClaims KktClaims QpSpec AdmmSpec Mid Trace.
Import ListNotations.
Open Scope Z_scope.

(** ** z within the bounds, in any number system *)
Section Bounds.
  Context {K : NumOps}.
  Variable E : Env K.

  (** z is u, or l with l < u, or strictly between. *)
  Definition within (l u z : K) : Prop := z = u \/ (z = l /\ nltb l u = true) \/ (nltb l z = true /\ nltb z u = true).
  Definition z_within (w : work K) : Prop := forall i, 0 <= i < d_m (w_data w) -> within (znth n0 (d_l (w_data w)) i) (znth n0 (d_u (w_data w)) i) (znth n0 (w_z w) i).

  Lemma clip_within (v l u : K) : within l u (c_min (c_max v l) u).
  Proof.
    unfold within, c_min, c_max. destruct (nltb l v) eqn:E1.
    - destruct (nltb v u) eqn:E2; auto.
    - destruct (nltb l u) eqn:E2; auto.
  Qed.

  Lemma update_z_within st (w : work K) : wok st w -> post (update_z st w) (fun w' => w_data w' = w_data w /\ z_within w').
  Proof.
    intros H. unfold update_z. walk1. walk1. walk1.
    destruct (wo_d _ _ H).
    match goal with H : vf_ew_bound_vec _ _ _ _ = Some ?a |- _ => unfold vf_ew_bound_vec in H; apply v3_inv in H; destruct H as (-> & L1 & L2 & L3) end.
    apply post_ret. rs. split; [reflexivity|]. intros i Hi. rs_in Hi. rs. rewrite (znth_zip3 n0 n0 n0 n0) by lia. apply clip_within.
  Qed.
  Lemma update_y_keeps st (w : work K) : post (update_y st w) (fun w' => w_data w' = w_data w /\ w_z w' = w_z w).
  Proof. unfold update_y. walk; auto. Qed.

  Hypothesis EO : env_ok E.
  Lemma step_within (t t' : solver K) : Inv t -> admm_step E t = Some t' -> z_within (sv_work t').
  Proof.
    intros HI. unfold admm_step, push_sec, pop_sec. rs. pose proof (iv_w _ HI) as HW.
    pose proof (swap_safe (sv_settings t) (sv_work t) HW) as HK0. pose proof (wok_keeps _ _ _ HW HK0) as H0.
    destruct (update_xz_tilde_safe E EO (sv_settings t) _ H0) as (w1 & -> & HK1). pose proof (wok_keeps _ _ _ H0 HK1) as H1. rs.
    destruct (update_x_safe (sv_settings t) _ H1) as (w2 & -> & HK2). pose proof (wok_keeps _ _ _ H1 HK2) as H2. rs.
    destruct (update_z (sv_settings t) w2) as [w3|] eqn:E3; [|discriminate]. destruct (update_z_within _ _ H2 _ E3) as (D3 & Z3). rs.
    destruct (update_y (sv_settings t) w3) as [w4|] eqn:E4; [|discriminate]. destruct (update_y_keeps _ _ _ E4) as (D4 & Z4). intros HE. injection HE as <-. rs.
    unfold z_within in *. rewrite D4, Z4. exact Z3.
  Qed.
  Hypothesis MM : nltb (OSQP_RHO_MIN K) (OSQP_RHO_MAX K) = true.
  Theorem iterate_within g P q A l u m n st s0 g' s k t t' : data_readable P q A l u m n -> osqp_setup E g P q A l u m n st = Some (0, Some s0, g') -> reach E s0 s ->
    iterate E s k t t' -> w_data (sv_work t') = w_data (sv_work s) /\ z_within (sv_work t').
  Proof.
    intros HDR HS HR HIt.
    destruct (osqp_setup_safe E EO MM g P q A l u m n st HDR) as (r & Er & HRes). rewrite HS in Er. injection Er as <-. cbn [fst snd] in HRes.
    inversion HRes as [| |? ? ? ? ? ? ? ? ? ? EE|s1 g1 HDO HV HI0 Dn Dm HF Hw HLF Hsec Hhan EE]; subst; try discriminate.
    destruct (reach_inv E EO MM s0 s HI0 HR) as (HI & _).
    destruct (iterate_inv E EO MM s k t t' HI HIt) as (I1 & _). destruct HIt as (f & HB & _ & HA). split; [|eapply step_within; eauto].
    rewrite <- (sf_d _ _ (before_sfr E _ _ _ _ HB)). pose proof (admm_step_post E t t' HA) as HX. cbv beta in HX. destruct HX as (_ & _ & _ & _ & HX & _). apply fixed_core in HX. unfold core in HX. congruence.
  Qed.
End Bounds.

(** ** Exact arithmetic *)
Lemma ref_scaled_qp d (s : solver Rops) : ref d s -> scaled_qp (uc s) (uD s) (uE s) (qp_of d) (qp_of (w_data (sv_work s))).
Proof.
  intros HR. pose proof (units_pos _ _ HR) as (PC & PD & PE). pose proof (ref_stored _ _ HR) as [S1 S2 S3 S4 S5 S6 S7].
  constructor; cbn [q_n q_m q_P q_A q_q q_l q_u qp_of]; auto; intros; rewrite ?S3, ?S4, ?S5, ?S6, ?S7 by auto; auto.
Qed.
Lemma units_sfr (s t : solver Rops) : sfr s t -> uscal t = uscal s.
Proof. intros [_ H1 _ H2 _]. unfold uscal. apply same_st_keep in H2 as (_ & _ & _ & -> & _). rewrite H1. auto. Qed.
Lemma uscal_all (s t : solver Rops) : uscal t = uscal s -> uc t = uc s /\ uD t = uD s /\ uE t = uE s.
Proof. intros H. unfold uc, uD, uE. rewrite H. auto. Qed.
Lemma iter3_u (s t : solver Rops) : uscal t = uscal s -> iter3 (sv_work t) = iter3 (sv_work s) -> ux t = ux s /\ uz t = uz s /\ uy t = uy s.
Proof. intros H1 H2. destruct (uscal_all _ _ H1) as (U1 & U2 & U3). unfold iter3 in H2. injection H2 as X1 X2 X3. unfold ux, uz, uy. rewrite U1, U2, U3, X1, X2, X3. auto. Qed.

(** The weighted distance between (x, z, y) and (x', z', y') in the user's units: the ADMM metric of the scaled problem. *)
Definition wdist (c : R) (D E : Z -> R) (n m : Z) (sigma : R) (rho : Z -> R) (x z y x' z' y' : Z -> R) : R :=
  (sigma * sumn n (fun i => ((x i - x' i) / D i) ^ 2) +
   sumn m (fun i => rho i * (E i * (z i - z' i) + c / E i * (y i - y' i) / rho i) ^ 2))%R.
(** The length of a step of the linear system in the same metric. *)
Definition wmoved (D E : Z -> R) (n m : Z) (sigma : R) (rho : Z -> R) (x z x' z' : Z -> R) : R :=
  (sigma * sumn n (fun i => ((x i - x' i) / D i) ^ 2) + sumn m (fun i => rho i * (E i * (z i - z' i)) ^ 2))%R.

Section Admm.
  Variable E : Env Rops.
  Hypothesis EO : env_ok E.
  Variables (P A : csc Rops) (q0 l0 u0 : option (list R)) (m n : Z) (ust : settings Rops).
  Notation ses := (session E P A q0 l0 u0 m n ust).

  (** C17: the user's problem and the stored one have the same feasible, optimal and KKT points. *)
  Theorem session_units s d : ses s d -> let p := qp_of (w_data (sv_work s)) in
    (0 < uc s)%R /\ (forall i, 0 <= i < n -> (0 < uD s i)%R) /\ (forall i, 0 <= i < m -> (0 < uE s i)%R) /\
    forall xs zs ys, let x := fun i => (uD s i * xs i)%R in let z := fun i => (zs i / uE s i)%R in let y := fun i => (uE s i * ys i / uc s)%R in
      objective p xs = (uc s * objective (qp_of d) x)%R /\ (feasible p xs <-> feasible (qp_of d) x) /\ (minimiser p xs <-> minimiser (qp_of d) x) /\
      (kkt p xs zs ys <-> kkt (qp_of d) x z y).
  Proof.
    intros HS p. destruct (session_facts E EO _ _ _ _ _ _ _ _ _ _ HS) as (_ & HR & _ & _ & Dn & Dm & _). pose proof (ref_scaled_qp d s HR) as SQ.
    split; [apply SQ|]. split; [intros i Hi; apply SQ; cbn; rewrite Dn; auto|]. split; [intros i Hi; apply SQ; cbn; rewrite Dm; auto|].
    intros xs zs ys. cbv zeta. split; [exact (un_objective _ _ _ _ _ SQ xs)|]. split; [exact (un_feasible _ _ _ _ _ SQ xs)|]. split; [exact (un_minimiser _ _ _ _ _ SQ xs)|exact (un_kkt _ _ _ _ _ SQ xs zs ys)].
  Qed.

  Lemma alpha_range s d : ses s d -> (0 < st_alpha (sv_settings s) < 2)%R.
  Proof.
    intros HS. destruct (session_facts E EO _ _ _ _ _ _ _ _ _ _ HS) as (_ & _ & _ & HK & _). destruct (vs_alpha _ _ HK) as (H1 & H2).
    unfold keep_settings in *. rs_in H1. rs_in H2. rewrite gt_ok_R in H1. rewrite lt_ok_R in H2. rewrite n0_R in H1. rewrite nofZ_R in H2. split; auto.
  Qed.
  Lemma max_iter_pos s d : ses s d -> 1 <= st_max_iter (sv_settings s).
  Proof.
    intros HS. destruct (session_facts E EO _ _ _ _ _ _ _ _ _ _ HS) as (_ & _ & _ & HK & _). pose proof (vs_max_iter _ _ HK) as H1.
    unfold keep_settings in *. rs_in H1. lia.
  Qed.

  (** What every iteration of a solve in the session starts from. *)
  Lemma iterate_facts s d k t t' : ses s d -> iterate E s k t t' ->
    Inv t /\ Inv t' /\ sfr s t /\ sfr s t' /\ w_data (sv_work t) = w_data (sv_work s) /\ w_data (sv_work t') = w_data (sv_work s) /\ uscal t = uscal s /\ uscal t' = uscal s /\
    st_alpha (sv_settings t) = st_alpha (sv_settings s) /\ st_sigma (sv_settings t) = st_sigma (sv_settings s) /\
    work_step E (sv_settings t) (sv_work t) = Some (sv_work t') /\ (forall i, 0 <= i < m -> (0 < rho_at (sv_settings t) (sv_work t) i)%R).
  Proof.
    intros HS HIt. destruct (session_facts E EO _ _ _ _ _ _ _ _ _ _ HS) as (HI & HR & _). destruct (session_size E EO _ _ _ _ _ _ _ _ _ _ HS) as (En & Em).
    destruct (iterate_inv E EO MM_R s k t t' HI HIt) as (I1 & _ & I2 & _). destruct HIt as (f & HB & _ & HA).
    pose proof (before_sfr E _ _ _ _ HB) as S1. pose proof (admm_step_post E t t' HA) as HX. cbv beta in HX. destruct HX as (X1 & _ & _ & _ & X2 & _).
    assert (S2 : sfr s t') by (eapply sfr_trans; [exact S1|apply sfr_fixed; auto using fixed_core]).
    destruct (admm_step_work E t t' HA) as (W & _). pose proof (sf_d _ _ S1) as D1. pose proof (sf_d _ _ S2) as D2. pose proof (same_st_keep _ _ (sf_st _ _ S1)) as (K1 & K2 & _).
    repeat match goal with |- _ /\ _ => split; [solve [auto using units_sfr]|] end. intros i Hi. apply rho_at_pos; auto. rewrite D1. lia.
  Qed.

  (** C30 needs no exact linear solver. *)
  Lemma step_zy (t t' : solver Rops) : Inv t -> rsync t -> work_step E (sv_settings t) (sv_work t) = Some (sv_work t') ->
    exists zt, forall i, 0 <= i < d_m (w_data (sv_work t)) -> let rho := rho_at (sv_settings t) (sv_work t) i in let al := st_alpha (sv_settings t) in
      let v := (al * zt i + (1 - al) * rnth (w_z (sv_work t)) i + / rho * rnth (w_y (sv_work t)) i)%R in
      rnth (w_z (sv_work t')) i = clipR (rnth (d_l (w_data (sv_work t))) i) (rnth (d_u (w_data (sv_work t))) i) v /\
      rnth (w_y (sv_work t')) i = (rho * (v - rnth (w_z (sv_work t')) i))%R.
  Proof.
    intros HI HRS HW. set (st := sv_settings t) in *. set (w := sv_work t) in *. pose proof (iv_w _ HI) as H. fold st w in H.
    assert (HPos : forall i, 0 <= i < d_m (w_data w) -> (0 < rho_at st w i)%R) by (intros i Hi; apply (rho_at_pos t i HI); auto).
    assert (HRI : forall i, 0 <= i < d_m (w_data w) -> rinv_at st w i = (/ rho_at st w i)%R).
    { intros i Hi. apply rinv_at_rho; auto. intros Hv. specialize (HRS Hv). rewrite n1_R in HRS. fold w st in HRS. rewrite HRS. cbn [ndiv Rops]. unfold Rdiv. apply Rmult_1_l. }
    unfold work_step in HW. pose proof (swap_safe st w H) as HK0. pose proof (wok_keeps _ _ _ H HK0) as H0.
    destruct (update_xz_tilde E st (swap_iterates w)) as [w1|] eqn:E1; [|discriminate].
    destruct (update_xz_tilde_safe E EO st _ H0) as (w1' & E1' & HK1). rewrite E1 in E1'. injection E1' as <-. pose proof (wok_keeps _ _ _ H0 HK1) as H1.
    destruct (update_xz_tilde_post E _ _ _ E1) as (xt & ->).
    destruct (update_x st _) as [w2|] eqn:E2; [|discriminate].
    destruct (update_x_safe st _ H1) as (w2' & E2' & HK2). rewrite E2 in E2'. injection E2' as <-. pose proof (wok_keeps _ _ _ H1 HK2) as H2.
    destruct (update_x_post _ _ _ E2) as (x & dx & ->).
    destruct (update_z st _) as [w3|] eqn:E3; [|discriminate].
    destruct (update_z_safe st _ H2) as (w3' & E3' & HK3). rewrite E3 in E3'. injection E3' as <-. pose proof (wok_keeps _ _ _ H2 HK3) as H3.
    destruct (update_z_real st _ H2) as (w3' & E3' & z & EZ & Lz & Z1). rewrite E3 in E3'. injection E3' as <-.
    destruct (update_y_real st _ H3) as (w4 & E4 & y & dy & EY & Y1 & Y2). rewrite HW in E4. injection E4 as E4. rewrite E4, EY. clear HW E4 EY.
    exists (fun i => rnth xt (d_n (w_data w) + i)). subst w3. clear H1 H2 H3 HK1 HK2 HK3 HK0 H0 E1 E2 E3. unfold swap_iterates in *. unfold rho_at, rinv_at in *. rs_all.
    intros i Hi. split.
    - rewrite Z1 by auto. rewrite HRI by auto. reflexivity.
    - rewrite Y2, Y1 by auto. specialize (HPos i Hi). fold w in HPos |- *. field. lra.
  Qed.

  (** delta_x and delta_y are the steps made. *)
  Lemma step_deltas (t t' : solver Rops) : Inv t -> work_step E (sv_settings t) (sv_work t) = Some (sv_work t') ->
    (forall i, 0 <= i < d_n (w_data (sv_work t)) -> rnth (w_delta_x (sv_work t')) i = (rnth (w_x (sv_work t')) i - rnth (w_x (sv_work t)) i)%R) /\
    (forall i, 0 <= i < d_m (w_data (sv_work t)) -> rnth (w_delta_y (sv_work t')) i = (rnth (w_y (sv_work t')) i - rnth (w_y (sv_work t)) i)%R).
  Proof.
    intros HI HW. set (st := sv_settings t) in *. set (w := sv_work t) in *. pose proof (iv_w _ HI) as H. fold st w in H.
    unfold work_step in HW. pose proof (swap_safe st w H) as HK0. pose proof (wok_keeps _ _ _ H HK0) as H0.
    destruct (update_xz_tilde E st (swap_iterates w)) as [w1|] eqn:E1; [|discriminate].
    destruct (update_xz_tilde_safe E EO st _ H0) as (w1' & E1' & HK1). rewrite E1 in E1'. injection E1' as <-. pose proof (wok_keeps _ _ _ H0 HK1) as H1.
    destruct (update_xz_tilde_post E _ _ _ E1) as (xt & ->).
    destruct (update_x st _) as [w2|] eqn:E2; [|discriminate].
    destruct (update_x_safe st _ H1) as (w2' & E2' & HK2). rewrite E2 in E2'. injection E2' as <-. pose proof (wok_keeps _ _ _ H1 HK2) as H2.
    destruct (update_x_real st _ H1) as (w2' & E2' & x & dx & EX' & X1 & X2). rewrite E2 in E2'. injection E2' as <-.
    destruct (update_z st _) as [w3|] eqn:E3; [|discriminate].
    destruct (update_z_safe st _ H2) as (w3' & E3' & HK3). rewrite E3 in E3'. injection E3' as <-. pose proof (wok_keeps _ _ _ H2 HK3) as H3.
    destruct (update_z_real st _ H2) as (w3' & E3' & z & EZ & Lz & Z1). rewrite E3 in E3'. injection E3' as <-.
    destruct (update_y_real st _ H3) as (w4 & E4 & y & dy & EY & Y1 & Y2). rewrite HW in E4. injection E4 as E4. rewrite E4, EY. clear HW E4 EY.
    subst w3 w2. clear H1 H2 H3 HK1 HK2 HK3 HK0 H0 E1 E2 E3. unfold swap_iterates in *. rs_all.
    split; intros i Hi; [apply X2; auto|]. rewrite Y2 by auto. lra.
  Qed.

  Theorem iterate_cone s d k t t' : ses s d -> rho_in_range ust -> iterate E s k t t' ->
    (forall i, 0 <= i < m -> ncone (rnth (d_l (w_data (sv_work s))) i) (rnth (d_u (w_data (sv_work s))) i) (rnth (w_z (sv_work t')) i) (rnth (w_y (sv_work t')) i)) /\
    (forall i, 0 <= i < m -> ncone (rnth (d_l d) i) (rnth (d_u d) i) (uz t' i) (uy t' i)).
  Proof.
    intros HS HRR HIt. destruct (session_facts E EO _ _ _ _ _ _ _ _ _ _ HS) as (HI & HR & _ & _ & Dn & Dm & _). destruct (session_size E EO _ _ _ _ _ _ _ _ _ _ HS) as (En & Em).
    destruct (iterate_facts s d k t t' HS HIt) as (I1 & I2 & S1 & S2 & D1 & D2 & U1 & U2 & _ & _ & W & HP).
    pose proof (session_rsync E EO _ _ _ _ _ _ _ _ _ _ HS HRR) as RS.
    destruct (step_zy t t' I1 (sf_rs _ _ S1 RS) W) as (zt & HZ). rewrite D1, Em in HZ.
    destruct (session_bounds E _ _ _ _ _ _ _ _ s d EO HS) as (HB & _).
    assert (HN : forall i, 0 <= i < m -> ncone (rnth (d_l (w_data (sv_work s))) i) (rnth (d_u (w_data (sv_work s))) i) (rnth (w_z (sv_work t')) i) (rnth (w_y (sv_work t')) i)).
    { intros i Hi. destruct (HZ i Hi) as (-> & ->). apply clip_ncone; auto. }
    split; auto. intros i Hi. pose proof (ref_scaled_qp _ _ HR) as SQ.
    pose proof (proj1 (un_cone _ _ _ _ _ SQ (rnth (w_z (sv_work t'))) (rnth (w_y (sv_work t'))) i ltac:(cbn; lia))) as HC. cbn [q_l q_u qp_of] in HC. specialize (HC (HN i Hi)).
    destruct (uscal_all _ _ U2) as (V1 & V2 & V3). unfold uz, uy. rewrite V1, V3. exact HC.
  Qed.

  (** The same for what osqp_solve leaves behind. *)
  Theorem solve_cone s d fl s' : ses s d -> rho_in_range ust -> solve E s = Some (fl, s') -> has_solution (sv_info s') = true -> ~ polished s' ->
    forall i, 0 <= i < m -> ncone (rnth (d_l d) i) (rnth (d_u d) i) (uz s' i) (uy s' i).
  Proof.
    intros HS HRR HE HH HN i Hi. destruct (solve_last E s fl s' (max_iter_pos s d HS) HE) as (k & t & t1 & Hk & HIt & HL).
    destruct (iterate_cone s d k t t1 HS HRR HIt) as (_ & HC). destruct (iterate_facts s d k t t1 HS HIt) as (_ & _ & _ & S2 & _ & _ & _ & U2 & _).
    pose proof (units_sfr _ _ (solve_sfr E s _ HE)) as U3. cbn [snd] in U3.
    destruct (iter3_u t1 s' ltac:(congruence) (HL HH HN)) as (_ & -> & ->). auto.
  Qed.

  Section Exact.
  Hypothesis EX : exact_ldl E.

  (** C13: each iteration is an exact ADMM iteration for the stored problem, and delta_x, delta_y are the steps it made. *)
  Theorem iterate_step s d k t t' : ses s d -> convex d -> rho_in_range ust -> iterate E s k t t' ->
    (exists xt zt, adm (qp_of (w_data (sv_work s))) (st_sigma (sv_settings s)) (st_alpha (sv_settings s)) (rho_at (sv_settings t) (sv_work t))
      (rnth (w_x (sv_work t))) (rnth (w_z (sv_work t))) (rnth (w_y (sv_work t))) (rnth (w_x (sv_work t'))) (rnth (w_z (sv_work t'))) (rnth (w_y (sv_work t'))) xt zt) /\
    (forall i, 0 <= i < n -> rnth (w_delta_x (sv_work t')) i = (rnth (w_x (sv_work t')) i - rnth (w_x (sv_work t)) i)%R) /\
    (forall i, 0 <= i < m -> rnth (w_delta_y (sv_work t')) i = (rnth (w_y (sv_work t')) i - rnth (w_y (sv_work t)) i)%R).
  Proof.
    intros HS HC HRR HIt. destruct (session_facts E EO _ _ _ _ _ _ _ _ _ _ HS) as (HI & HR & Hsg & _). destruct (session_size E EO _ _ _ _ _ _ _ _ _ _ HS) as (En & Em).
    destruct (iterate_facts s d k t t' HS HIt) as (I1 & I2 & S1 & S2 & D1 & D2 & U1 & U2 & Ea & Es & W & HP).
    pose proof (session_rsync E EO _ _ _ _ _ _ _ _ _ _ HS HRR) as RS. pose proof (sf_rs _ _ S1 RS) as RS'.
    destruct (work_step_real E EO (sv_settings t) (sv_work t)) as (w' & EW & (xt & zt & HA & _ & _ & HDx & HDy)).
    - apply I1.
    - intros Hv. specialize (RS' Hv). rewrite n1_R in RS'. rewrite RS'. cbn [ndiv Rops]. unfold Rdiv. apply Rmult_1_l.
    - intros ls El. assert (Hs' : (0 < st_sigma (sv_settings t))%R) by (rewrite Es; auto). assert (HP' : psd (d_n (w_data (sv_work t))) (sdns (d_P (w_data (sv_work t))))) by (rewrite D1; eapply ref_convex; eauto).
      destruct (convex_exact_w E EX (sv_settings t) (sv_work t) (iv_w _ I1) (inv_rho_pos _ I1) Hs' HP' ls El) as (_ & _ & HSol). exact HSol.
    - intros i Hi. rewrite D1, Em in Hi. specialize (HP i Hi). lra.
    - rewrite W in EW. injection EW as <-. rewrite D1 in HDx, HDy. rewrite En in HDx. rewrite Em in HDy. split; [|split; [exact HDx|exact HDy]]. exists xt, zt. unfold adm. cbn [q_n q_m q_P q_A q_q q_l q_u qp_of]. rewrite D1, Ea, Es in HA. exact HA.
  Qed.
  Theorem iterate_adm s d k t t' : ses s d -> convex d -> rho_in_range ust -> iterate E s k t t' ->
    exists xt zt, adm (qp_of (w_data (sv_work s))) (st_sigma (sv_settings s)) (st_alpha (sv_settings s)) (rho_at (sv_settings t) (sv_work t))
      (rnth (w_x (sv_work t))) (rnth (w_z (sv_work t))) (rnth (w_y (sv_work t))) (rnth (w_x (sv_work t'))) (rnth (w_z (sv_work t'))) (rnth (w_y (sv_work t'))) xt zt.
  Proof. intros. eapply iterate_step; eauto. Qed.

  Lemma stored_ok s d t : ses s d -> convex d -> Inv t -> w_data (sv_work t) = w_data (sv_work s) ->
    let p := qp_of (w_data (sv_work s)) in symmetric p /\ convex_qp p /\ q_n p = n /\ q_m p = m /\ (forall i, 0 <= i < q_m p -> (q_l p i <= q_u p i)%R) /\
    (forall i, 0 <= i < q_m p -> (0 < rho_at (sv_settings t) (sv_work t) i)%R) /\ scaled_qp (uc s) (uD s) (uE s) (qp_of d) p.
  Proof.
    intros HS HC HI HD p. destruct (session_facts E EO _ _ _ _ _ _ _ _ _ _ HS) as (_ & HR & _). destruct (session_size E EO _ _ _ _ _ _ _ _ _ _ HS) as (En & Em).
    split; [apply qp_symmetric|]. split; [apply (ref_convex d s HR HC)|]. split; [exact En|]. split; [exact Em|]. split; [|split; [|apply ref_scaled_qp; auto]].
    - intros i Hi. change (q_m p) with (d_m (w_data (sv_work s))) in Hi. rewrite Em in Hi. apply (session_bounds E _ _ _ _ _ _ _ _ s d EO HS); auto.
    - intros i Hi. apply rho_at_pos; auto. rewrite HD. exact Hi.
  Qed.

  Lemma kkt_ext p x z y x' z' y' : (forall i, (0 <= i < q_n p)%Z -> x i = x' i) -> (forall i, (0 <= i < q_m p)%Z -> z i = z' i) -> (forall i, (0 <= i < q_m p)%Z -> y i = y' i) -> kkt p x z y -> kkt p x' z' y'.
  Proof.
    intros Ex Ez Ey [K1 K2 K3]. constructor; intros i Hi.
    - rewrite <- (K1 i Hi). unfold Pmul, Atmul. rewrite (mulR_ext _ _ x' x), (mulR_ext _ _ y' y) by (intros; symmetry; auto). auto.
    - rewrite <- Ez by auto. rewrite <- K2 by auto. unfold Amul. apply mulR_ext. intros; symmetry; auto.
    - rewrite <- Ez, <- Ey by auto. auto.
  Qed.

  (** The iterate of a state, in the user's units and in the solver's. *)
  Lemma un_state (s t : solver Rops) : uscal t = uscal s -> unx (uD s) (rnth (w_x (sv_work t))) = ux t /\ unz (uE s) (rnth (w_z (sv_work t))) = uz t /\ uny (uc s) (uE s) (rnth (w_y (sv_work t))) = uy t.
  Proof. intros H. destruct (uscal_all _ _ H) as (U1 & U2 & U3). unfold ux, uz, uy. rewrite U1, U2, U3. auto. Qed.

  (** C13: the x part of the linear step minimises the augmented Lagrangian of the stored problem. *)
  Theorem iterate_minimises s d k t t' : ses s d -> convex d -> rho_in_range ust -> iterate E s k t t' ->
    let p := qp_of (w_data (sv_work s)) in let al := st_alpha (sv_settings s) in
    exists xt, (forall i, 0 <= i < n -> rnth (w_x (sv_work t')) i = (al * xt i + (1 - al) * rnth (w_x (sv_work t)) i)%R) /\
      forall v, (augmented p (st_sigma (sv_settings s)) (rho_at (sv_settings t) (sv_work t)) (rnth (w_x (sv_work t))) (rnth (w_z (sv_work t))) (rnth (w_y (sv_work t))) xt <=
        augmented p (st_sigma (sv_settings s)) (rho_at (sv_settings t) (sv_work t)) (rnth (w_x (sv_work t))) (rnth (w_z (sv_work t))) (rnth (w_y (sv_work t))) v)%R.
  Proof.
    intros HS HC HRR HIt p al. destruct (iterate_adm s d k t t' HS HC HRR HIt) as (xt & zt & HA). destruct (iterate_facts s d k t t' HS HIt) as (I1 & _ & _ & _ & D1 & _).
    destruct (stored_ok s d t HS HC I1 D1) as (SY & CV & En & Em & SB & SR & SQ). destruct (session_facts E EO _ _ _ _ _ _ _ _ _ _ HS) as (_ & _ & Hsg & _).
    exists xt. split; [intros i Hi; apply (a1_x _ _ _ _ _ _ _ _ _ _ _ _ _ _ _ _ _ _ HA); fold p in En; unfold p in En; cbn [q_n qp_of] in *; lia|].
    eapply step_minimises; eauto.
  Qed.

  (** C31: fixed points are KKT points of the user's problem, and minimisers. *)
  Theorem iterate_fixed_kkt s d k t t' : ses s d -> convex d -> rho_in_range ust -> iterate E s k t t' ->
    (forall i, 0 <= i < n -> ux t' i = ux t i) -> (forall i, 0 <= i < m -> uz t' i = uz t i) -> (forall i, 0 <= i < m -> uy t' i = uy t i) ->
    kkt (qp_of d) (ux t) (uz t) (uy t) /\ minimiser (qp_of d) (ux t).
  Proof.
    intros HS HC HRR HIt Fx Fz Fy. destruct (iterate_adm s d k t t' HS HC HRR HIt) as (xt & zt & HA). destruct (iterate_facts s d k t t' HS HIt) as (I1 & I2 & _ & _ & D1 & D2 & U1 & U2 & _).
    destruct (stored_ok s d t HS HC I1 D1) as (SY & CV & En & Em & SB & SR & SQ). destruct (session_facts E EO _ _ _ _ _ _ _ _ _ _ HS) as (_ & HR & Hsg & _ & Dn & Dm & _). pose proof (alpha_range s d HS) as Hal.
    destruct (uscal_all _ _ U1) as (V1 & V2 & V3). destruct (uscal_all _ _ U2) as (V1' & V2' & V3'). unfold ux, uz, uy in Fx, Fz, Fy. rewrite V1, V2, V3, V1', V2', V3' in *.
    pose proof (sq_c _ _ _ _ _ SQ) as Pc. pose proof (sq_D _ _ _ _ _ SQ) as PD. pose proof (sq_E _ _ _ _ _ SQ) as PE. cbn [q_n q_m qp_of] in PD, PE. rewrite Dn in PD. rewrite Dm in PE.
    assert (HK : kkt (qp_of d) (ux t) (uz t) (uy t)).
    { destruct (un_state s t U1) as (<- & <- & <-). apply (un_kkt _ _ _ _ _ SQ). eapply fixed_kkt; try exact HA; auto; try lra; rewrite ?En, ?Em.
      - intros i Hi. specialize (Fx i Hi). specialize (PD i Hi). apply (Rmult_eq_reg_l (uD s i)); lra.
      - intros i Hi. specialize (Fz i Hi). specialize (PE i Hi). apply (Rmult_eq_reg_r (/ uE s i)); [exact Fz|]. apply Rinv_neq_0_compat. lra.
      - intros i Hi. specialize (Fy i Hi). specialize (PE i Hi). apply (Rmult_eq_reg_l (uE s i / uc s)); [unfold Rdiv in *; lra|]. apply Rmult_integral_contrapositive. split; [lra|]. apply Rinv_neq_0_compat. lra. }
    split; auto. eapply kkt_minimiser; eauto. apply qp_symmetric.
  Qed.
  (** C31: KKT points of the user's problem are fixed. *)
  Theorem iterate_kkt_fixed s d k t t' : ses s d -> convex d -> rho_in_range ust -> iterate E s k t t' -> kkt (qp_of d) (ux t) (uz t) (uy t) ->
    (forall i, 0 <= i < n -> ux t' i = ux t i) /\ (forall i, 0 <= i < m -> uz t' i = uz t i) /\ (forall i, 0 <= i < m -> uy t' i = uy t i).
  Proof.
    intros HS HC HRR HIt HK. destruct (iterate_adm s d k t t' HS HC HRR HIt) as (xt & zt & HA). destruct (iterate_facts s d k t t' HS HIt) as (I1 & I2 & _ & _ & D1 & D2 & U1 & U2 & _).
    destruct (stored_ok s d t HS HC I1 D1) as (SY & CV & En & Em & SB & SR & SQ). destruct (session_facts E EO _ _ _ _ _ _ _ _ _ _ HS) as (_ & HR & Hsg & _).
    destruct (un_state s t U1) as (X1 & X2 & X3). rewrite <- X1, <- X2, <- X3 in HK. apply (un_kkt _ _ _ _ _ SQ) in HK.
    destruct (kkt_fixed _ _ _ _ Hsg SR CV _ _ _ _ _ _ _ _ HA HK) as (F1 & F2 & F3). rewrite En in F1. rewrite Em in F2, F3.
    destruct (uscal_all _ _ U1) as (V1 & V2 & V3). destruct (uscal_all _ _ U2) as (V1' & V2' & V3'). unfold ux, uz, uy. rewrite V1, V2, V3, V1', V2', V3' in *.
    split; [|split]; intros i Hi; [rewrite F1|rewrite F2|rewrite F3]; auto.
  Qed.

  (** A solve started at a KKT point stays there. *)
  Theorem kkt_stays s d : ses s d -> convex d -> rho_in_range ust -> tr (st_warm_starting (sv_settings s)) = true -> kkt (qp_of d) (ux s) (uz s) (uy s) ->
    forall k f t, before E s k f t -> uscal t = uscal s /\ (forall i, 0 <= i < n -> ux t i = ux s i) /\ (forall i, 0 <= i < m -> uz t i = uz s i) /\ (forall i, 0 <= i < m -> uy t i = uy s i).
  Proof.
    intros HS HC HRR HW HK. induction 1 as [t HB|k f t t2 f2 HB IH Hk HP].
    - pose proof (begin_sfr s t HB) as S1. destruct (begin_post s t HB) as (_ & _ & _ & _ & _ & _ & _ & X & _). specialize (X HW). pose proof (units_sfr _ _ S1) as US.
      destruct (iter3_u s t US X) as (-> & -> & ->). auto.
    - destruct IH as (US & I1 & I2 & I3). destruct (pass_iter3 E t k f _ HP) as (t1 & ES & E3 & _). cbn [outS] in E3.
      assert (HIt : iterate E s k t t1) by (exists f; auto). destruct (session_facts E EO _ _ _ _ _ _ _ _ _ _ HS) as (_ & HR & _ & _ & Dn & Dm & _).
      destruct (iterate_kkt_fixed s d k t t1 HS HC HRR HIt) as (F1 & F2 & F3).
      { eapply kkt_ext; [| | |exact HK]; cbn [q_n q_m qp_of]; rewrite ?Dn, ?Dm; intros i Hi; symmetry; auto. }
      destruct (iterate_facts s d k t t1 HS HIt) as (_ & _ & _ & _ & _ & _ & _ & U2 & _).
      assert (US2 : uscal t2 = uscal s) by (apply units_sfr; apply (before_sfr E s (k + 1) f2 t2); eapply bf_S; eauto).
      destruct (iter3_u t1 t2 ltac:(congruence) E3) as (-> & -> & ->). split; [auto|]. split; [|split]; intros i Hi; [rewrite F1|rewrite F2|rewrite F3]; auto.
  Qed.
  Theorem solve_at_kkt s d fl s' : ses s d -> convex d -> rho_in_range ust -> tr (st_warm_starting (sv_settings s)) = true -> kkt (qp_of d) (ux s) (uz s) (uy s) ->
    solve E s = Some (fl, s') -> has_solution (sv_info s') = true -> ~ polished s' ->
    (forall i, 0 <= i < n -> ux s' i = ux s i) /\ (forall i, 0 <= i < m -> uz s' i = uz s i) /\ (forall i, 0 <= i < m -> uy s' i = uy s i).
  Proof.
    intros HS HC HRR HW HK HE HH HN. destruct (solve_last E s fl s' (max_iter_pos s d HS) HE) as (k & t & t1 & Hk & HIt & HL).
    destruct (iterate_facts s d k t t1 HS HIt) as (_ & _ & _ & S2 & _ & _ & _ & U2 & _). destruct (session_facts E EO _ _ _ _ _ _ _ _ _ _ HS) as (_ & HR & _ & _ & Dn & Dm & _).
    pose proof (units_sfr _ _ (solve_sfr E s _ HE)) as U3. cbn [snd] in U3. pose proof HIt as (f & HB & _).
    destruct (kkt_stays s d HS HC HRR HW HK k f t HB) as (_ & I1 & I2 & I3).
    destruct (iterate_kkt_fixed s d k t t1 HS HC HRR HIt) as (F1 & F2 & F3).
    { eapply kkt_ext; [| | |exact HK]; cbn [q_n q_m qp_of]; rewrite ?Dn, ?Dm; intros i Hi; symmetry; auto. }
    destruct (iter3_u t1 s' ltac:(congruence) (HL HH HN)) as (-> & -> & ->). split; [|split]; intros i Hi; [rewrite F1|rewrite F2|rewrite F3]; auto.
  Qed.

  (** C66 *)
  Lemma before_cone s d k f t : ses s d -> rho_in_range ust -> before E s k f t -> 2 <= k ->
    forall i, 0 <= i < m -> ncone (rnth (d_l (w_data (sv_work s))) i) (rnth (d_u (w_data (sv_work s))) i) (rnth (w_z (sv_work t)) i) (rnth (w_y (sv_work t)) i).
  Proof.
    intros HS HRR HB Hk. inversion HB as [t0 H0 Ek|k0 f0 t0 t2 f2 HB0 Hk0 HP Ek]; subst; [lia|].
    destruct (pass_iter3 E t0 k0 f0 _ HP) as (t1 & ES & E3 & _). cbn [outS] in E3.
    destruct (iterate_cone s d k0 t0 t1 HS HRR) as (HC & _); [exists f0; auto|]. unfold iter3 in E3. injection E3 as _ E3 E4. rewrite E3, E4. auto.
  Qed.
  Lemma wdist_eq s d t rho (x z y x' z' y' : Z -> R) : ref d s -> let p := qp_of (w_data (sv_work s)) in (forall i, 0 <= i < q_m p -> (0 < rho i)%R) ->
    dist2 p (st_sigma (sv_settings t)) rho x z y x' z' y' = 
    wdist (uc s) (uD s) (uE s) (q_n p) (q_m p) (st_sigma (sv_settings t)) rho (unx (uD s) x) (unz (uE s) z) (uny (uc s) (uE s) y) (unx (uD s) x') (unz (uE s) z') (uny (uc s) (uE s) y').
  Proof.
    intros HR p Hr. pose proof (ref_scaled_qp _ _ HR) as SQ. fold p in SQ. unfold dist2, wdist. f_equal; [f_equal|]; apply sumn_ext; intros i Hi; unfold unx, unz, uny.
    - rewrite (sq_n _ _ _ _ _ SQ) in Hi. pose proof (sq_D _ _ _ _ _ SQ i Hi). field. lra.
    - specialize (Hr i Hi). rewrite (sq_m _ _ _ _ _ SQ) in Hi. pose proof (sq_E _ _ _ _ _ SQ i Hi). pose proof (sq_c _ _ _ _ _ SQ). field. lra.
  Qed.
  Theorem iterate_fejer s d k t t' xs zs ys : ses s d -> convex d -> rho_in_range ust -> iterate E s k t t' -> 2 <= k -> kkt (qp_of d) xs zs ys ->
    let D := wdist (uc s) (uD s) (uE s) n m (st_sigma (sv_settings s)) (rho_at (sv_settings t) (sv_work t)) in let al := st_alpha (sv_settings s) in
    exists xt : Z -> R, (forall i, 0 <= i < n -> ux t' i = (al * xt i + (1 - al) * ux t i)%R) /\
      (D (ux t') (uz t') (uy t') xs zs ys + al * (2 - al) * wmoved (uD s) (uE s) n m (st_sigma (sv_settings s)) (rho_at (sv_settings t) (sv_work t)) xt (Amul (qp_of d) xt) (ux t) (uz t) <=
       D (ux t) (uz t) (uy t) xs zs ys)%R.
  Proof.
    intros HS HC HRR HIt Hk HK D al. destruct (iterate_adm s d k t t' HS HC HRR HIt) as (xt & zt & HA). destruct (iterate_facts s d k t t' HS HIt) as (I1 & I2 & _ & _ & D1 & D2 & U1 & U2 & _).
    destruct (stored_ok s d t HS HC I1 D1) as (SY & CV & En & Em & SB & SR & SQ). destruct (session_facts E EO _ _ _ _ _ _ _ _ _ _ HS) as (_ & HR & Hsg & _ & Dn & Dm & _). pose proof (alpha_range s d HS) as Hal.
    pose proof (sq_c _ _ _ _ _ SQ) as Pc. pose proof (sq_D _ _ _ _ _ SQ) as PD. pose proof (sq_E _ _ _ _ _ SQ) as PE. cbn [q_n q_m qp_of] in PD, PE. rewrite Dn in PD. rewrite Dm in PE.
    set (p := qp_of (w_data (sv_work s))) in *. set (rho := rho_at (sv_settings t) (sv_work t)) in *.
    pose (xs' := fun i => (xs i / uD s i)%R). pose (zs' := fun i => (uE s i * zs i)%R). pose (ys' := fun i => (uc s * ys i / uE s i)%R).
    assert (EX' : forall i, 0 <= i < n -> unx (uD s) xs' i = xs i) by (intros i Hi; unfold unx, xs'; specialize (PD i Hi); field; lra).
    assert (EZ' : forall i, 0 <= i < m -> unz (uE s) zs' i = zs i) by (intros i Hi; unfold unz, zs'; specialize (PE i Hi); field; lra).
    assert (EY' : forall i, 0 <= i < m -> uny (uc s) (uE s) ys' i = ys i) by (intros i Hi; unfold uny, ys'; specialize (PE i Hi); field; lra).
    assert (HK' : kkt p xs' zs' ys').
    { apply (un_kkt _ _ _ _ _ SQ). eapply kkt_ext; [| | |exact HK]; cbn [q_n q_m qp_of]; rewrite ?Dn, ?Dm; intros; symmetry; auto. }
    assert (HCO : forall i, 0 <= i < q_m p -> ncone (q_l p i) (q_u p i) (rnth (w_z (sv_work t)) i) (rnth (w_y (sv_work t)) i)).
    { intros i Hi. rewrite Em in Hi. destruct HIt as (f & HB & _). exact (before_cone s d k f t HS HRR HB Hk i Hi). }
    pose proof (distance_decreases p _ _ rho SR CV _ _ _ _ _ _ _ _ _ _ _ (proj1 Hal) HA HK' HCO) as HD.
    destruct (uscal_all _ _ U1) as (V1 & V2 & V3). destruct (uscal_all _ _ U2) as (V1' & V2' & V3').
    exists (unx (uD s) xt). split.
    { intros i Hi. unfold ux, unx. rewrite V2, V2'. rewrite (a1_x _ _ _ _ _ _ _ _ _ _ _ _ _ _ _ _ _ _ HA) by (rewrite En; auto). unfold al. ring. }
    rewrite !(wdist_eq s d s rho _ _ _ _ _ _ HR SR) in HD. fold p in HD. rewrite En, Em in HD.
    destruct (un_state s t U1) as (X1 & X2 & X3). destruct (un_state s t' U2) as (Y1 & Y2 & Y3). rewrite X1, X2, X3, Y1, Y2, Y3 in HD.
    assert (HE : forall x z y, wdist (uc s) (uD s) (uE s) n m (st_sigma (sv_settings s)) rho x z y (unx (uD s) xs') (unz (uE s) zs') (uny (uc s) (uE s) ys') = D x z y xs zs ys).
    { intros x z y. unfold D, wdist. f_equal; [f_equal|]; apply sumn_ext; intros i Hi; rewrite ?EX', ?EZ', ?EY' by auto; reflexivity. }
    rewrite !HE in HD.
    assert (HM : moved p (st_sigma (sv_settings s)) rho (rnth (w_x (sv_work t))) (rnth (w_z (sv_work t))) xt zt =
      wmoved (uD s) (uE s) n m (st_sigma (sv_settings s)) rho (unx (uD s) xt) (Amul (qp_of d) (unx (uD s) xt)) (ux t) (uz t)).
    { unfold moved, wmoved. rewrite En, Em. f_equal; [f_equal|]; apply sumn_ext; intros i Hi.
      - unfold ux, unx. rewrite V2. specialize (PD i Hi). field. lra.
      - rewrite (a1_zt _ _ _ _ _ _ _ _ _ _ _ _ _ _ _ _ _ _ HA) by (rewrite Em; auto). change (mulR (q_n p) (q_A p) xt i) with (Amul p xt i). rewrite (un_Ax _ _ _ _ _ SQ) by (cbn; lia).
        unfold uz. rewrite V3. specialize (PE i Hi). field. lra. }
    rewrite <- HM. exact HD.
  Qed.
  End Exact.
End Admm.
