(** What a successful polish does for the user's problem (exact arithmetic). *)
From Coq Require Import ZArith Reals List Bool Lia Lra String.
From Verif Require Import Num Arr ArrFacts RSum Csc CscSpec CscFacts CscFacts2 Scatter Vec VecFacts Types Kkt KktSpec KktDense Linsys LinsysFacts LinsysSolve Scaling Validate Auxil Polish Api
  Inv RecSimp InvStep InvApi InvScale InvPolish InvSolve ValidFacts InvUpd InvSetup History RealVec RealStep Frame FrameSolve ProbSpec ScaleReal FrameUpd UserSpec Refine ExEnv Ldl LdlEnv Session ExReal DataFacts Obs DataClaims ApiClaims KktClaims
  QpSpec PolishLin AdmmSpec PolishSpec Mid Trace AdmmClaims PassFacts SolveEnd TermSpec TermFacts TermCheck PolishReal AtyFacts TermSolve SolveClaims SolveUser.
Import ListNotations.
Open Scope Z_scope.

(** (x, z, y) is what k polishing steps make of a point with constraint values z0 and multipliers y0; the linear systems are known to be solved only if the
    factorisation is exact. *)
Definition polish_point (E : Env Rops) (p : qp) (sigma : R) (g h z0 y0 : Z -> R) (k : nat) (x z y : Z -> R) : Prop :=
  exists w, recovered p g x w z y /\ (exact_ldl E -> newtons p sigma g h (on_lower p g z0 y0) (on_upper p g z0 y0) k x w).
Lemma polish_point_exact E p sigma g h z0 y0 k x z y : exact_ldl E -> polish_point E p sigma g h z0 y0 k x z y -> polish_of p sigma g h z0 y0 k x z y.
Proof. intros EX (w & H1 & H2). exists w. auto. Qed.

Section User.
  Variable E : Env Rops.
  Hypothesis EO : env_ok E.
  Variables (P A : csc Rops) (q0 l0 u0 : option (list R)) (m n : Z) (ust : settings Rops).
  Notation ses := (session E P A q0 l0 u0 m n ust).
  Notation stat s := (i_status_val (sv_info s)).
  Variables (s : solver Rops) (d : data Rops) (fl : Z) (s' : solver Rops).
  Hypothesis HS : ses s d.
  Hypothesis HU : stat s = OSQP_UNSOLVED.
  Hypothesis HE : solve E s = Some (fl, s').
  Notation st := (sv_settings s).
  Notation p := (qp_of d).
  Notation gw := (gw (uc s) (uE s)).
  Notation hw := (hw (uc s) (uD s)).
  Notation steps := (S (Z.to_nat (st_polish_refine_iter st))).

  (** polish was called on a state s5 that holds the last iterate, and s' holds what it left. *)
  Lemma finished_polish e : finished E e fl s' -> tr (st_polishing (sv_settings e)) = true -> stat e = OSQP_SOLVED ->
    exists s5 s6, polish E s5 = Some (fl, s6) /\ (Inv e -> Inv s5) /\ sv_settings s5 = sv_settings e /\ sv_work s5 = sv_work e /\ res5 (sv_info s5) = res5 (sv_info e) /\
      iter3 (sv_work s') = iter3 (sv_work s6) /\ res5 (sv_info s') = res5 (sv_info s6) /\ i_status_polish (sv_info s') = i_status_polish (sv_info s6).
  Proof.
    intros HF HP HSo. destruct HF as [s6 AP Hfl H1 H2 F1 F2 F3 F4|s6 r AP Hfl HI6 Hfl2 HST F1 F2 F3 F4].
    - destruct (ap_pol _ _ _ _ AP HP HSo) as (s5 & s6' & A1 & A3 & A4 & A5 & A6 & A7 & A8). exists s5, s6'. rewrite F1, F2, A7, A8. auto 10.
    - destruct (finish_times_eq s6) as (T1 & T2 & T3 & T4 & T5 & T6 & T7 & T8).
      pose proof (store_solution_post _ _ _ HST) as (S1 & S2 & _ & S4 & S5 & _ & _ & S8).
      destruct (ap_pol _ _ _ _ AP HP HSo) as (s5 & s6' & A1 & A3 & A4 & A5 & A6 & A7 & A8). exists s5, s6'. rewrite F1, F2, S2, T7, T3, S8, T4, A7, A8; [auto 10|].
      apply has_solution_iff. rewrite T2, (ap_sv _ _ _ _ AP). unfold reports. stc.
  Qed.

  Section Units.
  Variables (Q : qp) (c : R) (D Es : Z -> R).
  Hypothesis HT : tunits st (sv_work s) Q c D Es.
  Notation X t := (unx D (rnth (w_x (sv_work t)))).
  Notation Zv t := (unz Es (rnth (w_z (sv_work t)))).
  Notation Y t := (uny c Es (rnth (w_y (sv_work t)))).

  (** What the solve returns; t1 is the iterate that was polished, Q the problem the tests are made on. *)
  Record accepted (t1 : solver Rops) : Prop := {
    ac_act : exists i, 0 <= i < m /\ (on_lower p gw (uz t1) (uy t1) i \/ on_upper p gw (uz t1) (uy t1) i);
    ac_point : polish_point E p (st_sigma st) gw hw (uz t1) (uy t1) steps (ux s') (uz s') (uy s');
    ac_pr : i_prim_res (sv_info s') = presid Q (X s') (Zv s');
    ac_dr : i_dual_res (sv_info s') = dresid Q (X s') (Y s');
    ac_imp : improves (presid Q (X t1) (Zv t1)) (dresid Q (X t1) (Y t1)) (presid Q (X s') (Zv s')) (dresid Q (X s') (Y s'));
    ac_obj : exists v, trimmed (uc s) (uE s) (d_m d) (rnth (d_l d)) (rnth (d_u d)) (uy s') v /\
       i_obj_val (sv_info s') = objective p (ux s') /\ i_dual_obj_val (sv_info s') = (- / 2 * quad p (ux s') - support p v)%R /\
       i_duality_gap (sv_info s') = (i_obj_val (sv_info s') - i_dual_obj_val (sv_info s'))%R }.
  Record kept (t1 : solver Rops) : Prop := {
    ke_it : iter3 (sv_work s') = iter3 (sv_work t1);
    ke_pr : i_prim_res (sv_info s') = presid Q (X t1) (Zv t1);
    ke_dr : i_dual_res (sv_info s') = dresid Q (X t1) (Y t1) }.
  Inductive polishes (t1 : solver Rops) : Prop :=
  | po_success : i_status_polish (sv_info s') = OSQP_POLISH_SUCCESS -> fl = 0 -> accepted t1 -> polishes t1
  | po_failed : forall xs zs ys, i_status_polish (sv_info s') = OSQP_POLISH_FAILED -> fl = 0 -> kept t1 ->
      polish_point E p (st_sigma st) gw hw (uz t1) (uy t1) steps (unx (uD s) xs) (unz (uE s) zs) (uny (uc s) (uE s) ys) ->
      ~ improves (presid Q (X t1) (Zv t1)) (dresid Q (X t1) (Y t1)) (presid Q (unx D xs) (unz Es zs)) (dresid Q (unx D xs) (uny c Es ys)) -> polishes t1
  | po_none : i_status_polish (sv_info s') = OSQP_POLISH_NO_ACTIVE_SET_FOUND -> fl = 0 -> kept t1 -> (forall i, 0 <= i < m -> ~ on_lower p gw (uz t1) (uy t1) i /\ ~ on_upper p gw (uz t1) (uy t1) i) -> polishes t1
  | po_error : i_status_polish (sv_info s') = OSQP_POLISH_LINSYS_ERROR -> fl = OSQP_NONCVX_ERROR -> kept t1 -> ~ (exact_ldl E /\ convex d) -> polishes t1.

  Theorem claim_polish : tr (st_polishing st) = true -> stat s' = OSQP_SOLVED -> exists k t t1, 1 <= k <= st_max_iter st /\ iterate E s k t t1 /\ meets st Q c Es 1 (X t1) (Zv t1) (Y t1) /\ polishes t1.
  Proof.
    intros HP HSo. destruct (solve_session E EO P A q0 l0 u0 m n ust s d Q c D Es fl s' HS HT HU HE) as (k & t & t1 & Hk & HIt & HA). exists k, t, t1. split; [auto|]. split; [auto|].
    destruct (session_facts E EO _ _ _ _ _ _ _ _ _ _ HS) as (HIs & HR & Hsg & _ & Dn & Dm & _). pose proof (ref_scaled_qp d s HR) as SQ.
    pose proof (iterate_data E EO P A q0 l0 u0 m n ust s d HS k t t1 HIt) as Dt.
    pose proof (run_iter_uscal E EO P A q0 l0 u0 m n ust s d HS k t t1 HIt) as Ut. pose proof (units_sfr _ _ (solve_sfr E s _ HE) : uscal s' = uscal s) as Us.
    destruct (un_state s t1 Ut) as (E1 & E2 & E3). destruct (un_state s s' Us) as (E4 & E5 & E6).
    destruct HA as [A1 A2 A3 A4|A1 A2 A3 A4 A5 A0|timed stale e A1 A2 A3 A4 A5 A6 A7]; [stc..|].
    pose proof (en_good _ _ _ _ _ _ _ _ _ _ _ _ _ A3) as (IE & FE & _). pose proof FE as [F1 F2 F3 F4 F5].
    assert (HRe : ref d e) by (eapply ref_same; [exact F1|exact F2| |exact HR]; apply same_st_keep in F4; apply F4).
    pose proof (finished_result E d e fl s' IE HRe A4) as RE.
    assert (CS : stat e = OSQP_SOLVED) by (rewrite <- (re_stat _ _ _ _ RE); auto).
    destruct (en_solved _ _ _ _ _ _ _ _ _ _ _ _ _ A3 CS) as (SW & Hs).
    split; [exact (passes_w s Q c D Es HT false (sv_work t1) Dt SW)|].
    destruct F4 as (r0 & x0 & F4). assert (HPe : tr (st_polishing (sv_settings e)) = true) by (rewrite F4; exact HP).
    destruct (finished_polish e A4 HPe CS) as (s5 & s6 & P1 & P3 & P4 & P5 & P6 & P7 & P8 & P9). specialize (P3 IE).
    assert (D5 : w_data (sv_work s5) = w_data (sv_work s)) by (rewrite P5, F1; auto). assert (Sc5 : w_scaling (sv_work s5) = w_scaling (sv_work s)) by (rewrite P5, F2; auto).
    assert (S5 : sv_settings s5 = sv_settings e) by auto. rewrite F4 in S5.
    assert (T5 : tunits (sv_settings s5) (sv_work s5) Q c D Es).
    { destruct (tunits_same st (sv_work s) (sv_work s5) Q c D Es D5 Sc5 HT) as [T1 T2 T3]. rewrite S5. constructor; auto. }
    assert (PE : polish_ends E Q c D Es p (uc s) (uD s) (uE s) s5 fl s6).
    { pose proof (polish_real E EO s5 Q c D Es p (uc s) (uD s) (uE s) P3 T5) as HX. rewrite D5, Sc5, S5 in HX. specialize (HX SQ). refine (HX _ _ (fl, s6) P1).
      - intros H1. change (tr (st_scaling st) = true) in H1. pose proof (rf_sc _ _ HR) as HY. destruct (wo_sc _ _ (iv_w _ HIs) H1) as (sc & Ew & _). exists sc. split; auto.
        unfold uc, uscal in *. rewrite H1, Ew in *. destruct (HY sc eq_refl) as (_ & _ & [I1 _ _]). auto.
      - intros H1. change (tr (st_scaling st) = false) in H1. unfold uc, uscal. rewrite H1. auto. }
    pose proof (en_cur _ _ _ _ _ _ _ _ _ _ _ _ _ A3 Hs) as HCu. pose proof (en_it _ _ _ _ _ _ _ _ _ _ _ _ _ A3) as EI. pose proof (en_data _ _ _ _ _ _ _ _ _ _ _ _ _ A3) as ED.
    pose proof (tu_sq _ _ _ _ _ _ HT) as SQQ. pose proof (sq_n _ _ _ _ _ SQQ) as Sn. pose proof (sq_m _ _ _ _ _ SQQ) as Sm. cbn [q_n q_m qp_of] in Sn, Sm.
    assert (EI' := EI). unfold iter3 in EI. injection EI as X1 X2 X3. pose proof P6 as P6'. unfold res5 in P6. injection P6 as R1 R2 R3 R4 R5.
    assert (PR1 : i_prim_res (sv_info s5) = presid Q (X t1) (Zv t1)). { unfold presid. rewrite R1, (cu_pr _ _ _ _ _ _ _ HCu), ED, Dt, Sm, X1, X3. reflexivity. }
    assert (DR1 : i_dual_res (sv_info s5) = dresid Q (X t1) (Y t1)). { unfold dresid. rewrite R2, (cu_dr _ _ _ _ _ _ _ HCu), ED, Dt, Sn, X1, X2. reflexivity. }
    assert (LU : forall i, 0 <= i < q_m p -> (on_lower p gw (uz t1) (uy t1) i <-> lo_w (sv_work s5) i) /\ (on_upper p gw (uz t1) (uy t1) i <-> up_w (sv_work s5) i)).
    { intros i Hi. unfold lo_w, up_w. rewrite D5, P5, X2, X3, <- E2, <- E3. split; symmetry; [apply (un_lower _ _ _ _ _ SQ)|apply (un_upper _ _ _ _ _ SQ)]; auto. }
    assert (CAND : forall x z y, candidate E s5 x z y -> polish_point E p (st_sigma st) gw hw (uz t1) (uy t1) steps (unx (uD s) x) (unz (uE s) z) (uny (uc s) (uE s) y)).
    { intros x z y (_ & w & G1 & G2). rewrite D5 in *. rewrite S5 in G2. exists (uny (uc s) (uE s) w). split; [apply (un_recovered _ _ _ _ _ SQ); auto|]. intros EX. specialize (G2 EX).
      eapply (un_newtons _ _ _ _ _ SQ); [| |exact G2]; intros i Hi; apply (LU i Hi). }
    assert (ACT : forall x z y, candidate E s5 x z y -> exists i, 0 <= i < m /\ (on_lower p gw (uz t1) (uy t1) i \/ on_upper p gw (uz t1) (uy t1) i)).
    { intros x z y ((i & Hi & HX) & _). exists i. rewrite D5 in Hi. assert (EM : d_m (w_data (sv_work s)) = m) by (destruct (session_size E EO _ _ _ _ _ _ _ _ _ _ HS) as (_ & ?); auto). rewrite EM in Hi. split; [auto|].
      destruct (LU i) as (L1 & L2); [cbn [q_m qp_of]; rewrite Dm; auto|]. tauto. }
    assert (KEPT : i_status_polish (sv_info s') <> OSQP_POLISH_SUCCESS -> kept t1).
    { intros HN. assert (HN' : ~ polished s') by (intros (_ & _ & X0); auto).
      constructor; [rewrite (re_last _ _ _ _ RE); auto; apply has_solution_iff; unfold reports; stc| |].
      - pose proof (re_res _ _ _ _ RE HN') as H5. unfold res5 in H5. injection H5 as H5 _ _ _ _. rewrite H5, <- R1. auto.
      - pose proof (re_res _ _ _ _ RE HN') as H5. unfold res5 in H5. injection H5 as _ H5 _ _ _. rewrite H5, <- R2. auto. }
    destruct PE as [B1 B2 G|xs zs ys B1 B2 G HNI|B1 B2 G|B1 B2 G].
    - unfold iter3 in P7. injection P7 as Y1 Y2 Y3. unfold res5 in P8. injection P8 as V1 V2 V3 V4 V5.
      destruct G as [G1 G3 G4 (G5 & G6 & G7) G8]. rewrite D5 in *. rewrite <- Y1 in *. rewrite <- Y2 in *. rewrite <- Y3 in *. rewrite Sm in G3. rewrite Sn in G4.
      apply po_success; [congruence|auto|]. constructor.
      + eapply ACT. exact G1.
      + rewrite <- E4, <- E5, <- E6. apply CAND. auto.
      + rewrite V1; exact G3.
      + rewrite V2; exact G4.
      + unfold presid at 2, dresid at 2. rewrite <- PR1, <- DR1, <- G3, <- G4. exact G8.
      + exists (uny (uc s) (uE s) (cutv (sv_work s6))). rewrite V3, V4, V5, G5, G6, G7, E4.
        split; [|split; [auto|split; [auto|unfold objective; lra]]].
        destruct (uscal_all _ _ Us) as (B3 & B4 & B5). intros i Hi. pose proof SQ as [S1 S2 S3 S4 S5' S6 S7 S8 S9 S10]. cbn [q_l q_u q_m q_n qp_of] in *.
        exists (cutv (sv_work s6) i). split; [|reflexivity]. rewrite <- S9, <- S10 by auto. unfold uy. rewrite B3, B5. specialize (S5' i Hi).
        replace (uc s * (uE s i * rnth (w_y (sv_work s')) i / uc s) / uE s i)%R with (rnth (w_y (sv_work s')) i) by (field; lra).
        assert (D6 : w_data (sv_work s6) = w_data (sv_work s)). { pose proof (polish_post E s5 _ P1) as (_ & _ & HX & _). cbn [snd] in HX. apply fixed_core, core_eq in HX. destruct HX as (HX & _). congruence. }
        unfold cutv. rewrite D6, <- Y2. apply cut_drops.
    - rewrite D5, Sm, Sn, PR1, DR1 in HNI. eapply po_failed; [congruence|auto|apply KEPT; rewrite P9, B1; discriminate|apply CAND; exact G|exact HNI].
    - apply po_none; [congruence|auto|apply KEPT; rewrite P9, B1; discriminate|]. rewrite D5 in G. cbn [q_m qp_of] in LU.
      assert (EM : d_m (w_data (sv_work s)) = m) by (destruct (session_size E EO _ _ _ _ _ _ _ _ _ _ HS) as (_ & ?); auto).
      intros i Hi. destruct (LU i) as (L1 & L2); [rewrite Dm; auto|]. destruct (G i) as (G1 & G2); [rewrite EM; auto|]. tauto.
    - apply po_error; [congruence|auto|apply KEPT; rewrite P9, B1; discriminate|]. intros (EX & HC). apply (G EX); rewrite ?S5, ?D5; auto. apply (ref_convex d s HR HC).
  Qed.
  End Units.

  Hypothesis HT : tests_users st.
  Notation pt t1 := (polish_point E p (st_sigma st) gw hw (uz t1) (uy t1) steps).
  Notation pr0 t := (presid p (ux t) (uz t)).
  Notation dr0 t := (dresid p (ux t) (uy t)).
  Definition active (t1 : solver Rops) (i : Z) : Prop := on_lower p gw (uz t1) (uy t1) i \/ on_upper p gw (uz t1) (uy t1) i.

  Lemma on_polishing : polished s' -> tr (st_polishing st) = true /\ stat s' = OSQP_SOLVED.
  Proof. intros (H1 & H2 & _). destruct (sf_st _ _ (solve_sfr E s _ HE)) as (r0 & x0 & H4). cbn [snd] in H4. rewrite H4 in H1. auto. Qed.
  Lemma polish_status : stat s' = OSQP_SOLVED -> tr (st_polishing st) = true -> i_status_polish (sv_info s') = OSQP_POLISH_SUCCESS -> polished s'.
  Proof. intros H1 H2 H3. destruct (sf_st _ _ (solve_sfr E s _ HE)) as (r0 & x0 & H4). cbn [snd] in H4. split; [rewrite H4; exact H2|auto]. Qed.

  Theorem user_polish : tr (st_polishing st) = true -> stat s' = OSQP_SOLVED -> exists k t t1, 1 <= k <= st_max_iter st /\ iterate E s k t t1 /\ meets st p (uc s) (uE s) 1 (ux t1) (uz t1) (uy t1) /\
    (polished s' /\ fl = 0 /\ (exists i, 0 <= i < m /\ active t1 i) /\ pt t1 (ux s') (uz s') (uy s') /\ improves (pr0 t1) (dr0 t1) (pr0 s') (dr0 s') /\
       i_prim_res (sv_info s') = pr0 s' /\ i_dual_res (sv_info s') = dr0 s' /\
       (exists v, trimmed (uc s) (uE s) m (rnth (d_l d)) (rnth (d_u d)) (uy s') v /\
         i_obj_val (sv_info s') = objective p (ux s') /\ i_dual_obj_val (sv_info s') = (- / 2 * quad p (ux s') - support p v)%R /\
         i_duality_gap (sv_info s') = (i_obj_val (sv_info s') - i_dual_obj_val (sv_info s'))%R) \/
     ~ polished s' /\ ux s' = ux t1 /\ uz s' = uz t1 /\ uy s' = uy t1 /\ i_prim_res (sv_info s') = pr0 s' /\ i_dual_res (sv_info s') = dr0 s' /\
       (i_status_polish (sv_info s') = OSQP_POLISH_FAILED /\ fl = 0 /\ (exists x z y, pt t1 x z y /\ ~ improves (pr0 t1) (dr0 t1) (presid p x z) (dresid p x y)) \/
        i_status_polish (sv_info s') = OSQP_POLISH_NO_ACTIVE_SET_FOUND /\ fl = 0 /\ (forall i, 0 <= i < m -> ~ active t1 i) \/
        i_status_polish (sv_info s') = OSQP_POLISH_LINSYS_ERROR /\ fl = OSQP_NONCVX_ERROR /\ ~ (exact_ldl E /\ convex d))).
  Proof.
    intros HP HSo. pose proof (run_units E EO P A q0 l0 u0 m n ust s d HS HT) as TU. pose proof (units_sfr _ _ (solve_sfr E s _ HE) : uscal s' = uscal s) as Us.
    destruct (session_facts E EO _ _ _ _ _ _ _ _ _ _ HS) as (_ & _ & _ & _ & _ & Dm & _).
    destruct (claim_polish _ _ _ _ TU HP HSo) as (k & t & t1 & Hk & HIt & HM & HPo). exists k, t, t1.
    pose proof (run_iter_uscal E EO P A q0 l0 u0 m n ust s d HS k t t1 HIt) as Ut.
    destruct (un_state s t1 Ut) as (E1 & E2 & E3). destruct (un_state s s' Us) as (E4 & E5 & E6). rewrite E1, E2, E3 in HM. do 3 (split; [auto|]).
    assert (KEPT : kept p (uc s) (uD s) (uE s) t1 -> ux s' = ux t1 /\ uz s' = uz t1 /\ uy s' = uy t1 /\ i_prim_res (sv_info s') = pr0 s' /\ i_dual_res (sv_info s') = dr0 s').
    { intros [K1 K2 K3]. unfold iter3 in K1. injection K1 as K1 K1' K1''. rewrite <- E4, <- E5, <- E6, K1, K1', K1'', E1, E2, E3 in *. auto. }
    assert (NP : i_status_polish (sv_info s') <> OSQP_POLISH_SUCCESS -> ~ polished s') by (intros H (_ & _ & H1); auto).
    destruct HPo as [B1 B2 [A0 A1 A2 A3 A4 A5]|xs zs ys B1 B2 B3 B4 B5|B1 B2 B3 B4|B1 B2 B3 B4].
    - left. rewrite E1, E2, E3, E4, E5, E6 in *. rewrite Dm in A5. split; [apply polish_status; auto|]. do 6 (split; [auto|]). exact A5.
    - right. split; [apply NP; rewrite B1; discriminate|]. destruct (KEPT B3) as (V1 & V2 & V3 & V4 & V5). do 5 (split; [auto|]). left. split; [auto|]. split; [auto|].
      rewrite E1, E2, E3 in B5. do 3 eexists. split; [exact B4|exact B5].
    - right. split; [apply NP; rewrite B1; discriminate|]. destruct (KEPT B3) as (V1 & V2 & V3 & V4 & V5). do 5 (split; [auto|]). right. left. split; [auto|]. split; [auto|].
      intros i Hi [HX|HX]; destruct (B4 i Hi); auto.
    - right. split; [apply NP; rewrite B1; discriminate|]. destruct (KEPT B3) as (V1 & V2 & V3 & V4 & V5). do 5 (split; [auto|]). right. right. auto.
  Qed.

  Theorem user_accepted : polished s' -> exists k t t1, 1 <= k <= st_max_iter st /\ iterate E s k t t1 /\ meets st p (uc s) (uE s) 1 (ux t1) (uz t1) (uy t1) /\ improves (pr0 t1) (dr0 t1) (pr0 s') (dr0 s') /\
    solution_is m n fl s' (ux s') (uy s').
  Proof.
    intros HP. destruct (on_polishing HP) as (H1 & H2). destruct (user_polish H1 H2) as (k & t & t1 & A1 & A2 & A3 & [(_ & _ & A0 & _ & A4 & _)|(H & _)]); [|contradiction]. exists k, t, t1. do 4 (split; [auto|]).
    intros Hfl o Ho. eapply solution_state; eauto. apply has_solution_iff. unfold reports. stc.
  Qed.
  Theorem user_rejected : tr (st_polishing st) = true -> stat s' = OSQP_SOLVED -> ~ polished s' -> exists k t t1, 1 <= k <= st_max_iter st /\ iterate E s k t t1 /\ ux s' = ux t1 /\ uz s' = uz t1 /\ uy s' = uy t1 /\
       i_prim_res (sv_info s') = pr0 s' /\ i_dual_res (sv_info s') = dr0 s' /\
       (i_status_polish (sv_info s') = OSQP_POLISH_FAILED /\ fl = 0 /\ (exists x z y, pt t1 x z y /\ ~ improves (pr0 t1) (dr0 t1) (presid p x z) (dresid p x y)) \/
        i_status_polish (sv_info s') = OSQP_POLISH_NO_ACTIVE_SET_FOUND /\ fl = 0 /\ (forall i, 0 <= i < m -> ~ active t1 i) \/
        i_status_polish (sv_info s') = OSQP_POLISH_LINSYS_ERROR /\ fl = OSQP_NONCVX_ERROR /\ ~ (exact_ldl E /\ convex d)).
  Proof. intros H1 H2 H3. destruct (user_polish H1 H2) as (k & t & t1 & A1 & A2 & A3 & [(H & _)|(_ & A4)]); [contradiction|]. exists k, t, t1. auto. Qed.
  Theorem user_polish_complete : exact_ldl E -> convex d -> tr (st_polishing st) = true -> stat s' = OSQP_SOLVED -> exists k t t1, 1 <= k <= st_max_iter st /\ iterate E s k t t1 /\
    (polished s' <-> (exists i, 0 <= i < m /\ active t1 i) /\
       exists x z y, polish_of p (st_sigma st) gw hw (uz t1) (uy t1) steps x z y /\ improves (pr0 t1) (dr0 t1) (presid p x z) (dresid p x y)).
  Proof.
    intros EX HC H1 H2. destruct (session_facts E EO _ _ _ _ _ _ _ _ _ _ HS) as (_ & HR & Hsg & _ & Dn & Dm & _). pose proof (ref_scaled_qp d s HR) as SQ.
    destruct (user_polish H1 H2) as (k & t & t1 & A1 & A2 & A3 & A4). exists k, t, t1. do 2 (split; [auto|]). split.
    - intros HP. destruct A4 as [(_ & _ & A4 & A5 & A6 & _)|(A4 & _)]; [|contradiction]. split; [auto|]. exists (ux s'), (uz s'), (uy s'). split; [|auto]. apply (polish_point_exact E); auto.
    - intros ((i & Hi & Ha) & x & z & y & G1 & G2). destruct A4 as [(A4 & _)|(_ & _ & _ & _ & _ & _ & [(_ & _ & x' & z' & y' & B1 & B2)|[(_ & _ & B)|(_ & _ & B)]])]; [auto|exfalso..].
      + apply B2. apply polish_point_exact in B1; [|auto]. assert (CQ : convex_qp p) by exact HC.
        destruct (polish_of_unique p (st_sigma st) gw hw (uz t1) (uy t1) steps x z y x' z' y') as (Q1 & Q2); auto.
        * intros j Hj. apply (gw_pos _ _ _ _ _ SQ j Hj).
        * intros j Hj. apply (hw_pos _ _ _ _ _ SQ j Hj).
        * rewrite (presid_ext p x' z' x z), (dresid_ext p x' y' x y); auto; intros j Hj; symmetry; auto; apply Q2; auto.
      + exact (B i Hi Ha).
      + apply B. auto.
  Qed.
  Theorem user_polish_noerror : exact_ldl E -> convex d -> tr (st_polishing st) = true -> stat s' = OSQP_SOLVED -> fl = 0 /\ i_status_polish (sv_info s') <> OSQP_POLISH_LINSYS_ERROR.
  Proof.
    intros EX HC H1 H2. destruct (user_polish H1 H2) as (k & t & t1 & A1 & A2 & A3 & A4).
    destruct A4 as [((_ & _ & P3) & A4 & _)|(_ & _ & _ & _ & _ & _ & [(B1 & B2 & _)|[(B1 & B2 & _)|(_ & _ & B)]])]; [rewrite P3|rewrite B1|rewrite B1|exfalso; apply B; auto]; (split; [auto|discriminate]).
  Qed.
  Theorem user_polished_cone : polished s' -> forall i, 0 <= i < m -> ncone (rnth (d_l d) i) (rnth (d_u d) i) (uz s' i) (uy s' i).
  Proof.
    intros HP i Hi. destruct (on_polishing HP) as (H1 & H2). destruct (session_facts E EO _ _ _ _ _ _ _ _ _ _ HS) as (_ & HR & _ & _ & _ & Dm & VD & _). pose proof (ref_scaled_qp d s HR) as SQ.
    destruct (user_polish H1 H2) as (k & t & t1 & A1 & A2 & A3 & [(_ & _ & _ & (w & A4 & _) & _)|(H & _)]); [|contradiction].
    apply (recovered_cone p gw (ux s') w (uz s') (uy s')); [|intros j Hj; apply (gw_pos _ _ _ _ _ SQ j Hj)|exact A4|cbn [q_m qp_of]; lia].
    intros j Hj. cbn [q_l q_u q_m qp_of] in *. destruct (session_bounds _ _ _ _ _ _ _ _ _ _ _ EO HS) as (_ & HB). apply HB. lia.
  Qed.
  Theorem user_polished_system : exact_ldl E -> polished s' -> exists k t t1, 1 <= k <= st_max_iter st /\ iterate E s k t t1 /\
    polish_of p (st_sigma st) gw hw (uz t1) (uy t1) steps (ux s') (uz s') (uy s').
  Proof.
    intros EX HP. destruct (on_polishing HP) as (H1 & H2). destruct (user_polish H1 H2) as (k & t & t1 & A1 & A2 & A3 & [(_ & _ & _ & A4 & _)|(H & _)]); [|contradiction].
    exists k, t, t1. do 2 (split; [auto|]). apply (polish_point_exact E); auto.
  Qed.
  Theorem user_polished_info : polished s' -> i_prim_res (sv_info s') = pr0 s' /\ i_dual_res (sv_info s') = dr0 s' /\ i_obj_val (sv_info s') = objective p (ux s') /\
    (exists v, trimmed (uc s) (uE s) m (rnth (d_l d)) (rnth (d_u d)) (uy s') v /\ i_dual_obj_val (sv_info s') = (- / 2 * quad p (ux s') - support p v)%R) /\
    i_duality_gap (sv_info s') = (i_obj_val (sv_info s') - i_dual_obj_val (sv_info s'))%R.
  Proof.
    intros HP. destruct (on_polishing HP) as (H1 & H2). destruct (user_polish H1 H2) as (k & t & t1 & A1 & A2 & A3 & [(_ & _ & _ & _ & _ & B1 & B2 & v & B3 & B4 & B5 & B6)|(H & _)]); [|contradiction].
    do 3 (split; [auto|]). split; [|auto]. exists v. auto.
  Qed.
End User.
