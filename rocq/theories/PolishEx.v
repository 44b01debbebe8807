(** Runs of the solver with polishing on over the reals, used to show that the theorems about polishing apply. *)
From Coq Require Import ZArith Reals List Bool Lia Lra String.
From Verif Require Import Num Arr ArrFacts RSum Csc CscSpec CscFacts Vec Types Kkt KktSpec Linsys LinsysFacts Scaling Validate Auxil Polish Api
  Inv RecSimp InvStep InvApi History RealVec RealStep Frame FrameSolve UserSpec Refine ExEnv Ldl LdlEnv Session ExReal Obs DataClaims ApiClaims KktClaims
  QpSpec AdmmSpec PolishSpec Mid Trace AdmmClaims PassFacts SolveEnd TermSpec TermFacts TermCheck PolishReal TermSolve SolveClaims SolveUser PolishUser SolveEx.
Import ListNotations.
Open Scope Z_scope.

(** What the theorems about polishing ask of a run. *)
Definition ex_polish (P A : csc Rops) (q l u : list R) (ust : settings Rops) (s : solver Rops) (d : data Rops) (fl : Z) (s' : solver Rops) : Prop :=
  session rE P A (Some q) (Some l) (Some u) 2 1 ust s d /\ convex d /\ tests_users (sv_settings s) /\ stat s = OSQP_UNSOLVED /\ solve rE s = Some (fl, s') /\
  tr (st_polishing (sv_settings s)) = true /\ stat s' = OSQP_SOLVED.

Section Run.
  (** minimise x^2/2 - x subject to -5 <= x <= 5 and l1 <= x <= u1, one iteration: x = 1/4. *)
  Variables (l1 u1 : R).
  Hypothesis Hb : (l1 <= u1)%R.
  Hypothesis Hl : (-5 <= l1)%R.
  Hypothesis Hu : (u1 <= 5)%R.
  Notation rdy := (ready 1 1 1 1 (-1) (-5) l1 5 u1 2 1).
  Notation fst1 := (first 1 1 1 (-1) (-5) l1 5 u1).
  Lemma pol_x : yx 1 1 1 (-1) = (/ 4)%R. Proof. unfold yx. lra. Qed.
  Lemma pol_z0 : clipR (-5) 5 (1 * / 4) = (/ 4)%R. Proof. unfold clipR. cases. Qed.

  (** The run, if the first iterate meets the tolerances. *)
  Lemma pol_run (z1 : R) : z1 = clipR l1 u1 (1 * / 4) -> (Rabs (/ 4 - z1) < 1)%R ->
    ((/ 4 - z1 = 0 \/ / 100 <= Rabs (/ 4 - z1)) /\ Rabs (- (3 / 16) + (Rmax (/ 4 - z1) 0 * u1 + Rmin (/ 4 - z1) 0 * l1)) < 2)%R ->
    exists s d fl s' t1, ex_polish (yP 1) (yA 1 1) [(-1)%R] [(-5)%R; l1] [5%R; u1] (ystp 1 2 1) s d fl s' /\ rdy s d /\
      ux t1 0 = (/ 4)%R /\ uz t1 0 = (/ 4)%R /\ uz t1 1 = z1 /\ uy t1 0 = 0%R /\ uy t1 1 = (/ 4 - z1)%R /\ forall k t2 t3, 1 <= k <= st_max_iter (sv_settings s) -> iterate rE s k t2 t3 -> t3 = t1.
  Proof.
    intros Ez Hz (Hy & Hg).
    destruct (ready_start 1 1 1 1 (-1) (-5) l1 5 u1 2 1) as (s & d & HR); try (right; left; reflexivity); try lra; try lia.
    destruct (ready_first 1 1 1 1 (-1) (-5) l1 5 u1 2 1 ltac:(lra) ltac:(lia) s d HR) as (t & t1 & HF).
    destruct (ready_solves _ _ _ _ _ _ _ _ _ _ _ s d HR) as (fl & s' & HE). pose proof big26. pose proof big30.
    assert (Z0 : zz0 1 1 1 (-1) (-5) 5 = (/ 4)%R) by (unfold zz0; rewrite pol_x; apply pol_z0). assert (Z1 : zz1 1 1 1 (-1) l1 u1 = z1) by (unfold zz1; rewrite pol_x; auto).
    assert (W0 : ww0 1 1 1 (-1) (-5) 5 = 0%R) by (unfold ww0; rewrite Z0, pol_x; lra). assert (W1 : ww1 1 1 1 (-1) l1 u1 = (/ 4 - z1)%R) by (unfold ww1; rewrite Z1, pol_x; lra).
    destruct (fi_z _ _ _ _ _ _ _ _ _ _ _ HF) as (U0 & U1). destruct (fi_y _ _ _ _ _ _ _ _ _ _ _ HF) as (V0 & V1). pose proof (fi_x _ _ _ _ _ _ _ _ _ _ _ HF) as X0.
    rewrite pol_x in X0. fold (zz0 1 1 1 (-1) (-5) 5) in U0. fold (zz1 1 1 1 (-1) l1 u1) in U1. rewrite Z0 in U0. rewrite Z1 in U1. rewrite U0, pol_x in V0. rewrite U1, pol_x in V1.
    assert (V0' : uy t1 0 = 0%R) by lra. assert (V1' : uy t1 1 = (/ 4 - z1)%R) by lra. clear V0 V1.
    assert (B : (-1 < / 4 - z1 < 1)%R) by (apply Rabs_def2 in Hz; lra).
    exists s, d, fl, s', t1. split; [|split; [exact HR|]].
    - split; [exact (rd_ses _ _ _ _ _ _ _ _ _ _ _ _ _ HR)|]. split; [exact (rd_cvx _ _ _ _ _ _ _ _ _ _ _ _ _ HR)|]. split; [exact (ready_tests _ _ _ _ _ _ _ _ _ _ _ _ _ HR)|]. split; [exact (rd_stat _ _ _ _ _ _ _ _ _ _ _ _ _ HR)|]. split; [exact HE|].
      split; [rewrite (rd_set _ _ _ _ _ _ _ _ _ _ _ _ _ HR); reflexivity|].
      apply (user_found_solved rE rE_ok _ _ _ _ _ _ _ _ s d fl s' (rd_ses _ _ _ _ _ _ _ _ _ _ _ _ _ HR) (ready_tests _ _ _ _ _ _ _ _ _ _ _ _ _ HR) (rd_stat _ _ _ _ _ _ _ _ _ _ _ _ _ HR) HE 1 t t1).
      + apply (fi_it _ _ _ _ _ _ _ _ _ _ _ HF).
      + eapply ready_scheduled; eauto.
      + apply (fi_stop _ _ _ _ _ _ _ _ _ _ _ HF).
      + apply (fi_time _ _ _ _ _ _ _ _ _ _ _ HF).
      + rewrite (first_huge _ _ _ _ _ _ _ _ _ _ _ _ _ _ _ HR HF), pol_x, W0, W1. intros [HH|HH]; cases_in HH.
      + exists (uy t1). split.
        * eapply first_trim; eauto; try (cases; fail). intros i Hi. assert (Hc : i = 0 \/ i = 1) by lia. destruct Hc as [-> | ->]; [auto|]. rewrite V1'. destruct Hy as [Hy|Hy]; [auto|right].
          apply Rle_trans with (/ 100)%R; [|exact Hy]. apply Rinv_le_contravar; [lra|]. change (10 ^ 15)%R with (10 ^ (2 + 13))%R. rewrite pow_add. pose proof (pow_R1_Rle 10 13 ltac:(lra)). simpl pow at 1. lra.
        * apply (first_within _ _ _ _ _ _ _ _ _ _ _ s d t t1 1 (uy t1) HR HF). cbv zeta.
          assert (ES : support (qp_of d) (uy t1) = (Rmax (/ 4 - z1) 0 * u1 + Rmin (/ 4 - z1) 0 * l1)%R).
          { unfold support, sumn. cbn [q_m q_l q_u qp_of]. rewrite (rd_m _ _ _ _ _ _ _ _ _ _ _ _ _ HR), z2, V0', V1'. destruct (rd_l _ _ _ _ _ _ _ _ _ _ _ _ _ HR) as (-> & ->). destruct (rd_u _ _ _ _ _ _ _ _ _ _ _ _ _ HR) as (-> & ->).
            rewrite Rmax_left, Rmin_left by lra. ring. }
          rewrite ES, W0, W1, pol_x. set (S := (Rmax _ 0 * u1 + _)%R) in *. assert (PM : forall r, (0 <= r -> 1 * 2 <= 1 * 2 + 1 * / 1000 * r)%R) by (intros; lra).
          assert (P1 : (0 <= Rmax (Rmax (Rabs (zz0 1 1 1 (-1) (-5) 5)) (Rabs (zz1 1 1 1 (-1) l1 u1))) (Rmax (Rabs (1 * / 4)) (Rabs (1 * / 4))))%R) by (eapply Rle_trans; [apply Rabs_pos|eapply Rle_trans; [apply Rmax_l|apply Rmax_l]]).
          assert (P2 : (0 <= Rmax (Rmax (Rabs (-1)) (Rabs (1 * 0 + 1 * (/ 4 - z1)))) (Rabs (1 * / 4)))%R) by (eapply Rle_trans; [apply Rabs_pos|apply Rmax_r]).
          assert (P3 : (0 <= Rmax (Rmax (Rabs (/ 4 * (1 * / 4))) (Rabs (-1 * / 4))) (Rabs S))%R) by (eapply Rle_trans; [apply Rabs_pos|apply Rmax_r]).
          split; [|split].
          { eapply Rlt_le_trans; [|apply PM; exact P1]. rewrite Rabs_R0, Rmax_right by apply Rabs_pos. lra. }
          { eapply Rlt_le_trans; [|apply PM; exact P2]. apply Rabs_def1; lra. }
          { eapply Rlt_le_trans; [|apply PM; exact P3]. replace (/ 4 * (1 * / 4) + -1 * / 4 + S)%R with (- (3 / 16) + S)%R by lra. lra. }
    - do 5 (split; [auto|]). intros k t2 t3 Hk HI. rewrite (rd_set _ _ _ _ _ _ _ _ _ _ _ _ _ HR) in Hk. unfold ystp in Hk. rs_in Hk. assert (k = 1) by lia. subst k.
      destruct (iterate_det _ _ _ _ _ _ _ HI (fi_it _ _ _ _ _ _ _ _ _ _ _ HF)). auto.
  Qed.
End Run.

Notation lo_ s d t := (on_lower (qp_of d) (gw (uc s) (uE s)) (uz t) (uy t)).
Notation up_ s d t := (on_upper (qp_of d) (gw (uc s) (uE s)) (uz t) (uy t)).

(** No constraint is active: nothing to polish. *)
Lemma ex_rejected : exists s d fl s', ex_polish (yP 1) (yA 1 1) [(-1)%R] [(-5)%R; (-5)%R] [5%R; 5%R] (ystp 1 2 1) s d fl s' /\ ~ polished s'.
Proof.
  assert (EZ : clipR (-5) 5 (1 * / 4) = (/ 4)%R) by apply pol_z0.
  destruct (pol_run (-5) 5 ltac:(lra) ltac:(lra) ltac:(lra) (/ 4) (eq_sym EZ)) as (s & d & fl & s' & t1 & HX & HR & X0 & Z0 & Z1 & Y0 & Y1 & HK); [cases|split; [left; lra|cases]|].
  exists s, d, fl, s'. split; [auto|]. destruct HX as (HS & HC & HT & HU & HE & HP & HSo).
  destruct (user_polish rE rE_ok _ _ _ _ _ _ _ _ s d fl s' HS HU HE HT HP HSo) as (k & t & t2 & A1 & A2 & A3 & [(_ & _ & (i & Hi & HA) & _)|(A4 & _)]); [|exact A4]. exfalso.
  rewrite (HK _ _ _ A1 A2) in HA. revert HA. destruct (ready_none _ _ _ _ _ _ _ _ _ _ _ _ _ HR) as (Ec & _ & EE). unfold active, on_upper, on_lower, gw. cbn [q_l q_u qp_of]. rewrite Ec, EE.
  destruct (rd_l _ _ _ _ _ _ _ _ _ _ _ _ _ HR) as (L0 & L1). destruct (rd_u _ _ _ _ _ _ _ _ _ _ _ _ _ HR) as (U0 & U1). assert (Hc : i = 0 \/ i = 1) by lia.
  destruct Hc as [-> | ->]; rewrite ?L0, ?L1, ?U0, ?U1, ?Z0, ?Z1, ?Y0, ?Y1; lra.
Qed.

(** x = 1/2 is active: polishing moves x from 1/4 to 11/18 and both residuals fall, from 1/4 and 1 to 1/9 and 1/6. *)
Lemma ex_accepted : exists s d fl s', ex_polish (yP 1) (yA 1 1) [(-1)%R] [(-5)%R; (/ 2)%R] [5%R; (/ 2)%R] (ystp 1 2 1) s d fl s' /\ polished s'.
Proof.
  assert (EZ : clipR (/ 2) (/ 2) (1 * / 4) = (/ 2)%R) by (unfold clipR; cases).
  destruct (pol_run (/ 2) (/ 2) ltac:(lra) ltac:(lra) ltac:(lra) (/ 2) (eq_sym EZ)) as (s & d & fl & s' & t1 & HX & HR & X0 & Z0 & Z1 & Y0 & Y1 & HK); [cases|split; [right; cases|cases]|].
  exists s, d, fl, s'. split; [auto|]. destruct HX as (HS & HC & HT & HU & HE & HP & HSo).
  destruct (user_polish rE rE_ok _ _ _ _ _ _ _ _ s d fl s' HS HU HE HT HP HSo) as (k & t & t2 & A1 & A2 & A3 & A4).
  rewrite (HK _ _ _ A1 A2) in A4. clear A1 A2 A3.
  destruct A4 as [(A4 & _)|(_ & _ & _ & _ & _ & _ & [(_ & _ & x & z & y & B1 & B2)|[(_ & _ & B)|(_ & _ & B)]])]; [exact A4|exfalso..].
  3:{ apply B. split; [exact rE_exact|exact HC]. }
  2:{ apply (B 1); [lia|]. left. right. cbn [q_l q_u qp_of]. destruct (rd_l _ _ _ _ _ _ _ _ _ _ _ _ _ HR) as (_ & ->). destruct (rd_u _ _ _ _ _ _ _ _ _ _ _ _ _ HR) as (_ & ->). auto. }
  apply polish_point_exact in B1; [|exact rE_exact]. destruct B1 as (w & HN & HRc). apply B2. clear B2.
  destruct (ready_none _ _ _ _ _ _ _ _ _ _ _ _ _ HR) as (Ec & ED & EE). rewrite (rd_set _ _ _ _ _ _ _ _ _ _ _ _ _ HR) in HN.
  destruct (rd_l _ _ _ _ _ _ _ _ _ _ _ _ _ HR) as (L0 & L1). destruct (rd_u _ _ _ _ _ _ _ _ _ _ _ _ _ HR) as (U0 & U1). pose proof (rd_q _ _ _ _ _ _ _ _ _ _ _ _ _ HR) as Q0.
  assert (Qm : q_m (qp_of d) = 2) by exact (rd_m _ _ _ _ _ _ _ _ _ _ _ _ _ HR). assert (Qn : q_n (qp_of d) = 1) by exact (rd_n _ _ _ _ _ _ _ _ _ _ _ _ _ HR).
  assert (GW : forall i, gw (uc s) (uE s) i = 1%R) by (intros; unfold gw; rewrite Ec, EE; field). assert (HW : forall i, hw (uc s) (uD s) i = 1%R) by (intros; unfold hw; rewrite Ec, ED; field).
  assert (LO1 : lo_ s d t1 1) by (right; cbn [q_l q_u qp_of]; rewrite L1, U1; auto).
  assert (N0 : ~ lo_ s d t1 0 /\ ~ up_ s d t1 0) by (unfold on_upper, on_lower; cbn [q_l q_u qp_of]; rewrite GW, L0, U0, Z0, Y0; split; lra).
  change (st_sigma (ystp 1 2 1)) with 1%R in HN. change (S (Z.to_nat (st_polish_refine_iter (ystp 1 2 1)))) with 4%nat in HN.
  assert (ST : forall x w x' w', newton (qp_of d) 1 (gw (uc s) (uE s)) (hw (uc s) (uD s)) (lo_ s d t1) (up_ s d t1) x w x' w' ->
    w' 0 = w 0 /\ (2 * (x' 0%Z - x 0%Z) + (w' 1%Z - w 1%Z) = - (-1 + x 0%Z + (w 0%Z + w 1%Z)))%R /\ ((x' 0%Z - x 0%Z) - (w' 1%Z - w 1%Z) = / 2 - x 0%Z)%R).
  { intros x1 w1 x2 w2 (dx & dw & D1 & D2 & D3 & D4 & _ & D6). rewrite Qn, Qm in *. pose proof (D1 0 ltac:(lia)) as D10. pose proof (D2 0 ltac:(lia)) as D20. pose proof (D2 1 ltac:(lia)) as D21. specialize (D3 0 ltac:(lia)). specialize (D4 1 ltac:(lia) LO1). destruct N0 as (N01 & N02). specialize (D6 0 ltac:(lia) N01 N02).
    rewrite !(rd_P _ _ _ _ _ _ _ _ _ _ _ _ _ HR), !(rd_At _ _ _ _ _ _ _ _ _ _ _ _ _ HR), HW in D3. destruct (rd_A _ _ _ _ _ _ _ _ _ _ _ _ _ HR dx) as (_ & A1). destruct (rd_A _ _ _ _ _ _ _ _ _ _ _ _ _ HR x1) as (_ & A2). rewrite A1, A2, GW in D4. cbn [q_q q_l qp_of] in D3, D4. rewrite Q0 in D3. rewrite L1 in D4. lra. }
  inversion HN as [|k3 x3 w3 x3' w3' HN3 S3 e1 e2 e3]; subst. inversion HN3 as [|k4 x4 w4 x4' w4' HN4 S4 e4 e5 e6]; subst. inversion HN4 as [|k5 x5 w5 x5' w5' HN5 S5 e7 e8 e9]; subst.
  inversion HN5 as [|k6 x6 w6 x6' w6' HN6 S6 e10 e11 e12]; subst. inversion HN6 as [x7 w7 H7 H8 e13 e14 e15|]; subst. rewrite Qn in H7. rewrite Qm in H8.
  pose proof (H7 0 ltac:(lia)) as G1. pose proof (H8 0 ltac:(lia)) as G2. pose proof (H8 1 ltac:(lia)) as G3. apply ST in S3, S4, S5, S6. destruct S3 as (S31 & S32 & S33). destruct S4 as (S41 & S42 & S43). destruct S5 as (S51 & S52 & S53). destruct S6 as (S61 & S62 & S63).
  assert (EX : x 0%Z = (11 / 18)%R) by lra. assert (EW0 : w 0%Z = 0%R) by lra. assert (EW1 : w 1%Z = (4 / 9)%R) by lra. clear - HRc EX EW0 EW1 GW HR Qn Qm X0 Z0 Z1 Y0 Y1 L0 L1 U0 U1 Q0.
  destruct (HRc 0) as (V1 & V2); [rewrite Qm; lia|]. destruct (HRc 1) as (V3 & V4); [rewrite Qm; lia|]. destruct (rd_A _ _ _ _ _ _ _ _ _ _ _ _ _ HR x) as (A1 & A2). rewrite GW, A1, EX, EW0 in V1, V2. rewrite GW, A2, EX, EW1 in V3, V4. cbn [q_l q_u qp_of] in V1, V3. rewrite L0, U0 in V1. rewrite L1, U1 in V3.
  assert (E0 : clipR (-5) 5 (1 * (11 / 18) + 1 * 0) = (11 / 18)%R) by (unfold clipR; cases). assert (E1 : clipR (/ 2) (/ 2) (1 * (11 / 18) + 1 * (4 / 9)) = (/ 2)%R) by (unfold clipR; cases).
  rewrite E0 in V1. rewrite E1 in V3. assert (F0 : y 0%Z = 0%R) by lra. assert (F1 : y 1%Z = (5 / 9)%R) by lra.
  left. unfold presid, dresid. rewrite Qn, Qm, !ni1, !ni2. destruct (rd_A _ _ _ _ _ _ _ _ _ _ _ _ _ HR (ux t1)) as (A3 & A4). rewrite A1, A2, A3, A4, !(rd_P _ _ _ _ _ _ _ _ _ _ _ _ _ HR), !(rd_At _ _ _ _ _ _ _ _ _ _ _ _ _ HR). cbn [q_q qp_of]. rewrite Q0, EX, X0, F0, F1, Y0, Y1, V1, V3, Z0, Z1.
  split; cases.
Qed.
