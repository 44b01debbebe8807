(** Cases for the claims about the derivative functions: a solver at the optimum of the demo problem, and runs in binary64 that refute what is not true. *)
From Coq Require Import ZArith Reals List Bool Lia Lra String SpecFloat.
From Verif Require Import Num Arr ArrFacts RSum Csc CscSpec CscFacts CscFacts2 CscExamples Vec VecFacts Types Kkt KktSpec Linsys LinsysFacts LinsysSolve Scaling Validate Auxil Polish Api
  Inv RecSimp InvStep InvApi InvScale InvPolish InvSolve ValidFacts InvUpd InvSetup History RealVec RealStep Frame FrameSolve ProbSpec ScaleReal FrameUpd UserSpec Refine ExEnv Ldl LdlEnv Session ExReal DataFacts Obs DataClaims KktDense QpSpec
  AdmmSpec Mid Trace AdmmClaims PassFacts SolveEnd TermSpec TermFacts TermCheck AtyFacts TermSolve SolveClaims SolveUser SolveEx SetupClaims
  Deriv DerivSpec DerivMain DerivPath DerivReach Runs.
Import ListNotations.
Open Scope Z_scope.

(** ** The demo problem solved exactly: x = (0.3, 0.7), y = (-2.9, 0, 0.2) *)
Lemma ex_at_optimum : exists s d so, session rE rP rA (Some rq) (Some rl) (Some ru) 3 2 wst s d /\ rdat d /\ sv_solution s = Some so /\
  (forall j, 0 <= j < 2 -> rnth (so_x so) j = rnth wx j) /\ (forall i, 0 <= i < 3 -> rnth (so_y so) i = rnth wy i).
Proof.
  destruct ex_optimum as (s & d & t & t1 & fl & s' & S & RD & RR & HT & HU & HW & HX & HY & HK & HM & HIt & Hsc & Hst & Htm & HE & HSo & HPo).
  destruct (user_from_optimum rE rE_ok _ _ _ _ _ _ _ _ _ _ _ _ S HT HU HE rE_exact RR (rt_cvx _ RD) HW HK HM 1 t t1 HIt Hsc Hst Htm) as (H1 & _).
  destruct (session_facts rE rE_ok _ _ _ _ _ _ _ _ _ _ S) as (HI & HR & _ & _ & Dn & Dm & _). pose proof (ref_tunits s d HI HR HT) as TU.
  destruct (claim_flag rE rE_ok _ _ _ _ _ _ _ _ _ _ _ _ _ _ _ _ S TU HU HE) as [-> |[(H2 & _)|(_ & H2)]]; [|stc|congruence].
  assert (SS : same_st (sv_settings s) (sv_settings s')) by apply (solve_sfr rE s _ HE).
  assert (HH : has_solution (sv_info s') = true) by (apply has_solution_iff; unfold reports; stc).
  assert (HN : ~ polished s') by (intros (P1 & _); destruct SS as (? & ? & SS); rewrite SS in P1; rs_in P1; congruence).
  pose proof (claim_kept rE rE_ok _ _ _ _ _ _ _ _ _ _ _ _ _ _ _ _ S TU HU HE ltac:(lia) HSo) as HO. destruct (sv_solution s') as [so|] eqn:Eso; [|congruence]. clear HO.
  destruct (solve_at_kkt rE rE_ok _ _ _ _ _ _ _ _ rE_exact s d 0 s' S (rt_cvx _ RD) wst_range HW HK HE HH HN) as (X1 & _ & X3).
  destruct (solution_state rE rE_ok _ _ _ _ _ _ _ _ s d 0 s' so S HU HE ltac:(lia) HH Eso) as (Y1 & Y3).
  destruct (session_step rE rE_ok _ _ _ _ _ _ _ _ s d CSolve S I) as (fl2 & s2 & d2 & R2 & U2 & S2). cbn [user_step] in U2. subst d2.
  assert (s2 = s') by (cbn [run] in R2; unfold osqp_solve, on_solver in R2; rewrite HE in R2; cbn [fst snd] in R2; injection R2; congruence). subst s2.
  exists s', d, so. split; [auto|]. split; [auto|]. split; [auto|]. split; intros i Hi; [rewrite Y1, X1 by auto; auto|rewrite Y3, X3 by auto; auto].
Qed.

Ltac rcase i := let H := fresh in assert (H : i = 0 \/ i = 1 \/ i = 2) by lia; destruct H as [-> |[-> | ->]].
Ltac rcase2 i := let H := fresh in assert (H : i = 0 \/ i = 1) by lia; destruct H as [-> | ->].
Ltac wvals := change (rnth wx 0) with (3 / 10)%R in *; change (rnth wx 1) with (7 / 10)%R in *; change (rnth wy 0) with (- 29 / 10)%R in *; change (rnth wy 1) with 0%R in *; change (rnth wy 2) with (2 / 10)%R in *.

Section Demo.
  Variable d : data Rops.
  Hypothesis RD : rdat d.
  Notation p := (qp_of d).
  Lemma big26 : (10 < 10 ^ 26)%R. Proof. replace 10%R with (10 ^ 1)%R at 1 by ring. apply Rlt_pow; [lra|lia]. Qed.
  Lemma demo_eq i : 0 <= i < 3 -> is_eq p i = (i =? 0).
  Proof.
    intros Hi. destruct (rt_l _ RD) as (l0 & l1 & l2). destruct (rt_u _ RD) as (u0 & u1 & u2). unfold is_eq, Rltb. cbn [q_l q_u qp_of].
    rcase i; rewrite ?l0, ?l1, ?l2, ?u0, ?u1, ?u2; destruct (Rlt_dec _ _); auto; exfalso; lra.
  Qed.
  Lemma demo_low i : 0 <= i < 3 -> has_low p i = negb (i =? 0).
  Proof.
    intros Hi. destruct (rt_l _ RD) as (l0 & l1 & l2). destruct (rt_u _ RD) as (u0 & u1 & u2). pose proof big26. unfold has_low, Rltb. cbn [q_l q_u qp_of].
    rcase i; rewrite ?l0, ?l1, ?l2, ?u0, ?u1, ?u2; repeat destruct (Rlt_dec _ _); auto; exfalso; lra.
  Qed.
  Lemma demo_up i : 0 <= i < 3 -> has_up p i = negb (i =? 0).
  Proof.
    intros Hi. destruct (rt_l _ RD) as (l0 & l1 & l2). destruct (rt_u _ RD) as (u0 & u1 & u2). pose proof big26. unfold has_up, Rltb. cbn [q_l q_u qp_of].
    rcase i; rewrite ?l0, ?l1, ?l2, ?u0, ?u1, ?u2; repeat destruct (Rlt_dec _ _); auto; exfalso; lra.
  Qed.
  Lemma demo_kkt : kkt p (rnth wx) (Amul p (rnth wx)) (rnth wy).
  Proof.
    destruct (rt_A _ RD (rnth wx)) as (A0 & A1 & A2). destruct (rt_P _ RD (rnth wx)) as (P0 & P1). destruct (rt_At _ RD (rnth wy)) as (T0 & T1). destruct (rt_q _ RD) as (q0' & q1). destruct (rt_l _ RD) as (l0' & l1 & l2). destruct (rt_u _ RD) as (u0' & u1 & u2).
    wvals. constructor; cbn [q_n q_m q_q q_l q_u qp_of]; rewrite ?(rt_n _ RD), ?(rt_m _ RD); intros i Hi.
    - rcase2 i; rewrite ?P0, ?P1, ?T0, ?T1, ?q0', ?q1; wvals; lra.
    - reflexivity.
    - unfold ncone. rcase i; rewrite ?A0, ?A1, ?A2, ?l0', ?l1, ?l2, ?u0', ?u1, ?u2; wvals; lra.
  Qed.
  Lemma cauchy7 a0 a1 a2 a3 a4 a5 a6 b0 b1 b2 b3 b4 b5 b6 : let S := (b0 * b0 + b1 * b1 + b2 * b2 + b3 * b3 + b4 * b4 + b5 * b5 + b6 * b6)%R in
    let c := (a0 * b0 + a1 * b1 + a2 * b2 + a3 * b3 + a4 * b4 + a5 * b5 + a6 * b6)%R in
    (c * c <= (a0 * a0 + a1 * a1 + a2 * a2 + a3 * a3 + a4 * a4 + a5 * a5 + a6 * a6) * S)%R.
  Proof.
    cbv zeta. apply Rminus_le. pose proof (fun x => Rle_0_sqr x) as SQ. unfold Rsqr in SQ.
    match goal with |- (?x <= 0)%R => replace x with (- (
      (a0*b1-a1*b0)*(a0*b1-a1*b0) + (a0*b2-a2*b0)*(a0*b2-a2*b0) + (a0*b3-a3*b0)*(a0*b3-a3*b0) + (a0*b4-a4*b0)*(a0*b4-a4*b0) + (a0*b5-a5*b0)*(a0*b5-a5*b0) + (a0*b6-a6*b0)*(a0*b6-a6*b0) +
      (a1*b2-a2*b1)*(a1*b2-a2*b1) + (a1*b3-a3*b1)*(a1*b3-a3*b1) + (a1*b4-a4*b1)*(a1*b4-a4*b1) + (a1*b5-a5*b1)*(a1*b5-a5*b1) + (a1*b6-a6*b1)*(a1*b6-a6*b1) +
      (a2*b3-a3*b2)*(a2*b3-a3*b2) + (a2*b4-a4*b2)*(a2*b4-a4*b2) + (a2*b5-a5*b2)*(a2*b5-a5*b2) + (a2*b6-a6*b2)*(a2*b6-a6*b2) +
      (a3*b4-a4*b3)*(a3*b4-a4*b3) + (a3*b5-a5*b3)*(a3*b5-a5*b3) + (a3*b6-a6*b3)*(a3*b6-a6*b3) +
      (a4*b5-a5*b4)*(a4*b5-a5*b4) + (a4*b6-a6*b4)*(a4*b6-a6*b4) + (a5*b6-a6*b5)*(a5*b6-a6*b5)))%R by ring end.
    match goal with |- (- ?e <= 0)%R => assert (0 <= e)%R; [repeat apply Rplus_le_le_0_compat; apply SQ|lra] end.
  Qed.
  Lemma demo_conditioned : conditioned p (rnth wx) (rnth wy) (/ 100).
  Proof.
    intros vx vl vu ve. set (W := fun i => (on (has_up p i) (vu i) - on (has_low p i) (vl i) + on (is_eq p i) (ve i))%R).
    assert (HW : forall j, J_stat p vx vl vu ve j = (Pmul p vx j + Atmul p W j)%R) by (intros j; reflexivity).
    unfold size, sumn. change (q_n p) with (d_n d). change (q_m p) with (d_m d). rewrite (rt_n _ RD), (rt_m _ RD), !z2, !z3, !HW. unfold J_low, J_up, J_eq.
    rewrite !demo_low, !demo_up, !demo_eq by lia. change (0 =? 0) with true. change (1 =? 0) with false. change (2 =? 0) with false. cbn [negb on].
    destruct (rt_At _ RD W) as (T0 & T1). rewrite T0, T1. clear T0 T1 HW.
    assert (W0 : W 0 = ve 0) by (unfold W; rewrite !demo_low, !demo_up, !demo_eq by lia; cbn; ring).
    assert (W1 : W 1 = (vu 1%Z - vl 1%Z)%R) by (unfold W; rewrite !demo_low, !demo_up, !demo_eq by lia; cbn; ring).
    assert (W2 : W 2 = (vu 2%Z - vl 2%Z)%R) by (unfold W; rewrite !demo_low, !demo_up, !demo_eq by lia; cbn; ring). rewrite W0, W1, W2. clearbody W. clear W W0 W1 W2.
    destruct (rt_A _ RD (rnth wx)) as (A0 & A1 & A2). rewrite ?A0, ?A1, ?A2. clear A0 A1 A2. destruct (rt_A _ RD vx) as (A0 & A1 & A2). rewrite ?A0, ?A1, ?A2. clear A0 A1 A2.
    destruct (rt_P _ RD vx) as (P0 & P1). rewrite P0, P1. clear P0 P1. destruct (rt_l _ RD) as (l0' & l1 & l2). destruct (rt_u _ RD) as (u0' & u1 & u2). cbn [q_l q_u qp_of]. rewrite l1, l2, u1, u2.
    unfold lamL, lamU. wvals. rewrite !(Rmax_right (- (2 / 10)) 0), !(Rmax_left (2 / 10) 0), !(Rmax_right 0 0), !(Rmax_right (- 0) 0) by lra.
    generalize (vx 0) as a, (vx 1) as b, (ve 0) as e, (vl 1) as L1, (vl 2) as L2, (vu 1) as U1, (vu 2) as U2. intros a b e L1 L2 U1 U2.
    set (S0 := (4 * a + b + (e + (U1 - L1)))%R). set (S1 := (a + 2 * b + (e + (U2 - L2)))%R).
    set (B1 := (- (3 / 10) * L1)%R). set (B2 := (- (7 / 10) * L2)%R). set (B3 := (- (4 / 10) * U1)%R). set (B4 := (2 / 10 * b)%R). set (B5 := (a + b)%R).
    set (S := (S0 * S0 + S1 * S1 + B1 * B1 + B2 * B2 + B3 * B3 + B4 * B4 + B5 * B5)%R).
    assert (HS : forall x, (0 <= x * x)%R) by (intros x; apply Rle_0_sqr). assert (S_pos : (0 <= S)%R) by (unfold S; repeat apply Rplus_le_le_0_compat; apply HS).
    pose proof (cauchy7 0 0 0 0 0 5 0 S0 S1 B1 B2 B3 B4 B5) as C1. pose proof (cauchy7 0 0 0 0 0 (-5) 1 S0 S1 B1 B2 B3 B4 B5) as C2.
    pose proof (cauchy7 0 0 (-10/3) 0 0 0 0 S0 S1 B1 B2 B3 B4 B5) as C3. pose proof (cauchy7 0 0 0 (-10/7) 0 0 0 S0 S1 B1 B2 B3 B4 B5) as C4. pose proof (cauchy7 0 0 0 0 (-5/2) 0 0 S0 S1 B1 B2 B3 B4 B5) as C5.
    pose proof (cauchy7 1 0 (-10/3) 0 (5/2) 15 (-4) S0 S1 B1 B2 B3 B4 B5) as C6. pose proof (cauchy7 (-1) 1 (10/3) (-10/7) (-5/2) (-20) 3 S0 S1 B1 B2 B3 B4 B5) as C7.
    cbv zeta in *. fold S in C1, C2, C3, C4, C5, C6, C7.
    match type of C1 with (?c * ?c <= _)%R => replace c with b in C1 by (unfold B4; field) end.
    match type of C2 with (?c * ?c <= _)%R => replace c with a in C2 by (unfold B4, B5; field) end.
    match type of C3 with (?c * ?c <= _)%R => replace c with L1 in C3 by (unfold B1; field) end.
    match type of C4 with (?c * ?c <= _)%R => replace c with L2 in C4 by (unfold B2; field) end.
    match type of C5 with (?c * ?c <= _)%R => replace c with U1 in C5 by (unfold B3; field) end.
    match type of C6 with (?c * ?c <= _)%R => replace c with e in C6 by (unfold S0, B1, B3, B4, B5; field) end.
    match type of C7 with (?c * ?c <= _)%R => replace c with U2 in C7 by (unfold S0, S1, B1, B2, B3, B4, B5; field) end.
    match goal with |- (_ <= ?r)%R => replace r with S end.
    2:{ unfold S, S0, S1, B1, B2, B3, B4, B5. field. }
    clearbody S. nra.
  Qed.
  Lemma demo_regular (dx dy : Z -> R) : (sumsq 2 dx + 2 * sumsq 3 dy <= 10 ^ 300 * 10 ^ 300)%R -> regular p (rnth wx) (rnth wy) dx dy (/ 100).
  Proof.
    intros HS. constructor; [exact demo_kkt| | |lra|exact demo_conditioned|change (q_n p) with (d_n d); change (q_m p) with (d_m d); rewrite (rt_n _ RD), (rt_m _ RD); auto].
    - destruct (rt_l _ RD) as (l0' & l1 & l2). destruct (rt_u _ RD) as (u0' & u1 & u2). pose proof big26. intros i Hi. change (q_m p) with (d_m d) in Hi. rewrite (rt_m _ RD) in Hi. cbn [q_l q_u qp_of]. rcase i; rewrite ?l0', ?l1, ?l2, ?u0', ?u1, ?u2; wvals; lra.
    - intros i Hi He. change (q_m p) with (d_m d) in Hi. rewrite (rt_m _ RD) in Hi. rewrite demo_eq in He by auto. apply Z.eqb_eq in He. subst i. wvals. lra.
  Qed.

  (** The upper bound of the third constraint moves. *)
  Definition up2 : qp := mkqp 2 3 (fun _ _ => 0%R) (fun _ _ => 0%R) (fun _ => 0%R) (fun _ => 0%R) (fun i => if i =? 2 then 1%R else 0%R).
  Definition upx (j : Z) : R := if j =? 0 then (-1)%R else 1%R.
  Definition upy (i : Z) : R := if i =? 0 then 3%R else if i =? 1 then 0%R else (-4)%R.
  Definition pathp (t : R) : qp := mkqp 2 3 (q_P p) (q_A p) (q_q p) (q_l p) (fun i => (q_u p i + t * (if i =? 2 then 1 else 0))%R).
  Definition pathx (t : R) (j : Z) : R := (rnth wx j + t * upx j)%R.
  Definition pathy (t : R) (i : Z) : R := (rnth wy i + t * upy i)%R.
  Lemma lim_affine a b : derivable_pt_lim (fun t => (a + t * b)%R) 0 b.
  Proof.
    intros eps He. exists (mkposreal 1 Rlt_0_1). intros h Hh _. replace ((a + (0 + h) * b - (a + 0 * b)) / h - b)%R with 0%R by (field; auto). rewrite Rabs_R0. auto.
  Qed.
  Lemma path_P t v j : Pmul (pathp t) v j = Pmul p v j.
  Proof. unfold Pmul, pathp. cbn [q_n q_P qp_of]. rewrite (rt_n _ RD). auto. Qed.
  Lemma path_A t v j : Amul (pathp t) v j = Amul p v j.
  Proof. unfold Amul, pathp. cbn [q_n q_A qp_of]. rewrite (rt_n _ RD). auto. Qed.
  Lemma path_At t v j : Atmul (pathp t) v j = Atmul p v j.
  Proof. unfold Atmul, pathp. cbn [q_m q_A qp_of]. rewrite (rt_m _ RD). auto. Qed.
  Lemma demo_path : solution_path pathp pathx pathy up2 upx upy.
  Proof.
    assert (LC : forall a, derivable_pt_lim (fun _ : R => a) 0 0%R) by (intros a; apply derivable_pt_lim_const).
    constructor; auto.
    - intros t i j. apply sdns_sym.
    - intros i j. exact (LC (q_P p i j)).
    - intros i j. exact (LC (q_A p i j)).
    - intros j. exact (LC (q_q p j)).
    - intros i. exact (LC (q_l p i)).
    - intros i. exact (lim_affine (q_u p i) (if i =? 2 then 1%R else 0%R)).
    - intros j Hj. exact (lim_affine (rnth wx j) (upx j)).
    - intros i Hi. exact (lim_affine (rnth wy i) (upy i)).
    - exists (/ 100)%R. split; [lra|]. intros t Ht. assert (Ht' : (- / 100 < t < / 100)%R) by (apply Rabs_def2 in Ht; lra). clear Ht.
      destruct (rt_A _ RD (pathx t)) as (A0 & A1 & A2). destruct (rt_P _ RD (pathx t)) as (P0 & P1). destruct (rt_At _ RD (pathy t)) as (T0 & T1). destruct (rt_q _ RD) as (q0' & q1). destruct (rt_l _ RD) as (l0' & l1 & l2). destruct (rt_u _ RD) as (u0' & u1 & u2).
      change (pathx t 0) with (3 / 10 + t * -1)%R in *. change (pathx t 1) with (7 / 10 + t * 1)%R in *. change (pathy t 0) with (- 29 / 10 + t * 3)%R in *. change (pathy t 1) with (0 + t * 0)%R in *. change (pathy t 2) with (2 / 10 + t * -4)%R in *.
      constructor; intros i Hi; rewrite ?path_P, ?path_A, ?path_At; cbn [pathp q_n q_m q_q q_l q_u qp_of] in *.
      + rcase2 i; rewrite ?P0, ?P1, ?T0, ?T1, ?q0', ?q1; lra.
      + auto.
      + unfold ncone. rcase i; rewrite ?A0, ?A1, ?A2, ?l0', ?l1, ?l2, ?u0', ?u1, ?u2; change (0 =? 2) with false; change (1 =? 2) with false; change (2 =? 2) with true; cbv iota;
          change (pathy t 0) with (- 29 / 10 + t * 3)%R in *; change (pathy t 1) with (0 + t * 0)%R in *; change (pathy t 2) with (2 / 10 + t * -4)%R in *; lra.
    - exists 1%R. split; [lra|]. intros t i _ Hi He. cbn [up2 q_m] in Hi. destruct (rt_l _ RD) as (l0' & l1 & l2). destruct (rt_u _ RD) as (u0' & u1 & u2). unfold is_eq, Rltb in He. cbn [pathp q_l q_u qp_of] in *.
      rcase i; rewrite ?l0', ?l1, ?l2, ?u0', ?u1, ?u2 in *; change (0 =? 2) with false in *; change (1 =? 2) with false in *; change (2 =? 2) with true in *; cbv iota in *; [lra| |]; destruct (Rlt_dec _ _) as [|N] in He; try discriminate He; lra.
    - intros i Hi He Hy. cbn [up2 q_m] in Hi. destruct (rt_A _ RD (pathx 0)) as (A0 & A1 & A2). destruct (rt_l _ RD) as (l0' & l1 & l2). destruct (rt_u _ RD) as (u0' & u1 & u2). rewrite path_A.
      change (pathx 0 0) with (3 / 10 + 0 * -1)%R in *. change (pathx 0 1) with (7 / 10 + 0 * 1)%R in *. unfold is_eq, Rltb in He. cbn [pathp q_l q_u qp_of] in *. unfold pathy in Hy.
      rcase i; rewrite ?A0, ?A1, ?A2, ?l0', ?l1, ?l2, ?u0', ?u1, ?u2 in *; change (0 =? 2) with false in *; change (1 =? 2) with false in *; change (2 =? 2) with true in *; cbv iota in *; wvals; change (upy 0) with 3%R in *; change (upy 2) with (-4)%R in *; lra.
  Qed.
  Lemma demo_start : same_qp (pathp 0) p /\ (forall j, pathx 0 j = rnth wx j) /\ (forall i, pathy 0 i = rnth wy i).
  Proof.
    split; [|split; intros; unfold pathx, pathy; ring].
    constructor; auto; cbn [pathp q_n q_m q_u qp_of]; [symmetry; apply (rt_n _ RD)|symmetry; apply (rt_m _ RD)|]. intros; ring.
  Qed.
  Lemma demo_moves : direction p up2 /\ tangent p up2 (rnth wx) (rnth wy) upx upy.
  Proof.
    destruct demo_start as (S & X & Y). pose proof (path_direction _ _ _ _ _ _ demo_path) as D. pose proof (path_tangent _ _ _ _ _ _ demo_path) as T.
    split; [exact (same_direction _ _ _ S D)|]. pose proof (same_tangent _ _ _ _ _ _ _ S T) as T'. apply (tangent_ext p (pathx 0) (rnth wx) (pathy 0) (rnth wy)); auto; [symmetry; apply (rt_n _ RD)|symmetry; apply (rt_m _ RD)].
  Qed.
  Lemma demo_predicted gP gA gq gl gu : predicted p gP gA gq gl gu up2 = gu 2.
  Proof.
    unfold predicted, sumn. change (q_n p) with (d_n d). change (q_m p) with (d_m d). rewrite (rt_n _ RD), (rt_m _ RD), !z2, !z3, !z2. cbn [up2 q_P q_q q_A q_l q_u]. change (0 =? 2) with false; change (1 =? 2) with false; change (2 =? 2) with true. cbv iota. ring.
  Qed.
End Demo.

Lemma regular_ext p x x2 y y2 dx dy k : (forall j, 0 <= j < q_n p -> x j = x2 j) -> (forall i, 0 <= i < q_m p -> y i = y2 i) -> regular p x y dx dy k -> regular p x2 y2 dx dy k.
Proof.
  intros Hx Hy [R1 R2 R3 R4 R5 R6]. constructor; auto.
  - eapply DerivMain.kkt_ext; eauto.
  - eapply bounds_ext; eauto.
  - intros i Hi He. rewrite <- Hy by auto. auto.
  - eapply conditioned_ext; eauto.
Qed.
Lemma sums_demo v : (sumsq 2 v = v 0%Z * v 0%Z + v 1%Z * v 1%Z)%R /\ (sumsq 3 v = v 0%Z * v 0%Z + v 1%Z * v 1%Z + v 2%Z * v 2%Z)%R.
Proof. unfold sumsq, sumn. rewrite z2, z3. auto. Qed.
Lemma big600 : (10 <= 10 ^ 300 * 10 ^ 300)%R.
Proof. rewrite <- pow_add. replace 10%R with (10 ^ 1)%R at 1 by ring. apply Rle_pow; [lra|lia]. Qed.

(** A solver at the optimum, ready for the derivative functions: the weights dx = (1, 0), dy = (b, 0, 1). *)
Definition exdx : list R := [1; 0]%R.
Definition exdy (b : R) : list R := [b; 0; 1]%R.
Lemma ex_ready b : b = 0%R \/ b = 1%R -> exists s d so dd, session rE rP rA (Some rq) (Some rl) (Some ru) 3 2 wst s d /\ sv_solution s = Some so /\ deriv_state rE 3 2 dd /\ 2 <= rlen exdx /\ 3 <= rlen (exdy b) /\
  regular (qp_of d) (rnth (so_x so)) (rnth (so_y so)) (rnth exdx) (rnth (exdy b)) (/ 100) /\ (b = 0%R -> forall i, 0 <= i < 3 -> (rnth (so_y so) i < 0)%R -> rnth (exdy b) i = 0%R) /\
  (rnth (so_y so) 0 < 0)%R /\ (0 < rnth (so_y so) 2)%R /\ d_n d = 2 /\ d_m d = 3 /\
  direction (qp_of d) up2 /\ tangent (qp_of d) up2 (rnth (so_x so)) (rnth (so_y so)) upx upy /\
  solution_path (pathp d) pathx pathy up2 upx upy /\ same_qp (pathp d 0) (qp_of d) /\ (forall j, 0 <= j < 2 -> pathx 0 j = rnth (so_x so) j) /\ (forall i, 0 <= i < 3 -> pathy 0 i = rnth (so_y so) i) /\
  (forall gP gA gq gl gu, predicted (qp_of d) gP gA gq gl gu up2 = gu 2).
Proof.
  intros Hb. destruct ex_at_optimum as (s & d & so & S & RD & Eso & HX & HY). exists s, d, so, (deriv_init rE 2 3). destruct (demo_start d RD) as (D1 & D2 & D3). destruct (demo_moves d RD) as (M1 & M2).
  assert (HX' : forall j, 0 <= j < q_n (qp_of d) -> rnth wx j = rnth (so_x so) j) by (change (q_n (qp_of d)) with (d_n d); rewrite (rt_n _ RD); intros; symmetry; auto).
  assert (HY' : forall j, 0 <= j < q_m (qp_of d) -> rnth wy j = rnth (so_y so) j) by (change (q_m (qp_of d)) with (d_m d); rewrite (rt_m _ RD); intros; symmetry; auto).
  split; [auto|]. split; [auto|]. split; [constructor|]. split; [unfold zlen, exdx; cbn; lia|]. split; [unfold zlen, exdy; cbn; lia|].
  split. { apply (regular_ext _ (rnth wx) _ (rnth wy)); auto. apply (demo_regular d RD). destruct (sums_demo (rnth exdx)) as (-> & _). destruct (sums_demo (rnth (exdy b))) as (_ & ->). pose proof big600.
    change (rnth exdx 0) with 1%R. change (rnth exdx 1) with 0%R. change (rnth (exdy b) 0) with b. change (rnth (exdy b) 1) with 0%R. change (rnth (exdy b) 2) with 1%R. destruct Hb as [-> | ->]; lra. }
  split. { intros -> i Hi Hn. rewrite HY in Hn by auto. rcase i; [reflexivity|reflexivity|]. wvals. lra. }
  rewrite !HY by lia. wvals. split; [lra|]. split; [lra|]. split; [apply (rt_n _ RD)|]. split; [apply (rt_m _ RD)|].
  split; [auto|]. split. { eapply tangent_ext; [exact HX'|exact HY'|symmetry; apply (rt_n _ RD)|symmetry; apply (rt_m _ RD)|auto]. }
  split; [apply (demo_path d RD)|]. split; [auto|]. split; [intros; rewrite HX by auto; auto|]. split; [intros; rewrite HY by auto; auto|]. apply (demo_predicted d RD).
Qed.

Lemma same_gradient E s dd p x y dx dy w w' eps dp x' y' : returns_gradient E s dd p x y dx dy w eps -> returns_gradient E s dd p x y dx dy w' eps -> direction p dp -> tangent p dp x y x' y' ->
  (forall gP gA gq gl gu, predicted p gP gA gq gl gu dp = gu 2) -> 2 < q_m p ->
  (Rabs (sumn (q_m p) (fun i => w i * y' i) - sumn (q_m p) (fun i => w' i * y' i)) <= 2 * (eps * sqrt (sumsq (q_n p) x' + sumsq (q_m p) y')))%R.
Proof.
  intros (dd1 & gP1 & gA1 & gq1 & gl1 & gu1 & C1 & _ & V1 & G1) (dd2 & gP2 & gA2 & gq2 & gl2 & gu2 & C2 & _ & V2 & G2) DR TG PR Hm. rewrite C1 in C2. injection C2 as <-.
  destruct (V1 (zrep (q_n p) 0%R) (zrep (q_m p) 0%R) (zrep (q_m p) 0%R)) as (a & b & c & E1 & _ & U1); [change (car Rops) with R; rewrite zlen_zrep_max; lia..|].
  destruct (V2 (zrep (q_n p) 0%R) (zrep (q_m p) 0%R) (zrep (q_m p) 0%R)) as (a' & b' & c' & E2 & _ & U2); [change (car Rops) with R; rewrite zlen_zrep_max; lia..|].
  pose proof (eq_trans (eq_sym E1) E2) as E3. injection E3 as <- <- <-. destruct (U1 2 ltac:(lia)) as (_ & H1). destruct (U2 2 ltac:(lia)) as (_ & H2).
  specialize (G1 dp x' y' DR TG). specialize (G2 dp x' y' DR TG). rewrite PR in G1, G2. rewrite <- H1 in G1. rewrite <- H2 in G2.
  set (X := sumn (q_n p) _) in *. set (Y1 := sumn (q_m p) (fun i => w i * y' i)%R) in *. set (Y2 := sumn (q_m p) (fun i => w' i * y' i)%R) in *. set (g := rnth c 2) in *. set (e := (eps * _)%R) in *.
  clearbody X Y1 Y2 g e. unfold Rabs in *. repeat destruct (Rcase_abs _); lra.
Qed.

(** The entries of dy are not used as documented: with dy = (1, 0, 1) the gradient is off by the wrong sign of the first constraint's multiplier. *)
Lemma dy_refuted : ~ (forall E, env_ok E -> exact_ldl E -> forall P A q l u m n ust s d so dd dx dy k, session E P A q l u m n ust s d -> sv_solution s = Some so -> deriv_state E m n dd ->
  n <= rlen dx -> m <= rlen dy -> regular (qp_of d) (rnth (so_x so)) (rnth (so_y so)) (rnth dx) (rnth dy) k ->
  returns_gradient E s dd (qp_of d) (rnth (so_x so)) (rnth (so_y so)) dx dy (rnth dy) (/ 10 ^ 12 * (1 + / k))%R).
Proof.
  intros H. destruct (ex_ready 1 (or_intror eq_refl)) as (s & d & so & dd & S & Eso & DS & L1 & L2 & RG & _ & N0 & N2 & Dn & Dm & DR & TG & _ & _ & _ & _ & PR).
  pose proof (H rE rE_ok rE_exact _ _ _ _ _ _ _ _ s d so dd exdx (exdy 1) (/ 100)%R S Eso DS L1 L2 RG) as G1.
  pose proof (session_gradient rE rE_ok rE_exact _ _ _ _ _ _ _ _ s d so dd exdx (exdy 1) (/ 100)%R S Eso DS L1 L2 RG) as G2.
  pose proof (same_gradient _ _ _ _ _ _ _ _ _ _ _ _ _ _ G1 G2 DR TG PR) as B. change (q_n (qp_of d)) with (d_n d) in B. change (q_m (qp_of d)) with (d_m d) in B. rewrite Dn, Dm in B. specialize (B ltac:(lia)).
  unfold sumn in B. rewrite !z3 in B. destruct (sums_demo upx) as (Ex & _). destruct (sums_demo upy) as (_ & Ey). rewrite Ex, Ey in B. clear Ex Ey.
  unfold sgn_used in B. destruct (Rlt_dec (rnth (so_y so) 0) 0); [|contradiction]. destruct (Rlt_dec (rnth (so_y so) 2) 0); [lra|].
  change (rnth (exdy 1) 0) with 1%R in B. change (rnth (exdy 1) 1) with 0%R in B. change (rnth (exdy 1) 2) with 1%R in B. change (upx 0) with (-1)%R in B. change (upx 1) with 1%R in B. change (upy 0) with 3%R in B. change (upy 1) with 0%R in B. change (upy 2) with (-4)%R in B.
  match type of B with (Rabs ?a <= 2 * (?e * sqrt ?r))%R => replace a with 6%R in B by (destruct (Rlt_dec (rnth (so_y so) 1) 0); ring); replace r with (27)%R in B by ring end.
  assert (Hs : (sqrt 27 <= 6)%R) by (apply Rsqr_incr_0_var; [unfold Rsqr; rewrite sqrt_sqrt; lra|lra]). pose proof (sqrt_pos 27) as Hs0. rewrite Rabs_right in B by lra. 
  assert (Hp : (/ 10 ^ 12 <= / 10 ^ 3)%R) by (apply Rinv_le_contravar; [apply pow_lt; lra|apply Rle_pow; [lra|lia]]). assert (Hp0 : (0 < / 10 ^ 12)%R) by (apply Rinv_0_lt_compat, pow_lt; lra).
  rewrite Rinv_inv in B. set (h := (/ 10 ^ 12)%R) in *. clearbody h. replace (10 ^ 3)%R with 1000%R in Hp by ring. set (r27 := sqrt 27) in *. clearbody r27. nra.
Qed.

(** ** Runs in binary64 *)
(** AMD runs out of memory inside the derivative call: the same environment otherwise. *)
Definition no_amd {K : NumOps} (E : Env K) : Env K := mkEnv K (fun _ _ _ => None) (env_fac E) (env_ldlsolve E) (env_clock E) (env_int E) (env_jz E) (env_jx E).
(** The data of minimise x^2/2 subject to x = 0. *)
Definition e1 : csc F64 := one (nofZ 1).
Definition vec_of (o : option (Z * (list F64 * list F64 * list F64))) : option (list F64 * list F64 * list F64) := match o with Some (0, r) => Some r | _ => None end.
Definition after (E : Env F64) (s : solver F64) (m n : Z) (dx dy : list F64) : option (list F64 * list F64 * list F64) :=
  match osqp_adjoint_derivative_compute E (Some (s, deriv_init E n m)) dx dy with
  | Some (0, Some dd) => vec_of (osqp_adjoint_derivative_get_vec (Some (s, dd)) (zrep n n0) (zrep m n0) (zrep m n0))
  | _ => None
  end.
Lemma after_ok E s m n dx dy r : after E s m n dx dy = Some r ->
  exists dd, osqp_adjoint_derivative_compute E (Some (s, deriv_init E n m)) dx dy = Some (0, Some dd) /\ osqp_adjoint_derivative_get_vec (Some (s, dd)) (zrep n n0) (zrep m n0) (zrep m n0) = Some (0, r).
Proof.
  unfold after. intros H. destruct (osqp_adjoint_derivative_compute E (Some (s, deriv_init E n m)) dx dy) as [[c [dd|]]|]; [|destruct c; discriminate H|discriminate H]. destruct c; try discriminate H.
  exists dd. split; [reflexivity|]. unfold vec_of in H. destruct (osqp_adjoint_derivative_get_vec (Some (s, dd)) (zrep n n0) (zrep m n0) (zrep m n0)) as [[c r']|]; [|discriminate H]. destruct c; try discriminate H. congruence.
Qed.
Definition fdx : list F64 := [nofZ 1; n0].
Definition fdy : list F64 := [n0; n0; n0].
Definition zerob (v : F64) : bool := neqb v n0.
(** The gradients of the demo problem are not zero; when the ordering step of the factorisation fails the functions still return 0, with gradients that are all zero. *)
Lemma amd_lost : exists s0 g' s dd dq dl du dd' dq' dl' du', osqp_setup fE g0 (Some fP) (Some fq) (Some fA) (Some fl) (Some fu) 3 2 (Some fst0) = Some (0, Some s0, g') /\ calls fE [CSolve] s0 = Some ([0], s) /\
  i_status_val (sv_info s) = OSQP_SOLVED /\
  osqp_adjoint_derivative_compute fE (Some (s, deriv_init fE 2 3)) fdx fdy = Some (0, Some dd) /\ osqp_adjoint_derivative_get_vec (Some (s, dd)) (zrep 2 n0) (zrep 3 n0) (zrep 3 n0) = Some (0, (dq, dl, du)) /\
  osqp_adjoint_derivative_compute (no_amd fE) (Some (s, deriv_init (no_amd fE) 2 3)) fdx fdy = Some (0, Some dd') /\ osqp_adjoint_derivative_get_vec (Some (s, dd')) (zrep 2 n0) (zrep 3 n0) (zrep 3 n0) = Some (0, (dq', dl', du')) /\
  nltb (nlit 9 (-1)) (hd0 dl) = true /\ forallb zerob dl' = true /\ forallb zerob du' = true /\ forallb zerob dq' = true.
Proof.
  destruct (script_ok fE g0 fP fq fA fl fu 3 2 fst0 [CSolve] [0]
    (fun _ s => (i_status_val (sv_info s) =? OSQP_SOLVED) && match after fE s 3 2 fdx fdy, after (no_amd fE) s 3 2 fdx fdy with
      | Some (dq, dl, du), Some (dq', dl', du') => nltb (nlit 9 (-1)) (hd0 dl) && forallb zerob dl' && forallb zerob du' && forallb zerob dq'
      | _, _ => false end)) as (s0 & g' & s & H1 & H2 & H3); [vm_compute; reflexivity|].
  apply andb_prop in H3. destruct H3 as (H3 & H4). apply Z.eqb_eq in H3.
  destruct (after fE s 3 2 fdx fdy) as [[[dq dl] du]|] eqn:A1; [|discriminate H4]. destruct (after (no_amd fE) s 3 2 fdx fdy) as [[[dq' dl'] du']|] eqn:A2; [|discriminate H4].
  apply after_ok in A1. destruct A1 as (dd & B1 & B2). apply after_ok in A2. destruct A2 as (dd' & B3 & B4).
  apply andb_prop in H4. destruct H4 as (H4 & H7). apply andb_prop in H4. destruct H4 as (H4 & H6). apply andb_prop in H4. destruct H4 as (H4 & H5).
  exists s0, g', s, dd, dq, dl, du, dd', dq', dl', du'. do 10 (split; [assumption|]). assumption.
Qed.
(** minimise x^2/2 subject to x = 0: the multiplier is zero and the gradient with respect to the bound, which is 1, comes out as NaN. *)
Lemma nan_gradient : exists s0 g' s dd dq dl du, osqp_setup fE g0 (Some e1) (Some [nofZ 0]) (Some e1) (Some [nofZ 0]) (Some [nofZ 0]) 1 1 (Some unscaled) = Some (0, Some s0, g') /\ calls fE [CSolve] s0 = Some ([0], s) /\
  i_status_val (sv_info s) = OSQP_SOLVED /\
  osqp_adjoint_derivative_compute fE (Some (s, deriv_init fE 1 1)) [nofZ 1] [n0] = Some (0, Some dd) /\ osqp_adjoint_derivative_get_vec (Some (s, dd)) (zrep 1 n0) (zrep 1 n0) (zrep 1 n0) = Some (0, (dq, dl, du)) /\
  is_nan (hd0 du) = true.
Proof.
  destruct (script_ok fE g0 e1 [nofZ 0] e1 [nofZ 0] [nofZ 0] 1 1 unscaled [CSolve] [0]
    (fun _ s => (i_status_val (sv_info s) =? OSQP_SOLVED) && match after fE s 1 1 [nofZ 1] [n0] with Some (dq, dl, du) => is_nan (hd0 du) | None => false end)) as (s0 & g' & s & H1 & H2 & H3); [vm_compute; reflexivity|].
  apply andb_prop in H3. destruct H3 as (H3 & H4). apply Z.eqb_eq in H3. destruct (after fE s 1 1 [nofZ 1] [n0]) as [[[dq dl] du]|] eqn:A1; [|discriminate H4]. apply after_ok in A1. destruct A1 as (dd & B1 & B2).
  exists s0, g', s, dd, dq, dl, du. do 5 (split; [assumption|]). assumption.
Qed.
(** allocate_solution = 0: the solver has no solution to differentiate at, and the call reads through a null pointer. *)
Definition no_sol : settings F64 := set_st_allocate_solution 0 fst0.
Lemma null_solution : exists s0 g' s, osqp_setup fE g0 (Some fP) (Some fq) (Some fA) (Some fl) (Some fu) 3 2 (Some no_sol) = Some (0, Some s0, g') /\ calls fE [CSolve] s0 = Some ([0], s) /\
  osqp_adjoint_derivative_compute fE (Some (s, deriv_init fE 2 3)) fdx fdy = None.
Proof.
  destruct (script_ok fE g0 fP fq fA fl fu 3 2 no_sol [CSolve] [0] (fun _ s => match sv_solution s with None => true | Some _ => false end)) as (s0 & g' & s & H1 & H2 & H3); [vm_compute; reflexivity|].
  exists s0, g', s. split; [assumption|]. split; [assumption|]. cbn [osqp_adjoint_derivative_compute]. destruct (adjoint_derivative_compute fE s (deriv_init fE 2 3) fdx fdy fdy) as [r|] eqn:EC; [|reflexivity].
  destruct (no_solution fE _ _ _ _ _ _ EC) as (so & Eso). rewrite Eso in H3. discriminate H3.
Qed.

Lemma fdx_len : 2 <= zlen fdx. Proof. unfold zlen, fdx. cbn. lia. Qed.
Lemma fdy_len : 3 <= zlen fdy. Proof. unfold zlen, fdy. cbn. lia. Qed.
(** the demo problem solved in binary64; the derivative data left by a call *)
Lemma safe_case : exists s0 g' s so dd, osqp_setup fE g0 (Some fP) (Some fq) (Some fA) (Some fl) (Some fu) 3 2 (Some fst0) = Some (0, Some s0, g') /\ reach fE s0 s /\ deriv_state fE 3 2 dd /\ sv_solution s = Some so /\
  0 < dv_n_ineq_l dd /\ 0 < dv_n_eq dd /\ mat_of 2 2 fP /\ mat_of 3 2 fA.
Proof.
  destruct (script_ok fE g0 fP fq fA fl fu 3 2 fst0 [CSolve] [0]
    (fun _ s => match sv_solution s, osqp_adjoint_derivative_compute fE (Some (s, deriv_init fE 2 3)) fdx fdy with Some _, Some (0, Some dd) => (0 <? dv_n_ineq_l dd) && (0 <? dv_n_eq dd) | _, _ => false end))
    as (s0 & g' & s & H1 & H2 & H3); [vm_compute; reflexivity|].
  destruct (sv_solution s) as [so|] eqn:Eso; [|discriminate H3]. destruct (osqp_adjoint_derivative_compute fE (Some (s, deriv_init fE 2 3)) fdx fdy) as [[c [dd|]]|] eqn:EC; [|destruct c; discriminate H3|discriminate H3]. destruct c; try discriminate H3.
  cbn [calls] in H2. destruct (run fE CSolve s0) as [[f h]|] eqn:ER; [|discriminate H2]. destruct h as [| |s1]; try discriminate H2. injection H2 as _ <-.
  assert (HR : reach fE s0 s1) by (eapply reach_S; [apply reach_0| |exact ER]; exact I). apply andb_prop in H3. destruct H3 as (H3 & H4). apply Z.ltb_lt in H3. apply Z.ltb_lt in H4.
  exists s0, g', s1, so, dd. split; [exact H1|]. split; [exact HR|]. split; [exact (ds_compute fE 3 2 _ _ _ _ _ _ _ _ _ _ _ _ _ _ _ fdata_readable H1 HR (ds_setup fE 3 2) fdx_len fdy_len EC)|].
  split; [exact Eso|]. split; [exact H3|]. split; [exact H4|]. split; (split; [apply wfb_ok; reflexivity|split; reflexivity]).
Qed.
