(** Runs of the solver on small problems over the reals, used to show that the theorems about solves apply. *)
From Coq Require Import ZArith Reals List Bool Lia Lra String.
From Verif Require Import Num Arr ArrFacts RSum Csc CscSpec CscFacts CscFacts2 CscExamples Scatter Vec VecFacts Types Kkt KktSpec KktDense Linsys LinsysFacts LinsysSolve Scaling Validate Auxil Polish Api
  Inv RecSimp InvStep InvApi InvScale InvPolish InvSolve ValidFacts InvUpd InvSetup History RealVec RealStep Frame FrameSolve ProbSpec ScaleReal FrameUpd UserSpec Refine ExEnv Ldl LdlEnv Session ExReal DataFacts Obs DataClaims ApiClaims KktClaims
  QpSpec AdmmSpec Mid Trace AdmmClaims PassFacts SolveEnd TermSpec TermFacts TermCheck AtyFacts TermSolve SolveClaims SolveUser.
Import ListNotations.
Open Scope Z_scope.

(** minimise p/2 x^2 + q x subject to l0 <= a x <= u0, l1 <= b x <= u1 *)
Definition yP (p : R) : csc Rops := mkcsc (K := Rops) 1 1 [0; 1] [0] [p] 1 (-1).
Definition yA (a b : R) : csc Rops := mkcsc (K := Rops) 2 1 [0; 2] [0; 1] [a; b] 2 (-1).
(** No scaling, no penalty adaptation, a test at every iteration; rho = sigma = alpha = 1. *)
Definition ystp (pf : Z) (ea : R) (k : Z) : settings Rops :=
  set_st_polishing pf (set_st_scaling 0 (set_st_rho_is_vec 0 (set_st_adaptive_rho 0 (set_st_warm_starting 0 (set_st_check_termination 1 (set_st_max_iter k
    (set_st_rho 1%R (set_st_sigma 1%R (set_st_alpha 1%R (set_st_eps_abs ea (set_st_eps_rel (/ 1000)%R (set_st_eps_prim_inf (/ 10000)%R (set_st_eps_dual_inf (/ 10000)%R rst))))))))))))).
Notation yst := (ystp 0).

Lemma yst_ok pf ea k : In pf [0; 1] -> (0 < ea)%R -> 0 < k -> settings_ok true (ystp pf ea k).
Proof.
  intros [<-|[<-|[]]] Ha Hk; pose proof rst_ok as [H1 H2 H3 H4 H5 H6 H7 H8 H9 H10 H11 H12 H13 H14 H15 H16 H17 H18 H19 H20 H21 H22 H23 H24 H25 H26 H27 H28 H29 H30].
  all: unfold ystp; constructor; rs; auto; rewrite ?gt_ok_R, ?ge_ok_R, ?lt_ok_R, ?n0_R, ?n1_R, ?nofZ_R; try lra; try lia.
  all: try (intros _; lra).
  all: left; cbn [neqb Rops]; unfold Reqb; destruct (Req_EM_T _ _); auto; lra.
Qed.

Lemma z1 f : zsum 0 1 f = f 0%Z. Proof. rewrite (zsum_snoc 0 0), zsum_nil by lia. cbn [Z.add]. ring. Qed.
Lemma z2 f : zsum 0 2 f = (f 0%Z + f 1%Z)%R. Proof. rewrite (zsum_snoc 0 1), z1 by lia. ring. Qed.
Lemma yP_wf p : wf (yP p). Proof. apply wfb_ok. reflexivity. Qed.
Lemma yA_wf a b : wf (yA a b). Proof. apply wfb_ok. reflexivity. Qed.
Lemma yP_triu p : triu (yP p). Proof. apply triub_ok. reflexivity. Qed.
Lemma yP_d p : sdns (yP p) 0 0 = p.
Proof. unfold sdns, dns. change (0 <=? 0) with true. cbv iota. change (colp (yP p) 0) with 0. change (colp (yP p) (0 + 1)) with 1. rewrite z1. reflexivity. Qed.
Lemma yA_d a b : dns (yA a b) 0 0 = a /\ dns (yA a b) 1 0 = b.
Proof.
  unfold dns. change (colp (yA a b) 0) with 0. change (colp (yA a b) (0 + 1)) with 2. rewrite !z2. change (rowi (yA a b) 0) with 0. change (rowi (yA a b) 1) with 1.
  change (valx (yA a b) 0) with a. change (valx (yA a b) 1) with b. cbn [Z.eqb Pos.eqb]. split; ring.
Qed.
Lemma yP_psd p : (0 <= p)%R -> psd 1 (sdns (yP p)).
Proof. intros H x. unfold qform. rewrite !z1, yP_d. pose proof (Rle_0_sqr (x 0%Z)). unfold Rsqr in *. assert (0 <= p * (x 0%Z * x 0%Z))%R by (apply Rmult_le_pos; auto). lra. Qed.

Lemma ni1 f : ninf 1 f = Rabs (f 0%Z).
Proof. unfold ninf. cbn [zseq Z.to_nat Pos.to_nat Pos.iter_op seq List.map fold_right Nat.add]. simpl. rewrite Rmax_left; [reflexivity|apply Rabs_pos]. Qed.
Lemma ni2 f : ninf 2 f = Rmax (Rabs (f 0%Z)) (Rabs (f 1%Z)).
Proof. unfold ninf. simpl. rewrite (Rmax_left (Rabs (f 1%Z)) 0); [reflexivity|apply Rabs_pos]. Qed.
Ltac atomic x := lazymatch x with context [Rcase_abs _] => fail | context [Rle_dec _ _] => fail | _ => idtac end.
Ltac cases := unfold Rabs, Rmax, Rmin; repeat match goal with |- context [Rcase_abs ?a] => atomic a; destruct (Rcase_abs a) | |- context [Rle_dec ?a ?b] => atomic a; atomic b; destruct (Rle_dec a b) end; try lra.
Ltac cases_in H := unfold Rabs, Rmax, Rmin in H; repeat match type of H with context [Rcase_abs ?a] => atomic a; destruct (Rcase_abs a) | context [Rle_dec ?a ?b] => atomic a; atomic b; destruct (Rle_dec a b) end; try lra.
Lemma big30 : (1000 <= 10 ^ 30)%R. Proof. change (10 ^ 30)%R with (10 ^ (3 + 27))%R. rewrite pow_add. pose proof (pow_R1_Rle 10 27 ltac:(lra)). simpl pow at 1. lra. Qed.
Lemma big26 : (1000 <= 10 ^ 26)%R. Proof. change (10 ^ 26)%R with (10 ^ (3 + 23))%R. rewrite pow_add. pose proof (pow_R1_Rle 10 23 ltac:(lra)). simpl pow at 1. lra. Qed.
Lemma tiny30 : (/ 10 ^ 30 <= / 1000)%R. Proof. apply Rinv_le_contravar; [lra|apply big30]. Qed.

Lemma before_det (E : Env Rops) s k f t : before E s k f t -> forall f' t', before E s k f' t' -> f = f' /\ t = t'.
Proof.
  induction 1 as [t H|k f t t' f' H IH Hk HP]; intros g u HB.
  - inversion HB as [t0 H0|k0 f0 t0 t2 f2 HB0 Hk0 HP0]; subst; [|pose proof (before_ge _ _ _ _ _ HB0); lia]. rewrite H in H0. injection H0 as ->. auto.
  - inversion HB as [t0 H0|k0 f0 t0 t2 f2 HB0 Hk0 HP0]; subst; [pose proof (before_ge _ _ _ _ _ H); lia|]. assert (k0 = k) by lia. subst k0. destruct (IH _ _ HB0) as (-> & ->). rewrite HP in HP0. injection HP0 as -> ->. auto.
Qed.
Lemma iterate_det (E : Env Rops) s k t t1 t' t1' : iterate E s k t t1 -> iterate E s k t' t1' -> t = t' /\ t1 = t1'.
Proof. intros (f & B & _ & S) (f' & B' & _ & S'). destruct (before_det _ _ _ _ _ B _ _ B') as (_ & ->). split; [auto|]. rewrite S in S'. congruence. Qed.

Section Y.
  Variables (pf : Z) (p a b q l0 l1 u0 u1 ea : R) (kmax : Z).
  Hypothesis Hpf : In pf [0; 1].
  Hypothesis Hp : (0 <= p)%R.
  Hypothesis Hb0 : (l0 <= u0)%R.
  Hypothesis Hb1 : (l1 <= u1)%R.
  Hypothesis Ha : (0 < ea)%R.
  Hypothesis Hk : 0 < kmax.
  Notation yq := [q]. Notation yl := [l0; l1]. Notation yu := [u0; u1].
  Notation ses := (session rE (yP p) (yA a b) (Some yq) (Some yl) (Some yu) 2 1 (ystp pf ea kmax)).

  Lemma y_readable : data_readable (K := Rops) (Some (yP p)) (Some yq) (Some (yA a b)) (Some yl) (Some yu) 2 1.
  Proof.
    constructor; try (intros v [= <-]; unfold zlen; cbn; lia); try (intros _; eexists; split; [reflexivity|unfold zlen; cbn; lia]).
    - intros P [= <-]. apply yP_wf.
    - intros A [= <-]. apply yA_wf.
  Qed.
  Lemma y_data_ok : data_ok (K := Rops) (Some (yP p)) (Some yq) (Some (yA a b)) (Some yl) (Some yu) 2 1.
  Proof.
    constructor; [lia|lia|discriminate| | |].
    - exists (yP p). repeat split. intros j k Hj Hk'. apply (yP_triu p); [cbn [cn yP]; lia|auto].
    - exists (yA a b). repeat split.
    - intros lv uv j [= <-] [= <-] Hj. assert (H : j = 0 \/ j = 1) by lia. destruct H as [-> | ->]; cbn [nltb Rops]; unfold Rltb; match goal with |- context [Rlt_dec ?a ?b] => destruct (Rlt_dec a b) as [H|] end; auto; exfalso; unfold znth in H; simpl in H; lra.
  Qed.

  Lemma setup_clock g P0 q0 A0 lv uv m n ust fl s g' : osqp_setup rE g P0 q0 A0 lv uv m n (Some ust) = Some (fl, Some s, g') -> fl = 0 -> i_setup_time (sv_info s) = 0%R.
  Proof.
    intros H. assert (HP : post (osqp_setup rE g P0 q0 A0 lv uv m n (Some ust)) (fun r => fst (fst r) = 0 -> forall s, snd (fst r) = Some s -> i_setup_time (sv_info s) = 0%R)).
    2:{ intros E0. exact (HP _ H E0 s eq_refl). }
    clear H s fl g'. unfold osqp_setup. apply post_bind. intros bad _. destruct bad; [apply post_ret; cbn [fst snd]; discriminate|]. destruct (validate_settings _ _); [apply post_ret; cbn [fst snd]; discriminate|].
    do 7 (apply post_bind; intros ? _). apply post_bind. intros s1 _. apply post_bind. intros s2 _. apply post_bind. intros [flag [ls|]] HL.
    - apply post_bind. intros w _. apply post_bind. intros i _. unfold toc, pop_sec.
      match goal with |- post (match ?e with Some _ => _ | None => None end) _ => destruct e as [s3|] eqn:E3; [|apply post_none] end.
      apply post_ret. cbn [fst snd]. intros _ s [= <-]. rs. revert E3. destruct (tr (st_allocate_solution ust)); rs; (match goal with |- context [match ?g with [] => None | _ => _ end] => destruct g end; [discriminate|]); intros [= <-]; rs; reflexivity.
    - apply post_bind. intros i _. apply post_ret. cbn [fst snd]. intros -> . exfalso. revert HL.
      assert (HN : post (init_linsys_solver rE (d_P (w_data (sv_work s2))) (d_A (w_data (sv_work s2))) (w_rho_vec (sv_work s2)) (sv_settings s2) false) (fun r => snd r = None -> fst r <> 0)).
      { unfold init_linsys_solver. cbv zeta. walk; cbn [fst snd]; discriminate. }
      intros HL. exact (HN _ HL eq_refl eq_refl).
  Qed.

  (** The problem and the settings of a solver right after setup. *)
  Record ready (s : solver Rops) (d : data Rops) : Prop := {
    rd_ses : ses s d;
    rd_stat : i_status_val (sv_info s) = OSQP_UNSOLVED;
    rd_set : sv_settings s = ystp pf ea kmax;
    rd_first : w_first_run (sv_work s) = 1;
    rd_time : i_setup_time (sv_info s) = 0%R;
    rd_n : d_n d = 1; rd_m : d_m d = 2;
    rd_q : rnth (d_q d) 0 = q;
    rd_l : rnth (d_l d) 0 = l0 /\ rnth (d_l d) 1 = l1;
    rd_u : rnth (d_u d) 0 = u0 /\ rnth (d_u d) 1 = u1;
    rd_P : forall x, Pmul (qp_of d) x 0 = (p * x 0%Z)%R;
    rd_A : forall x, Amul (qp_of d) x 0 = (a * x 0%Z)%R /\ Amul (qp_of d) x 1 = (b * x 0%Z)%R;
    rd_At : forall y, Atmul (qp_of d) y 0 = (a * y 0%Z + b * y 1%Z)%R;
    rd_sol : sv_solution s <> None;
    rd_cvx : convex d }.

  Lemma ready_start : exists s d, ready s d.
  Proof.
    destruct (session_start rE rE_ok rE_exact (mkworld 0%nat 0%nat 0 0 []) (yP p) (Some yq) (yA a b) (Some yl) (Some yu) 2 1 (ystp pf ea kmax) y_readable y_data_ok (yst_ok pf ea kmax Hpf Ha Hk) (yP_psd p Hp)) as (s & g & d & ES & U & S).
    exists s, d. destruct (setup_fresh rE rE_ok _ _ _ _ _ _ _ _ _ _ _ y_readable ES) as (_ & HF & _).
    destruct U as (U1 & U2 & U3 & U4 & U5 & U6 & U7). destruct (U5 yq eq_refl) as (_ & V5). destruct (U6 yl eq_refl) as (_ & V6). destruct (U7 yu eq_refl) as (_ & V7).
    assert (EP : sdns (d_P d) 0 0 = p).
    { unfold sdns. change (0 <=? 0) with true. cbv iota. rewrite (copy_dns _ _ (yP_wf p) U3) by (cbn [cn yP]; lia). pose proof (yP_d p) as H. unfold sdns in H. change (0 <=? 0) with true in H. exact H. }
    assert (EA : dns (d_A d) 0 0 = a /\ dns (d_A d) 1 0 = b) by (rewrite !(copy_dns _ _ (yA_wf a b) U4) by (cbn [cn yA]; lia); apply yA_d).
    destruct EA as (EA0 & EA1).
    constructor; auto.
    - apply (fs_status _ _ _ _ _ _ _ _ _ _ HF).
    - rewrite (fs_settings _ _ _ _ _ _ _ _ _ _ HF). unfold setup_adaptive_rho. 
      assert (EC : @clamp Rops (st_rho (ystp pf ea kmax)) = 1%R). { rewrite clamp_id; [reflexivity|]. unfold ystp. rs. lra. }
      rewrite EC. unfold ystp. generalize (/ 1000)%R (/ 10000)%R 1%R rst. intros e1 e2 e3 r. destruct r. vm_compute. reflexivity.
    - apply (fs_first _ _ _ _ _ _ _ _ _ _ HF).
    - eapply setup_clock; eauto.
    - rewrite V5 by lia. reflexivity.
    - rewrite !V6 by lia. split; reflexivity.
    - rewrite !V7 by lia. split; reflexivity.
    - intros x. unfold Pmul, mulR. cbn [q_n q_P qp_of]. rewrite U1, z1, EP. auto.
    - intros x. unfold Amul, mulR. cbn [q_n q_A qp_of]. rewrite U1, !z1, EA0, EA1. auto.
    - intros y. unfold Atmul, mulR, tr_. cbn [q_m q_A qp_of]. rewrite U2, z2, EA0, EA1. auto.
    - intros HN. apply (fs_sol _ _ _ _ _ _ _ _ _ _ HF) in HN. unfold ystp in HN. rs_in HN. discriminate HN.
    - unfold convex. intros x. unfold qform. rewrite U1, !z1, EP. pose proof (Rle_0_sqr (x 0%Z)). unfold Rsqr in *. assert (0 <= p * (x 0%Z * x 0%Z))%R by (apply Rmult_le_pos; auto). lra.
  Qed.

  Definition yx : R := (- q / (p + 1 + a * a + b * b))%R.
  Record first (s : solver Rops) (t t1 : solver Rops) : Prop := {
    fi_it : iterate rE s 1 t t1;
    fi_stop : stop_requested rE t1 = false;
    fi_time : time_over rE t1 = false;
    fi_x0 : ux t 0 = 0%R; fi_y0 : uy t 0 = 0%R /\ uy t 1 = 0%R;
    fi_x : ux t1 0 = yx;
    fi_z : uz t1 0 = clipR l0 u0 (a * yx) /\ uz t1 1 = clipR l1 u1 (b * yx);
    fi_y : uy t1 0 = (a * yx - uz t1 0)%R /\ uy t1 1 = (b * yx - uz t1 1)%R }.

  Lemma ready_units s d : ready s d -> uscal s = None.
  Proof. intros H. unfold uscal. rewrite (rd_set _ _ H). reflexivity. Qed.
  Lemma none_units s : uscal s = None -> uc s = 1%R /\ (forall i, uD s i = 1%R) /\ (forall i, uE s i = 1%R).
  Proof. intros H. unfold uc, uD, uE. rewrite H. auto. Qed.
  Lemma y_in_range : rho_in_range (ystp pf ea kmax).
  Proof. intros _. unfold ystp. rs. lra. Qed.

  Lemma ready_first s d : ready s d -> exists t t1, first s t t1.
  Proof.
    intros HR. pose proof (rd_ses _ _ HR) as HS. destruct (session_facts rE rE_ok _ _ _ _ _ _ _ _ _ _ HS) as (HI & HRf & _). pose proof (ready_units s d HR) as US.
    destruct (begin_solve_safe s HI) as (t & Et & It & _). destruct (begin_post s t Et) as (B1 & B2 & _ & _ & _ & _ & B7 & _ & B9 & _).
    rewrite (rd_set _ _ HR) in B1, B9. specialize (B9 eq_refl).
    destruct (admm_step_safe rE rE_ok t It) as (t1 & Et1 & _).
    assert (HIt : iterate rE s 1 t t1). { eexists. split; [apply bf_1; exact Et|]. split; [|exact Et1]. rewrite (rd_set _ _ HR). unfold ystp. rs. lia. }
    exists t, t1. destruct (iterate_facts rE rE_ok _ _ _ _ _ _ _ _ s d 1 t t1 HS HIt) as (I1 & I2 & S1 & S2 & D1 & D2 & U1 & U2 & Al & Sg & W & _).
    pose proof (admm_step_post rE t t1 Et1) as HX. cbv beta in HX. destruct HX as (X1 & X2 & _ & _ & X5 & _).
    destruct (iterate_adm rE rE_ok _ _ _ _ _ _ _ _ rE_exact s d 1 t t1 HS (rd_cvx _ _ HR) y_in_range HIt) as (xt & zt & HA).
    assert (UN : forall t0, uscal t0 = uscal s -> uc t0 = 1%R /\ (forall i, uD t0 i = 1%R) /\ (forall i, uE t0 i = 1%R)) by (intros t0 H0; apply none_units; congruence).
    destruct (UN t U1) as (c0 & D0 & E0). destruct (UN t1 U2) as (c1 & D1' & E1'). destruct (UN s eq_refl) as (cs & Ds & Es).
    assert (XT : forall i, rnth (w_x (sv_work t)) i = 0%R /\ rnth (w_y (sv_work t)) i = 0%R /\ rnth (w_z (sv_work t)) i = 0%R).
    { unfold iter3 in B9. injection B9 as -> -> ->. intros i. rewrite !map_const_zero. auto. }
    assert (RH : forall i, rho_at (sv_settings t) (sv_work t) i = 1%R).
    { intros i. unfold rho_at. pose proof (wo_rho _ _ (iv_w _ It)) as HRo. unfold rho_ok in HRo. rewrite B1 in *. unfold ystp in HRo |- *. rs_in HRo. change (tr 0) with false in HRo. cbv iota in HRo. rewrite HRo. reflexivity. }
    pose proof (ref_scaled_qp d s HRf) as SQ.
    set (pq := qp_of (w_data (sv_work s))) in *.
    assert (En : q_n pq = 1) by (rewrite (sq_n _ _ _ _ _ SQ); exact (rd_n _ _ HR)). assert (Em : q_m pq = 2) by (rewrite (sq_m _ _ _ _ _ SQ); exact (rd_m _ _ HR)).
    assert (PX : forall x, Pmul pq x 0 = (p * x 0%Z)%R).
    { intros x. rewrite (un_Px _ _ _ _ _ SQ) by (cbn [q_n qp_of]; rewrite (rd_n _ _ HR); lia). rewrite (rd_P _ _ HR). unfold unx. rewrite cs, !Ds. ring. }
    assert (AX : forall x, Amul pq x 0 = (a * x 0%Z)%R /\ Amul pq x 1 = (b * x 0%Z)%R).
    { intros x. rewrite !(un_Ax _ _ _ _ _ SQ) by (cbn [q_m qp_of]; rewrite (rd_m _ _ HR); lia). destruct (rd_A _ _ HR (unx (uD s) x)) as (-> & ->). unfold unx. rewrite !Es, !Ds. split; ring. }
    assert (AT : forall y, Atmul pq y 0 = (a * y 0%Z + b * y 1%Z)%R).
    { intros y. rewrite (un_Aty _ _ _ _ _ SQ) by (cbn [q_n qp_of]; rewrite (rd_n _ _ HR); lia). rewrite (rd_At _ _ HR). unfold uny. rewrite cs, !Ds, !Es. field. }
    assert (QQ : q_q pq 0 = q). { rewrite (sq_q _ _ _ _ _ SQ) by (cbn [q_n qp_of]; rewrite (rd_n _ _ HR); lia). cbn [q_q qp_of]. rewrite (rd_q _ _ HR), cs, Ds. ring. }
    assert (QL : q_l pq 0 = l0 /\ q_l pq 1 = l1).
    { rewrite !(sq_l _ _ _ _ _ SQ) by (cbn [q_m qp_of]; rewrite (rd_m _ _ HR); lia). cbn [q_l qp_of]. destruct (rd_l _ _ HR) as (-> & ->). rewrite !Es. split; ring. }
    assert (QU : q_u pq 0 = u0 /\ q_u pq 1 = u1).
    { rewrite !(sq_u _ _ _ _ _ SQ) by (cbn [q_m qp_of]; rewrite (rd_m _ _ HR); lia). cbn [q_u qp_of]. destruct (rd_u _ _ HR) as (-> & ->). rewrite !Es. split; ring. }
    rewrite (rd_set _ _ HR) in HA. destruct HA as [A1 A2 A3 A4 A5]. rewrite En in *. rewrite Em in *. unfold ystp in A1, A3, A4, A5. rs_in A1. rs_in A3. rs_in A4. rs_in A5.
    specialize (A1 0 ltac:(lia)). specialize (A3 0 ltac:(lia)). pose proof (A2 0 ltac:(lia)) as Z0. pose proof (A2 1 ltac:(lia)) as Z1. pose proof (A4 0 ltac:(lia)) as W0. pose proof (A4 1 ltac:(lia)) as W1. pose proof (A5 0 ltac:(lia)) as Y0. pose proof (A5 1 ltac:(lia)) as Y1. clear A2 A4 A5.
    destruct QL as (QL0 & QL1). destruct QU as (QU0 & QU1). rewrite QQ, QL0, QL1, QU0, QU1 in *. rewrite !RH in *.
    change (mulR 1 (q_P pq) xt 0) with (mulR 1 (q_P pq) xt 0) in A1.
    assert (M1 : forall x i, mulR 1 (q_A pq) x i = Amul pq x i) by (intros; unfold Amul; rewrite En; reflexivity).
    assert (M2 : forall x i, mulR 1 (q_P pq) x i = Pmul pq x i) by (intros; unfold Pmul; rewrite En; reflexivity).
    assert (M3 : forall y i, mulR 2 (fun a b => q_A pq b a) y i = Atmul pq y i) by (intros; unfold Atmul, tr_; rewrite Em; reflexivity).
    rewrite M1 in Z0, Z1. rewrite M2, !M3, PX, !AT in A1. destruct (AX xt) as (AX0 & AX1). rewrite AX0 in Z0. rewrite AX1 in Z1. rewrite Z0, Z1, !RH in A1. rewrite Z0 in W0, Y0. rewrite Z1 in W1, Y1.
    destruct (XT 0) as (T1 & T2 & T3). destruct (XT 1) as (T1' & T2' & T3'). rewrite T1, T2, T3 in *. rewrite T2', T3' in *.
    assert (HP2 : (0 < p + 1 + a * a + b * b)%R) by (pose proof (Rle_0_sqr a); pose proof (Rle_0_sqr b); unfold Rsqr in *; lra).
    assert (XE : xt 0%Z = yx). { unfold yx. apply (Rmult_eq_reg_r (p + 1 + a * a + b * b)%R); [|lra]. unfold Rdiv. rewrite Rmult_assoc, Rinv_l by lra. lra. }
    rewrite XE in *.
    replace (1 * (a * yx) + (1 - 1) * 0 + / 1 * 0)%R with (a * yx)%R in W0 by field. replace (1 * (b * yx) + (1 - 1) * 0 + / 1 * 0)%R with (b * yx)%R in W1 by field.
    constructor; auto.
    - unfold time_over, clock_read. assert (EF : w_first_run (sv_work t1) = 1). { assert (Y1' : w_first_run (sv_work t1) = w_first_run (sv_work t)) by (change (snd (fst (fst (fst (fst (fixed (sv_work t1)))))) = snd (fst (fst (fst (fst (fixed (sv_work t))))))); rewrite X5; auto). assert (Y2' : w_first_run (sv_work t) = w_first_run (sv_work s)) by (change (snd (fst (fst (fst (fst (fixed (sv_work t)))))) = w_first_run (sv_work s)); rewrite B2; unfold fixed; rs; auto). rewrite Y1', Y2'. exact (rd_first _ _ HR). }
      rewrite EF, X1, X2, B1, B7, (rd_time _ _ HR). change (tr 1) with true. cbv iota. unfold rE, exEnv. cbn [env_clock nadd Rops]. unfold ystp. rs. unfold rst, default_settings. cbn [st_time_limit nlit Rops nleb].
      apply andb_false_iff. right. unfold Rleb. destruct (Rle_dec _ _) as [H|]; auto. pose proof (rlit_pos 1 10 ltac:(lia)). exfalso. lra.
    - unfold ux. rewrite T1. ring.
    - unfold uy. rewrite T2, T2', !E0, c0. split; field.
    - unfold ux. rewrite D1', A3. ring.
    - unfold uz. rewrite !E1', W0, W1. split; field.
    - unfold uy, uz. rewrite !E1', c1, Y0, Y1. split; field.
  Qed.

  Lemma ready_solves s d : ready s d -> exists fl s', solve rE s = Some (fl, s').
  Proof.
    intros HR. destruct (session_facts rE rE_ok _ _ _ _ _ _ _ _ _ _ (rd_ses _ _ HR)) as (HI & _). destruct (solve_safe rE rE_ok MM_R s HI) as ([fl s'] & HE & _). eauto.
  Qed.
  Lemma ready_tests s d : ready s d -> tests_users (sv_settings s).
  Proof. intros HR. unfold tests_users. rewrite (rd_set _ _ HR). intros H. discriminate H. Qed.
  Lemma ready_scheduled s d : ready s d -> scheduled (sv_settings s) 1 = true.
  Proof. intros HR. rewrite (rd_set _ _ HR). reflexivity. Qed.
  Lemma ready_none s d : ready s d -> uc s = 1%R /\ (forall i, uD s i = 1%R) /\ (forall i, uE s i = 1%R).
  Proof. intros HR. apply none_units. eapply ready_units; eauto. Qed.

  Definition zz0 : R := clipR l0 u0 (a * yx).
  Definition zz1 : R := clipR l1 u1 (b * yx).
  Definition ww0 : R := (a * yx - zz0)%R.
  Definition ww1 : R := (b * yx - zz1)%R.

  Lemma first_huge s d t t1 : ready s d -> first s t t1 ->
    huge_at 2 1 d t1 <-> (10 ^ 30 < Rmax (Rabs ww0) (Rabs ww1) \/ 10 ^ 30 < Rabs (q + p * yx + (a * ww0 + b * ww1)))%R.
  Proof.
    intros HR HF. unfold huge_at. rewrite ni1, ni2. destruct (rd_A _ _ HR (ux t1)) as (-> & ->). rewrite (rd_P _ _ HR), (rd_At _ _ HR), (rd_q _ _ HR). destruct (fi_y _ _ _ HF) as (-> & ->). destruct (fi_z _ _ _ HF) as (-> & ->). rewrite (fi_x _ _ _ HF). reflexivity.
  Qed.
  Lemma first_within s d t t1 f v : ready s d -> first s t t1 ->
    solved_within (qp_of d) (f * st_eps_abs (sv_settings s)) (f * st_eps_rel (sv_settings s)) (tr (st_check_dualgap (sv_settings s))) (ux t1) (uz t1) (uy t1) v <->
    (Rmax (Rabs ww0) (Rabs ww1) < f * ea + f * / 1000 * Rmax (Rmax (Rabs zz0) (Rabs zz1)) (Rmax (Rabs (a * yx)) (Rabs (b * yx))) /\
     Rabs (q + p * yx + (a * ww0 + b * ww1)) < f * ea + f * / 1000 * Rmax (Rmax (Rabs q) (Rabs (a * ww0 + b * ww1))) (Rabs (p * yx)) /\
     let S := support (qp_of d) v in Rabs (yx * (p * yx) + q * yx + S) < f * ea + f * / 1000 * Rmax (Rmax (Rabs (yx * (p * yx))) (Rabs (q * yx))) (Rabs S))%R.
  Proof.
    intros HR HF. assert (Q1 : q_n (qp_of d) = 1) by exact (rd_n _ _ HR). assert (Q2 : q_m (qp_of d) = 2) by exact (rd_m _ _ HR).
    assert (E1 : quad (qp_of d) (ux t1) = (yx * (p * yx))%R) by (unfold quad, sumn; rewrite Q1, z1, (rd_P _ _ HR), (fi_x _ _ _ HF); auto).
    assert (E2 : lin (qp_of d) (ux t1) = (q * yx)%R) by (unfold lin, sumn; rewrite Q1, z1, (fi_x _ _ _ HF); cbn [q_q qp_of]; rewrite (rd_q _ _ HR); auto).
    assert (E3 : ninf 2 (fun i => Amul (qp_of d) (ux t1) i - uz t1 i)%R = Rmax (Rabs ww0) (Rabs ww1)).
    { rewrite ni2. destruct (rd_A _ _ HR (ux t1)) as (-> & ->). destruct (fi_z _ _ _ HF) as (-> & ->). rewrite (fi_x _ _ _ HF). reflexivity. }
    assert (E4 : ninf 2 (uz t1) = Rmax (Rabs zz0) (Rabs zz1)) by (rewrite ni2; destruct (fi_z _ _ _ HF) as (-> & ->); reflexivity).
    assert (E5 : ninf 2 (Amul (qp_of d) (ux t1)) = Rmax (Rabs (a * yx)) (Rabs (b * yx))) by (rewrite ni2; destruct (rd_A _ _ HR (ux t1)) as (-> & ->); rewrite (fi_x _ _ _ HF); reflexivity).
    assert (E6 : Atmul (qp_of d) (uy t1) 0 = (a * ww0 + b * ww1)%R) by (rewrite (rd_At _ _ HR); destruct (fi_y _ _ _ HF) as (-> & ->); destruct (fi_z _ _ _ HF) as (-> & ->); reflexivity).
    assert (E7 : Pmul (qp_of d) (ux t1) 0 = (p * yx)%R) by (rewrite (rd_P _ _ HR), (fi_x _ _ _ HF); reflexivity).
    assert (E8 : q_q (qp_of d) 0 = q) by exact (rd_q _ _ HR).
    assert (S1 : st_eps_abs (sv_settings s) = ea /\ st_eps_rel (sv_settings s) = (/ 1000)%R /\ tr (st_check_dualgap (sv_settings s)) = true).
    { rewrite (rd_set _ _ HR). unfold ystp. rs. auto. }
    destruct S1 as (-> & -> & ->). split.
    - intros [H1 H2 H3]. specialize (H3 eq_refl). rewrite Q1, Q2 in *. rewrite !ni1, E6, E7, E8 in H2. rewrite E3, E4, E5 in H1. rewrite E1, E2 in H3. destruct H1 as [H1|H1]; [lia|]. cbv zeta. auto.
    - intros (H1 & H2 & H3). constructor; rewrite ?Q1, ?Q2, ?ni1, ?E6, ?E7, ?E8, ?E3, ?E4, ?E5, ?E1, ?E2; auto.
  Qed.
  (** Multipliers on finite bounds are kept, unless tiny. *)
  Lemma first_trim s d y0 : ready s d -> (Rabs l0 <= 10 ^ 26)%R -> (Rabs l1 <= 10 ^ 26)%R -> (Rabs u0 <= 10 ^ 26)%R -> (Rabs u1 <= 10 ^ 26)%R -> (forall i, 0 <= i < 2 -> (y0 i = 0 \/ / 10 ^ 15 <= Rabs (y0 i))%R) ->
    trimmed (uc s) (uE s) (q_m (qp_of d)) (q_l (qp_of d)) (q_u (qp_of d)) y0 y0.
  Proof.
    intros HR B1 B2 B3 B4 HY i Hi. destruct (ready_none s d HR) as (Ec & _ & EE). cbn [q_m q_l q_u qp_of] in *. rewrite (rd_m _ _ HR) in Hi. exists (y0 i). rewrite EE, Ec. split; [|field].
    replace (1 * y0 i / 1)%R with (y0 i) by field. rewrite !Rmult_1_l. exists (y0 i). split.
    - assert (HN : ~ no_upper (rnth (d_u d) i) /\ ~ no_lower (rnth (d_l d) i)).
      { unfold no_upper, no_lower. destruct (rd_l _ _ HR) as (L0 & L1). destruct (rd_u _ _ HR) as (U0 & U1). assert (Hc : i = 0 \/ i = 1) by lia.
        apply Rabs_le_both in B1, B2, B3, B4. destruct Hc as [-> | ->]; rewrite ?L0, ?L1, ?U0, ?U1; lra. }
      unfold drops. tauto.
    - destruct (HY i Hi) as [-> |H]; split; intros; auto. lra.
  Qed.
End Y.

Notation stat s := (i_status_val (sv_info s)).
(** What the theorems about solves ask of a run. *)
Definition ex_run (P A : csc Rops) (q l u : list R) (ust : settings Rops) (v : Z) (s : solver Rops) (d : data Rops) (fl : Z) (s' : solver Rops) : Prop :=
  session rE P A (Some q) (Some l) (Some u) 2 1 ust s d /\ convex d /\ rho_in_range ust /\ tests_users (sv_settings s) /\ stat s = OSQP_UNSOLVED /\ solve rE s = Some (fl, s') /\ stat s' = v /\ fl = 0 /\ ~ polished s' /\ exists o, sv_solution s' = Some o.

Lemma ready_ex p a b q l0 l1 u0 u1 ea k v s d fl s' : ready 0 p a b q l0 l1 u0 u1 ea k s d -> solve rE s = Some (fl, s') -> v <> OSQP_SIGINT /\ v <> OSQP_UNSOLVED -> stat s' = v ->
  ex_run (yP p) (yA a b) [q] [l0; l1] [u0; u1] (yst ea k) v s d fl s'.
Proof.
  intros HR HE HF HV. pose proof (rd_ses _ _ _ _ _ _ _ _ _ _ _ _ _ HR) as HS. pose proof (ready_tests _ _ _ _ _ _ _ _ _ _ _ _ _ HR) as HT. pose proof (rd_stat _ _ _ _ _ _ _ _ _ _ _ _ _ HR) as HU.
  pose proof (run_units rE rE_ok _ _ _ _ _ _ _ _ s d HS HT) as TU.
  assert (PO : tr (st_polishing (sv_settings s)) = false) by (rewrite (rd_set _ _ _ _ _ _ _ _ _ _ _ _ _ HR); reflexivity).
  assert (EF : fl = 0) by (destruct (claim_flag rE rE_ok _ _ _ _ _ _ _ _ _ _ _ _ _ _ _ _ HS TU HU HE) as [? |[(H2 & _)|(_ & H2)]]; [auto|exfalso; rewrite HV in H2; tauto|congruence]).
  assert (SO : sv_solution s' <> None) by (refine (claim_kept rE rE_ok _ _ _ _ _ _ _ _ _ _ _ _ _ _ _ _ HS TU HU HE _ (rd_sol _ _ _ _ _ _ _ _ _ _ _ _ _ HR)); lia).
  do 7 (split; [solve [eauto using rd_cvx, y_in_range]|]). split; [auto|]. split.
  - intros (P1 & _). pose proof (sf_st _ _ (solve_sfr rE s _ HE)) as (? & ? & SS). cbn [snd] in SS. rewrite SS in P1. rs_in P1. congruence.
  - destruct (sv_solution s') as [o|]; [eauto|congruence].
Qed.

Section Slack.
  (** minimise x^2/2 - x subject to -5 <= x <= 5, -1 <= 0 <= 1: the first iterate is x = 1/3, y = 0. *)
  Variables (ea : R) (kmax : Z).
  Hypothesis Ha : (0 < ea)%R.
  Hypothesis Hk : 0 < kmax.
  Notation rdy := (ready 0 1 1 0 (-1) (-5) (-1) 5 1 ea kmax).
  Notation fst1 := (first 1 1 0 (-1) (-5) (-1) 5 1).
  Lemma slack_start : exists s d t t1 fl s', rdy s d /\ fst1 s t t1 /\ solve rE s = Some (fl, s').
  Proof.
    destruct (ready_start 0 1 1 0 (-1) (-5) (-1) 5 1 ea kmax) as (s & d & HR); try (left; reflexivity); try lra; try lia.
    destruct (ready_first 0 1 1 0 (-1) (-5) (-1) 5 1 ea kmax ltac:(lra) ltac:(lia) s d HR) as (t & t1 & HF).
    destruct (ready_solves _ _ _ _ _ _ _ _ _ _ _ s d HR) as (fl & s' & HE). exists s, d, t, t1, fl, s'. auto.
  Qed.
  Lemma slack_x : yx 1 1 0 (-1) = (/ 3)%R. Proof. unfold yx. lra. Qed.
  Lemma slack_z : zz0 1 1 0 (-1) (-5) 5 = (/ 3)%R /\ zz1 1 1 0 (-1) (-1) 1 = 0%R.
  Proof. unfold zz0, zz1, clipR. rewrite slack_x. split; cases. Qed.
  Lemma slack_w : ww0 1 1 0 (-1) (-5) 5 = 0%R /\ ww1 1 1 0 (-1) (-1) 1 = 0%R.
  Proof. destruct slack_z as (H0 & H1). unfold ww0, ww1. rewrite H0, H1, slack_x. lra. Qed.
  Lemma slack_y s t t1 : fst1 s t t1 -> uy t1 0 = 0%R /\ uy t1 1 = 0%R.
  Proof.
    intros HF. destruct (fi_y _ _ _ _ _ _ _ _ _ _ _ HF) as (Y0 & Y1). destruct (fi_z _ _ _ _ _ _ _ _ _ _ _ HF) as (Z0 & Z1). destruct slack_w as (W0 & W1).
    rewrite Y0, Z0, Y1, Z1. auto.
  Qed.
  Lemma slack_not_huge s d t t1 : rdy s d -> fst1 s t t1 -> ~ huge_at 2 1 d t1.
  Proof. intros HR HF. destruct slack_w as (W0 & W1). pose proof big30. rewrite (first_huge _ _ _ _ _ _ _ _ _ _ _ _ _ _ _ HR HF), slack_x, W0, W1. intros [HH|HH]; cases_in HH. Qed.
  Lemma slack_meets s d t t1 f : rdy s d -> fst1 s t t1 -> meets (sv_settings s) (qp_of d) (uc s) (uE s) f (ux t1) (uz t1) (uy t1) <-> (0 < f * ea + f * / 3000 /\ 2 * / 3 < f * ea + f * / 1000 /\ 2 * / 9 < f * ea + f * / 3000)%R.
  Proof.
    intros HR HF. destruct (slack_y s t t1 HF) as (U0 & U1). pose proof big26.
    assert (HT : trimmed (uc s) (uE s) (q_m (qp_of d)) (q_l (qp_of d)) (q_u (qp_of d)) (uy t1) (uy t1)).
    { eapply first_trim; eauto; try (cases; fail). intros i Hi. left. assert (Hc : i = 0 \/ i = 1) by lia. destruct Hc as [-> | ->]; auto. }
    assert (ES : support (qp_of d) (uy t1) = 0%R). { unfold support, sumn. cbn [q_m qp_of]. rewrite (rd_m _ _ _ _ _ _ _ _ _ _ _ _ _ HR), z2, U0, U1. cases. }
    destruct slack_w as (W0 & W1). destruct slack_z as (Z0 & Z1).
    assert (EQ : solved_within (qp_of d) (f * st_eps_abs (sv_settings s)) (f * st_eps_rel (sv_settings s)) (tr (st_check_dualgap (sv_settings s))) (ux t1) (uz t1) (uy t1) (uy t1) <->
      (0 < f * ea + f * / 3000 /\ 2 * / 3 < f * ea + f * / 1000 /\ 2 * / 9 < f * ea + f * / 3000)%R).
    { rewrite (first_within _ _ _ _ _ _ _ _ _ _ _ _ _ _ _ _ _ HR HF). cbv zeta. rewrite ES, slack_x, Z0, Z1, W0, W1.
      replace (Rmax (Rabs 0) (Rabs 0)) with 0%R by cases. replace (Rmax (Rmax (Rabs (/ 3)) (Rabs 0)) (Rmax (Rabs (1 * / 3)) (Rabs (0 * / 3)))) with (/ 3)%R by cases.
      replace (Rabs (-1 + 1 * / 3 + (1 * 0 + 0 * 0))) with (2 * / 3)%R by cases. replace (Rmax (Rmax (Rabs (-1)) (Rabs (1 * 0 + 0 * 0))) (Rabs (1 * / 3))) with 1%R by cases.
      replace (Rabs (/ 3 * (1 * / 3) + -1 * / 3 + 0)) with (2 * / 9)%R by cases. replace (Rmax (Rmax (Rabs (/ 3 * (1 * / 3))) (Rabs (-1 * / 3))) (Rabs 0)) with (/ 3)%R by cases.
      split; intros (H1 & H2 & H3); repeat split; lra. }
    split.
    - intros (v & T & H1). apply EQ. eapply solved_ext; [| | | |exact H1]; auto. apply (trimmed_unique _ _ _ _ _ _ _ _ T HT).
    - intros H1. exists (uy t1). split; [auto|]. apply EQ. auto.
  Qed.
  Lemma slack_run s d fl s' : rdy s d -> solve rE s = Some (fl, s') -> forall v, v <> OSQP_SIGINT /\ v <> OSQP_UNSOLVED -> stat s' = v -> ex_run (yP 1) (yA 1 0) [(-1)%R] [(-5)%R; (-1)%R] [5%R; 1%R] (yst ea kmax) v s d fl s'.
  Proof. intros HR HE v HF HV. eapply ready_ex; eauto. Qed.

  (** With one iteration allowed, the tolerances decide. *)
  Lemma slack_one s d t t1 fl s' : kmax = 1 -> rdy s d -> fst1 s t t1 -> solve rE s = Some (fl, s') ->
    stat s' = OSQP_SOLVED /\ meets (sv_settings s) (qp_of d) (uc s) (uE s) 1 (ux t1) (uz t1) (uy t1) \/
    stat s' = OSQP_SOLVED_INACCURATE /\ meets (sv_settings s) (qp_of d) (uc s) (uE s) 10 (ux t1) (uz t1) (uy t1) \/
    stat s' = OSQP_MAX_ITER_REACHED /\ ~ meets (sv_settings s) (qp_of d) (uc s) (uE s) 10 (ux t1) (uz t1) (uy t1).
  Proof.
    intros Hk1 HR HF HE. pose proof (rd_ses _ _ _ _ _ _ _ _ _ _ _ _ _ HR) as HS. pose proof (ready_tests _ _ _ _ _ _ _ _ _ _ _ _ _ HR) as HT. pose proof (rd_stat _ _ _ _ _ _ _ _ _ _ _ _ _ HR) as HU. pose proof (fi_it _ _ _ _ _ _ _ _ _ _ _ HF) as HI1.
    assert (KM : st_max_iter (sv_settings s) = 1) by (rewrite (rd_set _ _ _ _ _ _ _ _ _ _ _ _ _ HR); unfold ystp; rs; auto).
    pose proof (run_units rE rE_ok _ _ _ _ _ _ _ _ s d HS HT) as TU.
    destruct (claim_run rE rE_ok _ _ _ _ _ _ _ _ s d _ _ _ _ fl s' HS TU HU HE) as (k & t0 & t2 & Hk' & HIt & HC). rewrite KM in Hk'. assert (k = 1) by lia. subst k.
    destruct (iterate_det _ _ _ _ _ _ _ HIt HI1) as (-> & ->). clear HIt.
    destruct HC as [(A1 & _)|[(_ & _ & A3 & _ & A5)|(stale & e & A1 & A2 & A3 & _)]].
    - rewrite (fi_stop _ _ _ _ _ _ _ _ _ _ _ HF) in A1. discriminate.
    - exfalso. assert (AR : st_adaptive_rho (sv_settings s) = 0) by (rewrite (rd_set _ _ _ _ _ _ _ _ _ _ _ _ _ HR); reflexivity). destruct (A5 ltac:(lia)) as (t4 & F4 & _ & N4 & _). apply N4.
      destruct (sf_st _ _ F4) as (r0 & x0 & ->). exact AR.
    - rewrite (fi_time _ _ _ _ _ _ _ _ _ _ _ HF) in A2. assert (stale = false) by (destruct stale; [discriminate (en_nt _ _ _ _ _ _ _ _ _ _ _ _ _ A2 eq_refl)|reflexivity]). subst stale.
      rewrite (re_stat _ _ _ _ A3). destruct (session_facts rE rE_ok _ _ _ _ _ _ _ _ _ _ HS) as (_ & _ & _ & _ & Dn & Dm & _).
      destruct (iterate_facts rE rE_ok _ _ _ _ _ _ _ _ s d 1 t t1 HS HI1) as (_ & _ & _ & _ & _ & D1 & _ & U1 & _). destruct (un_state s t1 U1) as (X1 & X2 & X3).
      assert (FE : feasible (qp_of d) (fun _ => 0%R)).
      { intros i Hi. cbn [q_m q_l q_u qp_of] in *. destruct (rd_l _ _ _ _ _ _ _ _ _ _ _ _ _ HR) as (L0 & L1). destruct (rd_u _ _ _ _ _ _ _ _ _ _ _ _ _ HR) as (V0 & V1). destruct (rd_A _ _ _ _ _ _ _ _ _ _ _ _ _ HR (fun _ => 0%R)) as (Q0 & Q1). assert (Hc : i = 0 \/ i = 1) by lia.
        destruct Hc as [-> | ->]; rewrite ?L0, ?L1, ?V0, ?V1, ?Q0, ?Q1; lra. }
      assert (NP : forall e0 v, infeasible_within (qp_of d) e0 v -> False).
      { intros e0 v H. pose proof (infeasible_far _ _ _ H _ FE) as HX. destruct H as [B1 B2 B3]. unfold norm1, sumn in HX. rewrite zsum_0 in HX by (intros; apply Rabs_R0).
        pose proof (ninf_nonneg (q_n (qp_of d)) (Atmul (qp_of d) v)) as HN. assert (0 < - support (qp_of d) v / (e0 * ninf (q_m (qp_of d)) v))%R by (apply Rdiv_lt_0_compat; lra). lra. }
      assert (ND : forall e0 w v, (e0 <= 1)%R -> unbounded_within (absl w) (absu w) (qp_of d) e0 v -> False).
      { intros e0 w v He [B1 B2 B3 B4]. cbn [q_n qp_of] in *. rewrite Dn in *. rewrite !ni1, (rd_P _ _ _ _ _ _ _ _ _ _ _ _ _ HR), Rmult_1_l in B3. rewrite ni1 in B1. assert (e0 * Rabs (v 0%Z) <= 1 * Rabs (v 0%Z))%R by (apply Rmult_le_compat_r; [apply Rabs_pos|auto]). lra. }
      assert (ED : st_eps_dual_inf (sv_settings s) = (/ 10000)%R) by (rewrite (rd_set _ _ _ _ _ _ _ _ _ _ _ _ _ HR); unfold ystp; rs; auto).
      pose proof (en_range _ _ _ _ _ _ _ _ _ _ _ _ _ A2) as ER.
      assert (NB : stat e <> OSQP_NON_CVX). { intros EN. pose proof (en_ncvx _ _ _ _ _ _ _ _ _ _ _ _ _ A2 EN eq_refl) as HB. rewrite (big_at rE rE_ok _ _ _ _ _ _ _ _ s d HS _ _ _ HI1) in HB. exact (slack_not_huge s d t t1 HR HF HB). }
      assert (N1 : stat e <> OSQP_PRIMAL_INFEASIBLE) by (intros EN; exact (NP _ _ (en_pinf _ _ _ _ _ _ _ _ _ _ _ _ _ A2 EN))).
      assert (N2 : stat e <> OSQP_PRIMAL_INFEASIBLE_INACCURATE) by (intros EN; exact (NP _ _ (en_pinfi _ _ _ _ _ _ _ _ _ _ _ _ _ A2 EN))).
      assert (N3 : stat e <> OSQP_DUAL_INFEASIBLE) by (intros EN; refine (ND _ _ _ _ (en_dinf _ _ _ _ _ _ _ _ _ _ _ _ _ A2 EN)); rewrite ED; lra).
      assert (N4 : stat e <> OSQP_DUAL_INFEASIBLE_INACCURATE) by (intros EN; refine (ND _ _ _ _ (en_dinfi _ _ _ _ _ _ _ _ _ _ _ _ _ A2 EN)); rewrite ED; lra).
      assert (N5 : stat e <> OSQP_TIME_LIMIT_REACHED) by (intros EN; destruct (en_time _ _ _ _ _ _ _ _ _ _ _ _ _ A2 EN); discriminate).
      assert (MT : forall ap, swithin (sv_settings s) (qp_of d) (uc s) (uD s) (uE s) ap (sv_work t1) -> meets (sv_settings s) (qp_of d) (uc s) (uE s) (fac ap) (ux t1) (uz t1) (uy t1)).
      { intros ap H. rewrite <- X1, <- X2, <- X3. apply (passes_w s (qp_of d) (uc s) (uD s) (uE s) TU ap); auto. }
      assert (CS : stat e = OSQP_SOLVED \/ stat e = OSQP_SOLVED_INACCURATE \/ stat e = OSQP_MAX_ITER_REACHED) by stc.
      destruct CS as [CS|[CS|CS]]; [left|right; left|right; right]; (split; [exact CS|]).
      + apply (MT false). apply (proj1 (en_solved _ _ _ _ _ _ _ _ _ _ _ _ _ A2 CS)).
      + apply (MT true). apply (en_inacc _ _ _ _ _ _ _ _ _ _ _ _ _ A2 CS eq_refl).
      + destruct (en_max _ _ _ _ _ _ _ _ _ _ _ _ _ A2 CS) as (_ & NN). pose proof (fails_w s (qp_of d) (uc s) (uD s) (uE s) TU true _ D1 NN) as FL. apply fails_not. rewrite <- X1, <- X2, <- X3. exact FL.
  Qed.
End Slack.

Ltac split_all := match goal with |- _ /\ _ => split; [|split_all] | _ => idtac end.
(** Loose tolerances: the first iterate is accepted. *)
Lemma found_solved : exists s d fl s' t t1, ready 0 1 1 0 (-1) (-5) (-1) 5 1 1 10 s d /\ solve rE s = Some (fl, s') /\ iterate rE s 1 t t1 /\ scheduled (sv_settings s) 1 = true /\ stop_requested rE t1 = false /\ time_over rE t1 = false /\
  ~ huge_at 2 1 d t1 /\ meets (sv_settings s) (qp_of d) (uc s) (uE s) 1 (ux t1) (uz t1) (uy t1).
Proof.
  destruct (slack_start 1 10) as (s & d & t & t1 & fl & s' & HR & HF & HE); [lra|lia|]. exists s, d, fl, s', t, t1. split; [auto|]. split; [auto|]. split; [apply (fi_it _ _ _ _ _ _ _ _ _ _ _ HF)|].
  split_all.
  - eapply ready_scheduled; eauto.
  - apply (fi_stop _ _ _ _ _ _ _ _ _ _ _ HF).
  - apply (fi_time _ _ _ _ _ _ _ _ _ _ _ HF).
  - eapply slack_not_huge; eauto.
  - eapply slack_meets; eauto. lra.
Qed.
Lemma ex_solved : exists s d fl s', ex_run (yP 1) (yA 1 0) [(-1)%R] [(-5)%R; (-1)%R] [5%R; 1%R] (yst 1 10) OSQP_SOLVED s d fl s'.
Proof.
  destruct found_solved as (s & d & fl & s' & t & t1 & HR & HE & HI & H1 & H2 & H3 & HH). exists s, d, fl, s'. eapply ready_ex; eauto; [stc|].
  eapply (user_found_solved rE rE_ok _ _ _ _ _ _ _ _ s d fl s' (rd_ses _ _ _ _ _ _ _ _ _ _ _ _ _ HR) (ready_tests _ _ _ _ _ _ _ _ _ _ _ _ _ HR) (rd_stat _ _ _ _ _ _ _ _ _ _ _ _ _ HR) HE 1 t t1); tauto.
Qed.
(** One iteration, tolerances ten times too small. *)
Lemma ex_inaccurate : exists s d fl s', ex_run (yP 1) (yA 1 0) [(-1)%R] [(-5)%R; (-1)%R] [5%R; 1%R] (yst (/ 10) 1) OSQP_SOLVED_INACCURATE s d fl s'.
Proof.
  destruct (slack_start (/ 10) 1) as (s & d & t & t1 & fl & s' & HR & HF & HE); [lra|lia|]. exists s, d, fl, s'. apply slack_run; auto; [stc|].
  destruct (slack_one (/ 10) 1 s d t t1 fl s' eq_refl HR HF HE) as [(_ & H)|[(H & _)|(_ & H)]]; auto; rewrite (slack_meets _ _ _ _ _ _ _ HR HF) in H; lra.
Qed.
(** One iteration, small tolerances. *)
Lemma ex_max_iter : exists s d fl s', ex_run (yP 1) (yA 1 0) [(-1)%R] [(-5)%R; (-1)%R] [5%R; 1%R] (yst (/ 1000) 1) OSQP_MAX_ITER_REACHED s d fl s'.
Proof.
  destruct (slack_start (/ 1000) 1) as (s & d & t & t1 & fl & s' & HR & HF & HE); [lra|lia|]. exists s, d, fl, s'. apply slack_run; auto; [stc|].
  destruct (slack_one (/ 1000) 1 s d t t1 fl s' eq_refl HR HF HE) as [(_ & H)|[(_ & H)|(H & _)]]; auto; rewrite (slack_meets _ _ _ _ _ _ _ HR HF) in H; lra.
Qed.

(** 1 <= x <= 2 and -2 <= x <= -1. *)
Lemma found_pinf : exists s d fl s' t t1, ready 0 1 1 1 0 1 (-2) 2 (-1) (/ 1000) 10 s d /\ solve rE s = Some (fl, s') /\ iterate rE s 1 t t1 /\ scheduled (sv_settings s) 1 = true /\ stop_requested rE t1 = false /\ time_over rE t1 = false /\
  ~ huge_at 2 1 d t1 /\ ~ prim_small 2 s d t1 /\ certifies_infeasible 2 s d t t1.
Proof.
  destruct (ready_start 0 1 1 1 0 1 (-2) 2 (-1) (/ 1000) 10) as (s & d & HR); try (left; reflexivity); try lra; try lia.
  destruct (ready_first 0 1 1 1 0 1 (-2) 2 (-1) (/ 1000) 10 ltac:(lra) ltac:(lia) s d HR) as (t & t1 & HF).
  destruct (ready_solves _ _ _ _ _ _ _ _ _ _ _ s d HR) as (fl & s' & HE). exists s, d, fl, s', t, t1. split; [auto|]. split; [auto|]. split; [apply (fi_it _ _ _ _ _ _ _ _ _ _ _ HF)|].
  assert (EX : yx 1 1 1 0 = 0%R) by (unfold yx; lra).
  assert (EZ : zz0 1 1 1 0 1 2 = 1%R /\ zz1 1 1 1 0 (-2) (-1) = (-1)%R) by (unfold zz0, zz1, clipR; rewrite EX; split; cases). destruct EZ as (EZ0 & EZ1).
  assert (EW : ww0 1 1 1 0 1 2 = (-1)%R /\ ww1 1 1 1 0 (-2) (-1) = 1%R) by (unfold ww0, ww1; rewrite EZ0, EZ1, EX; lra). destruct EW as (EW0 & EW1).
  pose proof big30. pose proof big26. pose proof tiny30. destruct (fi_y _ _ _ _ _ _ _ _ _ _ _ HF) as (Y0 & Y1). destruct (fi_z _ _ _ _ _ _ _ _ _ _ _ HF) as (Z0 & Z1).
  fold (zz0 1 1 1 0 1 2) in Z0. fold (zz1 1 1 1 0 (-2) (-1)) in Z1. rewrite Z0, EX, EZ0 in Y0. rewrite Z1, EX, EZ1 in Y1.
  destruct (ready_none _ _ _ _ _ _ _ _ _ _ _ _ _ HR) as (Ec & ED & EE).
  split_all.
  - eapply ready_scheduled; eauto.
  - apply (fi_stop _ _ _ _ _ _ _ _ _ _ _ HF).
  - apply (fi_time _ _ _ _ _ _ _ _ _ _ _ HF).
  - rewrite (first_huge _ _ _ _ _ _ _ _ _ _ _ _ _ _ _ HR HF), EX, EW0, EW1. intros [HH|HH]; cases_in HH.
  - unfold prim_small. rewrite !ni2. destruct (rd_A _ _ _ _ _ _ _ _ _ _ _ _ _ HR (ux t1)) as (-> & ->). rewrite (fi_x _ _ _ _ _ _ _ _ _ _ _ HF), EX, Z0, Z1, EZ0, EZ1. rewrite (rd_set _ _ _ _ _ _ _ _ _ _ _ _ _ HR). unfold ystp. rs.
    intros [HH|HH]; [discriminate|]. cases_in HH.
  - exists (uy t1). destruct (fi_y0 _ _ _ _ _ _ _ _ _ _ _ HF) as (V0 & V1). destruct (rd_l _ _ _ _ _ _ _ _ _ _ _ _ _ HR) as (L0 & L1). destruct (rd_u _ _ _ _ _ _ _ _ _ _ _ _ _ HR) as (U0 & U1).
    assert (EN : ninf 2 (uy t1) = 1%R) by (rewrite ni2, Y0, Y1; cases). split; [|split].
    + intros i Hi. rewrite EE, !Rmult_1_l. assert (Hc : i = 0 \/ i = 1) by lia. destruct Hc as [-> | ->]; rewrite ?L0, ?L1, ?U0, ?U1, ?V0, ?V1, ?Y0, ?Y1; unfold drops, no_upper, no_lower; repeat split; intros; exfalso + idtac; lra.
    + rewrite Ec, EN. lra.
    + assert (Qm : q_m (qp_of d) = 2) by exact (rd_m _ _ _ _ _ _ _ _ _ _ _ _ _ HR). assert (Qn : q_n (qp_of d) = 1) by exact (rd_n _ _ _ _ _ _ _ _ _ _ _ _ _ HR). constructor; rewrite ?Qm, ?Qn, ?EN.
      * lra.
      * unfold support, sumn. rewrite Qm, z2. cbn [q_l q_u qp_of]. rewrite L0, L1, U0, U1, Y0, Y1. cases.
      * rewrite ni1, (rd_At _ _ _ _ _ _ _ _ _ _ _ _ _ HR), Y0, Y1. rewrite (rd_set _ _ _ _ _ _ _ _ _ _ _ _ _ HR). unfold ystp. rs. cases.
Qed.
Lemma ex_pinf : exists s d fl s', ex_run (yP 1) (yA 1 1) [0%R] [1%R; (-2)%R] [2%R; (-1)%R] (yst (/ 1000) 10) OSQP_PRIMAL_INFEASIBLE s d fl s'.
Proof.
  destruct found_pinf as (s & d & fl & s' & t & t1 & HR & HE & HI & H1 & H2 & H3 & HH). exists s, d, fl, s'. eapply ready_ex; eauto; [stc|].
  eapply (user_found_pinf rE rE_ok _ _ _ _ _ _ _ _ s d fl s' (rd_ses _ _ _ _ _ _ _ _ _ _ _ _ _ HR) (ready_tests _ _ _ _ _ _ _ _ _ _ _ _ _ HR) (rd_stat _ _ _ _ _ _ _ _ _ _ _ _ _ HR) HE 1 t t1); tauto.
Qed.

(** minimise -x subject to 0 <= x (and -1 <= 0 <= 1). *)
Lemma found_dinf : exists s d fl s' t t1, ready 0 0 1 0 (-1) 0 (-1) (10 ^ 30) 1 (/ 1000) 10 s d /\ solve rE s = Some (fl, s') /\ iterate rE s 1 t t1 /\ scheduled (sv_settings s) 1 = true /\ stop_requested rE t1 = false /\ time_over rE t1 = false /\
  ~ huge_at 2 1 d t1 /\ (prim_small 2 s d t1 \/ ~ certifies_infeasible 2 s d t t1) /\ ~ dual_small 1 s d t1 /\ certifies_unbounded 1 s d t t1.
Proof.
  pose proof big30 as B30. pose proof big26 as B26. pose proof tiny30.
  destruct (ready_start 0 0 1 0 (-1) 0 (-1) (10 ^ 30) 1 (/ 1000) 10) as (s & d & HR); try (left; reflexivity); try lra; try lia.
  destruct (ready_first 0 0 1 0 (-1) 0 (-1) (10 ^ 30) 1 (/ 1000) 10 ltac:(lra) ltac:(lia) s d HR) as (t & t1 & HF).
  destruct (ready_solves _ _ _ _ _ _ _ _ _ _ _ s d HR) as (fl & s' & HE). exists s, d, fl, s', t, t1. split; [auto|]. split; [auto|]. split; [apply (fi_it _ _ _ _ _ _ _ _ _ _ _ HF)|].
  assert (B3026 : (10 ^ 26 <= 10 ^ 30)%R) by (apply Rle_pow; [lra|lia]).
  assert (EX : yx 0 1 0 (-1) = (/ 2)%R) by (unfold yx; lra).
  assert (EZ : zz0 0 1 0 (-1) 0 (10 ^ 30) = (/ 2)%R /\ zz1 0 1 0 (-1) (-1) 1 = 0%R) by (unfold zz0, zz1, clipR; rewrite EX; split; cases). destruct EZ as (EZ0 & EZ1).
  assert (EW : ww0 0 1 0 (-1) 0 (10 ^ 30) = 0%R /\ ww1 0 1 0 (-1) (-1) 1 = 0%R) by (unfold ww0, ww1; rewrite EZ0, EZ1, EX; lra). destruct EW as (EW0 & EW1).
  destruct (fi_y _ _ _ _ _ _ _ _ _ _ _ HF) as (Y0 & Y1). destruct (fi_z _ _ _ _ _ _ _ _ _ _ _ HF) as (Z0 & Z1).
  fold (zz0 0 1 0 (-1) 0 (10 ^ 30)) in Z0. fold (zz1 0 1 0 (-1) (-1) 1) in Z1. rewrite Z0, EX, EZ0 in Y0. rewrite Z1, EX, EZ1 in Y1.
  destruct (ready_none _ _ _ _ _ _ _ _ _ _ _ _ _ HR) as (Ec & ED & EE). destruct (rd_l _ _ _ _ _ _ _ _ _ _ _ _ _ HR) as (L0 & L1). destruct (rd_u _ _ _ _ _ _ _ _ _ _ _ _ _ HR) as (U0 & U1).
  split_all.
  - eapply ready_scheduled; eauto.
  - apply (fi_stop _ _ _ _ _ _ _ _ _ _ _ HF).
  - apply (fi_time _ _ _ _ _ _ _ _ _ _ _ HF).
  - rewrite (first_huge _ _ _ _ _ _ _ _ _ _ _ _ _ _ _ HR HF), EX, EW0, EW1. intros [HH|HH]; cases_in HH.
  - left. right. rewrite !ni2. destruct (rd_A _ _ _ _ _ _ _ _ _ _ _ _ _ HR (ux t1)) as (-> & ->). rewrite (fi_x _ _ _ _ _ _ _ _ _ _ _ HF), EX, Z0, Z1, EZ0, EZ1. rewrite (rd_set _ _ _ _ _ _ _ _ _ _ _ _ _ HR). unfold ystp. rs. cases.
  - unfold dual_small. rewrite !ni1, (rd_P _ _ _ _ _ _ _ _ _ _ _ _ _ HR), (rd_At _ _ _ _ _ _ _ _ _ _ _ _ _ HR), (rd_q _ _ _ _ _ _ _ _ _ _ _ _ _ HR), Y0, Y1, (fi_x _ _ _ _ _ _ _ _ _ _ _ HF), EX. rewrite (rd_set _ _ _ _ _ _ _ _ _ _ _ _ _ HR). unfold ystp. rs. intros HH. cases_in HH.
  - unfold certifies_unbounded. cbv zeta. set (v := fun i => (ux t1 i - ux t i)%R).
    assert (EV : v 0%Z = (/ 2)%R) by (unfold v; rewrite (fi_x _ _ _ _ _ _ _ _ _ _ _ HF), (fi_x0 _ _ _ _ _ _ _ _ _ _ _ HF), EX; ring).
    assert (Qm : q_m (qp_of d) = 2) by exact (rd_m _ _ _ _ _ _ _ _ _ _ _ _ _ HR). assert (Qn : q_n (qp_of d) = 1) by exact (rd_n _ _ _ _ _ _ _ _ _ _ _ _ _ HR).
    assert (EN : ninf 1 v = (/ 2)%R) by (rewrite ni1, EV; cases). split; [rewrite EN; lra|]. constructor; rewrite ?Qm, ?Qn, ?EN.
    + lra.
    + unfold lin, sumn. rewrite Qn, z1, EV. cbn [q_q qp_of]. rewrite (rd_q _ _ _ _ _ _ _ _ _ _ _ _ _ HR). lra.
    + rewrite ni1, (rd_P _ _ _ _ _ _ _ _ _ _ _ _ _ HR), EV, (rd_set _ _ _ _ _ _ _ _ _ _ _ _ _ HR). unfold ystp. rs. cases.
    + intros i Hi. destruct (rd_A _ _ _ _ _ _ _ _ _ _ _ _ _ HR v) as (Q0 & Q1). rewrite (rd_set _ _ _ _ _ _ _ _ _ _ _ _ _ HR). unfold ystp. rs. unfold absent_u, absent_l. rewrite EE, !Rmult_1_l.
      assert (Hc : i = 0 \/ i = 1) by lia. destruct Hc as [-> | ->]; rewrite ?L0, ?L1, ?U0, ?U1, ?Q0, ?Q1, EV; split; intros HH; try lra.
Qed.
Lemma ex_dinf : exists s d fl s', ex_run (yP 0) (yA 1 0) [(-1)%R] [0%R; (-1)%R] [(10 ^ 30)%R; 1%R] (yst (/ 1000) 10) OSQP_DUAL_INFEASIBLE s d fl s'.
Proof.
  destruct found_dinf as (s & d & fl & s' & t & t1 & HR & HE & HI & H1 & H2 & H3 & HH). exists s, d, fl, s'. eapply ready_ex; eauto; [stc|].
  eapply (user_found_dinf rE rE_ok _ _ _ _ _ _ _ _ s d fl s' (rd_ses _ _ _ _ _ _ _ _ _ _ _ _ _ HR) (ready_tests _ _ _ _ _ _ _ _ _ _ _ _ _ HR) (rd_stat _ _ _ _ _ _ _ _ _ _ _ _ _ HR) HE 1 t t1); tauto.
Qed.

(** minimise 1e31 x subject to -1 <= x <= 1: an ordinary linear program, reported as non-convex. *)
Lemma found_ncvx : exists s d fl s' t t1, ready 0 0 1 0 (10 ^ 31) (-1) (-1) 1 1 (/ 1000) 10 s d /\ solve rE s = Some (fl, s') /\ iterate rE s 1 t t1 /\ scheduled (sv_settings s) 1 = true /\ stop_requested rE t1 = false /\ time_over rE t1 = false /\
  huge_at 2 1 d t1.
Proof.
  pose proof big30 as B30. assert (B31 : (10 ^ 31 = 10 * 10 ^ 30)%R) by (change (10 ^ 31)%R with (10 * 10 ^ 30)%R; reflexivity).
  destruct (ready_start 0 0 1 0 (10 ^ 31) (-1) (-1) 1 1 (/ 1000) 10) as (s & d & HR); try (left; reflexivity); try lra; try lia.
  destruct (ready_first 0 0 1 0 (10 ^ 31) (-1) (-1) 1 1 (/ 1000) 10 ltac:(lra) ltac:(lia) s d HR) as (t & t1 & HF).
  destruct (ready_solves _ _ _ _ _ _ _ _ _ _ _ s d HR) as (fl & s' & HE). exists s, d, fl, s', t, t1. split; [auto|]. split; [auto|]. split; [apply (fi_it _ _ _ _ _ _ _ _ _ _ _ HF)|].
  split_all.
  - eapply ready_scheduled; eauto.
  - apply (fi_stop _ _ _ _ _ _ _ _ _ _ _ HF).
  - apply (fi_time _ _ _ _ _ _ _ _ _ _ _ HF).
  - rewrite (first_huge _ _ _ _ _ _ _ _ _ _ _ _ _ _ _ HR HF). left. unfold ww0, zz0, clipR, yx. rewrite B31. set (T := (10 ^ 30)%R) in *. clearbody T. cases.
Qed.
Lemma ex_ncvx : exists s d fl s', ex_run (yP 0) (yA 1 0) [(10 ^ 31)%R] [(-1)%R; (-1)%R] [1%R; 1%R] (yst (/ 1000) 10) OSQP_NON_CVX s d fl s'.
Proof.
  destruct found_ncvx as (s & d & fl & s' & t & t1 & HR & HE & HI & H1 & H2 & H3 & HH). exists s, d, fl, s'. eapply ready_ex; eauto; [stc|].
  eapply (user_found_huge rE rE_ok _ _ _ _ _ _ _ _ s d fl s' (rd_ses _ _ _ _ _ _ _ _ _ _ _ _ _ HR) (ready_tests _ _ _ _ _ _ _ _ _ _ _ _ _ HR) (rd_stat _ _ _ _ _ _ _ _ _ _ _ _ _ HR) HE 1 t t1); tauto.
Qed.

(** ** A solve started at the optimum *)
Definition wst : settings Rops := set_st_scaling 0 (set_st_check_termination 1 rst).
Lemma wst_ok : settings_ok true wst.
Proof.
  pose proof rst_ok as [H1 H2 H3 H4 H5 H6 H7 H8 H9 H10 H11 H12 H13 H14 H15 H16 H17 H18 H19 H20 H21 H22 H23 H24 H25 H26 H27 H28 H29 H30].
  unfold wst. constructor; rs; auto; lia.
Qed.
Lemma wst_range : rho_in_range wst.
Proof. intros H. discriminate H. Qed.

Lemma rA_d : dns rA 0 0 = 1%R /\ dns rA 1 0 = 1%R /\ dns rA 2 0 = 0%R /\ dns rA 0 1 = 1%R /\ dns rA 1 1 = 0%R /\ dns rA 2 1 = 1%R.
Proof.
  unfold dns. change (colp rA 0) with 0. change (colp rA (0 + 1)) with 2. change (colp rA 1) with 2. change (colp rA (1 + 1)) with 4. rewrite !z2, !(zsum_snoc 2 3), !(zsum_snoc 2 2), !zsum_nil by lia.
  change (rowi rA 0) with 0. change (rowi rA 1) with 1. change (rowi rA 2) with 0. change (rowi rA 3) with 2. change (valx rA 0) with 1%R. change (valx rA 1) with 1%R. change (valx rA 2) with 1%R. change (valx rA 3) with 1%R.
  cbn [Z.eqb Pos.eqb]. repeat split; ring.
Qed.
Lemma rP_d : sdns rP 0 0 = 4%R /\ sdns rP 0 1 = 1%R /\ sdns rP 1 0 = 1%R /\ sdns rP 1 1 = 2%R.
Proof.
  unfold sdns. change (0 <=? 0) with true. change (0 <=? 1) with true. change (1 <=? 0) with false. change (1 <=? 1) with true. cbv iota.
  unfold dns. change (colp rP 0) with 0. change (colp rP (0 + 1)) with 1. change (colp rP 1) with 1. change (colp rP (1 + 1)) with 3. rewrite !z1, !(zsum_snoc 1 2), !(zsum_snoc 1 1), !zsum_nil by lia.
  change (rowi rP 0) with 0. change (rowi rP 1) with 0. change (rowi rP 2) with 1. change (valx rP 0) with 4%R. change (valx rP 1) with 1%R. change (valx rP 2) with 2%R.
  cbn [Z.eqb Pos.eqb]. repeat split; ring.
Qed.
Lemma z3 f : zsum 0 3 f = (f 0%Z + f 1%Z + f 2%Z)%R. Proof. rewrite (zsum_snoc 0 2), z2 by lia. ring. Qed.

(** The data of the example. *)
Record rdat (d : data Rops) : Prop := {
  rt_n : d_n d = 2; rt_m : d_m d = 3;
  rt_q : rnth (d_q d) 0 = 1%R /\ rnth (d_q d) 1 = 1%R;
  rt_l : rnth (d_l d) 0 = 1%R /\ rnth (d_l d) 1 = 0%R /\ rnth (d_l d) 2 = 0%R;
  rt_u : rnth (d_u d) 0 = 1%R /\ rnth (d_u d) 1 = (7 / 10)%R /\ rnth (d_u d) 2 = (7 / 10)%R;
  rt_P : forall x, Pmul (qp_of d) x 0 = (4 * x 0%Z + x 1%Z)%R /\ Pmul (qp_of d) x 1 = (x 0%Z + 2 * x 1%Z)%R;
  rt_A : forall x, Amul (qp_of d) x 0 = (x 0%Z + x 1%Z)%R /\ Amul (qp_of d) x 1 = x 0%Z /\ Amul (qp_of d) x 2 = x 1%Z;
  rt_At : forall y, Atmul (qp_of d) y 0 = (y 0%Z + y 1%Z)%R /\ Atmul (qp_of d) y 1 = (y 0%Z + y 2%Z)%R;
  rt_cvx : convex d }.
Lemma rP_wf : wf rP. Proof. apply wfb_ok. reflexivity. Qed.
Lemma rA_wf : wf rA. Proof. apply wfb_ok. reflexivity. Qed.
Lemma rdat_init d : user_init rP rA (Some rq) (Some rl) (Some ru) 3 2 d -> rdat d.
Proof.
  intros (U1 & U2 & U3 & U4 & U5 & U6 & U7). destruct (U5 rq eq_refl) as (_ & V5). destruct (U6 rl eq_refl) as (_ & V6). destruct (U7 ru eq_refl) as (_ & V7).
  assert (EP : forall i j, 0 <= i < 2 -> 0 <= j < 2 -> sdns (d_P d) i j = sdns rP i j).
  { intros i j Hi Hj. unfold sdns. destruct (i <=? j) eqn:Eij; rewrite (copy_dns _ _ rP_wf U3) by (change (cn rP) with 2; lia); reflexivity. }
  assert (EA : forall i j, 0 <= j < 2 -> dns (d_A d) i j = dns rA i j) by (intros i j Hj; apply (copy_dns _ _ rA_wf U4); change (cn rA) with 2; lia).
  destruct rP_d as (P00 & P01 & P10 & P11). destruct rA_d as (A00 & A10 & A20 & A01 & A11 & A21).
  constructor; auto.
  - rewrite !V5 by lia. split; reflexivity.
  - rewrite !V6 by lia. repeat split; reflexivity.
  - rewrite !V7 by lia. repeat split; reflexivity.
  - intros x. unfold Pmul, mulR. cbn [q_n q_P qp_of]. rewrite U1, !z2, !EP, P00, P01, P10, P11 by lia. split; ring.
  - intros x. unfold Amul, mulR. cbn [q_n q_A qp_of]. rewrite U1, !z2, !EA, A00, A10, A20, A01, A11, A21 by lia. repeat split; ring.
  - intros y. unfold Atmul, mulR, tr_. cbn [q_m q_A qp_of]. rewrite U2, !z3, !EA, A00, A10, A20, A01, A11, A21 by lia. split; ring.
  - unfold convex. intros x. pose proof (rP_psd x) as H. unfold qform in *. rewrite U1. rewrite !z2 in *. rewrite !EP by lia. exact H.
Qed.

Lemma first_iterate (E : Env Rops) s : env_ok E -> Inv s -> 1 <= st_max_iter (sv_settings s) -> exists t t1, iterate E s 1 t t1.
Proof.
  intros EO HI HM. destruct (begin_solve_safe s HI) as (t & Et & It & _). destruct (admm_step_safe E EO t It) as (t1 & Et1 & _).
  exists t, t1. eexists. split; [apply bf_1; exact Et|]. split; auto.
Qed.
Lemma first_time s t t1 (E : Env Rops) : iterate E s 1 t t1 -> env_clock E (g_tocs (sv_world t1)) = 0%R -> w_first_run (sv_work s) = 1 -> i_setup_time (sv_info s) = 0%R -> (0 < st_time_limit (sv_settings s))%R -> time_over E t1 = false.
Proof.
  intros (f & HB & _ & HS) HCl HF HT HL. inversion HB as [t0 Et|k0 f0 t0 t2 f2 HB0 Hk0 HP0]; subst; [|pose proof (before_ge _ _ _ _ _ HB0); lia].
  destruct (begin_post s t Et) as (B1 & B2 & _ & _ & _ & _ & B7 & _). pose proof (admm_step_post E t t1 HS) as HX. cbv beta in HX. destruct HX as (X1 & X2 & _ & _ & X5 & _).
  assert (Y1 : w_first_run (sv_work t1) = w_first_run (sv_work t)) by (change (snd (fst (fst (fst (fst (fixed (sv_work t1)))))) = snd (fst (fst (fst (fst (fixed (sv_work t))))))); rewrite X5; auto).
  assert (Y2 : w_first_run (sv_work t) = w_first_run (sv_work s)) by (change (snd (fst (fst (fst (fst (fixed (sv_work t)))))) = w_first_run (sv_work s)); rewrite B2; unfold fixed; rs; auto).
  unfold time_over, clock_read. rewrite Y1, Y2, HF, X1, X2, B1, B7, HT, HCl. change (tr 1) with true. cbv iota. cbn [nadd Rops nleb]. apply andb_false_iff. right. unfold Rleb. destruct (Rle_dec _ _) as [H|]; auto. exfalso. lra.
Qed.

Definition wx : list R := [3 / 10; 7 / 10]%R.
Definition wy : list R := [- 29 / 10; 0; 2 / 10]%R.
Lemma ex_optimum : exists s d t t1 fl s', session rE rP rA (Some rq) (Some rl) (Some ru) 3 2 wst s d /\ rdat d /\ rho_in_range wst /\ tests_users (sv_settings s) /\ stat s = OSQP_UNSOLVED /\ tr (st_warm_starting (sv_settings s)) = true /\
  (forall i, 0 <= i < 2 -> ux s i = rnth wx i) /\ (forall i, 0 <= i < 3 -> uy s i = rnth wy i) /\ kkt (qp_of d) (ux s) (uz s) (uy s) /\ meets (sv_settings s) (qp_of d) (uc s) (uE s) 1 (ux s) (uz s) (uy s) /\
  iterate rE s 1 t t1 /\ scheduled (sv_settings s) 1 = true /\ stop_requested rE t1 = false /\ time_over rE t1 = false /\ solve rE s = Some (fl, s') /\
  sv_solution s <> None /\ tr (st_polishing (sv_settings s)) = false.
Proof.
  destruct (session_start rE rE_ok rE_exact (mkworld 0%nat 0%nat 0 0 []) rP (Some rq) rA (Some rl) (Some ru) 3 2 wst rdata_readable rdata_ok wst_ok rP_psd) as (s0 & g & d & ES & U & S0).
  destruct (setup_fresh rE rE_ok _ _ _ _ _ _ _ _ _ _ _ rdata_readable ES) as (_ & HF & _). pose proof (rdat_init d U) as RD.
  destruct (session_warm_start rE rE_ok _ _ _ _ _ _ _ _ s0 d (Some wx) (Some wy) S0) as (s & _ & S & W); [unfold vec_arg; intros v [= <-]; unfold zlen; cbn; lia..|].
  destruct (session_facts rE rE_ok _ _ _ _ _ _ _ _ _ _ S) as (HI & HR & _ & _ & Dn & Dm & _).
  assert (HST : sv_settings s0 = set_st_adaptive_rho_interval (st_adaptive_rho_interval (sv_settings s0)) (set_st_rho (st_rho (sv_settings s0)) wst)).
  { rewrite (fs_settings _ _ _ _ _ _ _ _ _ _ HF). generalize (@clamp Rops (st_rho wst)). unfold wst. generalize rst. intros [] ?. unfold setup_adaptive_rho. vm_compute. 
    repeat match goal with |- context [if ?b then _ else _] => destruct b | |- context [match ?b with _ => _ end] => destruct b end; reflexivity. }
  pose proof (wm_st _ _ _ _ _ W) as WS. rewrite HST in WS. unfold wst in WS. rs_in WS.
  assert (UN : uscal s = None) by (unfold uscal; rewrite WS; reflexivity). destruct (none_units s UN) as (Ec & ED & EE).
  assert (HX : forall i, 0 <= i < 2 -> ux s i = rnth wx i) by (intros i Hi; apply (wm_x _ _ _ _ _ W wx eq_refl); lia).
  assert (HY : forall i, 0 <= i < 3 -> uy s i = rnth wy i) by (intros i Hi; apply (wm_y _ _ _ _ _ W wy eq_refl); lia).
  assert (HZ : forall i, 0 <= i < 3 -> uz s i = Amul (qp_of d) (ux s) i).
  { intros i Hi. rewrite (wm_z _ _ _ _ _ W wx eq_refl) by lia. unfold Amul, mulR. cbn [q_n q_A qp_of]. apply zsum_ext. intros j Hj. rewrite HX by lia. ring. }
  pose proof (HX 0 ltac:(lia)) as X0. pose proof (HX 1 ltac:(lia)) as X1. pose proof (HY 0 ltac:(lia)) as Y0. pose proof (HY 1 ltac:(lia)) as Y1. pose proof (HY 2 ltac:(lia)) as Y2.
  change (rnth wx 0) with (3 / 10)%R in X0. change (rnth wx 1) with (7 / 10)%R in X1. change (rnth wy 0) with (- 29 / 10)%R in Y0. change (rnth wy 1) with 0%R in Y1. change (rnth wy 2) with (2 / 10)%R in Y2.
  destruct (rt_A _ RD (ux s)) as (A0 & A1 & A2). destruct (rt_P _ RD (ux s)) as (P0 & P1). destruct (rt_At _ RD (uy s)) as (T0 & T1). destruct (rt_q _ RD) as (q0' & q1). destruct (rt_l _ RD) as (l0' & l1 & l2). destruct (rt_u _ RD) as (u0' & u1 & u2).
  assert (KK : kkt (qp_of d) (ux s) (uz s) (uy s)).
  { constructor; cbn [q_n q_m q_q q_l q_u qp_of]; rewrite ?(rt_n _ RD), ?(rt_m _ RD); intros i Hi.
    - assert (Hc : i = 0 \/ i = 1) by lia. destruct Hc as [-> | ->]; rewrite ?P0, ?P1, ?T0, ?T1, ?q0', ?q1, ?X0, ?X1, ?Y0, ?Y1, ?Y2; lra.
    - rewrite HZ by auto. reflexivity.
    - rewrite HZ by auto. assert (Hc : i = 0 \/ i = 1 \/ i = 2) by lia. unfold ncone. destruct Hc as [-> |[-> | ->]]; rewrite ?A0, ?A1, ?A2, ?l0', ?l1, ?l2, ?u0', ?u1, ?u2, ?X0, ?X1, ?Y0, ?Y1, ?Y2; lra. }
  assert (TM : trimmed (uc s) (uE s) (q_m (qp_of d)) (q_l (qp_of d)) (q_u (qp_of d)) (uy s) (uy s)).
  { intros i Hi. cbn [q_m q_l q_u qp_of] in *. rewrite (rt_m _ RD) in Hi. exists (uy s i). rewrite EE, Ec. split; [|field]. replace (1 * uy s i / 1)%R with (uy s i) by field. rewrite !Rmult_1_l. pose proof big26.
    assert (B15 : (/ 10 ^ 15 <= / 10)%R) by (apply Rinv_le_contravar; [lra|]; change (10 ^ 15)%R with (10 ^ (1 + 14))%R; rewrite pow_add; pose proof (pow_R1_Rle 10 14 ltac:(lra)); simpl pow at 1; lra).
    assert (Hc : i = 0 \/ i = 1 \/ i = 2) by lia. exists (uy s i). unfold drops, no_upper, no_lower. destruct Hc as [-> |[-> | ->]]; rewrite ?l0', ?l1, ?l2, ?u0', ?u1, ?u2, ?Y0, ?Y1, ?Y2.
    all: split; [repeat split; intros; try reflexivity; exfalso; lra|split; [|reflexivity]]; intros HA; cases_in HA. }
  assert (HM : 1 <= st_max_iter (sv_settings s)) by (rewrite WS; rs; reflexivity || (unfold rst; cbn; lia)).
  destruct (first_iterate rE s rE_ok HI HM) as (t & t1 & HIt). destruct (solve_safe rE rE_ok MM_R s HI) as ([fl s'] & HE & _).
  exists s, d, t, t1, fl, s'. split; [auto|]. split; [auto|]. split; [apply wst_range|]. split; [intros H; rewrite WS in H; discriminate H|].
  split; [rewrite (wm_info _ _ _ _ _ W); apply (fs_status _ _ _ _ _ _ _ _ _ _ HF)|]. split; [rewrite WS; reflexivity|]. split; [auto|]. split; [auto|]. split; [auto|].
  split. { apply kkt_meets; auto; [rewrite WS; apply rlit_pos; lia|rewrite WS; apply Rlt_le; apply rlit_pos; lia|exists (uy s); auto]. }
  split; [auto|]. split; [rewrite WS; reflexivity|]. split; [reflexivity|]. split.
  2:{ split; [auto|]. split; [|rewrite WS; reflexivity]. rewrite (wm_sol _ _ _ _ _ W). intros H. apply (fs_sol _ _ _ _ _ _ _ _ _ _ HF) in H. discriminate H. }
  eapply first_time; [exact HIt|reflexivity| | |rewrite WS; apply rlit_pos; lia].
  - destruct (wm_rest _ _ _ _ _ W) as (? & ? & ? & ->). rs. apply (fs_first _ _ _ _ _ _ _ _ _ _ HF).
  - rewrite (wm_info _ _ _ _ _ W). eapply setup_clock; eauto.
Qed.

(** ** A solve that reaches its second iteration *)
Definition nst : settings Rops := set_st_check_termination 0 (set_st_adaptive_rho 0 rst).
Lemma nst_ok : settings_ok true nst.
Proof.
  pose proof rst_ok as [H1 H2 H3 H4 H5 H6 H7 H8 H9 H10 H11 H12 H13 H14 H15 H16 H17 H18 H19 H20 H21 H22 H23 H24 H25 H26 H27 H28 H29 H30].
  unfold nst. constructor; rs; auto; lia.
Qed.
Lemma nst_range : rho_in_range nst.
Proof. intros H. discriminate H. Qed.
Lemma ex_second : exists s d t t1, session rE rP rA (Some rq) (Some rl) (Some ru) 3 2 nst s d /\ rdat d /\ iterate rE s 2 t t1 /\ stat s = OSQP_UNSOLVED.
Proof.
  destruct (session_start rE rE_ok rE_exact (mkworld 0%nat 0%nat 0 0 []) rP (Some rq) rA (Some rl) (Some ru) 3 2 nst rdata_readable rdata_ok nst_ok rP_psd) as (s & g & d & ES & U & S).
  destruct (setup_fresh rE rE_ok _ _ _ _ _ _ _ _ _ _ _ rdata_readable ES) as (_ & HF & _). pose proof (rdat_init d U) as RD.
  destruct (session_facts rE rE_ok _ _ _ _ _ _ _ _ _ _ S) as (HI & HR & _ & _ & Dn & Dm & _).
  assert (HST : exists r, sv_settings s = set_st_rho r nst).
  { rewrite (fs_settings _ _ _ _ _ _ _ _ _ _ HF). exists (@clamp Rops (st_rho nst)). generalize (@clamp Rops (st_rho nst)). unfold nst. generalize rst. intros [] ?. unfold setup_adaptive_rho. vm_compute. reflexivity. }
  destruct HST as (r & HST).
  assert (HM : st_max_iter (sv_settings s) = 4000) by (rewrite HST; reflexivity).
  destruct (first_iterate rE s rE_ok HI ltac:(lia)) as (t & t1 & HIt). pose proof HIt as (f & HB & _ & HS1).
  destruct (before_inv rE rE_ok MM_R s 1 f t HI HB) as (It & _). destruct (admm_pass_safe rE rE_ok MM_R t 1 f It) as (o & HP & _).
  assert (EST : exists r' x', sv_settings t = set_st_rho r' (set_st_adaptive_rho_interval x' nst)).
  { destruct (sf_st _ _ (before_sfr _ _ _ _ _ HB)) as (r' & x' & ->). rewrite HST. exists r', x'. reflexivity. }
  destruct EST as (r' & x' & EST).
  pose proof (pass_ends rE t 1 f _ HP) as HE.
  inversion HE as [t1' s0 HS' HR'|t1' s0 HS' HR' HTm'|t1' t2 t3 s0 cp ca HS' HR' HTm' HN HSc HU3 HCk|t1' t2 t3 t4 s0 HS' HR' HTm' HN HU3 HCk HRc HTi HFl|t1' t2 t3 t4 s0 cp ca HS' HR' HTm' HN HU3 HCk HSt HRh]; subst o; rewrite HS1 in HS'; injection HS' as <-.
  - discriminate HR'.
  - exfalso. rewrite (first_time s t t1 rE HIt) in HTm'; [discriminate|reflexivity|apply (fs_first _ _ _ _ _ _ _ _ _ _ HF)|eapply setup_clock; eauto|rewrite HST; apply rlit_pos; lia].
  - rewrite EST in HSc. discriminate HSc.
  - exfalso. rewrite EST in HRc. unfold nst in HRc. rs_in HRc. specialize (HRc ltac:(lia) ltac:(lia)). destruct HRc as (_ & N4 & _). apply N4.
    rewrite EST in HCk. cbn in HCk. subst t4. assert (E3 : sv_settings t3 = sv_settings t2).
    { pose proof (update_info_post rE t2 1 _ HU3) as HX. cbv beta in HX. apply HX. }
    destruct HN as (_ & _ & _ & x2 & N5). rewrite E3, N5. pose proof (admm_step_post rE t t1 HS1) as HX. cbv beta in HX. destruct HX as (-> & _). rewrite EST. reflexivity.
  - assert (HB2 : before rE s 2 (scheduled (sv_settings t) 1, cp, ca) s0) by (apply (bf_S rE s 1 f t); [auto|lia|]; rewrite HP; reflexivity).
    destruct (before_inv rE rE_ok MM_R s 2 _ s0 HI HB2) as (I2 & _). destruct (admm_step_safe rE rE_ok s0 I2) as (t6 & E6 & _).
    exists s, d, s0, t6. split; [auto|]. split; [auto|]. split; [eexists; split; [exact HB2|split; [lia|exact E6]]|apply (fs_status _ _ _ _ _ _ _ _ _ _ HF)].
Qed.

(** ** Cases for the claims about iterations *)
Lemma rst_range : rho_in_range rst.
Proof. intros H. discriminate H. Qed.
Lemma session_dat ust s d : user_init rP rA (Some rq) (Some rl) (Some ru) 3 2 d -> session rE rP rA (Some rq) (Some rl) (Some ru) 3 2 ust s d -> convex d.
Proof. intros U _. apply (rt_cvx _ (rdat_init d U)). Qed.
Lemma ex_first : env_ok rE /\ exact_ldl rE /\ rho_in_range rst /\
  exists s d t t', session rE rP rA (Some rq) (Some rl) (Some ru) 3 2 rst s d /\ convex d /\ iterate rE s 1 t t'.
Proof.
  split; [exact rE_ok|]. split; [exact rE_exact|]. split; [exact rst_range|]. destruct r_start as (s & d & S & U).
  destruct (session_facts rE rE_ok _ _ _ _ _ _ _ _ _ _ S) as (HI & _).
  destruct (first_iterate rE s rE_ok HI) as (t & t1 & HIt). { eapply max_iter_pos; [exact rE_ok|exact S]. }
  exists s, d, t, t1. split; [auto|]. split; [eapply session_dat; eauto|auto].
Qed.
Lemma ex_scaled : env_ok rE /\ exists s d, session rE rP rA (Some rq) (Some rl) (Some ru) 3 2 rst s d /\ st_scaling (sv_settings s) = 10.
Proof.
  split; [exact rE_ok|]. destruct (session_start rE rE_ok rE_exact (mkworld 0%nat 0%nat 0 0 []) rP (Some rq) rA (Some rl) (Some ru) 3 2 rst rdata_readable rdata_ok rst_ok rP_psd) as (s & g & d & ES & U & S).
  destruct (setup_fresh rE rE_ok _ _ _ _ _ _ _ _ _ _ _ rdata_readable ES) as (HI & HF & _). exists s, d. split; [auto|].
  rewrite (fs_settings _ _ _ _ _ _ _ _ _ _ HF). generalize (@clamp Rops (st_rho rst)). intros r. vm_compute. reflexivity.
Qed.
Lemma ex_within : data_readable (Some rP) (Some rq) (Some rA) (Some rl) (Some ru) 3 2 /\ exists g s0 g' t t',
  osqp_setup rE g (Some rP) (Some rq) (Some rA) (Some rl) (Some ru) 3 2 (Some rst) = Some (0, Some s0, g') /\ reach rE s0 s0 /\ iterate rE s0 1 t t'.
Proof.
  split; [exact rdata_readable|].
  destruct (session_start rE rE_ok rE_exact (mkworld 0%nat 0%nat 0 0 []) rP (Some rq) rA (Some rl) (Some ru) 3 2 rst rdata_readable rdata_ok rst_ok rP_psd) as (s & g & d & ES & U & S).
  destruct (session_facts rE rE_ok _ _ _ _ _ _ _ _ _ _ S) as (HI & _).
  destruct (first_iterate rE s rE_ok HI) as (t & t1 & HIt). { eapply max_iter_pos; [exact rE_ok|exact S]. }
  exists (mkworld 0%nat 0%nat 0 0 []), s, g, t, t1. split; [exact ES|]. split; [constructor|auto].
Qed.

(** The solve of [ex_optimum] ends as solved with its starting point. *)
Lemma ex_optimum_end : exists s d t t1 s', session rE rP rA (Some rq) (Some rl) (Some ru) 3 2 wst s d /\ rdat d /\ tests_users (sv_settings s) /\ stat s = OSQP_UNSOLVED /\ tr (st_warm_starting (sv_settings s)) = true /\
  kkt (qp_of d) (ux s) (uz s) (uy s) /\ meets (sv_settings s) (qp_of d) (uc s) (uE s) 1 (ux s) (uz s) (uy s) /\ iterate rE s 1 t t1 /\ scheduled (sv_settings s) 1 = true /\ stop_requested rE t1 = false /\ time_over rE t1 = false /\
  solve rE s = Some (0, s') /\ stat s' = OSQP_SOLVED /\ has_solution (sv_info s') = true /\ ~ polished s' /\ sv_solution s' <> None /\
  kkt (qp_of d) (ux t) (uz t) (uy t).
Proof.
  destruct ex_optimum as (s & d & t & t1 & fl & s' & S & RD & RR & HT & HU & HW & _ & _ & HK & HM & HIt & Hsc & Hst & Htm & HE & HSo & HPo).
  destruct (user_from_optimum rE rE_ok _ _ _ _ _ _ _ _ _ _ _ _ S HT HU HE rE_exact RR (rt_cvx _ RD) HW HK HM 1 t t1 HIt Hsc Hst Htm) as (H1 & _).
  destruct (session_facts rE rE_ok _ _ _ _ _ _ _ _ _ _ S) as (HI & HR & _ & _ & Dn & Dm & _). pose proof (ref_tunits s d HI HR HT) as TU.
  destruct (claim_flag rE rE_ok _ _ _ _ _ _ _ _ _ _ _ _ _ _ _ _ S TU HU HE) as [-> |[(H2 & _)|(_ & H2)]]; [|stc|congruence].
  assert (SS : same_st (sv_settings s) (sv_settings s')) by apply (solve_sfr rE s _ HE).
  exists s, d, t, t1, s'. do 13 (split; [solve [auto]|]). split; [apply has_solution_iff; unfold reports; stc|].
  split. { intros (P1 & _). destruct SS as (? & ? & SS). rewrite SS in P1. rs_in P1. congruence. }
  split. { exact (claim_kept rE rE_ok _ _ _ _ _ _ _ _ _ _ _ _ _ _ _ _ S TU HU HE ltac:(lia) HSo). }
  pose proof HIt as (f & HB & _). destruct (kkt_stays rE rE_ok _ _ _ _ _ _ _ _ rE_exact s d S (rt_cvx _ RD) RR HW HK 1 f t HB) as (_ & X1 & X2 & X3).
  cbn [q_n q_m qp_of] in *. eapply kkt_ext; [| | |exact HK]; cbn [q_n q_m qp_of]; rewrite ?Dn, ?Dm; intros i Hi; symmetry; auto.
Qed.
Lemma ex_returned : exists s d s' o, session rE rP rA (Some rq) (Some rl) (Some ru) 3 2 wst s d /\ i_status_val (sv_info s) = OSQP_UNSOLVED /\
  solve rE s = Some (0, s') /\ has_solution (sv_info s') = true /\ sv_solution s' = Some o.
Proof.
  destruct ex_optimum_end as (s & d & t & t1 & s' & S & RD & HT & HU & HW & HK & HM & HIt & Hsc & Hst & Htm & HE & H1 & HH & HN & HO & _).
  destruct (sv_solution s') as [o|] eqn:EO; [|congruence]. exists s, d, s', o. auto.
Qed.
Lemma ex_unpolished : rho_in_range wst /\ exists s d fl s', session rE rP rA (Some rq) (Some rl) (Some ru) 3 2 wst s d /\
  solve rE s = Some (fl, s') /\ has_solution (sv_info s') = true /\ ~ polished s'.
Proof.
  split; [exact wst_range|]. destruct ex_optimum_end as (s & d & t & t1 & s' & S & RD & HT & HU & HW & HK & HM & HIt & Hsc & Hst & Htm & HE & H1 & HH & HN & HO & _).
  exists s, d, 0, s'. auto.
Qed.
Lemma ex_fixed : exists s d t t', session rE rP rA (Some rq) (Some rl) (Some ru) 3 2 wst s d /\ convex d /\ rho_in_range wst /\ iterate rE s 1 t t' /\
  kkt (qp_of d) (ux t) (uz t) (uy t) /\ (forall i, 0 <= i < 2 -> ux t' i = ux t i) /\ (forall i, 0 <= i < 3 -> uz t' i = uz t i) /\ (forall i, 0 <= i < 3 -> uy t' i = uy t i).
Proof.
  destruct ex_optimum_end as (s & d & t & t1 & s' & S & RD & HT & HU & HW & HK & HM & HIt & Hsc & Hst & Htm & HE & H1 & HH & HN & HO & HK1).
  exists s, d, t, t1. split; [auto|]. split; [apply RD|]. split; [exact wst_range|]. split; [auto|]. split; [auto|].
  exact (iterate_kkt_fixed rE rE_ok _ _ _ _ _ _ _ _ rE_exact s d 1 t t1 S (rt_cvx _ RD) wst_range HIt HK1).
Qed.
Lemma ex_solve_kkt : exists s d fl s', session rE rP rA (Some rq) (Some rl) (Some ru) 3 2 wst s d /\ convex d /\ rho_in_range wst /\ tr (st_warm_starting (sv_settings s)) = true /\
  kkt (qp_of d) (ux s) (uz s) (uy s) /\ solve rE s = Some (fl, s') /\ has_solution (sv_info s') = true /\ ~ polished s'.
Proof.
  destruct ex_optimum_end as (s & d & t & t1 & s' & S & RD & HT & HU & HW & HK & HM & HIt & Hsc & Hst & Htm & HE & H1 & HH & HN & HO & _).
  exists s, d, 0, s'. pose proof (rt_cvx _ RD). pose proof wst_range. auto 10.
Qed.
Lemma ex_fejer : exists s d t t' xs zs ys, session rE rP rA (Some rq) (Some rl) (Some ru) 3 2 nst s d /\ convex d /\ rho_in_range nst /\ iterate rE s 2 t t' /\ kkt (qp_of d) xs zs ys.
Proof.
  destruct ex_second as (s & d & t & t1 & S & RD & HIt & _). exists s, d, t, t1, (rnth wx), (Amul (qp_of d) (rnth wx)), (rnth wy).
  split; [auto|]. split; [apply RD|]. split; [exact nst_range|]. split; [auto|].
  destruct (rt_A _ RD (rnth wx)) as (A0 & A1 & A2). destruct (rt_P _ RD (rnth wx)) as (P0 & P1). destruct (rt_At _ RD (rnth wy)) as (T0 & T1). destruct (rt_q _ RD) as (q0' & q1). destruct (rt_l _ RD) as (l0' & l1 & l2). destruct (rt_u _ RD) as (u0' & u1 & u2).
  change (rnth wx 0) with (3 / 10)%R in *. change (rnth wx 1) with (7 / 10)%R in *. 
  constructor; cbn [q_n q_m q_q q_l q_u qp_of]; rewrite ?(rt_n _ RD), ?(rt_m _ RD); intros i Hi.
  - assert (Hc : i = 0 \/ i = 1) by lia. destruct Hc as [-> | ->]; rewrite ?P0, ?P1, ?T0, ?T1, ?q0', ?q1; change (rnth wy 0) with (- 29 / 10)%R; change (rnth wy 1) with 0%R; change (rnth wy 2) with (2 / 10)%R; lra.
  - reflexivity.
  - assert (Hc : i = 0 \/ i = 1 \/ i = 2) by lia. unfold ncone. change (rnth wy) with (rnth wy). destruct Hc as [-> |[-> | ->]]; rewrite ?A0, ?A1, ?A2, ?l0', ?l1, ?l2, ?u0', ?u1, ?u2; change (rnth wy 0) with (- 29 / 10)%R; change (rnth wy 1) with 0%R; change (rnth wy 2) with (2 / 10)%R; lra.
Qed.

(** ** Further cases for the claims about the end of a solve *)
Lemma ncvx_refuted : ~ (forall E, env_ok E -> exact_ldl E -> forall P A q l u m n ust s d fl s', session E P A q l u m n ust s d -> tests_users (sv_settings s) ->
  stat s = OSQP_UNSOLVED -> solve E s = Some (fl, s') -> stat s' = OSQP_NON_CVX -> ~ convex d).
Proof.
  intros H. destruct ex_ncvx as (s & d & fl & s' & HS & HC & _ & HT & HU & HE & HV & _).
  exact (H rE rE_ok rE_exact _ _ _ _ _ _ _ _ s d fl s' HS HT HU HE HV HC).
Qed.
Lemma info_case : env_ok rE /\ exists s d fl s', ex_run (yP 1) (yA 1 0) [(-1)%R] [(-5)%R; (-1)%R] [5%R; 1%R] (yst 1 10) OSQP_SOLVED s d fl s' /\ has_solution (sv_info s') = true.
Proof.
  split; [exact rE_ok|]. destruct ex_solved as (s & d & fl & s' & H). exists s, d, fl, s'. split; [auto|]. destruct H as (_ & _ & _ & _ & _ & _ & H & _). apply has_solution_iff. unfold reports. stc.
Qed.

(** A solve with scaling and scaled_termination, started at the optimum. *)
Definition vst : settings Rops := set_st_scaled_termination 1 (set_st_check_dualgap 0 (set_st_check_termination 1 rst)).
Lemma vst_ok : settings_ok true vst.
Proof.
  pose proof rst_ok as [H1 H2 H3 H4 H5 H6 H7 H8 H9 H10 H11 H12 H13 H14 H15 H16 H17 H18 H19 H20 H21 H22 H23 H24 H25 H26 H27 H28 H29 H30].
  unfold vst. constructor; rs; auto; lia.
Qed.
Lemma vst_range : rho_in_range vst.
Proof. intros H. discriminate H. Qed.
Lemma ex_stored : exists s d fl s', session rE rP rA (Some rq) (Some rl) (Some ru) 3 2 vst s d /\ ~ tests_users (sv_settings s) /\ stat s = OSQP_UNSOLVED /\ solve rE s = Some (fl, s') /\ stat s' = OSQP_SOLVED /\ ~ polished s'.
Proof.
  destruct (session_start rE rE_ok rE_exact (mkworld 0%nat 0%nat 0 0 []) rP (Some rq) rA (Some rl) (Some ru) 3 2 vst rdata_readable rdata_ok vst_ok rP_psd) as (s0 & g & d & ES & U & S0).
  destruct (setup_fresh rE rE_ok _ _ _ _ _ _ _ _ _ _ _ rdata_readable ES) as (_ & HF & _). pose proof (rdat_init d U) as RD.
  destruct (session_warm_start rE rE_ok _ _ _ _ _ _ _ _ s0 d (Some wx) (Some wy) S0) as (s & _ & S & W); [unfold vec_arg; intros v [= <-]; unfold zlen; cbn; lia..|].
  destruct (session_facts rE rE_ok _ _ _ _ _ _ _ _ _ _ S) as (HI & HR & _ & _ & Dn & Dm & _).
  assert (HST : sv_settings s0 = set_st_adaptive_rho_interval (st_adaptive_rho_interval (sv_settings s0)) (set_st_rho (st_rho (sv_settings s0)) vst)).
  { rewrite (fs_settings _ _ _ _ _ _ _ _ _ _ HF). generalize (@clamp Rops (st_rho vst)). unfold vst. generalize rst. intros [] ?. unfold setup_adaptive_rho. vm_compute.
    repeat match goal with |- context [if ?b then _ else _] => destruct b | |- context [match ?b with _ => _ end] => destruct b end; reflexivity. }
  pose proof (wm_st _ _ _ _ _ W) as WS. rewrite HST in WS. unfold vst in WS. rs_in WS.
  assert (HX : forall i, 0 <= i < 2 -> ux s i = rnth wx i) by (intros i Hi; apply (wm_x _ _ _ _ _ W wx eq_refl); lia).
  assert (HY : forall i, 0 <= i < 3 -> uy s i = rnth wy i) by (intros i Hi; apply (wm_y _ _ _ _ _ W wy eq_refl); lia).
  assert (HZ : forall i, 0 <= i < 3 -> uz s i = Amul (qp_of d) (ux s) i).
  { intros i Hi. rewrite (wm_z _ _ _ _ _ W wx eq_refl) by lia. unfold Amul, mulR. cbn [q_n q_A qp_of]. apply zsum_ext. intros j Hj. rewrite HX by lia. ring. }
  pose proof (HX 0 ltac:(lia)) as X0. pose proof (HX 1 ltac:(lia)) as X1. pose proof (HY 0 ltac:(lia)) as Y0. pose proof (HY 1 ltac:(lia)) as Y1. pose proof (HY 2 ltac:(lia)) as Y2.
  change (rnth wx 0) with (3 / 10)%R in X0. change (rnth wx 1) with (7 / 10)%R in X1. change (rnth wy 0) with (- 29 / 10)%R in Y0. change (rnth wy 1) with 0%R in Y1. change (rnth wy 2) with (2 / 10)%R in Y2.
  destruct (rt_A _ RD (ux s)) as (A0 & A1 & A2). destruct (rt_P _ RD (ux s)) as (P0 & P1). destruct (rt_At _ RD (uy s)) as (T0 & T1). destruct (rt_q _ RD) as (q0' & q1). destruct (rt_l _ RD) as (l0' & l1 & l2). destruct (rt_u _ RD) as (u0' & u1 & u2).
  assert (KK : kkt (qp_of d) (ux s) (uz s) (uy s)).
  { constructor; cbn [q_n q_m q_q q_l q_u qp_of]; rewrite ?(rt_n _ RD), ?(rt_m _ RD); intros i Hi.
    - assert (Hc : i = 0 \/ i = 1) by lia. destruct Hc as [-> | ->]; rewrite ?P0, ?P1, ?T0, ?T1, ?q0', ?q1, ?X0, ?X1, ?Y0, ?Y1, ?Y2; lra.
    - rewrite HZ by auto. reflexivity.
    - rewrite HZ by auto. assert (Hc : i = 0 \/ i = 1 \/ i = 2) by lia. unfold ncone. destruct Hc as [-> |[-> | ->]]; rewrite ?A0, ?A1, ?A2, ?l0', ?l1, ?l2, ?u0', ?u1, ?u2, ?X0, ?X1, ?Y0, ?Y1, ?Y2; lra. }
  assert (HM : 1 <= st_max_iter (sv_settings s)) by (rewrite WS; rs; reflexivity || (unfold rst; cbn; lia)).
  destruct (first_iterate rE s rE_ok HI HM) as (t & t1 & HIt). destruct (solve_safe rE rE_ok MM_R s HI) as ([fl s'] & HE & _).
  assert (NT : ~ tests_users (sv_settings s)) by (unfold tests_users; rewrite WS; intros H; specialize (H eq_refl); discriminate H).
  assert (HU : stat s = OSQP_UNSOLVED) by (rewrite (wm_info _ _ _ _ _ W); apply (fs_status _ _ _ _ _ _ _ _ _ _ HF)).
  assert (SV : stat s' = OSQP_SOLVED).
  { eapply (stored_from_optimum rE rE_ok _ _ _ _ _ _ _ _ s d fl s' S NT HU HE rE_exact vst_range (rt_cvx _ RD)); [rewrite WS; reflexivity|exact KK|rewrite WS; reflexivity|rewrite WS; apply rlit_pos; lia|rewrite WS; apply Rlt_le; apply rlit_pos; lia|exact HIt|rewrite WS; reflexivity|reflexivity|].
    eapply first_time; [exact HIt|reflexivity| | |rewrite WS; apply rlit_pos; lia].
    - destruct (wm_rest _ _ _ _ _ W) as (? & ? & ? & ->). rs. apply (fs_first _ _ _ _ _ _ _ _ _ _ HF).
    - rewrite (wm_info _ _ _ _ _ W). eapply setup_clock; eauto. }
  exists s, d, fl, s'. do 5 (split; [solve [auto]|]). intros (PO & _). pose proof (sf_st _ _ (solve_sfr rE s _ HE)) as (? & ? & SS). cbn [snd] in SS. rewrite SS, WS in PO. discriminate PO.
Qed.
