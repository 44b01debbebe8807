(** The gradients computed by derivative.c over the reals. *)
From Coq Require Import ZArith Reals List Bool Lia Lra.
From Verif Require Import Num Arr ArrFacts RSum Csc CscSpec CscFacts CscFacts2 Scatter CscFacts3 CscFacts4 CscFacts5
  Vec Types Validate Linsys VecFacts LinsysFacts LinsysSolve LdlEnv Auxil Inv InvStep InvSetup InvApi RealVec RealStep ProbSpec ScaleReal Refine UserSpec KktClaims QpSpec
  Deriv DerivAsm DerivNorm DerivLin DerivRows DerivRun DerivApi DerivSpec DerivBlock.
Import ListNotations.
Open Scope Z_scope.
Local Open Scope opt_scope.

Lemma sel_ext f g m : (forall i, 0 <= i < m -> f i = g i) -> sel f m = sel g m.
Proof. intros H. unfold sel. apply filter_ext_in. intros i Hi. apply H. apply In_zseq. auto. Qed.

Section Real.
  Variable E : Env Rops.
  Hypothesis (EO : env_ok E) (EX : exact_ldl E).
  Variables (p : qp) (P A : csc Rops) (l u xv yv : list R) (dd : deriv Rops) (dx dyl dyu : list R).
  Let n := q_n p.
  Let m := q_m p.
  Hypothesis (WP : wf P) (TP : triu P) (HnP : cn P = n) (WA : wf A) (HmA : cm A = m) (HnA : cn A = n).
  Hypothesis (Hl : rlen l = m) (Hu : rlen u = m) (Hx : rlen xv = n) (Hy : rlen yv = m) (Hdx : n <= rlen dx) (Hdl : rlen dyl = m) (Hdu : rlen dyu = m).
  Hypothesis (D1 : rlen (dv_y_l dd) = m) (D2 : rlen (dv_y_u dd) = m) (D3 : rlen (dv_ryl dd) = m) (D4 : rlen (dv_ryu dd) = m) (D5 : 2 * (n + 2 * m) <= rlen (dv_rhs dd)).
  Hypothesis SY : symmetric p.
  Hypothesis (PP : forall i j, 0 <= i < n -> 0 <= j < n -> sdns P i j = q_P p i j).
  Hypothesis (PA : forall i j, 0 <= i < m -> 0 <= j < n -> dns A i j = q_A p i j).
  Hypothesis (Pl : forall i, 0 <= i < m -> rnth l i = q_l p i) (Pu : forall i, 0 <= i < m -> rnth u i = q_u p i).
  Let x := rnth xv.
  Let y := rnth yv.

  Lemma kinds i : 0 <= i < m -> fL (K := Rops) l u i = has_low p i /\ fU (K := Rops) l u i = has_up p i /\ fE (K := Rops) l u i = is_eq p i.
  Proof.
    intros Hi. unfold fL, fU, fE, has_low, has_up, is_eq. rewrite n0_R. rewrite <- Pl, <- Pu by auto. change (@nltb Rops) with Rltb.
    change (nmul (OSQP_INFTY Rops) (OSQP_MIN_SCALING Rops)) with (@infval Rops). rewrite infval_R. auto.
  Qed.
  Lemma sel_kinds t : t <= m -> sel (fL (K := Rops) l u) t = sel (has_low p) t /\ sel (fU (K := Rops) l u) t = sel (has_up p) t /\ sel (fE (K := Rops) l u) t = sel (is_eq p) t.
  Proof. intros Ht. repeat split; apply sel_ext; intros i Hi; apply kinds; lia. Qed.

  Let sL := sel (has_low p) m.
  Let sU := sel (has_up p) m.
  Let sE := sel (is_eq p) m.
  Let nl := zlen sL.
  Let nu := zlen sU.
  Let ne := zlen sE.
  Let N := n + nl + nu + ne.

  (** The weight of an equality constraint: the sign of its multiplier decides which of the two arrays is used. *)
  Definition wE (i : Z) : R := if Rle_dec 0 (y i) then rnth dyu i else (- rnth dyl i)%R.
  (** The gradients in terms of the solution of the adjoint system. *)
  Definition gq (r2 : Z -> R) (j : Z) : R := r2 j.
  Definition gl (r2 : Z -> R) (i : Z) : R :=
    (on (has_low p i) (e_l p r2 i * lamL y i) + on (is_eq p i) (if Rle_dec 0 (y i) then 0 else - e_e p r2 i))%R.
  Definition gu (r2 : Z -> R) (i : Z) : R :=
    (on (has_up p i) (- (e_u p r2 i * lamU y i)) + on (is_eq p i) (if Rle_dec 0 (y i) then - e_e p r2 i else 0))%R.

  Lemma dcore_real k : (/ 100 <= k)%R -> conditioned p x y k ->
    (zsum 0 n (fun j => rnth dx j * rnth dx j) + zsum 0 m (fun i => on (has_low p i) (rnth dyl i * rnth dyl i) + on (has_up p i) (rnth dyu i * rnth dyu i) + on (is_eq p i) (wE i * wE i)) <= 10 ^ 300 * 10 ^ 300)%R ->
    (forall i, 0 <= i < m -> is_eq p i = true -> y i <> 0%R) ->
    exists dd', dcore E P A l u xv yv n m dd dx dyl dyu = Some (0, dd') /\
      rlen (dv_y_l dd') = m /\ rlen (dv_y_u dd') = m /\ rlen (dv_ryl dd') = m /\ rlen (dv_ryu dd') = m /\ rlen (dv_rhs dd') = rlen (dv_rhs dd) /\
      dv_n_ineq_l dd' = nl /\ dv_n_ineq_u dd' = nu /\ dv_n_eq dd' = ne /\
      (forall i, 0 <= i < m -> rnth (dv_y_l dd') i = lamL y i /\ rnth (dv_y_u dd') i = lamU y i) /\
      let r1 := rnth (dv_rhs dd') in let r2 := up N (rnth (dv_rhs dd')) in
      (forall i, 0 <= i < m -> rnth (dv_ryl dd') i = gl r2 i /\ rnth (dv_ryu dd') i = (- gu r2 i)%R) /\
      forall vx vl vu ve,
        (Rabs (zsum 0 n (fun j => rnth dx j * vx j) + zsum 0 m (fun i => on (has_low p i) (rnth dyl i * vl i) + on (has_up p i) (rnth dyu i * vu i) + on (is_eq p i) (wE i * ve i)) +
               zsum 0 n (fun j => r2 j * J_stat p vx vl vu ve j) +
               zsum 0 m (fun i => on (has_low p i) (e_l p r2 i * J_low p x y vx vl i) + on (has_up p i) (e_u p r2 i * J_up p x y vx vu i) + on (is_eq p i) (e_e p r2 i * J_eq p vx i)))
         <= / 10 ^ 12 * (1 + / k) * sqrt (size p vx vl vu ve))%R.
  Proof.
    intros Hk HC HB HY. assert (Hn : 0 <= n) by (rewrite <- HnP; apply (wf_n _ WP)). assert (Hm : 0 <= m) by (rewrite <- HmA; apply (wf_m _ WA)).
    change (car Rops) with R in *.
    destruct (dcore_run E P A l u xv yv n m dd dx dyl dyu) as (r & Al0 & Al & Au & G & Ae & PF & G' & H & y_u & y_m & y_l & lam & h & sl & rhs & ST & ED); auto; try apply TP.
    rewrite ED. clear ED. destruct ST as [t_rows t_Al0 t_Al t_Au t_G t_Ae t_PF t_G' t_H t_wAl0 t_wAl t_wAu t_wG t_wAe t_wPF t_wG' t_wH t_mAl t_mAu t_mG t_mAe t_mPF t_nPF t_nAl t_nAu t_nG t_nAe t_mH t_nH t_zH t_zAl t_zAu t_copy t_yu t_ym t_yl t_Lyu t_Lyl t_Llam t_laml t_lamu t_Lh t_hl t_hu t_sl t_Lsl t_rhs t_Lrhs]. destruct (sel_kinds m (Z.le_refl m)) as (K1 & K2 & K3). fold sL in K1. fold sU in K2. fold sE in K3.
    rewrite K1 in t_mAl, t_mG, t_Llam, t_laml, t_lamu, t_Lh, t_hl, t_hu. rewrite K2 in t_mAu, t_mG, t_Llam, t_lamu, t_Lh, t_hu. rewrite K3 in t_mAe.
    fold nl in t_mAl, t_mG, t_Llam, t_laml, t_lamu, t_Lh, t_hl, t_hu. fold nu in t_mAu, t_mG, t_Llam, t_lamu, t_Lh, t_hu. fold ne in t_mAe. change (car Rops) with R in *.
    pose proof (zlen_nonneg sL) as N1. pose proof (zlen_nonneg sU) as N2. pose proof (zlen_nonneg sE) as N3. fold nl in N1. fold nu in N2. fold ne in N3.
    assert (IL : forall a, 0 <= a < nl -> 0 <= znth 0%Z sL a < m) by (intros a Ha; apply sel_in; auto).
    assert (IU : forall a, 0 <= a < nu -> 0 <= znth 0%Z sU a < m) by (intros a Ha; apply sel_in; auto).
    assert (IE : forall a, 0 <= a < ne -> 0 <= znth 0%Z sE a < m) by (intros a Ha; apply sel_in; auto).
    (* the multipliers *)
    assert (VYu : rlen y_u = m /\ forall i, 0 <= i < m -> rnth y_u i = lamU y i).
    { destruct (rs_v2 (dv_y_u dd) (@c_max Rops) yv (zrep m n0)) as (r0 & E0 & L0 & V0); [change (car Rops) with R in *; lia|change (car Rops) with R in *; rewrite zlen_zrep; lia|].
      pose proof (eq_trans (eq_sym t_yu) E0) as EQ. injection EQ as ->. change (car Rops) with R in *. split; [lia|]. intros i Hi. rewrite V0 by lia. unfold rnth at 2. rewrite znth_zrep by lia. rewrite c_max_R, n0_R. reflexivity. }
    assert (VYl : rlen y_l = m /\ forall i, 0 <= i < m -> rnth y_l i = lamL y i).
    { destruct (rs_v2 (dv_y_l dd) (@c_min Rops) yv (zrep m n0)) as (r0 & E0 & L0 & V0); [change (car Rops) with R in *; lia|change (car Rops) with R in *; rewrite zlen_zrep; lia|].
      pose proof (eq_trans (eq_sym t_ym) E0) as EQ. injection EQ as ->. change (car Rops) with R in *. split; [lia|]. intros i Hi. rewrite t_yl. unfold vf_mult_scalar. rewrite rnth_map by lia. rewrite V0 by lia.
      unfold rnth at 2. rewrite znth_zrep by lia. rewrite c_min_R, n0_R, n1_R. cbn [nmul nopp Rops]. unfold lamL, y, Rmax, Rmin. destruct (Rle_dec _ _), (Rle_dec _ _); lra. }
    destruct VYu as [LYu VYu]. destruct VYl as [LYl VYl].
    rewrite n0_R in *. rewrite ?n1_R in *. change (@nmul Rops) with Rmult in *. change (@nopp Rops) with Ropp in *.
    assert (VLl : forall a, 0 <= a < nl -> rnth lam a = lamL y (znth 0%Z sL a)) by (intros a Ha; rewrite <- VYl by auto; apply t_laml; auto).
    assert (VLu : forall a, 0 <= a < nu -> rnth lam (nl + a) = lamU y (znth 0%Z sU a)) by (intros a Ha; rewrite <- VYu by auto; apply t_lamu; auto).
    (* the matrices *)
    assert (DAl : forall a j, 0 <= a < nl -> 0 <= j < n -> dns Al a j = (- q_A p (znth 0%Z sL a) j)%R).
    { intros a j Ha Hj. assert (EAl : @csc_scale Rops Al0 (-1)%R = Some Al) by (etransitivity; [|exact t_Al]; f_equal; lra).
      destruct (scale_dense Al0 Al _ t_wAl0 EAl) as (_ & M1 & M2 & _ & _ & V). rewrite V by lia.
      rewrite (submatrix_dense A Al0 (env_jz E) (env_jx E) (rs_l r) (fL (K := Rops) l u) WA) by (auto; try (rewrite HmA, K1; auto); try lia; rewrite HmA; apply (fl_L l u yv m r t_rows)).
      rewrite HmA, K1. rewrite PA by auto. ring. }
    assert (DAu : forall a j, 0 <= a < nu -> 0 <= j < n -> dns Au a j = q_A p (znth 0%Z sU a) j).
    { intros a j Ha Hj. rewrite (submatrix_dense A Au (env_jz E) (env_jx E) (rs_u r) (fU (K := Rops) l u) WA) by (auto; try (rewrite HmA, K2; auto); try lia; rewrite HmA; apply (fl_U l u yv m r t_rows)).
      rewrite HmA, K2. rewrite PA by auto. ring. }
    assert (DAe : forall a j, 0 <= a < ne -> 0 <= j < n -> dns Ae a j = q_A p (znth 0%Z sE a) j).
    { intros a j Ha Hj. rewrite (submatrix_dense A Ae (env_jz E) (env_jx E) (rs_e r) (fE (K := Rops) l u) WA) by (auto; try (rewrite HmA, K3; auto); try lia; rewrite HmA; apply (fl_E l u yv m r t_rows)).
      rewrite HmA, K3. rewrite PA by auto. ring. }
    assert (DGl : forall a j, 0 <= a < nl -> 0 <= j < n -> dns G a j = (- q_A p (znth 0%Z sL a) j)%R).
    { intros a j Ha Hj. rewrite (vstack_dense Al Au (env_jz E) (env_jx E) G t_wAl t_wAu) by (auto; lia). replace (a <? cm Al) with true by lia. auto. }
    assert (DGu : forall a j, 0 <= a < nu -> 0 <= j < n -> dns G (nl + a) j = q_A p (znth 0%Z sU a) j).
    { intros a j Ha Hj. rewrite (vstack_dense Al Au (env_jz E) (env_jx E) G t_wAl t_wAu) by (auto; lia). replace (nl + a <? cm Al) with false by lia. replace (nl + a - cm Al) with a by lia. auto. }
    assert (DH : forall a j, 0 <= a < nl + nu -> 0 <= j < n -> dns H a j = (rnth lam a * dns G a j)%R).
    { intros a j Ha Hj. destruct t_copy as (C1 & C2 & C3 & C4 & C5). destruct (lmult_dense G' H lam t_wG') as (_ & _ & _ & _ & _ & V); [change (car Rops) with R in *; lia|auto|]. rewrite V by lia.
      rewrite (copy_dns G G' t_wG) by (try lia; unfold copy_of; rewrite n0_R; auto 10). auto. }
    assert (DP : forall i j, 0 <= i < n -> 0 <= j < n -> dns PF i j = q_P p i j).
    { intros i j Hi Hj. rewrite (triu_to_csc_dense P _ _ PF WP TP t_PF) by lia. auto. }
    (* the slacks *)
    destruct (rs_Axpy G xv h 1%R (-(1))%R t_wG) as (sl' & ES & LS & VS); [lia|lia|]. pose proof (eq_trans (eq_sym t_sl) ES) as EQ. injection EQ as <-. clear ES.
    assert (DSl : forall a, 0 <= a < nl -> rnth sl a = (q_l p (znth 0%Z sL a) - Amul p x (znth 0%Z sL a))%R).
    { intros a Ha. rewrite VS by lia. rewrite t_nG. rewrite (zsum_ext 0 n _ (fun j => (-1) * (q_A p (znth 0%Z sL a) j * x j))%R) by (intros j Hj; rewrite DGl by auto; unfold x; ring).
      rewrite zsum_scal. unfold Amul, mulR. fold n. change (rnth h a) with (znth 0%R h a). rewrite t_hl by auto. change (znth 0%R l (znth 0%Z sL a)) with (rnth l (znth 0%Z sL a)). rewrite Pl by auto. ring. }
    assert (DSu : forall a, 0 <= a < nu -> rnth sl (nl + a) = (Amul p x (znth 0%Z sU a) - q_u p (znth 0%Z sU a))%R).
    { intros a Ha. rewrite VS by lia. rewrite t_nG. rewrite (zsum_ext 0 n _ (fun j => (q_A p (znth 0%Z sU a) j * x j))%R) by (intros j Hj; rewrite DGu by auto; unfold x; ring).
      unfold Amul, mulR. fold n. change (rnth h (nl + a)) with (znth 0%R h (nl + a)). rewrite t_hu by auto. change (znth 0%R u (znth 0%Z sU a)) with (rnth u (znth 0%Z sU a)). rewrite Pu by auto. ring. }
    (* the right-hand side *)
    pose proof (sets_dims l u yv n m r Hm t_rows) as (_ & _ & _ & S4 & S5 & S6 & S7 & S8). rewrite K1 in S4, S7. rewrite K2 in S5, S8. rewrite K3 in S6, S7, S8. fold nl in S4, S7. fold nu in S5, S8. fold ne in S6, S7, S8.
    destruct (build_rhs_spec E l u yv n m r Hn Hm t_rows dx dyl dyu (dv_rhs dd)) as (b0 & EB & LB & B1 & B2 & B3 & B4 & B5); [change (car Rops) with R in *; lia|auto|auto|rewrite K1, K2, K3; fold nl nu ne; change (car Rops) with R in *; lia|].
    pose proof (eq_trans (eq_sym t_rhs) EB) as EQ. injection EQ as <-. clear EB. rewrite n0_R, n1_R in *. change (@nmul Rops) with Rmult in *. change (@nopp Rops) with Ropp in *.
    rewrite K1 in B2, B3, B4, B5. rewrite K2 in B3, B4, B5. rewrite K3 in B4, B5. fold nl in B2, B3, B4, B5. fold nu in B3, B4, B5. fold ne in B4, B5. fold N in B5. change (car Rops) with R in *.
    assert (HN : 0 <= N) by (unfold N; lia).
    set (g := emb p (rnth dx) (rnth dyl) (rnth dyu) wE).
    assert (Bg : forall a, 0 <= a < N -> rnth rhs a = (- g a)%R).
    { apply (emb_ind p); intros a Ha; unfold g.
      - rewrite (emb_x p) by auto. unfold rnth. rewrite B1 by auto. ring.
      - rewrite (emb_l p) by auto. unfold rnth. etransitivity; [apply B2; auto|]. unfold sL, m. ring.
      - rewrite (emb_u p) by auto. unfold rnth. etransitivity; [apply B3; auto|]. unfold sU, m. ring.
      - rewrite (emb_e p) by auto. unfold rnth. etransitivity; [apply B4; auto|]. fold m sE. unfold nuw, wE, y. rewrite n0_R. change (@nleb Rops) with Rleb. change (@nopp Rops) with Ropp.
        change (znth 0%R yv (znth 0%Z sE a)) with (rnth yv (znth 0%Z sE a)). unfold Rleb, rnth. change (car Rops) with R. destruct (Rle_dec _ _); ring. }
    assert (Bz : forall a, 0 <= a < N -> up N (rnth rhs) a = 0%R) by (intros a Ha; unfold up, rnth; apply B5; auto).
    set (M := blockM n (nl + nu) (dns PF) (dns G) (dns Ae) (dns H) (rnth sl)).
    assert (HHl : forall a j, 0 <= a < nl -> 0 <= j < n -> dns H a j = (lamL y (znth 0%Z sL a) * dns G a j)%R) by (intros a j Ha Hj; rewrite DH by lia; rewrite VLl by auto; auto).
    assert (HHu : forall a j, 0 <= a < nu -> 0 <= j < n -> dns H (nl + a) j = (lamU y (znth 0%Z sU a) * dns G (nl + a)%Z j)%R) by (intros a j Ha Hj; rewrite DH by lia; rewrite VLu by auto; auto).
    assert (Hb : below N (tp M) k) by (apply (cond_below p x y Hn Hm SY (dns G) (dns Ae) (dns H) (dns PF) (rnth sl) DP DGl DGu DAe HHl HHu DSl DSu k); [lra|auto]).
    assert (HnB : (nrm (2 * N) (rnth rhs) <= 10 ^ 300)%R).
    { unfold nrm. rewrite <- (sqrt_square (10 ^ 300)) by (apply pow_le; lra). apply sqrt_le_1_alt. rewrite sq_split by auto.
      rewrite (sq_ext N (up N (rnth rhs)) (fun _ => 0%R)) by auto. rewrite (sq_ext N (rnth rhs) (fun i => (- g i)%R)) by auto.
      unfold sq at 2. rewrite (zsum_ext 0 N _ (fun _ => 0%R)) by (intros; ring). rewrite zsum_0 by auto. unfold sq. rewrite (zsum_ext 0 N _ (fun i => g i * g i)%R) by (intros; ring).
      change (zsum 0 N (fun i => g i * g i)%R) with (sq (bN p) g). unfold g. rewrite (sq_emb p Hn). rewrite Rplus_0_r. exact HB. }
    destruct (adj_exact E PF G Ae H sl rhs k EO EX) as (rhs' & EA & LA & RA); auto; try lia.
    { rewrite t_mPF, t_mG, t_mAe. replace (n + (nl + nu) + ne) with N by (unfold N; lia). exact Hb. }
    { rewrite t_mPF, t_mG, t_mAe. replace (n + (nl + nu) + ne) with N by (unfold N; lia). exact HnB. }
    rewrite t_mPF, t_mG, t_mAe in RA. replace (n + (nl + nu) + ne) with N in RA by (unfold N; lia). fold M in RA.
    rewrite EA. cbv beta iota. cbn [snd]. unfold dcore_tail.
    destruct (split_rhs_spec l u yv n m r Hn Hm Hy t_rows rhs') as (ryl & ryu & ESp & L1 & L2 & VS2); [rewrite K1, K2, K3; fold nl nu ne; change (car Rops) with R in *; lia|].
    rewrite ESp. cbv beta iota. cbn [fst snd].
    rewrite K1, K2, K3 in VS2. fold nl nu ne in VS2. fold N in VS2. rewrite n0_R in VS2. change (@nopp Rops) with Ropp in VS2. change (@ndiv Rops) with Rdiv in VS2. change (@nleb Rops) with Rleb in VS2. change (car Rops) with R in *.
    destruct (rs_from_raw (dv_ryl dd) ryl) as (a1 & Ea1 & La1 & Va1); [lia|]. rewrite Ea1. cbv beta iota.
    destruct (rs_v2 a1 Rmult a1 y_l) as (b1 & Eb1 & Lb1 & Vb1); [auto|lia|].
    assert (Eb1' : @vf_ew_prod Rops a1 a1 y_l = Some b1) by exact Eb1. rewrite Eb1'. cbv beta iota.
    destruct (rs_from_raw (dv_ryu dd) ryu) as (a2 & Ea2 & La2 & Va2); [lia|]. rewrite Ea2. cbv beta iota.
    destruct (rs_v2 a2 Rmult a2 y_u) as (b2 & Eb2 & Lb2 & Vb2); [auto|lia|].
    assert (Eb2' : @vf_ew_prod Rops a2 a2 y_u = Some b2) by exact Eb2. rewrite Eb2'. cbv beta iota. clear Eb1 Eb1' Eb2 Eb2' Ea1 Ea2.
    eexists. split; [reflexivity|]. cbn [dv_y_l dv_y_u dv_ryl dv_ryu dv_rhs dv_n_ineq_l dv_n_ineq_u dv_n_eq].
    rewrite n1_R. change (@nopp Rops) with Ropp. change (car Rops) with R in *.
    split; [auto|]. split; [auto|]. split; [unfold vf_mult_scalar; rewrite zlen_map; change (car Rops) with R in *; lia|]. split; [lia|]. split; [lia|]. split; [auto|]. split; [auto|]. split; [auto|].
    split; [intros i Hi; auto|]. cbv zeta. split.
    - intros i Hi. unfold vf_mult_scalar. rewrite rnth_map by (change (car Rops) with R in *; lia). change (@nmul Rops) with Rmult.
      rewrite Vb1, Va1, Vb2, Va2 by lia. rewrite VYl, VYu by auto. destruct (VS2 i Hi) as (Q1 & Q2 & Q3 & Q4 & Q5 & Q6). destruct (kinds i Hi) as (T1 & T2 & T3). destruct (sel_kinds i ltac:(lia)) as (T4 & T5 & T6).
      rewrite T1 in Q1, Q5. rewrite T2 in Q2, Q6. rewrite T3 in Q3, Q4, Q5, Q6. rewrite T4 in Q1. rewrite T5 in Q2. rewrite T6 in Q3, Q4.
      change (znth 0%R yv i) with (y i) in Q3, Q4. change (znth 0%R rhs') with (rnth rhs') in *. change (znth 0%R ryl i) with (rnth ryl i) in *. change (znth 0%R ryu i) with (rnth ryu i) in *.
      unfold gl, gu, e_l, e_u, e_e, up, on. fold n m. fold sL sU sE. fold nl nu ne.
      rewrite !Z.add_assoc. unfold Rleb in Q3, Q4. specialize (HY i Hi).
      assert (X1 : has_low p i = true -> is_eq p i = false) by (unfold has_low, is_eq; destruct (Rltb (q_l p i) (q_u p i)); auto).
      assert (X2 : has_up p i = true -> is_eq p i = false) by (unfold has_up, is_eq; destruct (Rltb (q_l p i) (q_u p i)); auto).
      split.
      + destruct (has_low p i); [rewrite (Q1 eq_refl), (X1 eq_refl); ring|]. destruct (is_eq p i).
        * destruct (Rle_dec 0 (y i)) as [Hp|Hp]; [destruct (Q3 eq_refl eq_refl) as [-> _]; ring|]. destruct (Q4 eq_refl eq_refl) as [_ ->]. unfold lamL. rewrite Rmax_left by lra. field. apply HY; auto.
        * rewrite (Q5 eq_refl eq_refl). ring.
      + destruct (has_up p i); [rewrite (Q2 eq_refl), (X2 eq_refl); ring|]. destruct (is_eq p i).
        * destruct (Rle_dec 0 (y i)) as [Hp|Hp]; [destruct (Q3 eq_refl eq_refl) as [_ ->]; unfold lamU; rewrite Rmax_left by lra; field; apply HY; auto|]. destruct (Q4 eq_refl eq_refl) as [-> _]. ring.
        * rewrite (Q6 eq_refl eq_refl). ring.
    - intros vx vl vu ve. set (r2 := up N (rnth rhs')).
      pose proof (adjoint_error N M k g (rnth rhs') r2 (resid N M (rnth rhs) (rnth rhs')) (emb p vx vl vu ve) (emb p (J_stat p vx vl vu ve) (J_low p x y vx vl) (J_up p x y vx vu) (J_eq p vx)) HN ltac:(lra) Hb) as AE.
      rewrite (ip_ext N r2 _ (emb p r2 (e_l p r2) (e_u p r2) (e_e p r2)) (emb p (J_stat p vx vl vu ve) (J_low p x y vx vl) (J_up p x y vx vu) (J_eq p vx))) in AE by (auto; intros a Ha; apply (emb_all p Hm r2 a Ha)).
      unfold g in AE. change N with (bN p) in AE at 4 5. rewrite !(ip_emb p Hn) in AE. fold n m in AE. rewrite Rplus_assoc.
      eapply Rle_trans; [apply AE|].
      + intros i Hi. unfold resid. destruct (adjS_rows N M HN 0 (rnth rhs') i Hi) as [-> _]. rewrite Bg by auto. fold g. unfold r2. ring.
      + intros i Hi. unfold resid. destruct (adjS_rows N M HN 0 (rnth rhs') i Hi) as [_ ->]. pose proof (Bz i Hi) as Z0. unfold up in Z0. rewrite Z0. change (bN p) with N. ring.
      + intros a Ha. apply (tpM_emb p x y Hn SY (dns G) (dns Ae) (dns H) (dns PF) (rnth sl) DP DGl DGu DAe HHl HHu DSl DSu vx vl vu ve a Ha).
      + unfold nrm at 2. change N with (bN p) at 3. rewrite (sq_emb p Hn). apply Rmult_le_compat_r; [apply sqrt_pos|]. apply Rmult_le_compat_r; [pose proof (Rinv_0_lt_compat k ltac:(lra)); lra|]. lra.
  Qed.
End Real.
