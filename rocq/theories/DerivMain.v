(** The three derivative functions together: what they return is the gradient of  sum dx x + sum (+-dy) y. *)
From Coq Require Import ZArith Reals List Bool Lia Lra.
From Verif Require Import Num Arr ArrFacts RSum Csc CscSpec CscFacts CscFacts2 Scatter CscFacts3 CscFacts4 CscFacts5
  Vec Types Validate Linsys VecFacts LinsysFacts LinsysSolve LdlEnv Auxil Inv InvStep InvSetup InvApi RealVec RealStep ProbSpec ScaleReal Refine UserSpec KktDense KktClaims QpSpec
  Deriv DerivAsm DerivNorm DerivLin DerivRows DerivRun DerivApi DerivSpec DerivBlock DerivClaims DerivGrad.
Import ListNotations.
Open Scope Z_scope.

Section Ext.
  Variables (p : qp) (x x2 y y2 : Z -> R).
  Hypothesis (Hx : forall j, 0 <= j < q_n p -> x j = x2 j) (Hy : forall i, 0 <= i < q_m p -> y i = y2 i).
  Lemma mulR_ext n M a b i : (forall j, 0 <= j < n -> a j = b j) -> mulR n M a i = mulR n M b i.
  Proof. intros H. unfold mulR. apply zsum_ext. intros j Hj. rewrite H; auto. Qed.
  Lemma kkt_ext : kkt p x (Amul p x) y -> kkt p x2 (Amul p x2) y2.
  Proof.
    intros [K1 K2 K3]. assert (EA : forall i, Amul p x i = Amul p x2 i) by (intros i; apply mulR_ext; auto). constructor.
    - intros i Hi. specialize (K1 i Hi). unfold Pmul, Atmul in *. rewrite (mulR_ext _ _ x x2), (mulR_ext _ _ y y2) in K1 by auto. auto.
    - auto.
    - intros i Hi. specialize (K3 i Hi). rewrite <- EA, <- Hy by auto. auto.
  Qed.
  Lemma bounds_ext : bounds_real p y -> bounds_real p y2.
  Proof. intros H i Hi. rewrite <- Hy by auto. auto. Qed.
  Lemma conditioned_ext k : conditioned p x y k -> conditioned p x2 y2 k.
  Proof.
    intros H vx vl vu ve. specialize (H vx vl vu ve). assert (EA : forall i, Amul p x i = Amul p x2 i) by (intros i; apply mulR_ext; auto).
    replace (size p (J_stat p vx vl vu ve) (J_low p x2 y2 vx vl) (J_up p x2 y2 vx vu) (J_eq p vx)) with (size p (J_stat p vx vl vu ve) (J_low p x y vx vl) (J_up p x y vx vu) (J_eq p vx)); auto.
    unfold size, sumn. f_equal. apply zsum_ext. intros i Hi. unfold J_low, J_up, lamL, lamU. rewrite EA, Hy by auto. auto.
  Qed.
  Lemma tangent_ext dp x' y' : q_n dp = q_n p -> q_m dp = q_m p -> tangent p dp x y x' y' -> tangent p dp x2 y2 x' y'.
  Proof.
    intros En Em [T1 T2 T3 T4 T5]. assert (EA : forall i, Amul dp x i = Amul dp x2 i) by (intros i; apply mulR_ext; rewrite En; auto).
    constructor; intros i Hi; rewrite <- ?EA, <- ?(Hy i) by auto; auto.
    specialize (T1 i Hi). unfold Pmul, Atmul in *. rewrite (mulR_ext _ _ x x2), (mulR_ext _ _ y y2) in T1 by (rewrite ?En, ?Em; auto). auto.
  Qed.
End Ext.

(** The sparse matrix M holds, at its stored positions, the entries of g. *)
Definition holds_entries (M : csc Rops) (g : Z -> Z -> R) : Prop := forall j k, 0 <= j < cn M -> colp M j <= k < colp M (j + 1) -> rnth (cx M) k = g (rowi M k) j.

Lemma half_R : @nlit Rops 5 (-1) = (/ 2)%R.
Proof. unfold nlit, Rops, Rlit. simpl. lra. Qed.

Section Main.
  Notation dn s := (d_n (w_data (sv_work s))).
  Notation dm s := (d_m (w_data (sv_work s))).
  Variable E : Env Rops.
  Hypothesis (EO : env_ok E) (EX : exact_ldl E).

  Lemma gradients (s : solver Rops) (d : data Rops) (so : solution Rops) (dd : deriv Rops) (dx dy : list R) (k : R) :
    Inv s -> ref d s -> sv_solution s = Some so -> dv_ok (dn s) (dm s) dd -> d_n d <= rlen dx -> d_m d <= rlen dy ->
    let p := qp_of d in let x := rnth (so_x so) in let y := rnth (so_y so) in
    kkt p x (Amul p x) y -> bounds_real p y -> (forall i, 0 <= i < q_m p -> is_eq p i = true -> y i <> 0%R) ->
    (/ 100 <= k)%R -> conditioned p x y k -> (sumsq (q_n p) (rnth dx) + 2 * sumsq (q_m p) (rnth dy) <= 10 ^ 300 * 10 ^ 300)%R ->
    exists dd' gP gA gq gl gu, osqp_adjoint_derivative_compute E (Some (s, dd)) dx dy = Some (0, Some dd') /\ dv_ok (dn s) (dm s) dd' /\
      (forall dP dA, wf dP -> cm dP = q_n p -> cn dP = q_n p -> wf dA -> cm dA = q_m p -> cn dA = q_n p ->
         exists px ax, osqp_adjoint_derivative_get_mat (Some (s, dd')) dP dA = Some (0, (set_x dP px, set_x dA ax)) /\ holds_entries (set_x dP px) gP /\ holds_entries (set_x dA ax) gA) /\
      (forall dq dl du, q_n p <= rlen dq -> q_m p <= rlen dl -> q_m p <= rlen du ->
         exists dq' dl' du', osqp_adjoint_derivative_get_vec (Some (s, dd')) dq dl du = Some (0, (dq', dl', du')) /\
           (forall j, 0 <= j < q_n p -> rnth dq' j = gq j) /\ (forall i, 0 <= i < q_m p -> rnth dl' i = gl i /\ rnth du' i = gu i)) /\
      forall dp x' y', direction p dp -> tangent p dp x y x' y' ->
        (Rabs (sumn (q_n p) (fun j => rnth dx j * x' j) + sumn (q_m p) (fun i => sgn_used y i * rnth dy i * y' i) - predicted p gP gA gq gl gu dp)
         <= / 10 ^ 12 * (1 + / k) * sqrt (sumsq (q_n p) x' + sumsq (q_m p) y'))%R.
  Proof.
    intros HI HR ES DK Lx Ly p x y KK BR HY Hk HC HB. change (car Rops) with R in *.
    destruct (iv_sol _ HI so ES) as [Sx Sy _ _]. pose proof (wo_d _ _ (iv_w _ HI)) as Hd. pose proof (do_n _ Hd) as Hn. pose proof (do_m _ Hd) as Hm.
    destruct (prep_user E s d HI HR) as (P & A & l & u & EP & WP & TP & nP & WA & mA & nA & Lll & Llu & VP & VA & VL).
    assert (Bn : dn s = d_n d) by (destruct HR as [_ [B _ _ _ _ _ _] _ _ _]; exact B). assert (Bm : dm s = d_m d) by (destruct HR as [_ [_ B _ _ _ _ _] _ _ _]; exact B).
    change (car Rops) with R in *.
    destruct (view_ok 0%R (so_x so) 0 (dn s)) as (xv & Ex & Lxx & Vx); [lia|lia|lia|]. destruct (view_ok 0%R (so_y so) 0 (dm s)) as (yv & Ey & Lyy & Vy); [lia|lia|lia|].
    destruct (view_ok 0%R dy 0 (dm s)) as (dyv & El & Ldl & Vd); [lia|lia|lia|].
    assert (Qn : q_n p = dn s) by (rewrite Bn; reflexivity). assert (Qm : q_m p = dm s) by (rewrite Bm; reflexivity).
    assert (Hxe : forall j, 0 <= j < q_n p -> x j = rnth xv j) by (intros j Hj; unfold rnth; rewrite Vx by lia; unfold x, rnth; f_equal; lia).
    assert (Hye : forall i, 0 <= i < q_m p -> y i = rnth yv i) by (intros j Hj; unfold rnth; rewrite Vy by lia; unfold y, rnth; f_equal; lia).
    assert (Hde : forall i, 0 <= i < q_m p -> rnth dyv i = rnth dy i) by (intros j Hj; unfold rnth; rewrite Vd by lia; f_equal; lia).
    clear Vx Vy Vd. set (x2 := rnth xv) in *. set (y2 := rnth yv) in *.
    pose proof (kkt_ext p x x2 y y2 Hxe Hye KK) as KK2. pose proof (bounds_ext p y y2 Hye BR) as BR2. pose proof (conditioned_ext p x x2 y y2 Hxe Hye k HC) as HC2.
    assert (SY : symmetric p) by (intros i j; apply sdns_sym).
    destruct DK as [k1 k2 k3 k4 k5 k6 k7 k8 k9]. change (car Rops) with R in *.
    destruct (dcore_real E EO EX p P A l u xv yv dd dx dyv dyv) with (k := k) as (dd' & ED & L1 & L2 & L3 & L4 & L5 & C1 & C2 & C3 & VY & VG & AE); auto; rewrite ?Qn, ?Qm; try lia.
    { intros i Hi. apply VL; lia. }
    { intros i Hi. apply VL; lia. }
    { eapply Rle_trans; [|exact HB]. unfold sumsq, sumn. rewrite <- Qn, <- Qm. apply Rplus_le_compat_l. rewrite <- zsum_scal. apply zsum_le. intros i Hi. unfold wE. rewrite !Hde by auto.
      assert (S0 : (0 <= rnth dy i * rnth dy i)%R) by nra. destruct (is_eq p i) eqn:Ee.
      - destruct (eq_not p i Ee) as [-> ->]. cbn [on]. destruct (Rle_dec _ _); nra.
      - cbn [on]. destruct (has_low p i), (has_up p i); cbn [on]; lra. }
    { intros i Hi He. rewrite <- Hye by lia. apply HY; auto. lia. }
    cbv zeta in VG, AE.
    assert (EC : adjoint_derivative_compute E s dd dx dy dy = Some (0, dd')).
    { rewrite (compute_dcore E s dd dx dy dy so P A l u xv yv dyv dyv) by auto. rewrite <- Qn, <- Qm. exact ED. }
    set (N := q_n p + zlen (sel (has_low p) (q_m p)) + zlen (sel (has_up p) (q_m p)) + zlen (sel (is_eq p) (q_m p))) in *.
    set (r2 := up N (rnth (dv_rhs dd'))) in *.
    assert (DK : dv_ok (dn s) (dm s) dd').
    { pose proof (compute_safe E EO s dd dx dy dy so HI ES) as CS. destruct CS as (o & Eo & _ & Do); [constructor; auto|change (car Rops) with R; lia|change (car Rops) with R; lia|change (car Rops) with R; lia|]. pose proof (eq_trans (eq_sym EC) Eo) as EQ. injection EQ as <-. exact Do. }
    exists dd', (GP x2 r2), (GA p x2 y2 r2 (e_l p r2) (e_u p r2) (e_e p r2)), r2, (Gl p y2 (e_l p r2) (e_e p r2)), (Gu p y2 (e_u p r2) (e_e p r2)).
    split; [cbn [osqp_adjoint_derivative_compute]; rewrite EC; reflexivity|]. split; [exact DK|].
    assert (EN : dn s + dv_n_ineq_l dd' + dv_n_ineq_u dd' + dv_n_eq dd' = N) by (rewrite C1, C2, C3; unfold N; lia).
    split; [|split].
    - intros dP dA W1 m1 n1 W2 m2 n2. destruct (get_mat_spec s dd' so dP dA HI ES DK) as (px & ax & EM & Lp & La & MP & MA); auto; try lia. change (car Rops) with R in *.
      exists px, ax. split; [cbn [osqp_adjoint_derivative_get_mat]; rewrite EM; reflexivity|]. rewrite EN in MP, MA. rewrite n0_R in *. split; intros j kk Hj Hkk; cbn [cn cx set_x] in *.
      + change (colp (set_x dP px)) with (colp dP) in Hkk. change (rowi (set_x dP px)) with (rowi dP). unfold rnth at 1. rewrite (MP j kk) by (auto; lia).
        pose proof (colp_range dP j W1 ltac:(lia)). pose proof (colp_range dP (j + 1) W1 ltac:(lia)). pose proof (wf_rows _ W1 kk ltac:(lia)) as Hr.
        change (@nmul Rops) with Rmult. change (@nadd Rops) with Rplus. rewrite half_R.
        unfold GP, r2, up. rewrite <- !Hxe by lia. reflexivity.
      + change (colp (set_x dA ax)) with (colp dA) in Hkk. change (rowi (set_x dA ax)) with (rowi dA). unfold rnth at 1. rewrite (MA j kk) by (auto; lia).
        pose proof (colp_range dA j W2 ltac:(lia)). pose proof (colp_range dA (j + 1) W2 ltac:(lia)). pose proof (wf_rows _ W2 kk ltac:(lia)) as Hr.
        change (@nmul Rops) with Rmult. change (@nadd Rops) with Rplus. change (@nsub Rops) with Rminus. change (car Rops) with R in *.
        change (znth 0%R (dv_y_u dd') (rowi dA kk)) with (rnth (dv_y_u dd') (rowi dA kk)). change (znth 0%R (dv_y_l dd') (rowi dA kk)) with (rnth (dv_y_l dd') (rowi dA kk)).
        change (znth 0%R (dv_ryu dd') (rowi dA kk)) with (rnth (dv_ryu dd') (rowi dA kk)). change (znth 0%R (dv_ryl dd') (rowi dA kk)) with (rnth (dv_ryl dd') (rowi dA kk)).
        destruct (VY (rowi dA kk) ltac:(lia)) as [-> ->]. destruct (VG (rowi dA kk) ltac:(lia)) as [-> ->]. change (znth 0%R (so_x so) j) with (x j). rewrite Hxe by lia.
        change (znth 0%R (dv_rhs dd') (N + j)) with (r2 j). unfold GA. change (Gl p y2 (e_l p r2) (e_e p r2) (rowi dA kk)) with (gl p yv r2 (rowi dA kk)). change (Gu p y2 (e_u p r2) (e_e p r2) (rowi dA kk)) with (gu p yv r2 (rowi dA kk)).
        fold y2. replace (lamU y2 (rowi dA kk) - lamL y2 (rowi dA kk))%R with (y2 (rowi dA kk)); [ring|]. unfold lamU, lamL, Rmax. destruct (Rle_dec _ _), (Rle_dec _ _); lra.
    - intros dq dl du H1 H2 H3. destruct (get_vec_spec s dd' dq dl du DK) as (dq' & dl' & du' & EV & V1 & V2 & V3 & Wq & Wl & Wu); try (change (car Rops) with R; lia). rewrite EN in Wq. change (car Rops) with R in *. rewrite n0_R in *.
      exists dq', dl', du'. split; [cbn [osqp_adjoint_derivative_get_vec]; rewrite EV; reflexivity|]. split.
      + intros j Hj. unfold rnth. rewrite Wq by lia. replace (j <? dn s) with true by lia. reflexivity.
      + intros i Hi. unfold rnth. rewrite Wl, Wu by lia. replace (i <? dm s) with true by lia. change (@nopp Rops) with Ropp.
        change (znth 0%R (dv_ryu dd') i) with (rnth (dv_ryu dd') i). change (znth 0%R (dv_ryl dd') i) with (rnth (dv_ryl dd') i). destruct (VG i ltac:(lia)) as [-> ->]. split; [reflexivity|]. rewrite Ropp_involutive. reflexivity.
    - intros dp x' y' DR TG. destruct DR as [Dn Dm Ds De]. pose proof (tangent_ext p x x2 y y2 Hxe Hye dp x' y' Dn Dm TG) as TG2. assert (DR : direction p dp) by (constructor; auto).
      rewrite (grad_identity p dp x2 y2 x' y' KK2 BR2 DR TG2).
      specialize (AE x' (vlow y2 y') (vupp y2 y') y'). fold x2 y2 in AE.
      eapply Rle_trans; [|eapply Rle_trans; [exact AE|]].
      + right. f_equal. unfold sumn. rewrite <- Qn, <- Qm. rewrite (zsum_ext 0 (q_m p) (fun i => sgn_used y i * rnth dy i * y' i)%R (fun i => on (has_low p i) (rnth dyv i * vlow y2 y' i) + on (has_up p i) (rnth dyv i * vupp y2 y' i) + on (is_eq p i) (wE yv dyv dyv i * y' i))%R).
        * ring.
        * intros i Hi. rewrite (sides p dp x2 y2 x' y' BR2 TG2 (rnth dyv) (rnth dyv) (wE yv dyv dyv) i Hi). unfold wE, sgn_used. rewrite Hye, !Hde by auto. fold y2.
          destruct (Rlt_dec (y2 i) 0), (Rle_dec 0 (y2 i)), (is_eq p i); try lra; ring.
      + apply Rmult_le_compat_l.
        * apply Rmult_le_pos; [apply Rlt_le, Rinv_0_lt_compat, pow_lt; lra|]. pose proof (Rinv_0_lt_compat k ltac:(lra)). lra.
        * apply sqrt_le_1_alt. rewrite <- Qn, <- Qm. apply (size_le p y2 x' y').
  Qed.
End Main.
