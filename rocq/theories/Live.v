(** Solvable problems are solved: with a fixed penalty a solve that may run long enough comes to a verdict (exact arithmetic). *)
From Coq Require Import ZArith Reals List Bool Lia Lra String.
From Verif Require Import Num Arr ArrFacts RSum Csc CscSpec CscFacts CscFacts2 Scatter Vec VecFacts Types Kkt KktSpec KktDense Linsys LinsysFacts LinsysSolve Scaling Validate Auxil Polish Api
  Inv RecSimp InvStep InvApi InvScale InvPolish InvSolve ValidFacts InvUpd InvSetup History RealVec RealStep Frame FrameSolve ProbSpec ScaleReal FrameUpd UserSpec Refine ExEnv Ldl LdlEnv Session ExReal DataFacts Obs DataClaims ApiClaims KktClaims
  QpSpec AdmmSpec Mid Trace AdmmClaims PassFacts SolveEnd TermSpec TermFacts TermCheck AtyFacts TermSolve SolveClaims SolveUser SolveEx SolveRho LiveSpec.
Import ListNotations.
Open Scope Z_scope.

(** ** With adaptation disabled the penalty stays as it is *)
Section Fixed.
  Context {K : NumOps}.
  Variable E : Env K.
  Lemma fixed_rho_vec (w w' : work K) : fixed w' = fixed w -> w_rho_vec w' = w_rho_vec w.
  Proof. unfold fixed, core. intros H. injection H. intros. assumption. Qed.
  Definition same_rho (s s' : solver K) : Prop := st_rho (sv_settings s') = st_rho (sv_settings s) /\ w_rho_vec (sv_work s') = w_rho_vec (sv_work s).
  Lemma pass_same_rho (t : solver K) k f : st_adaptive_rho (sv_settings t) = ADAPTIVE_RHO_DISABLED ->
    post (admm_pass E t k f) (fun o => match o with Continue t' _ => same_rho t t' | _ => True end).
  Proof.
    intros HN. destruct f as [[cc cp] ca]. unfold admm_pass. eapply post_bindP; [apply admm_step_post|]. intros t1 HA. cbv beta in HA.
    assert (H1 : sv_settings t1 = sv_settings t /\ w_rho_vec (sv_work t1) = w_rho_vec (sv_work t)).
    { destruct HA as (HS & _ & _ & _ & HF & _). split; [exact HS|]. apply fixed_rho_vec, HF. }
    clear HA. destruct H1 as (HS & HV).
    unfold is_interrupted. cbv zeta. match goal with |- post (if ?b then _ else _) _ => destruct b end.
    { apply post_bind; intros; apply post_ret; exact I. }
    match goal with |- post (let '(_, _) := temp_run_time E ?x in _) _ => set (s2 := x) end.
    assert (S3 : sv_settings (snd (temp_run_time E s2)) = sv_settings t /\ w_rho_vec (sv_work (snd (temp_run_time E s2))) = w_rho_vec (sv_work t)).
    { subst s2. unfold temp_run_time, toc. rs. destruct (tr _); cbn [snd]; rs; auto. }
    destruct (temp_run_time E s2) as [run s3]. cbn [snd] in S3. clear HS HV. destruct S3 as (HS & HV).
    match goal with |- post (if ?b then _ else _) _ => destruct b end.
    { apply post_bind; intros; apply post_ret; exact I. }
    assert (HD : decide_adapt E s3 k ca = (false, s3)) by (unfold decide_adapt; rewrite HS, HN, Z.eqb_refl; reflexivity). rewrite HD. clear HD.
    eapply post_bindP with (P := fun s5 => sv_settings s5 = sv_settings t /\ w_rho_vec (sv_work s5) = w_rho_vec (sv_work t)).
    { match goal with |- post (if ?b then _ else _) _ => destruct b end; [|apply post_ret; auto].
      eapply post_weaken; [apply update_info_post|]. cbv beta. intros s5 H5. rewrite <- HS, <- HV. split; [apply H5|].
      apply fixed_rho_vec, H5. }
    intros s5 (H5 & V5). eapply post_bindP with (P := fun r => sv_settings (snd r) = sv_settings t /\ w_rho_vec (sv_work (snd r)) = w_rho_vec (sv_work t)).
    { match goal with |- post (if ?b then _ else _) _ => destruct b end; [|apply post_ret; auto].
      eapply post_weaken; [apply check_termination_post|]. cbv beta zeta. intros [a s6] H6. cbn [snd] in *. rewrite <- H5, <- V5. split; [apply H6|].
      apply fixed_rho_vec, H6. }
    intros [stop s6] (H6 & V6). cbn [snd] in H6, V6. destruct stop; [apply post_ret; exact I|]. cbn [andb].
    destruct (tr 0); [apply post_ret; exact I|]. apply post_ret. unfold same_rho.
    match goal with |- context [if ?b then _ else _] => destruct b end; match goal with |- context [if ?b then _ else _] => destruct b end; unfold print_summary; rs; rewrite ?H6; auto.
  Qed.
  Lemma before_same_rho (s : solver K) k f t : st_adaptive_rho (sv_settings s) = ADAPTIVE_RHO_DISABLED -> before E s k f t -> same_rho s t.
  Proof.
    intros HN HB. induction HB as [t H|k f t t' f' H IH Hk HP].
    - destruct (begin_post s t H) as (H1 & HF & _). unfold same_rho. rewrite H1. split; auto. apply fixed_rho_vec in HF. rs_in HF. exact HF.
    - pose proof (sf_st _ _ (before_sfr E s k f t H)) as (r0 & x0 & ES).
      assert (HN' : st_adaptive_rho (sv_settings t) = ADAPTIVE_RHO_DISABLED) by (rewrite ES; exact HN).
      pose proof (pass_same_rho t k f HN' _ HP) as HX. cbv beta in HX. unfold same_rho in *. destruct IH, HX. split; congruence.
  Qed.
End Fixed.

(** ** Every iteration that moves brings the solve closer to a solution *)
Section Live.
  Variable E : Env Rops.
  Hypothesis EO : env_ok E.
  Hypothesis EX : exact_ldl E.
  Variables (P A : csc Rops) (q0 l0 u0 : option (list R)) (m n : Z) (ust : settings Rops).
  Notation ses := (session E P A q0 l0 u0 m n ust).
  Notation stat s := (i_status_val (sv_info s)).

  Definition start3 (s : solver Rops) :=
    if tr (st_warm_starting (sv_settings s)) then iter3 (sv_work s) else (map (fun _ => @n0 Rops) (w_x (sv_work s)), map (fun _ => @n0 Rops) (w_y (sv_work s)), map (fun _ => @n0 Rops) (w_z (sv_work s))).
  Lemma before_first (s : solver Rops) f t : before E s 1 f t -> iter3 (sv_work t) = start3 s.
  Proof.
    intros HB. inversion HB as [t0 H0|k f0 t0 t' f' H Hk HP Ek]; [|pose proof (before_ge _ _ _ _ _ H); lia]. subst.
    pose proof (begin_post s t H0) as HX. cbv beta in HX. destruct HX as (_ & _ & _ & _ & _ & _ & _ & W1 & W2 & _). unfold start3. destruct (tr (st_warm_starting (sv_settings s))) eqn:EW; [apply W1|apply W2]; exact EW || reflexivity.
  Qed.

  (** The iterate of a state. *)
  Definition it_x (s : solver Rops) : Z -> R := rnth (w_x (sv_work s)).
  Definition it_y (s : solver Rops) : Z -> R := rnth (w_y (sv_work s)).
  Definition it_z (s : solver Rops) : Z -> R := rnth (w_z (sv_work s)).
  Lemma it_eq (s t : solver Rops) : iter3 (sv_work t) = iter3 (sv_work s) -> it_x t = it_x s /\ it_y t = it_y s /\ it_z t = it_z s.
  Proof. unfold iter3, it_x, it_y, it_z. intros H. injection H as -> -> ->. auto. Qed.

  Lemma decided_dec v : decided v \/ ~ decided v.
  Proof. unfold decided. destruct (Z.eq_dec v OSQP_NON_CVX), (Z.eq_dec v OSQP_SOLVED), (Z.eq_dec v OSQP_PRIMAL_INFEASIBLE), (Z.eq_dec v OSQP_DUAL_INFEASIBLE); tauto. Qed.

  Section Run.
  Context (s : solver Rops) (d : data Rops).
  Hypothesis HS : ses s d.
  Hypothesis HC : convex d.
  Hypothesis HRR : rho_in_range ust.
  Hypothesis HOff : st_adaptive_rho (sv_settings s) = ADAPTIVE_RHO_DISABLED.
  Let p := qp_of (w_data (sv_work s)).
  Let sg := st_sigma (sv_settings s).
  Let al := st_alpha (sv_settings s).
  Let rho := rho_at (sv_settings s) (sv_work s).

  Lemma rho_same k f t : before E s k f t -> rho_at (sv_settings t) (sv_work t) = rho.
  Proof. intros HB. destruct (before_same_rho E s k f t HOff HB) as (H1 & H2). unfold rho, rho_at. rewrite H1, H2. reflexivity. Qed.
  Lemma run_ok : symmetric p /\ convex_qp p /\ q_n p = n /\ q_m p = m /\ (forall i, 0 <= i < q_m p -> (q_l p i <= q_u p i)%R) /\ (forall i, 0 <= i < q_m p -> (0 < rho i)%R) /\ scaled_qp (uc s) (uD s) (uE s) (qp_of d) p.
  Proof. apply (stored_ok E EO P A q0 l0 u0 m n ust s d s HS HC); [apply (session_facts E EO _ _ _ _ _ _ _ _ _ _ HS)|reflexivity]. Qed.
  Lemma run_adm k t t1 : iterate E s k t t1 -> exists xt zt, adm p sg al rho (it_x t) (it_z t) (it_y t) (it_x t1) (it_z t1) (it_y t1) xt zt.
  Proof.
    intros HIt. destruct (iterate_adm E EO P A q0 l0 u0 m n ust EX s d k t t1 HS HC HRR HIt) as (xt & zt & HA). exists xt, zt.
    destruct HIt as (f & HB & _). rewrite (rho_same _ _ _ HB) in HA. exact HA.
  Qed.
  Lemma run_cone k f t : before E s k f t -> 2 <= k -> forall i, 0 <= i < q_m p -> ncone (q_l p i) (q_u p i) (it_z t i) (it_y t i).
  Proof. intros HB Hk i Hi. destruct run_ok as (_ & _ & _ & Em & _). rewrite Em in Hi. exact (before_cone E EO P A q0 l0 u0 m n ust s d k f t HS HRR HB Hk i Hi). Qed.

  Definition start_energy (xs zs ys : Z -> R) (x z y : Z -> R) : R :=
    (dist2 p sg rho x z y xs zs ys + 2 * al * sumn (q_m p) (fun i => Rabs ((y i - ys i) * (z i - zs i))))%R.

  Lemma energy_left xs zs ys thr B c : kkt p xs zs ys -> (0 <= thr)%R -> 0 < c ->
    (forall f t, before E s 1 f t -> (start_energy xs zs ys (it_x t) (it_z t) (it_y t) <= B)%R) ->
    (forall k t t1 xt zt, iterate E s k t t1 -> 2 <= k -> Z.rem k c = 0 -> adm p sg al rho (it_x t) (it_z t) (it_y t) (it_x t1) (it_z t1) (it_y t1) xt zt -> (thr <= moved p sg rho (it_x t) (it_z t) xt zt)%R) ->
    forall k f t, before E s k f t -> 2 <= k -> (dist2 p sg rho (it_x t) (it_z t) (it_y t) xs zs ys + (IZR ((k - 1) / c) - 1) * (al * (2 - al) * thr) <= B)%R.
  Proof.
    intros HK Hthr Hc HB0 HF k f t HB. destruct run_ok as (SY & CV & En & Em & SB & SR & SQ). destruct (alpha_range E EO P A q0 l0 u0 m n ust s d HS) as (A1 & A2). fold al in A1, A2.
    assert (Hsg : (0 < sg)%R) by (apply (session_facts E EO _ _ _ _ _ _ _ _ _ _ HS)).
    assert (HW : (0 <= al * (2 - al) * thr)%R) by (apply Rmult_le_pos; auto; apply Rmult_le_pos; lra).
    induction HB as [t H|k f t t' f' H IH Hk HP]; [lia|]. intros _.
    destruct (pass_iter3 E t k f _ HP) as (t1 & ES & E3 & _). cbn [outS] in E3. destruct (it_eq _ _ E3) as (-> & -> & ->).
    assert (HIt : iterate E s k t t1) by (exists f; auto). destruct (run_adm k t t1 HIt) as (xt & zt & HA). pose proof (before_ge _ _ _ _ _ H) as Hge. replace (k + 1 - 1) with k by ring.
    assert (HM0 : (0 <= moved p sg rho (it_x t) (it_z t) xt zt)%R) by (apply moved_nonneg; auto).
    assert (HM1 : (0 <= al * (2 - al) * moved p sg rho (it_x t) (it_z t) xt zt)%R) by (apply Rmult_le_pos; auto; apply Rmult_le_pos; lra).
    destruct (Z.eq_dec k 1) as [->|Hk1].
    - pose proof (distance_change p sg al rho SR CV _ _ _ _ _ _ _ _ _ _ _ A1 HA HK) as HD. specialize (HB0 f t H). unfold start_energy in HB0.
      assert (HA2 : (- sumn (q_m p) (fun i => Rabs ((it_y t i - ys i) * (it_z t i - zs i))) <= sumn (q_m p) (fun i => (it_y t i - ys i) * (it_z t i - zs i)))%R).
      { assert (HZ : (Rabs (sumn (q_m p) (fun i => (it_y t i - ys i) * (it_z t i - zs i))) <= sumn (q_m p) (fun i => Rabs ((it_y t i - ys i) * (it_z t i - zs i))))%R) by (apply zsum_abs).
        apply Rabs_le_both in HZ. lra. }
      pose proof (Rmult_le_compat_l (2 * al) _ _ ltac:(lra) HA2) as HA3.
      assert (H1 : 1 / c <= 1) by (apply Z.div_le_upper_bound; lia). apply IZR_le in H1.
      assert (HX : (0 <= (1 - IZR (1 / c)) * (al * (2 - al) * thr))%R) by (apply Rmult_le_pos; lra). lra.
    - specialize (IH ltac:(lia)). pose proof (distance_decreases p sg al rho SR CV _ _ _ _ _ _ _ _ _ _ _ A1 HA HK (run_cone k f t H ltac:(lia))) as HD.
      destruct (Z.eq_dec (Z.rem k c) 0) as [Hz|Hz].
      + pose proof (HF k t t1 xt zt HIt ltac:(lia) Hz HA) as HT.
        assert (HX : k / c <= (k - 1) / c + 1) by (replace ((k - 1) / c + 1) with ((k - 1 + 1 * c) / c) by (apply Z.div_add; lia); apply Z.div_le_mono; lia). apply IZR_le in HX. rewrite plus_IZR in HX.
        pose proof (Rmult_le_compat_l (al * (2 - al)) _ _ ltac:(apply Rmult_le_pos; lra) HT) as HT2.
        assert (HY : ((IZR (k / c) - 1) * (al * (2 - al) * thr) <= (IZR ((k - 1) / c) - 1) * (al * (2 - al) * thr) + al * (2 - al) * thr)%R).
        { assert (0 <= (IZR ((k - 1) / c) + 1 - IZR (k / c)) * (al * (2 - al) * thr))%R by (apply Rmult_le_pos; lra). lra. }
        lra.
      + assert (HX : k / c = (k - 1) / c).
        { rewrite Z.rem_mod_nonneg in Hz by lia. pose proof (Z.div_mod k c ltac:(lia)). pose proof (Z.mod_pos_bound k c ltac:(lia)).
          apply Z.div_unique with (k mod c - 1); lia. }
        rewrite HX. lra.
  Qed.

  (** Sums of the components of points whose distance to a solution is at most B. *)
  Definition size_x (xs : Z -> R) (B : R) : R := sumn n (fun j => (uD s j * (Rabs (xs j) + (B / sg + 1)))%R).
  Definition size_y (ys : Z -> R) (B : R) : R := sumn m (fun i => (uE s i / uc s * (Rabs (ys i) + 2 * (rho i * (B / rho i + 1))))%R).

  Lemma near_meets xs zs ys B thr eu zb k t t1 xt zt : kkt p xs zs ys ->
    (forall f t, before E s 1 f t -> (start_energy xs zs ys (it_x t) (it_z t) (it_y t) <= B)%R) ->
    (forall x z y x' z' y' xt zt, adm p sg al rho x z y x' z' y' xt zt -> (forall i, 0 <= i < q_m p -> ncone (q_l p i) (q_u p i) (z i) (y i)) -> (moved p sg rho x z xt zt < thr)%R ->
      (forall i, 0 <= i < q_m p -> (Rabs (Amul p x' i - z' i) <= uE s i * eu)%R) /\ (forall j, 0 <= j < q_n p -> (Rabs (q_q p j + Pmul p x' j + Atmul p y' j) <= uc s * uD s j * eu)%R)) ->
    (0 < eu < st_eps_abs (sv_settings s))%R ->
    (tr (st_check_dualgap (sv_settings s)) = true -> (forall i, 0 <= i < m -> (zb i <= 10 ^ 26)%R) /\ (eu * size_x xs B + eu * size_y ys B + / 10 ^ 15 * (sumn m zb / uc s) < st_eps_abs (sv_settings s))%R) ->
    (tr (st_check_dualgap (sv_settings s)) = true -> forall i, 0 <= i < m -> (Rabs (uE s i * uz t1 i) <= zb i)%R) ->
    iterate E s k t t1 -> 2 <= k -> adm p sg al rho (it_x t) (it_z t) (it_y t) (it_x t1) (it_z t1) (it_y t1) xt zt -> (moved p sg rho (it_x t) (it_z t) xt zt < thr)%R ->
    meets (sv_settings s) (qp_of d) (uc s) (uE s) 1 (ux t1) (uz t1) (uy t1).
  Proof.
    intros HK HB0 HSm Heu HG HZ HIt Hk HA HM. destruct run_ok as (SY & CV & En & Em & SB & SR & SQ). destruct (alpha_range E EO P A q0 l0 u0 m n ust s d HS) as (A1 & A2). fold al in A1, A2.
    destruct (session_facts E EO _ _ _ _ _ _ _ _ _ _ HS) as (HI & HR & Hsg & HKS & Dn & Dm & _). fold sg in Hsg.
    pose proof HIt as (f & HB & _ & _). pose proof (run_cone k f t HB Hk) as HCO. destruct (HSm _ _ _ _ _ _ _ _ HA HCO HM) as (R1 & R2).
    destruct (iterate_facts E EO P A q0 l0 u0 m n ust s d k t t1 HS HIt) as (I1 & I2 & _ & _ & D1 & D2 & U1 & U2 & _). destruct (un_state s t1 U2) as (X1 & X2 & X3).
    pose proof (sq_c _ _ _ _ _ SQ) as Pc. pose proof (sq_D _ _ _ _ _ SQ) as PD. pose proof (sq_E _ _ _ _ _ SQ) as PE. cbn [q_n q_m qp_of] in PD, PE. rewrite Dn in PD. rewrite Dm in PE.
    assert (V1 : forall i, 0 <= i < m -> (Rabs (Amul (qp_of d) (ux t1) i - uz t1 i) <= eu)%R).
    { intros i Hi. specialize (R1 i ltac:(rewrite Em; auto)). rewrite (un_Ax _ _ _ _ _ SQ) in R1 by (cbn; lia). specialize (PE i Hi).
      replace (it_z t1 i) with (uE s i * uz t1 i)%R in R1 by (rewrite <- X2; unfold unz, it_z; field; lra). change (unx (uD s) (it_x t1)) with (unx (uD s) (rnth (w_x (sv_work t1)))) in R1. rewrite X1 in R1.
      rewrite <- Rmult_minus_distr_l, Rabs_mult, (Rabs_right (uE s i)) in R1 by lra. apply Rmult_le_reg_l in R1; auto. }
    assert (V2 : forall j, 0 <= j < n -> (Rabs (rnth (d_q d) j + Pmul (qp_of d) (ux t1) j + Atmul (qp_of d) (uy t1) j) <= eu)%R).
    { intros j Hj. specialize (R2 j ltac:(rewrite En; auto)). rewrite (un_Px _ _ _ _ _ SQ), (un_Aty _ _ _ _ _ SQ), (sq_q _ _ _ _ _ SQ) in R2 by (cbn; lia). specialize (PD j Hj).
      change (unx (uD s) (it_x t1)) with (unx (uD s) (rnth (w_x (sv_work t1)))) in R2. change (uny (uc s) (uE s) (it_y t1)) with (uny (uc s) (uE s) (rnth (w_y (sv_work t1)))) in R2. rewrite X1, X3 in R2.
      cbn [q_q qp_of] in R2. rewrite <- !Rmult_plus_distr_l in R2. assert (Hp : (0 < uc s * uD s j)%R) by (apply Rmult_lt_0_compat; auto).
      rewrite Rabs_mult, (Rabs_right (uc s * uD s j)) in R2 by lra. apply Rmult_le_reg_l in R2; auto. }
    assert (Her : (0 <= st_eps_rel (sv_settings s))%R).
    { pose proof (vs_eps_rel _ _ HKS) as H1. unfold keep_settings in H1. rs_in H1. rewrite ge_ok_R, n0_R in H1. exact H1. }
    destruct (trimmed_exists (uc s) (uE s) (q_m (qp_of d)) (q_l (qp_of d)) (q_u (qp_of d)) (uy t1)) as (v & HV). exists v. split; [exact HV|]. rewrite !Rmult_1_l.
    assert (NN : forall a b, (0 <= Rmax (ninf a b) 0)%R) by (intros; apply Rmax_r).
    constructor; cbn [q_n q_m q_q qp_of]; rewrite ?Dn, ?Dm.
    - right. eapply Rle_lt_trans; [apply (ninf_le _ _ eu); [lra|exact V1]|]. eapply Rlt_le_trans; [apply Heu|].
      rewrite <- (Rplus_0_r (st_eps_abs _)) at 1. apply Rplus_le_compat_l. apply Rmult_le_pos; auto. eapply Rle_trans; [apply ninf_nonneg|apply Rmax_l].
    - eapply Rle_lt_trans; [apply (ninf_le _ _ eu); [lra|exact V2]|]. eapply Rlt_le_trans; [apply Heu|].
      rewrite <- (Rplus_0_r (st_eps_abs _)) at 1. apply Rplus_le_compat_l. apply Rmult_le_pos; auto. eapply Rle_trans; [apply ninf_nonneg|apply Rmax_r].
    - intros Hg. destruct (HG Hg) as (G1 & G2). specialize (HZ Hg).
      eapply Rle_lt_trans; [apply (gap_bound (qp_of d) (ux t1) (uz t1) (uy t1) v (uc s) (uE s) zb eu eu Pc); cbn [q_n q_m q_q q_l q_u qp_of]; rewrite ?Dn, ?Dm; try lra; auto|].
      { exact (proj2 (iterate_cone E EO P A q0 l0 u0 m n ust s d k t t1 HS HRR HIt)). }
      { cbn [q_m q_l q_u qp_of] in HV. rewrite Dm in HV. exact HV. }
      match goal with |- (_ < ?a + ?b)%R => enough (HX : (0 <= b)%R) end; [|apply Rmult_le_pos; [exact Her|eapply Rle_trans; [apply Rabs_pos|apply Rmax_r]]].
      eapply Rlt_le_trans with (st_eps_abs (sv_settings s)); [|lra]. clear HX. eapply Rle_lt_trans; [|exact G2]. cbn [q_n q_m qp_of]. rewrite Dn, Dm.
      assert (HDt : (dist2 p sg rho (it_x t1) (it_z t1) (it_y t1) xs zs ys <= B)%R).
      { pose proof (energy_left xs zs ys 0 B 1 HK (Rle_refl 0) ltac:(lia) HB0 ltac:(intros; apply moved_nonneg; auto) k f t HB Hk) as HE.
        pose proof (distance_decreases p sg al rho SR CV _ _ _ _ _ _ _ _ _ _ _ A1 HA HK HCO) as HD. pose proof (moved_nonneg p sg rho Hsg SR (it_x t) (it_z t) xt zt) as HM0.
        assert (0 <= al * (2 - al) * moved p sg rho (it_x t) (it_z t) xt zt)%R by (apply Rmult_le_pos; auto; apply Rmult_le_pos; lra). rewrite !Rmult_0_r in HE. lra. }
      destruct (dist_bounds p sg rho Hsg SR SB (it_x t1) (it_z t1) (it_y t1) xs zs ys B HDt) as (B1 & B2).
      { rewrite Em. exact (proj1 (iterate_cone E EO P A q0 l0 u0 m n ust s d k t t1 HS HRR HIt)). }
      { exact (k_cone _ _ _ _ HK). }
      assert (N1 : (norm1 n (ux t1) <= size_x xs B)%R).
      { unfold norm1, size_x. apply zsum_le. intros j Hj. rewrite <- X1. unfold unx. specialize (PD j Hj). rewrite Rabs_mult, (Rabs_right (uD s j)) by lra. apply Rmult_le_compat_l; [lra|]. apply B1. rewrite En. auto. }
      assert (N2 : (norm1 m (uy t1) <= size_y ys B)%R).
      { unfold norm1, size_y. apply zsum_le. intros i Hi. rewrite <- X3. unfold uny. specialize (PE i Hi). replace (uE s i * rnth (w_y (sv_work t1)) i / uc s)%R with (uE s i / uc s * rnth (w_y (sv_work t1)) i)%R by (field; lra).
        assert (0 < uE s i / uc s)%R by (apply Rdiv_lt_0_compat; auto). rewrite Rabs_mult, (Rabs_right (uE s i / uc s)) by lra. apply Rmult_le_compat_l; [lra|]. apply B2. rewrite Em. auto. }
      pose proof (Rmult_le_compat_l eu _ _ ltac:(lra) N1). pose proof (Rmult_le_compat_l eu _ _ ltac:(lra) N2). lra.
  Qed.

  (** Nothing stops the solve from outside. *)
  Definition undisturbed : Prop := forall k t t1, iterate E s k t t1 -> stop_requested E t1 = false /\ time_over E t1 = false.

  Lemma classic_huge t1 : ~ huge_at m n d t1 \/ huge_at m n d t1.
  Proof.
    unfold huge_at. set (a := ninf _ _). set (b := ninf _ _). destruct (Rlt_dec (10 ^ 30) a) as [H1|H1]; [right; left; exact H1|]. destruct (Rlt_dec (10 ^ 30) b) as [H2|H2]; [right; right; exact H2|].
    left. intros [H|H]; contradiction.
  Qed.

  Lemma verdict xs zs ys B thr eu zb fl s' : kkt p xs zs ys ->
    (forall f t, before E s 1 f t -> (start_energy xs zs ys (it_x t) (it_z t) (it_y t) <= B)%R) -> (0 < thr)%R ->
    (forall x z y x' z' y' xt zt, adm p sg al rho x z y x' z' y' xt zt -> (forall i, 0 <= i < q_m p -> ncone (q_l p i) (q_u p i) (z i) (y i)) -> (moved p sg rho x z xt zt < thr)%R ->
      (forall i, 0 <= i < q_m p -> (Rabs (Amul p x' i - z' i) <= uE s i * eu)%R) /\ (forall j, 0 <= j < q_n p -> (Rabs (q_q p j + Pmul p x' j + Atmul p y' j) <= uc s * uD s j * eu)%R)) ->
    (0 < eu < st_eps_abs (sv_settings s))%R ->
    (tr (st_check_dualgap (sv_settings s)) = true -> (forall i, 0 <= i < m -> (zb i <= 10 ^ 26)%R) /\ (eu * size_x xs B + eu * size_y ys B + / 10 ^ 15 * (sumn m zb / uc s) < st_eps_abs (sv_settings s))%R) ->
    (tr (st_check_dualgap (sv_settings s)) = true -> forall k t t1 i, iterate E s k t t1 -> 0 <= i < m -> (Rabs (uE s i * uz t1 i) <= zb i)%R) ->
    tests_users (sv_settings s) -> stat s = OSQP_UNSOLVED -> 0 < st_check_termination (sv_settings s) -> 2 <= st_max_iter (sv_settings s) ->
    solve E s = Some (fl, s') -> undisturbed -> ~ decided (stat s') ->
    ((IZR ((st_max_iter (sv_settings s) - 1) / st_check_termination (sv_settings s)) - 1) * (al * (2 - al) * thr) <= B)%R.
  Proof.
    intros HK HB0 Hthr HSm Heu HG HZ HT HU Hck Hmx HE HQ HN. set (c := st_check_termination (sv_settings s)) in *.
    destruct run_ok as (SY & CV & En & Em & SB & SR & SQ). destruct (session_facts E EO _ _ _ _ _ _ _ _ _ _ HS) as (HI & HR & Hsg & HKS & Dn & Dm & _). fold sg in Hsg.
    assert (HF : forall k t t1 xt zt, iterate E s k t t1 -> 2 <= k -> Z.rem k c = 0 -> adm p sg al rho (it_x t) (it_z t) (it_y t) (it_x t1) (it_z t1) (it_y t1) xt zt -> (thr <= moved p sg rho (it_x t) (it_z t) xt zt)%R).
    { intros k t t1 xt zt HIt Hk Hz HA. destruct (Rle_lt_dec thr (moved p sg rho (it_x t) (it_z t) xt zt)) as [|HM]; auto. exfalso. apply HN.
      pose proof (near_meets xs zs ys B thr eu zb k t t1 xt zt HK HB0 HSm Heu HG (fun Hg i Hi => HZ Hg k t t1 i HIt Hi) HIt Hk HA HM) as HM1. destruct (HQ k t t1 HIt) as (Q1 & Q2).
      assert (HSc : scheduled (sv_settings s) k = true) by (unfold scheduled; fold c; rewrite Hz; destruct (Z.eqb_spec c 0); [lia|reflexivity]).
      destruct (classic_huge t1) as [Hh|Hh].
      - right. left. apply (user_found_solved E EO P A q0 l0 u0 m n ust s d fl s' HS HT HU HE k t t1 HIt HSc Q1 Q2 Hh HM1).
      - left. apply (user_found_huge E EO P A q0 l0 u0 m n ust s d fl s' HS HT HU HE k t t1 HIt HSc Q1 Q2 Hh). }
    destruct (user_count E EO P A q0 l0 u0 m n ust s d fl s' HS HT HU HE) as (k & t & t1 & Hk & HIt & HCt & _). destruct (HQ k t t1 HIt) as (Q1 & Q2).
    destruct (Z.eq_dec k (st_max_iter (sv_settings s))) as [Ek|Ek].
    - pose proof HIt as (f & HB & _). pose proof (energy_left xs zs ys thr B c HK (Rlt_le _ _ Hthr) Hck HB0 HF k f t HB ltac:(lia)) as HL. rewrite Ek in HL.
      pose proof (dist2_nonneg p sg rho Hsg SR (it_x t) (it_z t) (it_y t) xs zs ys). lra.
    - exfalso. destruct (HCt ltac:(lia)) as [(HX & _)|[HX|[(HX & _)|(_ & HX)]]]; [congruence|congruence| |contradiction].
      exact (session_convex E EO P A q0 l0 u0 m n ust s d fl s' EX HS HC HU HE HX).
  Qed.
  End Run.

  (** ** The theorem *)
  (** With the gap test on: a bound zb on the sizes of the components of z (in the solver's units) below the solver's infinity, so small that the multipliers the test ignores do not matter. *)
  Definition gap_testable (s : solver Rops) (zb : Z -> R) : Prop := tr (st_check_dualgap (sv_settings s)) = true ->
    (forall i, 0 <= i < m -> (0 <= zb i <= 10 ^ 26)%R) /\ (/ 10 ^ 15 * (sumn m zb / uc s) < st_eps_abs (sv_settings s))%R.
  Definition z_within (s : solver Rops) (zb : Z -> R) : Prop := tr (st_check_dualgap (sv_settings s)) = true ->
    forall k t t1 i, iterate E s k t t1 -> 0 <= i < m -> (Rabs (uE s i * uz t1 i) <= zb i)%R.

  Lemma set_max_replace (st : settings Rops) mi : replace_settings st (set_st_max_iter mi st) = set_st_max_iter mi st.
  Proof. destruct st; reflexivity. Qed.
  Lemma set_max_ok (st : settings Rops) mi : settings_ok true (keep_settings st) -> 0 < mi -> settings_ok false (set_st_max_iter mi st).
  Proof.
    intros [H1 H2 H3 H4 H5 H6 H7 H8 H9 H10 H11 H12 H13 H14 H15 H16 H17 H18 H19 H20 H21 H22 H23 H24 H25 H26 H27 H28 H29 H30] Hm. unfold keep_settings in *. rs_all.
    constructor; rs; auto; try discriminate. split; [discriminate|apply H15].
  Qed.

  Theorem comes_to_verdict s d xs zs ys zb : ses s d -> convex d -> rho_in_range ust -> st_adaptive_rho (sv_settings s) = ADAPTIVE_RHO_DISABLED -> tests_users (sv_settings s) -> stat s = OSQP_UNSOLVED ->
    0 < st_check_termination (sv_settings s) -> (0 < st_eps_abs (sv_settings s))%R -> kkt (qp_of d) xs zs ys -> gap_testable s zb ->
    exists N, forall mi, N <= mi -> exists s1 fl s', run E (CUpdSettings (Some (set_st_max_iter mi (sv_settings s)))) s = Some (0, HSolver s1) /\ solve E s1 = Some (fl, s') /\
      (undisturbed s1 -> z_within s1 zb -> decided (stat s')).
  Proof.
    intros HS HC HRR HOff HT HU Hck Heps HK HGT.
    destruct (run_ok s d HS HC) as (SY & CV & En & Em & SB & SR & SQ). destruct (alpha_range E EO P A q0 l0 u0 m n ust s d HS) as (A1 & A2).
    destruct (session_facts E EO _ _ _ _ _ _ _ _ _ _ HS) as (HI & HR & Hsg & HKS & Dn & Dm & _).
    set (p := qp_of (w_data (sv_work s))) in *. set (rho := rho_at (sv_settings s) (sv_work s)) in *. set (sg := st_sigma (sv_settings s)) in *. set (al := st_alpha (sv_settings s)) in *.
    pose proof (sq_c _ _ _ _ _ SQ) as Pc. pose proof (sq_D _ _ _ _ _ SQ) as PD. pose proof (sq_E _ _ _ _ _ SQ) as PE. cbn [q_n q_m qp_of] in PD, PE. rewrite Dn in PD. rewrite Dm in PE.
    pose (xs' := fun i => (xs i / uD s i)%R). pose (zs' := fun i => (uE s i * zs i)%R). pose (ys' := fun i => (uc s * ys i / uE s i)%R).
    assert (EX' : forall i, 0 <= i < n -> unx (uD s) xs' i = xs i) by (intros i Hi; unfold unx, xs'; specialize (PD i Hi); field; lra).
    assert (EZ' : forall i, 0 <= i < m -> unz (uE s) zs' i = zs i) by (intros i Hi; unfold unz, zs'; specialize (PE i Hi); field; lra).
    assert (EY' : forall i, 0 <= i < m -> uny (uc s) (uE s) ys' i = ys i) by (intros i Hi; unfold uny, ys'; specialize (PE i Hi); field; lra).
    assert (HK' : kkt p xs' zs' ys').
    { apply (un_kkt _ _ _ _ _ SQ). eapply kkt_ext; [| | |exact HK]; cbn [q_n q_m qp_of]; rewrite ?Dn, ?Dm; intros; symmetry; auto. }
    destruct (start3 s) as [[x0 y0] z0] eqn:E0.
    set (B := start_energy s xs' zs' ys' (rnth x0) (rnth z0) (rnth y0)).
    assert (HB : (0 <= B)%R).
    { unfold B, start_energy. apply Rplus_le_le_0_compat; [apply dist2_nonneg; auto|]. apply Rmult_le_pos; [fold al; lra|]. apply sumn_nonneg. intros; apply Rabs_pos. }
    set (Sx := size_x s xs' B). set (Sy := size_y s ys' B).
    assert (PSx : (0 <= Sx)%R).
    { unfold Sx, size_x. apply sumn_nonneg. intros j Hj. apply Rmult_le_pos; [specialize (PD j Hj); lra|]. pose proof (Rabs_pos (xs' j)). assert (0 <= B / sg)%R by (apply Rmult_le_pos; [auto|apply Rlt_le, Rinv_0_lt_compat; auto]). fold sg. lra. }
    assert (PSy : (0 <= Sy)%R).
    { unfold Sy, size_y. apply sumn_nonneg. intros i Hi. specialize (PE i Hi). assert (0 < uE s i / uc s)%R by (apply Rdiv_lt_0_compat; auto). apply Rmult_le_pos; [lra|]. pose proof (Rabs_pos (ys' i)).
      assert (Hr : (0 < rho i)%R) by (apply SR; rewrite Em; auto). fold rho. assert (0 <= B / rho i)%R by (apply Rmult_le_pos; [auto|apply Rlt_le, Rinv_0_lt_compat; auto]).
      assert (0 <= rho i * (B / rho i + 1))%R by (apply Rmult_le_pos; lra). lra. }
    (* the accuracy to reach *)
    assert (HD : exists dl, (0 < dl <= st_eps_abs (sv_settings s))%R /\ (tr (st_check_dualgap (sv_settings s)) = true -> (dl + / 10 ^ 15 * (sumn m zb / uc s) <= st_eps_abs (sv_settings s))%R)).
    { unfold gap_testable in HGT. destruct (tr (st_check_dualgap (sv_settings s))).
      - destruct (HGT eq_refl) as (G1 & G2). exists (st_eps_abs (sv_settings s) - / 10 ^ 15 * (sumn m zb / uc s))%R.
        assert (0 <= / 10 ^ 15 * (sumn m zb / uc s))%R.
        { apply Rmult_le_pos; [apply Rlt_le, Rinv_0_lt_compat, pow_lt; lra|]. apply Rmult_le_pos; [apply sumn_nonneg; intros; apply G1; auto|apply Rlt_le, Rinv_0_lt_compat; auto]. }
        split; [lra|intros; lra].
      - exists (st_eps_abs (sv_settings s)). split; [lra|discriminate]. }
    destruct HD as (dl & (Hdl & Hdl2) & Hdl3). set (eu := (dl / (2 + Sx + Sy))%R).
    assert (Peu : (0 < eu)%R) by (apply Rdiv_lt_0_compat; lra).
    assert (Eeu : (2 * eu + eu * Sx + eu * Sy = dl)%R) by (unfold eu; field; lra).
    assert (0 <= eu * Sx)%R by (apply Rmult_le_pos; lra). assert (0 <= eu * Sy)%R by (apply Rmult_le_pos; lra).
    destruct (family_min m (uE s) PE) as (e1 & P1 & L1). destruct (family_min n (uD s) PD) as (e2 & P2 & L2).
    set (e := (Rmin e1 (uc s * e2) * eu)%R). assert (Pe : (0 < e)%R) by (apply Rmult_lt_0_compat; auto; apply Rmin_glb_lt; auto; apply Rmult_lt_0_compat; auto).
    destruct (small_move p sg al rho Hsg SR SB A1 e Pe) as (thr & Pthr & HSm0).
    assert (HSm : forall x z y x' z' y' xt zt, adm p sg al rho x z y x' z' y' xt zt -> (forall i, 0 <= i < q_m p -> ncone (q_l p i) (q_u p i) (z i) (y i)) -> (moved p sg rho x z xt zt < thr)%R ->
      (forall i, 0 <= i < q_m p -> (Rabs (Amul p x' i - z' i) <= uE s i * eu)%R) /\ (forall j, 0 <= j < q_n p -> (Rabs (q_q p j + Pmul p x' j + Atmul p y' j) <= uc s * uD s j * eu)%R)).
    { intros x z y x' z' y' xt zt HA HCO HM. destruct (HSm0 _ _ _ _ _ _ _ _ HA HCO HM) as (S1 & S2). split.
      - intros i Hi. eapply Rle_trans; [apply S1; auto|]. rewrite Em in Hi. apply Rmult_le_compat_r; [lra|]. eapply Rle_trans; [apply Rmin_l|auto].
      - intros j Hj. eapply Rle_trans; [apply S2; auto|]. rewrite En in Hj. apply Rmult_le_compat_r; [lra|]. eapply Rle_trans; [apply Rmin_r|]. apply Rmult_le_compat_l; [lra|auto]. }
    set (W := (al * (2 - al) * thr)%R). assert (PW : (0 < W)%R) by (apply Rmult_lt_0_compat; auto; apply Rmult_lt_0_compat; lra).
    set (c := st_check_termination (sv_settings s)) in *.
    set (b := up (B / W)). assert (Hb : (B / W < IZR b)%R) by apply archimed.
    assert (Hb0 : 0 <= b). { apply le_IZR. apply Rlt_le. eapply Rle_lt_trans; [|exact Hb]. apply Rmult_le_pos; auto. apply Rlt_le, Rinv_0_lt_compat; auto. }
    exists ((b + 1) * c + 2). intros mi Hmi. assert (Hmi2 : 2 <= mi) by nia.
    destruct (session_update_settings E EO P A q0 l0 u0 m n ust s d (Some (set_st_max_iter mi (sv_settings s))) HS) as (fl1 & s1 & ER & HS1 & HX).
    assert (HX2 : fl1 = 0 /\ s1 = set_sv_settings (set_st_max_iter mi (sv_settings s)) s).
    { destruct HX as [(_ & -> & HX)|(HX & _)].
      - split; auto. rewrite (HX _ eq_refl), set_max_replace. reflexivity.
      - exfalso. apply HX. eexists. split; [reflexivity|]. apply set_max_ok; [exact HKS|lia]. }
    destruct HX2 as (-> & Es1). clear HX. destruct (session_facts E EO _ _ _ _ _ _ _ _ _ _ HS1) as (HI1 & _).
    destruct (solve_safe E EO MM_R s1 HI1) as ([fl s'] & ESv & _). exists s1, fl, s'. split; [exact ER|]. split; [exact ESv|]. intros HQ HZ.
    destruct (decided_dec (stat s')) as [|HN]; auto. exfalso.
    assert (HV : ((IZR ((mi - 1) / c) - 1) * W <= B)%R).
    { clear HSm0. rewrite Es1 in HS1, ESv, HQ, HZ.
      refine (verdict _ d HS1 HC HRR HOff xs' zs' ys' B thr eu zb fl s' HK' _ Pthr HSm _ _ HZ HT HU Hck Hmi2 ESv HQ HN).
      - intros f t Hbf. pose proof (before_first _ f t Hbf) as H3. change (start3 (set_sv_settings (set_st_max_iter mi (sv_settings s)) s)) with (start3 s) in H3. rewrite E0 in H3.
        unfold iter3 in H3. injection H3 as Q1 Q2 Q3. unfold it_x, it_y, it_z. rewrite Q1, Q2, Q3. apply Rle_refl.
      - split; [exact Peu|]. change (eu < st_eps_abs (sv_settings s))%R. lra.
      - intros Hg. split; [intros i Hi; apply (HGT Hg); auto|]. specialize (Hdl3 Hg). change (eu * Sx + eu * Sy + / 10 ^ 15 * (sumn m zb / uc s) < st_eps_abs (sv_settings s))%R. lra. }
    assert (HD2 : b + 1 <= (mi - 1) / c) by (apply Z.div_le_lower_bound; lia). apply IZR_le in HD2. rewrite plus_IZR in HD2.
    assert (HL : (B < IZR b * W)%R). { apply (Rmult_lt_compat_r W) in Hb; auto. replace (B / W * W)%R with B in Hb by (field; lra). exact Hb. }
    assert (0 <= (IZR ((mi - 1) / c) - 1 - IZR b) * W)%R by (apply Rmult_le_pos; lra). lra.
  Qed.
End Live.
