(** src/scaling.c over the reals: the stored data are the user's data in other units. *)
From Coq Require Import ZArith Reals List Bool Lia Lra.
From Verif Require Import Num Arr ArrFacts RSum Csc CscSpec CscFacts CscFacts2 Scatter Vec VecFacts Types Scaling
  Inv RecSimp InvStep InvScale RealVec RealStep ProbSpec.
Import ListNotations.
Open Scope Z_scope.

Lemma rs_lmult (A : csc Rops) (D : list R) : wf A -> cm A <= rlen D ->
  safe (csc_lmult_diag A D) (mscaled 1 (rnth D) (fun _ => 1%R) A).
Proof.
  intros W HD. destruct (csc_lmult_diag_spec A 0%R D W HD) as (A' & -> & H1 & H2 & H3 & H4 & H5 & H6 & H7 & V & U).
  apply safe_ret. split; [apply same_pat_intro; auto|]. split.
  - intros j k Hj Hk. unfold valx. etransitivity; [apply V; eapply slot_range; eauto|]. unfold rnth, valx. fix_R. ring.
  - exact U.
Qed.
Lemma rs_rmult (A : csc Rops) (D : list R) : wf A -> cn A <= rlen D ->
  safe (csc_rmult_diag A D) (mscaled 1 (fun _ => 1%R) (rnth D) A).
Proof.
  intros W HD. destruct (csc_rmult_diag_spec A 0%R D W HD) as (A' & -> & H1 & H2 & H3 & H4 & H5 & H6 & H7 & V & U).
  apply safe_ret. split; [apply same_pat_intro; auto|]. split.
  - intros j k Hj Hk. unfold valx. etransitivity; [apply (V j k); auto|]. unfold rnth, valx. fix_R. ring.
  - exact U.
Qed.
Lemma rs_mscale (A : csc Rops) (c : R) : wf A -> safe (csc_scale A c) (mscaled c (fun _ => 1%R) (fun _ => 1%R) A).
Proof.
  intros W. destruct (csc_scale_spec A 0%R c W) as (A' & -> & H1 & H2 & H3 & H4 & H5 & H6 & H7 & V & U).
  apply safe_ret. split; [apply same_pat_intro; auto|]. split.
  - intros j k Hj Hk. unfold valx. etransitivity; [apply V; eapply slot_range; eauto|]. unfold valx. fix_R. ring.
  - exact U.
Qed.

Lemma mscaled_wf a L C (M M' : csc Rops) : mscaled a L C M M' -> wf M -> wf M'.
Proof. intros (H & _). apply same_pat_wf; auto. Qed.
Lemma mscaled_dims a L C (M M' : csc Rops) : mscaled a L C M M' -> cm M' = cm M /\ cn M' = cn M.
Proof. intros (H & _). destruct (same_pat_fields _ _ H) as (A1 & A2 & _). auto. Qed.

(** The limits applied in a pass. *)
Lemma limit_scalar_R (v : R) : (/ 10 ^ 4 <= @limit_scaling_scalar Rops v <= 10 ^ 4)%R.
Proof.
  unfold limit_scaling_scalar. rewrite min_scaling_R, max_scaling_R, n1_R. cbn [nltb Rops car]. unfold Rltb.
  repeat destruct (Rlt_dec _ _); lra.
Qed.
Lemma limit_vector_R (v : list R) : safe (@limit_scaling_vector Rops v) (fun r => rlen r = rlen v /\ forall i, 0 <= i < rlen v -> (/ 10 ^ 4 <= rnth r i <= 10 ^ 4)%R).
Proof.
  unfold limit_scaling_vector, vf_set_scalar_if_lt, vf_set_scalar_if_gt.
  eapply safe_bind; [apply (rs_v1 0%R); auto|]. cbv beta. intros a (La & Va).
  eapply safe_weaken; [apply (rs_v1 0%R); auto|]. cbv beta. intros b (Lb & Vb). split; [lia|]. intros i Hi.
  rewrite Vb by lia. change (znth 0%R a i) with (rnth a i). rewrite Va by lia.
  pose proof (limit_scalar_R (znth 0%R v i)) as H. unfold limit_scaling_scalar in H. exact H.
Qed.

Lemma sqrt_recip_R v : (/ 10 ^ 4 <= v <= 10 ^ 4)%R -> (/ 10 ^ 2 <= 1 / sqrt v <= 10 ^ 2)%R.
Proof.
  intros [H1 H2].
  assert (E1 : (sqrt (/ 10 ^ 4) = / 10 ^ 2)%R). { replace (/ 10 ^ 4)%R with ((/ 10 ^ 2) * (/ 10 ^ 2))%R by lra. apply sqrt_square. lra. }
  assert (E2 : (sqrt (10 ^ 4) = 10 ^ 2)%R). { replace (10 ^ 4)%R with ((10 ^ 2) * (10 ^ 2))%R by lra. apply sqrt_square. lra. }
  assert (H0 : (0 <= v)%R) by lra. apply sqrt_le_1 in H1; [|lra|lra]. apply sqrt_le_1 in H2; [|lra|lra]. rewrite E1 in H1. rewrite E2 in H2.
  assert (Hp : (0 < sqrt v)%R) by lra. unfold Rdiv. rewrite Rmult_1_l. split.
  - apply Rinv_le_contravar; lra.
  - rewrite <- (Rinv_inv (10 ^ 2)). apply Rinv_le_contravar; lra.
Qed.

(** The documented limits on a norm: too small counts as 1, too large is cut. *)
Definition slim (v : R) : R := if Rlt_dec v (/ 10 ^ 4) then 1%R else if Rlt_dec (10 ^ 4) v then (10 ^ 4)%R else v.
Lemma slim_range v : (/ 10 ^ 4 <= slim v <= 10 ^ 4)%R.
Proof. unfold slim. repeat destruct (Rlt_dec _ _); lra. Qed.
Lemma limit_scalar_slim (v : R) : @limit_scaling_scalar Rops v = slim v.
Proof.
  unfold limit_scaling_scalar, slim. rewrite min_scaling_R, max_scaling_R, n1_R. cbn [nltb Rops car]. unfold Rltb.
  repeat destruct (Rlt_dec _ _); lra.
Qed.
Lemma limit_vector_slim (v : list R) : safe (@limit_scaling_vector Rops v) (fun r => rlen r = rlen v /\ forall i, 0 <= i < rlen v -> rnth r i = slim (rnth v i)).
Proof.
  unfold limit_scaling_vector, vf_set_scalar_if_lt, vf_set_scalar_if_gt.
  eapply safe_bind; [apply (rs_v1 0%R); auto|]. cbv beta. intros a (La & Va).
  eapply safe_weaken; [apply (rs_v1 0%R); auto|]. cbv beta. intros b (Lb & Vb). split; [lia|]. intros i Hi.
  rewrite Vb by lia. change (znth 0%R a i) with (rnth a i). rewrite Va by lia. apply (limit_scalar_slim (znth 0%R v i)).
Qed.
Lemma maxabs_or (S T : R -> Prop) a b : is_maxabs S a -> is_maxabs T b -> is_maxabs (fun v => S v \/ T v) (Rmax a b).
Proof.
  intros (A1 & A2 & A3) (B1 & B2 & B3). split; [|split].
  - eapply Rle_trans; [exact A1|apply Rmax_l].
  - intros v [Hv|Hv]; [eapply Rle_trans; [apply A2; auto|apply Rmax_l]|eapply Rle_trans; [apply B2; auto|apply Rmax_r]].
  - unfold Rmax. destruct (Rle_dec a b); [destruct B3 as [->|(v & Hv & ->)]|destruct A3 as [->|(v & Hv & ->)]]; eauto.
Qed.

(** The factors of one equilibration pass, for the problem d before the pass: de and ep are the reciprocal square roots of
    the (limited) largest stored entries of the columns of [P; A] and of the rows of A; the cost factor is the reciprocal of
    the (limited) larger one of the mean column norm of the equilibrated P and the (limited) norm of the equilibrated q. *)
Definition equilibrates (n m : Z) (P A : csc Rops) (q : Z -> R) (de ep : Z -> R) (ka : R) : Prop :=
  exists (a b e : Z -> R) (f : R),
    (forall j, 0 <= j < n -> is_maxabs (fun v => (exists k, colp P j <= k < colp P (j + 1) /\ v = valx P k) \/
                                                 (exists k, colp A j <= k < colp A (j + 1) /\ v = valx A k)) (a j) /\ de j = (1 / sqrt (slim (a j)))%R) /\
    (forall i, 0 <= i < m -> is_maxabs (fun v => exists k, 0 <= k < nnz A /\ rowi A k = i /\ v = valx A k) (b i) /\ ep i = (1 / sqrt (slim (b i)))%R) /\
    (forall j, 0 <= j < n -> is_maxabs (fun v => exists k, colp P j <= k < colp P (j + 1) /\ v = (de (rowi P k) * valx P k * de j)%R) (e j)) /\
    is_maxabs (fun v => exists i, 0 <= i < n /\ v = (de i * q i)%R) f /\
    ka = (1 / slim (Rmax (zsum 0 n e / IZR n) (slim f)))%R.

(** The units computed by k equilibration passes for the problem (P, q, A). *)
Inductive ruiz (n m : Z) (P A : csc Rops) (q : Z -> R) : nat -> R -> (Z -> R) -> (Z -> R) -> Prop :=
| ruiz_0 : forall D E, (forall i, 0 <= i < n -> D i = 1%R) -> (forall i, 0 <= i < m -> E i = 1%R) -> ruiz n m P A q 0 1 D E
| ruiz_S : forall k c D E P' A' q' de ep ka c' D' E', ruiz n m P A q k c D E ->
    mscaled c D D P P' -> mscaled 1 E D A A' -> (forall i, 0 <= i < n -> q' i = (c * D i * q i)%R) ->
    equilibrates n m P' A' q' de ep ka ->
    c' = (c * ka)%R -> (forall i, 0 <= i < n -> D' i = (D i * de i)%R) -> (forall i, 0 <= i < m -> E' i = (E i * ep i)%R) ->
    ruiz n m P A q (S k) c' D' E'.
Lemma ruiz_ext n m P A q q2 k c D E : (forall i, 0 <= i < n -> q2 i = q i) -> ruiz n m P A q k c D E -> ruiz n m P A q2 k c D E.
Proof. intros Hq. induction 1; [constructor; auto|]. econstructor; eauto. intros i Hi. rewrite Hq by auto. auto. Qed.

Section ScaleReal.
  (** One pass (scaling.c:78-150). *)
  Lemma scale_pass_real (w : work Rops) s : dok (w_data w) -> zlen (w_D_temp w) = d_n (w_data w) -> zlen (w_D_temp_A w) = d_n (w_data w) ->
    zlen (w_E_temp w) = d_m (w_data w) -> scok (d_n (w_data w)) (d_m (w_data w)) s ->
    safe (scale_pass w s) (fun r => let d := w_data w in let d' := w_data (fst r) in exists (de ep : list R) (ka : R),
      (forall i, 0 <= i < d_n d -> (/ 10 ^ 2 <= rnth de i <= 10 ^ 2)%R) /\
      (forall i, 0 <= i < d_m d -> (/ 10 ^ 2 <= rnth ep i <= 10 ^ 2)%R) /\
      (/ 10 ^ 4 <= ka <= 10 ^ 4)%R /\
      mscaled ka (rnth de) (rnth de) (d_P d) (d_P d') /\ mscaled 1 (rnth ep) (rnth de) (d_A d) (d_A d') /\
      (forall i, 0 <= i < d_n d -> rnth (d_q d') i = (ka * rnth de i * rnth (d_q d) i)%R) /\
      sc_c (snd r) = (sc_c s * ka)%R /\
      (forall i, 0 <= i < d_n d -> rnth (sc_D (snd r)) i = (rnth (sc_D s) i * rnth de i)%R) /\
      (forall i, 0 <= i < d_m d -> rnth (sc_E (snd r)) i = (rnth (sc_E s) i * rnth ep i)%R) /\
      equilibrates (d_n d) (d_m d) (d_P d) (d_A d) (rnth (d_q d)) (rnth de) (rnth ep) ka).
  Proof.
    intros Hd L1 L2 L3 [S1 S2 S3 S4]. destruct Hd. destruct do_Pt as (Hsq & Htri).
    unfold scale_pass, compute_inf_norm_cols_KKT.
    eapply safe_bind with (P := fun r => (zlen (fst (fst r)) = d_n (w_data w) /\ zlen (snd (fst r)) = d_n (w_data w) /\ zlen (snd r) = d_m (w_data w)) /\
      (forall j, 0 <= j < d_n (w_data w) -> is_maxabs (fun v => (exists k, colp (d_P (w_data w)) j <= k < colp (d_P (w_data w)) (j + 1) /\ v = valx (d_P (w_data w)) k) \/
                                                     (exists k, colp (d_A (w_data w)) j <= k < colp (d_A (w_data w)) (j + 1) /\ v = valx (d_A (w_data w)) k)) (rnth (fst (fst r)) j)) /\
      (forall i, 0 <= i < d_m (w_data w) -> is_maxabs (fun v => exists k, 0 <= k < nnz (d_A (w_data w)) /\ rowi (d_A (w_data w)) k = i /\ v = valx (d_A (w_data w)) k) (rnth (snd r) i))).
    { destruct (csc_col_norm_inf_correct (d_P (w_data w)) (w_D_temp w)) as (N1 & -> & LN1 & VN1); [auto|rsize|].
      destruct (csc_col_norm_inf_correct (d_A (w_data w)) (w_D_temp_A w)) as (N2 & -> & LN2 & VN2); [auto|rsize|].
      unfold vf_ew_max_vec. eapply safe_bind; [apply rs_v2; rsize|]. intros Dt (LDt & VDt).
      destruct (csc_row_norm_inf_correct (d_A (w_data w)) (w_E_temp w)) as (N3 & -> & LN3 & VN3); [auto|rsize|].
      apply safe_ret. cbn [fst snd]. change (car Rops) with R in *. split; [lia|]. split; [|intros i Hi; apply VN3; lia].
      intros j Hj. rewrite VDt by lia. rewrite c_max_R. rewrite Rmax_comm. apply maxabs_or; [apply VN1|apply VN2]; lia. }
    intros [[Dt DtA] Et] ((M1 & M2 & M3) & MD & ME). cbn [fst snd] in *. fix_R.
    eapply safe_bind; [apply limit_vector_slim|]. cbv beta. intros Dt1 (N1 & R1). eapply safe_bind; [apply limit_vector_slim|]. cbv beta. intros Et1 (N2 & R2).
    unfold vf_ew_sqrt, vf_ew_reciprocal in *.
    eapply safe_bind; [apply (rs_v1 0%R); auto|]. cbv beta. rewrite zlen_map. intros de (Lde & Vde).
    eapply safe_bind; [apply (rs_v1 0%R); auto|]. cbv beta. rewrite zlen_map. intros ep (Lep & Vep).
    assert (Fde : forall i, 0 <= i < d_n (w_data w) -> rnth de i = (1 / sqrt (slim (rnth Dt i)))%R).
    { intros i Hi. change (car Rops) with R in *. rewrite Vde by lia. rewrite (znth_map 0%R 0%R) by lia. rewrite n1_R. cbn [nsqrt ndiv Rops]. change (znth 0%R Dt1 i) with (rnth Dt1 i). rewrite R1 by lia. auto. }
    assert (Fep : forall i, 0 <= i < d_m (w_data w) -> rnth ep i = (1 / sqrt (slim (rnth Et i)))%R).
    { intros i Hi. change (car Rops) with R in *. rewrite Vep by lia. rewrite (znth_map 0%R 0%R) by lia. rewrite n1_R. cbn [nsqrt ndiv Rops]. change (znth 0%R Et1 i) with (rnth Et1 i). rewrite R2 by lia. auto. }
    assert (Bde : forall i, 0 <= i < d_n (w_data w) -> (/ 10 ^ 2 <= rnth de i <= 10 ^ 2)%R) by (intros i Hi; rewrite Fde by auto; apply sqrt_recip_R, slim_range).
    assert (Bep : forall i, 0 <= i < d_m (w_data w) -> (/ 10 ^ 2 <= rnth ep i <= 10 ^ 2)%R) by (intros i Hi; rewrite Fep by auto; apply sqrt_recip_R, slim_range).
    eapply safe_bind; [apply rs_lmult; [auto|rsize]|]. intros P1 HP1. destruct (mscaled_dims _ _ _ _ _ HP1) as (F1 & F2).
    eapply safe_bind; [apply rs_rmult; [eapply mscaled_wf; eauto|rsize]|]. intros P2 HP2. destruct (mscaled_dims _ _ _ _ _ HP2) as (F3 & F4).
    eapply safe_bind; [apply rs_lmult; [auto|rsize]|]. intros A1 HA1. destruct (mscaled_dims _ _ _ _ _ HA1) as (G1 & G2).
    eapply safe_bind; [apply rs_rmult; [eapply mscaled_wf; eauto|rsize]|]. intros A2 HA2.
    rbind q Lq Vq. rbind D LD VD. rbind Es LE VE.
    assert (WP2 : wf P2) by (eapply mscaled_wf; [exact HP2|]; eapply mscaled_wf; eauto).
    assert (HP12 : mscaled 1 (rnth de) (rnth de) (d_P (w_data w)) P2).
    { pose proof (mscaled_trans _ _ _ _ _ _ _ _ _ HP1 HP2) as H. replace 1%R with (1 * 1)%R by ring. eapply mscaled_ext; [auto| | |exact H]; intros; cbv beta; ring. }
    destruct (csc_col_norm_inf_correct P2 de) as (Dt2 & E2 & N3 & VN3); [auto|change (car Rops) with R in *; lia|].
    eapply safe_bind; [exists Dt2; split; [exact E2|exact eq_refl]|]. intros ? <-. clear E2.
    match goal with |- context [csc_scale P2 ?c] => set (ka := c) end.
    assert (Eka : ka = (1 / slim (Rmax (zsum 0 (d_n (w_data w)) (rnth Dt2) / IZR (d_n (w_data w))) (slim (@vf_norm_inf Rops q))))%R).
    { subst ka. rewrite ?n1_R. change (@ndiv Rops) with Rdiv. rewrite limit_scalar_slim, c_max_R, limit_scalar_slim, nofZ_R. do 5 f_equal.
      rewrite vf_norm_1_spec. change (car Rops) with R in *. rewrite N3, F4, F2, do_Pn. apply zsum_ext. intros i Hi. apply Rabs_right, Rle_ge. apply VN3. lia. }
    assert (Bka : (/ 10 ^ 4 <= ka <= 10 ^ 4)%R).
    { rewrite Eka. set (v := Rmax _ _). pose proof (slim_range v) as H. set (t := slim v) in *. clearbody t. unfold Rdiv. rewrite Rmult_1_l. split.
      - apply Rinv_le_contravar; lra.
      - rewrite <- (Rinv_inv (10 ^ 4)). apply Rinv_le_contravar; lra. }
    clearbody ka. change (car Rops) with R in ka.
    eapply safe_bind; [apply rs_mscale; auto|]. intros P3 HP3. apply safe_ret. cbn [fst snd]. rs.
    exists de, ep, ka. split; auto. split; auto. split; auto. split; [|split; [|split; [|split; [|split; [|split]]]]].
    - pose proof (mscaled_trans _ _ _ _ _ _ _ _ _ (mscaled_trans _ _ _ _ _ _ _ _ _ HP1 HP2) HP3) as H.
      replace ka with (1 * 1 * ka)%R by ring. eapply mscaled_ext; [auto| | |exact H]; intros; cbv beta; ring.
    - pose proof (mscaled_trans _ _ _ _ _ _ _ _ _ HA1 HA2) as H. replace 1%R with (1 * 1)%R by ring.
      eapply mscaled_ext; [auto| | |exact H]; intros; cbv beta; ring.
    - intros i Hi. unfold vf_mult_scalar. rewrite rnth_map by rsize. rewrite Vq by rsize. cbn [nmul Rops]. ring.
    - reflexivity.
    - intros i Hi. rewrite VD by rsize. auto.
    - intros i Hi. rewrite VE by rsize. auto.
    - exists (rnth Dt), (rnth Et), (rnth Dt2), (@vf_norm_inf Rops q). split; [auto|]. split; [auto|]. split; [|split; [|exact Eka]].
      + intros j Hj. destruct HP12 as (SP & SV & _). destruct (same_pat_geom _ _ SP) as (_ & _ & _ & HC & HR).
        eapply is_maxabs_ext; [|apply VN3; lia]. intros v. rewrite !HC. split; intros (k & Hk & ->); exists k; (split; [exact Hk|]); rewrite (SV j k) by lia; ring.
      + eapply is_maxabs_ext; [|apply vf_norm_inf_spec]. intros v. unfold vals. change (car Rops) with R in *. rewrite Lq, do_q. split; intros (i & Hi & ->); exists i; (split; [exact Hi|]); rewrite Vq by lia; cbn [nmul Rops]; ring.
  Qed.

  (** What the scaling structure says, with bounds after k passes. *)
  Record sc_good (k : Z) (n m : Z) (sc : scaling Rops) : Prop := {
    sg_c : ((/ 10 ^ 4) ^ Z.to_nat k <= sc_c sc <= (10 ^ 4) ^ Z.to_nat k)%R;
    sg_D : forall i, 0 <= i < n -> ((/ 10 ^ 2) ^ Z.to_nat k <= rnth (sc_D sc) i <= (10 ^ 2) ^ Z.to_nat k)%R;
    sg_E : forall i, 0 <= i < m -> ((/ 10 ^ 2) ^ Z.to_nat k <= rnth (sc_E sc) i <= (10 ^ 2) ^ Z.to_nat k)%R }.
  Record sc_inv (n m : Z) (sc : scaling Rops) : Prop := {
    si_c : sc_cinv sc = (/ sc_c sc)%R;
    si_D : forall i, 0 <= i < n -> rnth (sc_Dinv sc) i = (/ rnth (sc_D sc) i)%R;
    si_E : forall i, 0 <= i < m -> rnth (sc_Einv sc) i = (/ rnth (sc_E sc) i)%R }.

  Lemma pow_step a x y k : (0 < a)%R -> 0 <= k -> (a ^ Z.to_nat k <= x)%R -> (a <= y)%R -> (a ^ Z.to_nat (k + 1) <= x * y)%R.
  Proof.
    intros Ha Hk H1 H2. replace (Z.to_nat (k + 1)) with (S (Z.to_nat k)) by lia. cbn [pow]. rewrite Rmult_comm.
    apply Rmult_le_compat; auto; try lra. apply pow_le; lra.
  Qed.
  Lemma pow_step_le a x y k : (0 < a)%R -> 0 <= k -> (0 <= x <= a ^ Z.to_nat k)%R -> (0 <= y <= a)%R -> (x * y <= a ^ Z.to_nat (k + 1))%R.
  Proof.
    intros Ha Hk H1 H2. replace (Z.to_nat (k + 1)) with (S (Z.to_nat k)) by lia. cbn [pow]. rewrite (Rmult_comm a).
    apply Rmult_le_compat; lra.
  Qed.

  Definition st_passes (st : settings Rops) : Z := Z.max 0 (st_scaling st).

  Theorem scale_data_real st (w : work Rops) sc : dok (w_data w) -> tmp_ok w -> w_scaling w = Some sc -> scok (d_n (w_data w)) (d_m (w_data w)) sc ->
    safe (scale_data st w) (fun w' => exists sc', w_scaling w' = Some sc' /\
      scaled_by (sc_c sc') (rnth (sc_D sc')) (rnth (sc_E sc')) (w_data w) (w_data w') /\
      sc_good (st_passes st) (d_n (w_data w)) (d_m (w_data w)) sc' /\ sc_inv (d_n (w_data w)) (d_m (w_data w)) sc' /\
      ruiz (d_n (w_data w)) (d_m (w_data w)) (d_P (w_data w)) (d_A (w_data w)) (rnth (d_q (w_data w))) (Z.to_nat (st_passes st)) (sc_c sc') (rnth (sc_D sc')) (rnth (sc_E sc'))).
  Proof.
    intros Hd (T1 & T2 & T3) Esc [S1 S2 S3 S4]. unfold scale_data. rewrite Esc. rs.
    set (d0 := w_data w) in *.
    set (J := fun (k : Z) (r : work Rops * scaling Rops) => 
       (exists d a b c, fst r = wscal w d a b c (w_scaling w) /\ drel d0 d /\ d_l d = d_l d0 /\ d_u d = d_u d0 /\
         zlen a = d_n d0 /\ zlen b = d_n d0 /\ zlen c = d_m d0) /\ scok (d_n d0) (d_m d0) (snd r) /\
       mscaled (sc_c (snd r)) (rnth (sc_D (snd r))) (rnth (sc_D (snd r))) (d_P d0) (d_P (w_data (fst r))) /\
       mscaled 1 (rnth (sc_E (snd r))) (rnth (sc_D (snd r))) (d_A d0) (d_A (w_data (fst r))) /\
       (forall i, 0 <= i < d_n d0 -> rnth (d_q (w_data (fst r))) i = (sc_c (snd r) * rnth (sc_D (snd r)) i * rnth (d_q d0) i)%R) /\
       sc_good k (d_n d0) (d_m d0) (snd r) /\
       ruiz (d_n d0) (d_m d0) (d_P d0) (d_A d0) (rnth (d_q d0)) (Z.to_nat k) (sc_c (snd r)) (rnth (sc_D (snd r))) (rnth (sc_E (snd r)))).
    pose proof Hd as [].
    eapply safe_bind with (P := J (st_passes st)).
    { match goal with |- safe (for_ _ _ _ ?x) _ => set (w0 := x) end.
      assert (HJ0 : J 0 w0).
      { subst w0. unfold J. cbn [fst snd]. rs. unfold vf_set_scalar.
        assert (HD1 : forall i, 0 <= i < d_n d0 -> rnth (map (fun _ : R => 1%R) (sc_D sc)) i = 1%R) by (intros; apply rnth_map; rsize).
        assert (HE1 : forall i, 0 <= i < d_m d0 -> rnth (map (fun _ : R => 1%R) (sc_E sc)) i = 1%R) by (intros; apply rnth_map; rsize).
        rewrite n1_R. split; [|split; [|split; [|split; [|split; [|split]]]]].
        - exists d0, (w_D_temp w), (w_D_temp_A w), (w_E_temp w). split; [unfold wscal, d0; destruct w; reflexivity|]. repeat (split; auto using drel_refl).
        - constructor; rs; rewrite zlen_map; auto.
        - eapply mscaled_ext; [auto| | |apply mscaled_refl]; intros; symmetry; apply HD1; destruct do_Pt; lia.
        - eapply mscaled_ext; [auto| | |apply mscaled_refl]; intros; symmetry; [apply HE1|apply HD1]; lia.
        - intros i Hi. rewrite HD1 by lia. fix_R. fold d0. ring.
        - constructor; rs; cbn [Z.to_nat pow]; [lra| |]; intros i Hi; [rewrite HD1 by auto|rewrite HE1 by auto]; lra.
        - apply ruiz_0; auto. }
      clearbody w0.
      destruct (Z.le_gt_cases 0 (st_scaling st)) as [Hp|Hp].
      2:{ unfold for_. replace (Z.to_nat (st_scaling st - 0)) with O by lia. apply safe_ret. unfold st_passes. replace (Z.max 0 (st_scaling st)) with 0 by lia. exact HJ0. }
      unfold st_passes. replace (Z.max 0 (st_scaling st)) with (st_scaling st) by lia.
      destruct (for_rule (fun k r => 0 <= k /\ J k r) 0 (st_scaling st) (fun _ (r : work Rops * scaling Rops) => scale_pass (fst r) (snd r)) w0) as (r & Er & _ & HJ).
      - auto.
      - split; [lia|auto].
      - intros k [w1 s1] Hk (_ & (d & a & b & c & E1 & DR & El & Eu & La & Lb & Lc) & SO & MP & MA & Vq & [Gc GD GE] & RZ). cbn [fst snd] in *. subst w1.
        pose proof (drel_dok _ _ DR Hd) as Hd1. destruct DR as [Dn Dm DP DA Dq Dl Du]. unfold wscal in *. rs_all.
        assert (Hs : safe (scale_pass (set_w_data d (set_w_D_temp a (set_w_D_temp_A b (set_w_E_temp c (set_w_scaling (w_scaling w) w))))) s1)
           (fun r => 0 <= k + 1 /\ J (k + 1) r)).
        { eapply safe_weaken; [apply safe_and; [apply scale_pass_safe|apply scale_pass_real]; rs; auto; try lia; rewrite ?Dn, ?Dm; auto|].
          cbv beta. intros [w2 s2] ((d2 & a2 & b2 & c2 & E2 & DR2 & El2 & Eu2 & La2 & Lb2 & Lc2 & SO2) & de & ep & ka & B1 & B2 & B3 & HP & HA & Hq & Hc & HD & HE & EQ).
          cbn [fst snd] in *. rs_all. subst w2. unfold wscal in *. rs_all. rewrite Dn, Dm in *. split; [lia|]. unfold J. cbn [fst snd]. rs.
          split; [|split; [|split; [|split; [|split; [|split]]]]].
          - exists d2, a2, b2, c2. split; [unfold wscal; destruct w; reflexivity|].
            split; [eapply drel_trans; [|exact DR2]; constructor; auto|]. split; [congruence|]. split; [congruence|]. auto.
          - auto.
          - rewrite Hc. eapply mscaled_ext; [auto| | |eapply mscaled_trans; [exact MP|exact HP]]; intros; cbv beta; symmetry; apply HD; destruct do_Pt; lia.
          - replace 1%R with (1 * 1)%R by ring. eapply mscaled_ext; [auto| | |eapply mscaled_trans; [exact MA|exact HA]]; intros; cbv beta; symmetry; [apply HE|apply HD]; lia.
          - intros i Hi. rewrite Hq, Vq, Hc, HD by auto. ring.
          - assert (P0 : (0 < (/ 10 ^ 2) ^ Z.to_nat k)%R) by (apply pow_lt; lra). assert (P1 : (0 < (/ 10 ^ 4) ^ Z.to_nat k)%R) by (apply pow_lt; lra).
            constructor.
            + rewrite Hc. split; [apply pow_step; lra || lia|apply pow_step_le; lra || lia].
            + intros i Hi. rewrite HD by auto. specialize (GD i Hi). specialize (B1 i Hi). split; [apply pow_step; lra || lia|apply pow_step_le; lra || lia].
            + intros i Hi. rewrite HE by auto. specialize (GE i Hi). specialize (B2 i Hi). split; [apply pow_step; lra || lia|apply pow_step_le; lra || lia].
          - replace (Z.to_nat (k + 1)) with (S (Z.to_nat k)) by lia. eapply ruiz_S; eauto. }
        destruct Hs as (r & -> & Hr). exists r. auto.
      - rewrite Er. apply safe_ret. auto. }
    intros [w1 s1] ((d & a & b & c & E1 & DR & El & Eu & La & Lb & Lc) & [SD SDi SE SEi] & MP & MA & Vq & [Gc GD GE] & RZ). cbn [fst snd] in *. subst w1. rs.
    unfold wscal in *. rs_all. destruct DR as [Dn Dm DP DA Dq Dl Du].
    unfold vf_ew_reciprocal.
    eapply safe_bind; [apply (rs_v1 0%R); rsize|]. cbv beta. intros Di (LDi & VDi). eapply safe_bind; [apply (rs_v1 0%R); rsize|]. cbv beta. intros Ei (LEi & VEi). rs.
    rbind l Ll Vl. rbind u Lu Vu. apply safe_ret. eexists. rs. split; [reflexivity|]. split; [|split; [|split; [|exact RZ]]].
    - constructor; rs; auto.
      + split; [rsize|]. intros i Hi. rewrite Vl by rsize. rewrite El. cbn [nmul Rops]. fold d0. ring.
      + split; [rsize|]. intros i Hi. rewrite Vu by rsize. rewrite Eu. cbn [nmul Rops]. fold d0. ring.
    - constructor; rs; auto.
    - constructor; rs.
      + fix_R. unfold Rdiv. ring.
      + intros i Hi. rewrite VDi by rsize. fix_R. unfold Rdiv, rnth. ring.
      + intros i Hi. rewrite VEi by rsize. fix_R. unfold Rdiv, rnth. ring.
  Qed.

  (** scaling.c:169-192 undoes the change of units. *)
  Theorem unscale_data_real (w : work Rops) sc (u : data Rops) : dok u -> dok (w_data w) -> w_scaling w = Some sc -> scok (d_n u) (d_m u) sc ->
    scaled_by (sc_c sc) (rnth (sc_D sc)) (rnth (sc_E sc)) u (w_data w) -> sc_inv (d_n u) (d_m u) sc ->
    sc_c sc <> 0%R -> (forall i, 0 <= i < d_n u -> rnth (sc_D sc) i <> 0%R) -> (forall i, 0 <= i < d_m u -> rnth (sc_E sc) i <> 0%R) ->
    safe (unscale_data w) (fun w' => w' = set_w_data u w).
  Proof.
    intros Hu Hd Esc [S1 S2 S3 S4] [Bn Bm BP BA [Lq Vq] [Ll Vl] [Lu Vu]] [Ic ID IE] Hc HD HE. unfold unscale_data. rewrite Esc.
    pose proof Hu as []. pose proof Hd as [gn gm gP gPt gPn gA gAm gAn gq gl gu].
    eapply safe_bind; [apply rs_mscale; auto|]. intros P1 HP1. destruct (mscaled_dims _ _ _ _ _ HP1) as (F1 & F2).
    destruct (mscaled_dims _ _ _ _ _ BP) as (F3 & F4). destruct (mscaled_dims _ _ _ _ _ BA) as (G3 & G4).
    pose proof (proj1 do_Pt) as Hsq.
    eapply safe_bind; [apply rs_lmult; [eapply mscaled_wf; eauto|rsize]|]. intros P2 HP2. destruct (mscaled_dims _ _ _ _ _ HP2) as (F5 & F6).
    assert (WP1 : wf P1) by (eapply mscaled_wf; eauto).
    eapply safe_bind; [apply rs_rmult; [eapply mscaled_wf; eauto|rsize]|]. intros P3 HP3.
    unfold vf_mult_scalar.
    eapply safe_bind; [apply rs_v2; rewrite ?zlen_map; rsize|]. cbv beta. rewrite zlen_map. intros q (Lq' & Vq').
    eapply safe_bind; [apply rs_lmult; [auto|rsize]|]. intros A1 HA1. destruct (mscaled_dims _ _ _ _ _ HA1) as (G1 & G2).
    eapply safe_bind; [apply rs_rmult; [eapply mscaled_wf; eauto|rsize]|]. intros A2 HA2.
    rbind l Ll' Vl'. rbind u' Lu' Vu'. apply safe_ret. rs.
    assert (EP : P3 = d_P u).
    { pose proof (mscaled_trans _ _ _ _ _ _ _ _ _ (mscaled_trans _ _ _ _ _ _ _ _ _ HP1 HP2) HP3) as H.
      eapply mscaled_inv with (Li := rnth (sc_Dinv sc)) (Ci := rnth (sc_Dinv sc)) (ai := sc_cinv sc); [exact do_P| | | |exact BP|].
      - rewrite Ic. field. auto.
      - intros i Hi. rewrite ID by lia. field. apply HD. lia.
      - intros i Hi. rewrite ID by lia. field. apply HD. lia.
      - replace (sc_cinv sc) with (sc_cinv sc * 1 * 1)%R by (change (car Rops) with R; ring). eapply mscaled_ext; [auto| | |exact H]; intros; cbv beta; ring. }
    assert (EA : A2 = d_A u).
    { pose proof (mscaled_trans _ _ _ _ _ _ _ _ _ HA1 HA2) as H.
      eapply mscaled_inv with (Li := rnth (sc_Einv sc)) (Ci := rnth (sc_Dinv sc)) (ai := 1%R); [exact do_A| | | |exact BA|].
      - ring.
      - intros i Hi. rewrite IE by lia. field. apply HE. lia.
      - intros i Hi. rewrite ID by lia. field. apply HD. lia.
      - replace 1%R with (1 * 1)%R by ring. eapply mscaled_ext; [auto| | |exact H]; intros; cbv beta; ring. }
    assert (Eq : q = d_q u).
    { apply rlist_ext; [rsize|]. intros i Hi. rewrite Vq' by rsize. rewrite rnth_map by rsize. rewrite Vq by rsize. rewrite ID, Ic by rsize.
      cbn [nmul Rops]. field. split; [apply HD; rsize|auto]. }
    assert (El : l = d_l u).
    { apply rlist_ext; [rsize|]. intros i Hi. rewrite Vl' by rsize. rewrite Vl by rsize. rewrite IE by rsize. cbn [nmul Rops]. field. apply HE; rsize. }
    assert (Eu : u' = d_u u).
    { apply rlist_ext; [rsize|]. intros i Hi. rewrite Vu' by rsize. rewrite Vu by rsize. rewrite IE by rsize. cbn [nmul Rops]. field. apply HE; rsize. }
    subst. f_equal. destruct u, (w_data w); cbn in *; subst; reflexivity.
  Qed.
End ScaleReal.
