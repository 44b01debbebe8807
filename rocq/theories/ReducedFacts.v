(** The reduced KKT system over the reals. *)
From Coq Require Import ZArith Reals List Bool Lia Lra.
From Verif Require Import Num Arr ArrFacts RSum Csc CscSpec CscFacts CscFacts2 CscFacts4 CscFacts5 Scatter Vec VecFacts Types Inv InvStep RecSimp RealVec RealStep Frame Ldl LdlEnv QpSpec TermSpec TermFacts Reduced.
Import ListNotations.
Open Scope Z_scope.

(** Spec: the matrix P + sigma*I + A'*diag(rho)*A, entry by entry; n variables, m rows. *)
Definition rmat (m : Z) (P A : Z -> Z -> R) (rho : Z -> R) (sg : R) (j k : Z) : R :=
  (P j k + (if j =? k then sg else 0) + zsum 0 m (fun i => A i j * rho i * A i k))%R.
Definition mv (n : Z) (M : Z -> Z -> R) (x : Z -> R) (i : Z) : R := zsum 0 n (fun j => M i j * x j)%R.
Definition mtv (m : Z) (M : Z -> Z -> R) (y : Z -> R) (j : Z) : R := zsum 0 m (fun i => M i j * y i)%R.

Lemma rmat_mv m n P A rho sg x j : 0 <= j < n ->
  mv n (rmat m P A rho sg) x j = (mv n P x j + sg * x j + mtv m A (fun i => rho i * mv n A x i)%R j)%R.
Proof.
  intros Hj. unfold mv, mtv, rmat.
  transitivity (zsum 0 n (fun k => P j k * x k + (if (k =? j)%Z then sg * x k else 0) + zsum 0 m (fun i => A i j * (rho i * (A i k * x k))))%R).
  - apply zsum_ext. intros k Hk. rewrite (Z.eqb_sym j k). rewrite !Rmult_plus_distr_r. rewrite <- zsum_scal_r. f_equal; [f_equal|].
    + destruct (k =? j); ring.
    + apply zsum_ext. intros i Hi. ring.
  - rewrite !zsum_plus, zsum_single by lia. f_equal. rewrite zsum_swap. apply zsum_ext. intros i Hi. rewrite zsum_scal. f_equal. rewrite zsum_scal. f_equal.
Qed.

Ltac fl := change (car Rops) with R in *; lia.
Section Kernels.
  Variables (P A : csc Rops).
  Hypothesis WP : wf P. Hypothesis TP : triu P. Hypothesis WA : wf A. Hypothesis EN : cn A = cn P.
  Let n := cn P. Let m := cm A.

  Lemma op_real (rho : list R) (sg : R) (x v work : list R) : rlen rho = m -> rlen x = n -> rlen v = n -> rlen work = m ->
    exists v' work', @reduced_kkt_mv_times Rops P A rho sg x v work = Some (v', work') /\ rlen v' = n /\ rlen work' = m /\
      forall j, 0 <= j < n -> rnth v' j = mv n (rmat m (sdns P) (dns A) (rnth rho) sg) (rnth x) j.
  Proof.
    intros Lr Lx Lv Lw. assert (SQ : cm P = cn P) by apply TP. subst n m.
    assert (HS : safe (@reduced_kkt_mv_times Rops P A rho sg x v work) (fun r => rlen (fst r) = cn P /\ rlen (snd r) = cm A /\ forall j, 0 <= j < cn P -> rnth (fst r) j = mv (cn P) (rmat (cm A) (sdns P) (dns A) (rnth rho) sg) (rnth x) j)).
    { unfold reduced_kkt_mv_times. eapply safe_bind; [apply rs_Axpy; auto; fl|]. intros w1 (L1 & V1).
      eapply safe_bind; [apply (rs_v2 w1); fl|]. intros w2 (L2 & V2).
      eapply safe_bind; [apply (rs_v1 0%R); fl|]. intros v1 (L3 & V3).
      eapply safe_bind; [apply rs_symv; auto; fl|]. intros v2 (L4 & V4).
      eapply safe_bind; [apply rs_Atxpy; auto; fl|]. intros v3 (L5 & V5).
      apply safe_ret. cbn [fst snd]. split; [fl|]. split; [fl|]. intros j Hj. rewrite V5 by fl. rewrite V4 by fl. rewrite V3 by fl. rewrite rmat_mv by fl. rewrite !n1_R.
      unfold mv, mtv. fold (rnth x j). rewrite Rmult_1_l, !Rmult_1_l. rewrite Rplus_comm. f_equal. apply zsum_ext. intros i Hi. rewrite V2 by fl. rewrite V1 by fl. rewrite n1_R, n0_R. cbn [nmul Rops]. rewrite EN. ring. }
    destruct HS as ([v' w'] & HE & H). cbn [fst snd] in H. exists v', w'. tauto.
  Qed.

  Lemma rhs_real (rho b1 b2 work : list R) : rlen rho = m -> rlen b1 = n -> rlen b2 = m -> rlen work = m ->
    exists b1' work', @reduced_kkt_compute_rhs Rops A rho b1 b2 work = Some (b1', work') /\ rlen b1' = n /\ rlen work' = m /\
      forall j, 0 <= j < n -> rnth b1' j = (rnth b1 j + mtv m (dns A) (fun i => rnth rho i * rnth b2 i)%R j)%R.
  Proof.
    intros Lr L1 L2 Lw. subst n m.
    assert (HS : safe (@reduced_kkt_compute_rhs Rops A rho b1 b2 work) (fun r => rlen (fst r) = cn P /\ rlen (snd r) = cm A /\ forall j, 0 <= j < cn P -> rnth (fst r) j = (rnth b1 j + mtv (cm A) (dns A) (fun i => rnth rho i * rnth b2 i)%R j)%R)).
    { unfold reduced_kkt_compute_rhs. eapply safe_bind; [apply (rs_v2 work); fl|]. intros w1 (L3 & V3). eapply safe_bind; [apply rs_Atxpy; auto; fl|]. intros v3 (L5 & V5).
      apply safe_ret. cbn [fst snd]. split; [fl|]. split; [fl|]. intros j Hj. rewrite V5 by fl. rewrite n1_R. rewrite !Rmult_1_l, Rplus_comm. f_equal. apply zsum_ext. intros i Hi. rewrite V3 by fl. cbn [nmul Rops]. ring. }
    destruct HS as ([v' w'] & HE & H). cbn [fst snd] in H. exists v', w'. tauto.
  Qed.

  Lemma diag_real (rho : list R) (sg : R) (d di : list R) : nodup_rows P -> nodup_rows A -> rlen rho = m -> rlen d = n -> rlen di = n ->
    exists d' di', @reduced_kkt_diagonal Rops P A rho sg d di = Some (d', di') /\ rlen d' = n /\ rlen di' = n /\
      forall j, 0 <= j < n -> rnth d' j = rmat m (sdns P) (dns A) (rnth rho) sg j j /\ rnth di' j = (/ rmat m (sdns P) (dns A) (rnth rho) sg j j)%R.
  Proof.
    intros NP NA Lr Ld Li. subst n m.
    assert (HS : safe (@reduced_kkt_diagonal Rops P A rho sg d di) (fun r => rlen (fst r) = cn P /\ rlen (snd r) = cn P /\
      forall j, 0 <= j < cn P -> rnth (fst r) j = rmat (cm A) (sdns P) (dns A) (rnth rho) sg j j /\ rnth (snd r) j = (/ rmat (cm A) (sdns P) (dns A) (rnth rho) sg j j)%R)).
    { unfold reduced_kkt_diagonal. cbv zeta.
      destruct (extract_diag_full P di WP ltac:(fl) NP) as (e1 & E1 & L1 & V1). rewrite E1. cbv beta iota.
      assert (Ls : rlen (@vf_set_scalar Rops d sg) = cn P) by (unfold vf_set_scalar; change (car Rops) with R; rewrite zlen_map; fl).
      eapply safe_bind; [apply (rs_v2 (@vf_set_scalar Rops d sg)); [auto|change (car Rops) with R in *; fl]|]. intros d2 (L2 & V2).
      destruct (csc_AtDA_extract_diag_correct A rho e1 WA ltac:(fl) ltac:(fl)) as (e3 & E3 & L3 & _). pose proof (AtDA_extract_diag_dense A rho e1 e3 WA ltac:(fl) ltac:(fl) NA E3) as V3. rewrite E3. cbv beta iota.
      eapply safe_bind; [apply (rs_v2 d2); [auto|change (car Rops) with R in *; fl]|]. intros d4 (L4 & V4).
      eapply safe_bind; [apply (rs_v1 0%R); change (car Rops) with R in *; fl|]. intros d5 (L5 & V5).
      apply safe_ret. cbn [fst snd]. change (car Rops) with R in *. split; [fl|]. split; [fl|]. intros j Hj.
      assert (HV : rnth d4 j = rmat (cm A) (sdns P) (dns A) (rnth rho) sg j j).
      { rewrite V4 by fl. rewrite V2 by fl. rewrite V3 by fl. rewrite V1 by fl. unfold vf_set_scalar. rewrite rnth_map by fl. unfold rmat, sdns. rewrite Z.leb_refl, Z.eqb_refl. cbn [nadd Rops]. ring. }
      split; [exact HV|]. rewrite V5 by fl. fold (rnth d4 j). rewrite HV, n1_R. cbn [ndiv Rops]. unfold Rdiv. ring. }
    destruct HS as ([v' w'] & HE & H). cbn [fst snd] in H. exists v', w'. tauto.
  Qed.
End Kernels.


(** Spec: (x, nu) solves the KKT system of the ADMM step: P x + sigma x + A' nu = b1, A x - nu / rho = b2. *)
Definition solves_kkt (m n : Z) (P A : Z -> Z -> R) (rho : Z -> R) (sg : R) (b1 b2 x nu : Z -> R) : Prop :=
  (forall j, 0 <= j < n -> (mv n P x j + sg * x j + mtv m A nu j = b1 j)%R) /\ (forall i, 0 <= i < m -> (mv n A x i - nu i / rho i = b2 i)%R).

Lemma mtv_ext m A y y' j : (forall i, 0 <= i < m -> y i = y' i) -> mtv m A y j = mtv m A y' j.
Proof. intros H. apply zsum_ext. intros i Hi. rewrite H by auto. auto. Qed.
Lemma mv_ext n A x x' i : (forall j, 0 <= j < n -> x j = x' j) -> mv n A x i = mv n A x' i.
Proof. intros H. apply zsum_ext. intros j Hj. rewrite H by auto. auto. Qed.
Lemma mtv_minus m A y y' j : mtv m A (fun i => y i - y' i)%R j = (mtv m A y j - mtv m A y' j)%R.
Proof. unfold mtv. rewrite <- zsum_minus. apply zsum_ext. intros. ring. Qed.

Lemma elimination m n P A rho sg b1 b2 x nu : (forall i, 0 <= i < m -> rho i <> 0%R) ->
  solves_kkt m n P A rho sg b1 b2 x nu <->
  (forall j, 0 <= j < n -> mv n (rmat m P A rho sg) x j = (b1 j + mtv m A (fun i => rho i * b2 i)%R j)%R) /\ (forall i, 0 <= i < m -> nu i = (rho i * (mv n A x i - b2 i))%R).
Proof.
  intros HR.
  assert (HN : (forall i, 0 <= i < m -> (mv n A x i - nu i / rho i = b2 i)%R) <-> (forall i, 0 <= i < m -> nu i = (rho i * (mv n A x i - b2 i))%R)).
  { split; intros H i Hi; specialize (H i Hi); specialize (HR i Hi); [rewrite <- H|rewrite H]; field; auto. }
  assert (HX : (forall i, 0 <= i < m -> nu i = (rho i * (mv n A x i - b2 i))%R) -> forall j, mtv m A nu j = (mtv m A (fun i => rho i * mv n A x i)%R j - mtv m A (fun i => rho i * b2 i)%R j)%R).
  { intros H j. rewrite <- mtv_minus. apply mtv_ext. intros i Hi. rewrite H by auto. ring. }
  unfold solves_kkt. split; intros (H1 & H2).
  - pose proof (proj1 HN H2) as H3. clear H2. rename H3 into H2. split; [|exact H2]. intros j Hj. rewrite rmat_mv by auto. rewrite <- (H1 j Hj), (HX H2). ring.
  - split; [|exact (proj2 HN H2)]. intros j Hj. specialize (H1 j Hj). rewrite rmat_mv in H1 by auto. rewrite (HX H2). lra.
Qed.

(** The matrix is positive definite, so its diagonal is positive. *)
Lemma rmat_diag_pos m n P A rho sg j : psd n P -> (0 < sg)%R -> (forall i, 0 <= i < m -> (0 <= rho i)%R) -> 0 <= j < n -> (0 < rmat m P A rho sg j j)%R.
Proof.
  intros HP HS HR Hj. unfold rmat. rewrite Z.eqb_refl.
  assert (H1 : (0 <= P j j)%R).
  { specialize (HP (fun k => if k =? j then 1 else 0)%R). unfold qform in HP. erewrite (zsum_ext 0 n) in HP.
    2:{ intros i Hi. instantiate (1 := fun i => (if i =? j then P i j else 0)%R). cbv beta. destruct (i =? j) eqn:E.
        - rewrite (zsum_ext 0 n _ (fun k => if k =? j then P i k else 0)%R); [apply zsum_single; auto|]. intros k Hk. destruct (k =? j); ring.
        - apply zsum_0. intros k Hk. ring. }
    rewrite zsum_single in HP by auto. exact HP. }
  assert (H2 : (0 <= zsum 0 m (fun i => A i j * rho i * A i j))%R).
  { apply zsum_nonneg. intros i Hi. replace (A i j * rho i * A i j)%R with (rho i * (A i j * A i j))%R by ring. apply Rmult_le_pos; [auto|]. pose proof (Rle_0_sqr (A i j)). auto. }
  lra.
Qed.

(** ** The conjugate-gradient interface *)
Section CG.
  Variables (P A : csc Rops).
  Hypothesis WP : wf P. Hypothesis TP : triu P. Hypothesis WA : wf A. Hypothesis EN : cn A = cn P.
  Let n := cn P. Let m := cm A.

  (** A state of the solver that belongs to P and A. *)
  Record cg_ok (s : @mklcg Rops) : Prop := {
    co_n : cg_n s = n; co_m : cg_m s = m; co_rho : rlen (cg_rho s) = m; co_x : rlen (cg_x s) = n; co_y : rlen (cg_ywork s) = m;
    co_p : rlen (cg_precond s) = n; co_pi : rlen (cg_precond_inv s) = n }.
  Definition tmp_ok (tmp : list R * list R * list R * list R) : Prop := let '(a, b, c, d) := tmp in rlen a = n /\ rlen b = n /\ rlen c = n /\ rlen d = n.
  Notation RM s := (rmat m (sdns P) (dns A) (rnth (cg_rho s)) (cg_sigma s)).
  (** When the library asks for the stopping test it hands over the residual. *)
  Definition honest (s : @mklcg Rops) (dcg : @dcg_oracle Rops) : Prop := forall k b x tmp x' mpre ppre it, dcg k b x tmp = (2, x', (mpre, ppre), it) ->
    forall j, 0 <= j < n -> rnth ppre j = (rnth b j - mv n (RM s) (rnth x') j)%R.

  Lemma norm_lt (v : list R) e : Rltb (@vf_norm_inf Rops v) e = true -> forall j, 0 <= j < rlen v -> (Rabs (rnth v j) < e)%R.
  Proof. intros H j Hj. apply Rltb_iff in H. destruct (vf_norm_inf_spec v) as (_ & HB & _). eapply Rle_lt_trans; [apply HB|exact H]. exists j. auto. Qed.

  Lemma cg_loop_real s dcg eps b : cg_ok s -> honest s dcg -> forall fuel k x yw tmp, rlen yw = m -> tmp_ok tmp ->
    post (@cg_loop Rops dcg P A s eps b fuel k x yw tmp) (fun r => let '(req, x', yw', it) := r in rlen x' = n /\ rlen yw' = m /\
      (req = 2 -> forall j, 0 <= j < n -> (Rabs (rnth b j - mv n (RM s) (rnth x') j) < eps)%R)).
  Proof.
    intros HO HH. destruct HO as [O1 O2 O3 O4 O5 O6 O7]. induction fuel as [|fuel IH]; intros k x yw [[[mp mq] pp] pq] Ly (T1 & T2 & T3 & T4); cbn [cg_loop]; [apply post_none|].
    destruct (dcg k b x (mp, mq, pp, pq)) as [[[req x'] [mpre ppre]] it] eqn:ED.
    destruct (_ && _ && _) eqn:EL; cbn [negb]; [|apply post_none]. apply andb_true_iff in EL as [EL E3]. apply andb_true_iff in EL as [E1 E2]. apply Z.eqb_eq in E1, E2, E3.
    assert (K1 : rlen x' = n) by (unfold n in *; fl). assert (K2 : rlen mpre = n) by (unfold n in *; fl). assert (K3 : rlen ppre = n) by (unfold n in *; fl).
    destruct (req =? 1) eqn:R1.
    { destruct (op_real P A WP TP WA EN (cg_rho s) (cg_sigma s) mpre mq yw) as (v' & w' & EO & L1 & L2 & _); auto. rewrite EO. cbv beta iota. cbn [fst snd]. apply IH; auto. repeat split; auto. }
    destruct (req =? 2) eqn:R2.
    { apply Z.eqb_eq in R2. subst req. destruct (nltb _ _) eqn:EB.
      - apply post_ret. split; [auto|]. split; [auto|]. intros _ j Hj. specialize (HH _ _ _ _ _ _ _ _ ED j Hj). rewrite <- HH. apply norm_lt; [exact EB|unfold n in *; fl].
      - apply IH; auto. repeat split; auto. }
    destruct (req =? 3) eqn:R3.
    { apply post_bind. intros w Hw. apply v2_inv in Hw as (-> & L1 & L2). apply IH; auto. repeat split; auto. change (car Rops) with R in *. rewrite zlen_zip by lia. unfold n in *; lia. }
    apply post_ret. split; [auto|]. split; [auto|]. intros ->. discriminate R2.
  Qed.

  Lemma cg_tol_R : @OSQP_CG_TOL_MIN Rops = (/ 10 ^ 7)%R. Proof. lit_tac. Qed.
  Lemma cg_pol_R : @OSQP_CG_POLISH_TOL Rops = (/ 10 ^ 5)%R. Proof. lit_tac. Qed.

  (** The tolerance of the inner solver never grows during a solve and never falls below 1e-7. *)
  Lemma tolerance_real it rn pr dr f prev e prev' : @cg_compute_tolerance Rops it rn pr dr f prev = (e, prev') -> e = prev' /\
    (it = 1 -> e = (if Rlt_dec rn (/ 10 ^ 7) then 1 else rn * f)%R) /\ (it <> 1 -> (/ 10 ^ 7 <= e <= Rmax prev (/ 10 ^ 7) /\ e <= Rmax (f * sqrt (pr * dr)) (/ 10 ^ 7))%R).
  Proof.
    unfold cg_compute_tolerance. destruct (it =? 1) eqn:E1; cbv zeta; rewrite pair_equal_spec; intros (<- & <-); (split; [reflexivity|]); split; intros Hi; try lia.
    - rewrite cg_tol_R, n1_R. cbn [nltb Rops]. unfold Rltb. destruct (Rlt_dec _ _); reflexivity.
    - rewrite cg_tol_R, c_max_R, c_min_R. cbn [nmul nsqrt Rops]. set (q := (f * sqrt (pr * dr))%R). set (t := (/ 10 ^ 7)%R). change (car Rops) with R in *.
      split; [split; [apply Rmax_r|]|]; (apply Rmax_lub; [|apply Rmax_r]); (eapply Rle_trans; [|apply Rmax_l]); [apply Rmin_r|apply Rmin_l].
  Qed.

  (** What a solve leaves: x and z (or nu when polishing) and how well they solve the KKT system. *)
  Record cg_result (s : @mklcg Rops) (b : list R) (it req : Z) (b' : list R) (s' : @mklcg Rops) : Prop := {
    cr_len : rlen b' = n + m;
    cr_ok : cg_ok s';
    cr_keep : cg_rho s' = cg_rho s /\ cg_sigma s' = cg_sigma s /\ cg_polish s' = cg_polish s /\ cg_precond_inv s' = cg_precond_inv s;
    cr_row : (req = 0 \/ req = 2) -> forall i, 0 <= i < m -> rnth b' (n + i) =
      (if cg_polish s then rnth (cg_rho s) i * (mv n (dns A) (rnth b') i - rnth b (n + i)) else mv n (dns A) (rnth b') i)%R;
    cr_x : (req = 0 \/ req = 2) -> forall j, 0 <= j < n -> rnth b' j = rnth (cg_x s') j;
    cr_col : req = 2 -> exists e, (forall j, 0 <= j < n ->
        (Rabs (rnth b j - (mv n (sdns P) (rnth b') j + cg_sigma s * rnth b' j + mtv m (dns A) (fun i => rnth (cg_rho s) i * (mv n (dns A) (rnth b') i - rnth b (n + i))) j)) < e)%R) /\
      (cg_polish s = false -> e = cg_eps_prev s') /\
      (cg_polish s = true -> e = Rmax (ninf n (fun j => rnth b j + mtv m (dns A) (fun i => rnth (cg_rho s) i * rnth b (n + i)) j) * / 10 ^ 5) (/ 10 ^ 7))%R;
    cr_tol : cg_polish s = false -> it <> 1 -> (/ 10 ^ 7 <= cg_eps_prev s' <= Rmax (cg_eps_prev s) (/ 10 ^ 7))%R }.

  Lemma cg_solve_real dcg fuel s pr dr tmp b it : cg_ok s -> honest s dcg -> tmp_ok tmp -> rlen b = n + m ->
    post (@solve_linsys_mklcg Rops dcg fuel P A s pr dr tmp b it) (fun r => let '(req, b', s') := r in cg_result s b it req b' s').
  Proof.
    intros HO HH HT Lb. pose proof HO as [O1 O2 O3 O4 O5 O6 O7]. assert (N0 : 0 <= n) by (apply (wf_n _ WP)). assert (M0 : 0 <= m) by (apply (wf_m _ WA)).
    unfold solve_linsys_mklcg. rewrite O1, O2. change (car Rops) with R in *.
    destruct (rs_view b 0 n) as (r1 & E1 & L1 & V1); [lia|lia|lia|]. rewrite E1. cbv beta iota. destruct (rs_view b n m) as (r2 & E2 & L2 & V2); [lia|lia|lia|]. rewrite E2. cbv beta iota.
    destruct (rhs_real P A WA EN (cg_rho s) r1 r2 (cg_ywork s)) as (r3 & w3 & E3 & L3 & Lw & V3); auto. rewrite E3. cbv beta iota zeta. cbn [fst snd].
    match goal with |- post (let '(_, _) := ?e in _) _ => destruct e as [[[eps prev] factor] zero] eqn:EE end.
    assert (HP1 : cg_polish s = true -> (eps = Rmax (ninf n (fun j => rnth b j + mtv m (dns A) (fun i => rnth (cg_rho s) i * rnth b (n + i)) j) * / 10 ^ 5) (/ 10 ^ 7))%R).
    { intros HP. rewrite HP in EE. apply pair_equal_spec in EE as [EE _]. apply pair_equal_spec in EE as [EE _]. apply pair_equal_spec in EE as [EE _]. rewrite <- EE. rewrite c_max_R, cg_tol_R, cg_pol_R, vnorm_ninf. cbn [nmul Rops]. rewrite L3.
      do 2 f_equal. apply ninf_ext. intros j Hj. rewrite V3, V1 by auto. cbn [Z.add]. f_equal. apply mtv_ext. intros i Hi. rewrite V2 by auto. reflexivity. }
    assert (HT1 : cg_polish s = false -> it <> 1 -> (/ 10 ^ 7 <= prev <= Rmax (cg_eps_prev s) (/ 10 ^ 7))%R).
    { intros HP Hi. rewrite HP in EE. destruct (if it =? 1 then _ else _) as [f0 z0]. destruct (cg_compute_tolerance _ _ _ _ _ _) as [e1 p1] eqn:EC. injection EE as <- <- <- <-. apply tolerance_real in EC as (-> & _ & EC). apply EC. auto. }
    assert (HE : cg_polish s = false -> eps = prev).
    { intros HP. rewrite HP in EE. destruct (if it =? 1 then _ else _) as [f0 z0]. destruct (cg_compute_tolerance _ _ _ _ _ _) as [e1 p1] eqn:EC. injection EE as <- <- <- <-. apply tolerance_real in EC. tauto. }
    clear EE. eapply post_bindP; [apply (cg_loop_real s dcg eps r3 HO HH); auto|]. intros [[[req x'] yw'] it'] (X1 & X2 & X3).
    destruct ((req =? 0) || (req =? 2)) eqn:ER.
    - assert (EV : @vf_copy Rops r3 x' = Some x'). { unfold vf_copy. rewrite v1_ok by fl. f_equal. apply map_id. } rewrite EV. cbv beta iota.
      assert (HZ : safe (if negb (cg_polish s) then @csc_Axpy Rops A x' r2 n1 n0 else match @csc_Axpy Rops A x' r2 n1 (nopp n1) with Some r2 => vf_ew_prod r2 r2 (cg_rho s) | None => None end)
        (fun z => rlen z = m /\ forall i, 0 <= i < m -> rnth z i = (if cg_polish s then rnth (cg_rho s) i * (mv n (dns A) (rnth x') i - rnth r2 i) else mv n (dns A) (rnth x') i)%R)).
      { destruct (cg_polish s); cbn [negb].
        - eapply safe_bind; [apply rs_Axpy; auto; unfold n, m in *; fl|]. intros z1 (Z1 & Z2). eapply safe_weaken; [apply (rs_v2 z1); unfold m in *; fl|]. intros z2 (Z3 & Z4). fold m in Z1, Z2. split; [fl|]. intros i Hi. rewrite Z4 by fl. rewrite Z2 by fl.
          rewrite nm1_R, n1_R. cbn [nmul Rops]. unfold mv. rewrite EN. fold n. ring.
        - eapply safe_weaken; [apply rs_Axpy; auto; unfold n, m in *; fl|]. intros z1 (Z1 & Z2). fold m in Z1, Z2. split; [fl|]. intros i Hi. rewrite Z2 by fl. rewrite n1_R, n0_R. unfold mv. rewrite EN. fold n. ring. }
      destruct HZ as (z & EZ & Lz & VZ). match goal with |- post (match ?e with Some _ => _ | None => None end) _ => replace e with (Some z) by (symmetry; exact EZ) end. cbv beta iota.
      destruct (rs_view_write b 0 n x') as (b1 & F1 & LB1 & VB1); [lia|lia|lia|auto|]. rewrite F1. cbv beta iota. destruct (rs_view_write b1 n m z) as (b2 & F2 & LB2 & VB2); [lia|lia|lia|auto|]. rewrite F2. cbv beta iota.
      assert (HX : forall j, 0 <= j < n -> rnth b2 j = rnth x' j). { intros j Hj. rewrite VB2 by lia. replace (n <=? j) with false by lia. cbn [andb]. rewrite VB1 by lia. replace (0 <=? j) with true by lia. replace (j <? 0 + n) with true by lia. cbn [andb]. f_equal. lia. }
      assert (HZ2 : forall i, 0 <= i < m -> rnth b2 (n + i) = rnth z i). { intros i Hi. rewrite VB2 by lia. replace (n <=? n + i) with true by lia. replace (n + i <? n + m) with true by lia. cbn [andb]. f_equal. lia. }
      apply post_ret. constructor; cbn [cg_rho cg_sigma cg_polish cg_precond_inv cg_x cg_eps_prev]; auto.
      + lia.
      + constructor; cbn [cg_n cg_m cg_rho cg_x cg_ywork cg_precond cg_precond_inv]; auto.
      + intros _ i Hi. rewrite HZ2, VZ, V2 by auto. rewrite !(mv_ext n (dns A) (rnth b2) (rnth x')) by auto. reflexivity.
      + intros Hr. exists eps. split; [|split; auto]. intros j Hj. specialize (X3 Hr j Hj). rewrite V3 in X3 by auto. rewrite V1 in X3 by auto. cbn [Z.add] in X3. rewrite rmat_mv in X3 by auto.
        rewrite HX by auto. rewrite (mv_ext n (sdns P) (rnth b2) (rnth x')) by auto.
        rewrite (mtv_ext m (dns A) _ (fun i => rnth (cg_rho s) i * mv n (dns A) (rnth x') i - rnth (cg_rho s) i * rnth r2 i)%R) by (intros i Hi; rewrite (mv_ext n (dns A) (rnth b2) (rnth x')) by auto; rewrite V2 by auto; ring).
        rewrite mtv_minus. fold n m in X3. match goal with |- (Rabs ?a < _)%R => match type of X3 with (Rabs ?c < _)%R => replace a with c by ring end end. exact X3.
    - destruct (rs_view_write b 0 n r3) as (b1 & F1 & LB1 & VB1); [lia|lia|lia|auto|]. rewrite F1. cbv beta iota. apply orb_false_iff in ER as [R0 R2]. apply post_ret.
      constructor; cbn [cg_rho cg_sigma cg_polish cg_precond_inv cg_x cg_eps_prev]; auto; try (intros [Hr|Hr]; lia); try lia.
      constructor; cbn [cg_n cg_m cg_rho cg_x cg_ywork cg_precond cg_precond_inv]; auto.
  Qed.

  (** The preconditioner after setup and after every update is the inverse of the diagonal of the current matrix. *)
  Definition precond_current (s : @mklcg Rops) : Prop := forall j, 0 <= j < n -> rnth (cg_precond_inv s) j = (/ RM s j j)%R.
  Lemma update_precond_real s : nodup_rows P -> nodup_rows A -> cg_ok s -> cg_precond_type s = 1 -> exists s', @cg_update_precond Rops P A s = Some s' /\ cg_ok s' /\ precond_current s' /\ cg_rho s' = cg_rho s /\ cg_sigma s' = cg_sigma s.
  Proof.
    intros NP NA [O1 O2 O3 O4 O5 O6 O7] HT. unfold cg_update_precond. rewrite HT. cbn [Z.eqb Pos.eqb].
    destruct (diag_real P A WP WA EN (cg_rho s) (cg_sigma s) (cg_precond s) (cg_precond_inv s)) as (d & di & E & L1 & L2 & V); auto. rewrite E. cbv beta iota. cbn [fst snd].
    eexists. split; [reflexivity|]. split; [constructor; cbn [cg_n cg_m cg_rho cg_x cg_ywork cg_precond cg_precond_inv]; auto|]. cbn [cg_rho cg_sigma]. split; [|auto].
    intros j Hj. cbn [cg_precond_inv cg_rho cg_sigma]. apply V. auto.
  Qed.

  Lemma init_real jx rho sg maxit red fr polish : nodup_rows P -> nodup_rows A -> rlen rho = m -> exists s, @init_linsys_mklcg Rops jx P A rho sg 1 maxit red fr polish = Some s /\
    cg_ok s /\ precond_current s /\ cg_sigma s = sg /\ cg_polish s = polish /\ (forall i, 0 <= i < m -> rnth (cg_rho s) i = if polish then (/ sg)%R else rnth rho i) /\ (forall j, 0 <= j < n -> rnth (cg_x s) j = 0%R).
  Proof.
    intros NP NA Lr. assert (N0 : 0 <= n) by (apply (wf_n _ WP)). assert (M0 : 0 <= m) by (apply (wf_m _ WA)). unfold init_linsys_mklcg. cbv zeta. fold n m.
    assert (HR : exists r, (if negb polish then @vf_copy Rops (zrep m jx) rho else Some (@vf_set_scalar Rops (zrep m jx) (ndiv n1 sg))) = Some r /\ rlen r = m /\ forall i, 0 <= i < m -> rnth r i = if polish then (/ sg)%R else rnth rho i).
    { destruct polish; cbn [negb].
      - eexists. split; [reflexivity|]. unfold vf_set_scalar. change (car Rops) with R in *. split; [rewrite zlen_map, zlen_zrep; lia|]. intros i Hi. rewrite rnth_map by (rewrite zlen_zrep; lia). rewrite n1_R. cbn [ndiv Rops]. unfold Rdiv. ring.
      - exists rho. unfold vf_copy. rewrite v1_ok by (change (car Rops) with R in *; rewrite zlen_zrep; lia). split; [f_equal; apply map_id|]. auto. }
    destruct HR as (r & ER & L & V). match goal with |- context [match ?e with Some _ => _ | None => None end] => replace e with (Some r) by (symmetry; exact ER) end. cbv beta iota.
    match goal with |- context [cg_update_precond P A ?s0] => destruct (update_precond_real s0 NP NA) as (s' & ES & S1 & S2 & S3 & S4) end.
    { constructor; cbn [cg_n cg_m cg_rho cg_x cg_ywork cg_precond cg_precond_inv]; auto; change (car Rops) with R in *; rewrite zlen_zrep; lia. }
    { reflexivity. }
    exists s'. rewrite ES. split; [reflexivity|]. cbn [cg_rho cg_sigma] in S3, S4. split; [auto|]. split; [auto|]. split; [auto|]. rewrite S3.
    revert ES. unfold cg_update_precond. cbn [cg_precond_type Z.eqb Pos.eqb]. destruct (reduced_kkt_diagonal _ _ _ _ _ _) as [d|]; [|discriminate]. cbv beta iota. intros [= <-]. cbn [cg_polish cg_x]. split; [auto|]. split; [auto|].
    intros j Hj. unfold rnth. rewrite znth_zrep by lia. apply n0_R.
  Qed.

  Lemma update_rho_real s rho : nodup_rows P -> nodup_rows A -> cg_ok s -> cg_precond_type s = 1 -> rlen rho = m -> exists s', @update_rho_linsys_mklcg Rops P A s rho = Some s' /\ cg_ok s' /\ precond_current s' /\ cg_rho s' = rho /\ cg_sigma s' = cg_sigma s.
  Proof.
    intros NP NA HO HT Lr. pose proof HO as [O1 O2 O3 O4 O5 O6 O7]. unfold update_rho_linsys_mklcg.
    assert (EV : @vf_copy Rops (cg_rho s) rho = Some rho). { unfold vf_copy. rewrite v1_ok by fl. f_equal. apply map_id. } rewrite EV. cbv beta iota.
    match goal with |- context [cg_update_precond P A ?s0] => destruct (update_precond_real s0 NP NA) as (s' & ES & S1 & S2 & S3 & S4) end.
    { constructor; cbn [cg_n cg_m cg_rho cg_x cg_ywork cg_precond cg_precond_inv]; auto. }
    { exact HT. }
    exists s'. auto.
  Qed.

  (** Switching to the diagonal preconditioner, or keeping it. *)
  Lemma update_settings_real s maxit red fr : nodup_rows P -> nodup_rows A -> cg_ok s -> (cg_precond_type s = 1 -> precond_current s) ->
    exists s', @update_settings_linsys_solver_mklcg Rops P A s 1 maxit red fr = Some s' /\ cg_ok s' /\ cg_precond_type s' = 1 /\ precond_current s' /\
      cg_rho s' = cg_rho s /\ cg_sigma s' = cg_sigma s /\ cg_max_iter s' = maxit /\ cg_reduction_interval s' = red /\ cg_tol_fraction s' = fr.
  Proof.
    intros NP NA HO HC. pose proof HO as [O1 O2 O3 O4 O5 O6 O7]. unfold update_settings_linsys_solver_mklcg. cbv zeta. destruct (Z.eqb_spec (cg_precond_type s) 1) as [e|e]; cbn [negb].
    - eexists. split; [reflexivity|]. split; [constructor; cbn [cg_n cg_m cg_rho cg_x cg_ywork cg_precond cg_precond_inv]; auto|]. cbn [cg_precond_type cg_rho cg_sigma cg_max_iter cg_reduction_interval cg_tol_fraction].
      repeat (split; [solve [auto]|]). auto.
    - match goal with |- context [cg_update_precond P A ?s0] => destruct (update_precond_real s0 NP NA) as (s' & ES & S1 & S2 & S3 & S4) end.
      { constructor; cbn [cg_n cg_m cg_rho cg_x cg_ywork cg_precond cg_precond_inv]; auto. }
      { reflexivity. }
      exists s'. rewrite ES. split; [reflexivity|]. cbn [cg_rho cg_sigma] in S3, S4. split; [auto|].
      revert ES. unfold cg_update_precond. cbn [cg_precond_type Z.eqb Pos.eqb]. destruct (reduced_kkt_diagonal _ _ _ _ _ _) as [d|]; [|discriminate]. cbv beta iota. intros [= <-].
      cbn [cg_precond_type cg_rho cg_sigma cg_max_iter cg_reduction_interval cg_tol_fraction]. repeat (split; [solve [auto]|]). auto.
  Qed.
End CG.
