(** Solving the adjoint linear system (Deriv.v): no access leaves an array, and in exact arithmetic with a
    well-conditioned Jacobian the refinement loop brings the residual below 1e-12. *)
From Coq Require Import ZArith Reals List Bool Lia Lra Permutation Psatz.
From Verif Require Import Num Arr ArrFacts RSum Csc CscSpec CscFacts CscFacts2 Scatter CscFacts3 CscFacts5 Placed
  Vec Types Kkt KktFacts KktFacts2 KktFacts3 KktSpec KktDense Linsys VecFacts LinsysFacts LinsysSolve Inv InvStep InvSetup Ldl LdlEnv RealVec UserSpec Deriv DerivAsm DerivNorm.
Import ListNotations.
Open Scope Z_scope.

Section Gen.
  Context {K : NumOps}.
  Variable E : Env K.
  Hypothesis EO : env_ok E.

  Lemma adj_solve_spec (C : csc K) perm dim x b : 0 <= dim -> perm_ok (Some perm) dim -> dim <= zlen perm -> dim <= zlen b -> dim <= zlen x ->
    exists bp x', zlen bp = dim /\ (forall j, 0 <= j < dim -> znth n0 bp j = znth n0 b (znth 0 perm j)) /\
      adj_solve E C perm dim x b = Some x' /\ zlen x' = zlen x /\
      (forall j, 0 <= j < dim -> znth n0 x' (znth 0 perm j) = znth n0 (env_ldlsolve E C bp) j).
  Proof.
    intros H0 (_ & HP2 & HP3) HL Hb Hx. cbn [pm] in *. unfold adj_solve.
    rewrite (for_ext _ _ _ (fun j bp => zset bp j (znth n0 b (znth 0 perm j)))).
    2:{ intros j s Hj. rewrite (zget_Some 0) by lia. pose proof (HP2 j Hj). rewrite (zget_Some n0) by lia. auto. }
    destruct (for_fill n0 (fun j => znth n0 b (znth 0 perm j)) dim (zrep dim (env_jx E))) as (bp & -> & Lb & Vb); [rewrite zlen_zrep; lia|].
    rewrite zlen_zrep in Lb by auto. pose proof (eo_len _ EO C bp) as Ly.
    set (y := env_ldlsolve E C bp) in *.
    exists bp.
    loop_rule (fun t s => zlen s = zlen x /\ forall j, 0 <= j < t -> znth n0 s (znth 0 perm j) = znth n0 y j) HI.
    destruct HI as (x' & -> & Lx' & Vx'); [auto| | |].
    - split; auto. intros; lia.
    - intros j s Hj (Ls & Vs). rewrite (zget_Some 0) by lia. rewrite (zget_Some n0 y) by lia. pose proof (HP2 j Hj).
      rewrite zset_Some by lia. eexists; split; [reflexivity|]. rewrite zlen_upd. split; auto.
      intros i Hi. rewrite znth_upd by lia. destruct (Z.eqb_spec (znth 0 perm i) (znth 0 perm j)) as [e|ne].
      + apply HP3 in e; [congruence|lia|lia].
      + apply Vs. assert (i <> j) by congruence. lia.
    - exists x'. split; auto. split.
      { intros j Hj. rewrite Vb. replace ((0 <=? j) && (j <? dim)) with true by lia. auto. }
      auto.
  Qed.

  Lemma adj_refine_safe k (M C : csc K) perm dim rhs : wf M -> cm M = dim -> cn M = dim -> perm_ok (Some perm) dim -> dim <= zlen perm -> dim <= zlen rhs ->
    forall sol, zlen sol = dim -> safe (adj_refine E k M C perm dim rhs sol) (fun r => zlen r = dim).
  Proof.
    intros WM Hm Hn HP HL HR. assert (H0 : 0 <= dim) by (rewrite <- Hn; apply (wf_n _ WM)).
    induction k as [|k IH]; intros sol Hs; cbn [adj_refine]; [apply safe_ret; auto|].
    eapply safe_bind; [apply safe_from_raw; rewrite zlen_zrep by auto; lia|]. intros r Lr. cbv beta in Lr. rewrite zlen_zrep in Lr by auto. cbv beta.
    eapply safe_bind; [apply safe_symv; [auto|lia|lia|lia]|]. intros r1 Lr1. cbv beta in *.
    destruct (nltb _ _); [apply safe_ret; auto|].
    destruct (adj_solve_spec C perm dim r1 r1) as (bp & r2 & _ & _ & -> & Lr2 & _); auto; [lia|lia|].
    eapply safe_bind; [apply safe_v2; lia|]. intros s2 Ls2. cbv beta in Ls2. apply IH. lia.
  Qed.

  Variables (P G A H : csc K) (sv : list K).
  Hypothesis (WP : wf P) (WG : wf G) (WA : wf A) (WH : wf H).
  Hypothesis (HmP : cm P = cn P) (HnG : cn G = cn P) (HnA : cn A = cn P) (HnH : cn H = cn P) (HmH : cm H = cm G) (HsL : cm G <= zlen sv).
  Hypothesis (HzH : nnz H = nnz G).
  Let N := cm P + cm G + cm A.

  (** Every stage of adjoint_derivative_qdldl. *)
  Lemma adj_run (rhs : list K) : 2 * N <= zlen rhs ->
    exists (D0 D0c D1 C : csc K) perm pinv sol0 sol,
      placed (acol P G A H) (arow P G A) (aval P G A H sv n1 n0) (aitems P G A H) (asl P G A H) D0 /\ cm D0 = 2 * N /\ cn D0 = 2 * N /\
      csc_copy (env_jz E) (env_jx E) D0 = Some D0c /\
      placed (acol P G A H) (arow P G A) (aval P G A H sv (nadd n1 (nlit 1 (-6))) (nsub n0 (nlit 1 (-6)))) (aitems P G A H) (asl P G A H) D1 /\ cm D1 = 2 * N /\ cn D1 = 2 * N /\
      zlen perm = 2 * N /\ perm_ok (Some perm) (2 * N) /\ perm_ok pinv (2 * N) /\
      (forall k, 0 <= k < 2 * N -> pm pinv (znth 0 perm k) = k) /\
      csc_symperm (env_jz E) (env_jx E) D1 pinv None = Some (C, None) /\
      adj_solve E C perm (2 * N) (zrep (2 * N) (env_jx E)) rhs = Some sol0 /\ zlen sol0 = 2 * N /\
      adj_refine E 200 D0c C perm (2 * N) rhs sol0 = Some sol /\ zlen sol = 2 * N /\
      adjoint_derivative_qdldl E P G A H sv rhs = match vf_subvector_assign rhs sol 0 (2 * N) n1 with Some rhs' => Some (0, rhs') | None => None end.
  Proof.
    intros HR. destruct (dims_nonneg P G A WP WG WA) as (Hn & Hx & Hy & HN). fold N in HN.
    unfold adjoint_derivative_qdldl. rewrite !zget_nnz by auto. cbv beta iota zeta. fold N.
    set (nz := N + nnz P + nnz G + nnz A + nnz G + cm G + nnz A + cm P + cm G + cm A).
    assert (Hnz : zlen (aitems P G A H) = nz) by (rewrite zlen_aitems by auto; unfold nz, N; rewrite HzH; lia).
    assert (Hnz0 : 0 <= nz) by (rewrite <- Hnz; apply zlen_nonneg).
    unfold csc_spalloc. cbv zeta. cbn [cp ci cx cnzmax cnz]. rewrite (Z.max_l nz 0) by lia.
    destruct (adj_assemble_spec P G A H sv WP WG WA WH HmP HnG HnA HnH HmH HsL (zrep (2 * N + 1) (env_jz E)) (zrep nz (env_jz E)) (zrep nz (env_jx E)))
      as (p & i & v & -> & Lp & Li & Lv & Vp & VS); [rewrite zlen_zrep; lia|rewrite zlen_zrep; lia|rewrite zlen_zrep; lia|].
    cbv beta iota. fold N in Lp, Vp, VS. rewrite zlen_zrep in Li by lia. rewrite zlen_zrep in Lv by lia.
    destruct (adj_placed P G A H sv WP WG WA WH HmP HnG HnA HnH HmH p i v nz (-1)) as [PL0 NZ0]; auto; try (fold N; lia).
    fold N in PL0, NZ0. set (D0 := mkcsc (2 * N) (2 * N) p i v nz (-1)) in *.
    pose proof (pl_wf _ _ _ _ _ _ PL0) as W0.
    destruct (csc_copy_wf D0 (env_jz E) (env_jx E) W0) as (D0c & EC & Hcm & Hcn & WC & _). rewrite EC. cbv beta iota.
    destruct (adj_perturb_spec P G A H sv WP WG WA WH HmP HnA HnH p i v nz (-1) (nlit 1 (-6)) Lp PL0 Vp) as (v' & Ev' & Lv' & PL1).
    fold N in Ev', PL1. rewrite Ev'. cbv beta iota.
    destruct (eo_amd _ EO (2 * N) p i ltac:(lia)) as (perm & -> & Lpm & HPm).
    destruct HPm as (Hpa & Hpb & Hpc). cbn [pm] in Hpb, Hpc.
    destruct (csc_pinv_spec (env_jz E) perm (2 * N)) as (q & -> & Lq & Q1 & Q2 & HPq); [lia|lia|auto|auto|].
    cbv beta iota. unfold set_x. cbn [cm cn cp ci cnzmax cnz D0].
    set (D1 := mkcsc (2 * N) (2 * N) p i v' nz (-1)) in *. pose proof (pl_wf _ _ _ _ _ _ PL1) as W1.
    destruct (symperm_total K D1 (env_jz E) (env_jx E) (Some q) None W1) as (C & M & ES & WCs & TCs & HM); auto; [discriminate|].
    rewrite ES. cbv beta iota. cbn [fst].
    destruct (adj_solve_spec C perm (2 * N) (zrep (2 * N) (env_jx E)) rhs) as (bp & sol0 & _ & _ & E0 & L0 & _); [lia|split; [auto|split; auto]|lia|lia|rewrite zlen_zrep; lia|].
    rewrite zlen_zrep in L0 by lia. rewrite E0. cbv beta iota.
    destruct (adj_refine_safe 200 D0c C perm (2 * N) rhs WC) with (sol := sol0) as (sol & E1 & L1); [auto|auto|split; [auto|split; auto]|lia|lia|auto|].
    rewrite E1. cbv beta iota. cbv beta in L1.
    exists D0, D0c, D1, C, perm, (Some q), sol0, sol.
    assert (M = None) as -> by (apply HM; auto).
    repeat (split; [solve [auto | reflexivity | split; [auto|split; auto]]|]). reflexivity.
  Qed.

  Lemma adj_safe (rhs : list K) : 2 * N <= zlen rhs ->
    safe (adjoint_derivative_qdldl E P G A H sv rhs) (fun r => fst r = 0 /\ zlen (snd r) = zlen rhs).
  Proof.
    intros HR. destruct (dims_nonneg P G A WP WG WA) as (Hn & Hx & Hy & HN). fold N in HN.
    destruct (adj_run rhs HR) as (D0 & D0c & D1 & C & perm & pinv & sol0 & sol & H1 & H2 & H3 & H4 & H5 & H6 & H7 & H8 & H9 & H10 & H11 & H12 & H13 & H14 & H15 & L & ->).
    unfold vf_subvector_assign. eapply safe_bind; [apply (safe_bind _ _ (fun r => zlen r = 2 * N)); [apply safe_view; lia|]|].
    - intros b Lb. apply safe_view_write; try lia. rewrite zlen_map. auto.
    - intros r Lr. apply safe_ret. cbv beta in *. cbn [fst snd]. auto.
  Qed.
End Gen.

(** ** Exact arithmetic *)
Lemma norm_2_R (v : list R) : @vf_norm_2 Rops v = nrm (rlen v) (rnth v).
Proof.
  unfold vf_norm_2, nrm, sq. change (@nsqrt Rops) with sqrt. f_equal. rewrite n0_R.
  etransitivity; [apply (fold_left_lsum (fun x : R => (x * x)%R))|]. rewrite Rplus_0_l.
  rewrite (list_as_map v) at 1. rewrite lsum_map. reflexivity.
Qed.

Lemma tol12 : (1 * powerRZ 10 (-12))%R = (/ 10 ^ 12)%R.
Proof. unfold powerRZ. change (Pos.to_nat 12) with 12%nat. apply Rmult_1_l. Qed.
Lemma tol6 : @nlit Rops 1 (-6) = (/ 10 ^ 6)%R.
Proof. rewrite lit_R. unfold powerRZ. change (Pos.to_nat 6) with 6%nat. apply Rmult_1_l. Qed.

Lemma reg_ext n : forall a f h, (forall i j, a <= i < a + Z.of_nat n -> a <= j < a + Z.of_nat n -> f i j = h i j) -> regular n a f -> regular n a h.
Proof.
  induction n as [|n IH]; intros a f h H; [auto|]. cbn [regular]. rewrite (H a a) by lia. intros [H1 H2]. split; auto.
  apply (IH (a + 1) (elim a f) (elim a h)); [intros i j Hi Hj; unfold elim; rewrite !H by lia; auto|auto].
Qed.

Section Exact.
  Variable E : Env Rops.
  Hypothesis (EO : env_ok E) (EX : exact_ldl E).
  Variables (N : Z) (M : Z -> Z -> R) (k : R).
  Hypothesis (HN : 0 <= N) (Hk : (/ 100 <= k)%R) (HB : below N (tp M) k).
  (** The adjoint matrix, its perturbed copy, and the permuted copy that is factorised. *)
  Variables (D0 D1 C : csc Rops) (perm : list Z) (pinv : option (list Z)).
  Definition adjS (ep : R) := kktS N (fun i j => if (i =? j)%Z then 1%R else 0%R) (fun r c => M c r) ep (fun _ => ep).
  Hypothesis (W0 : wf D0) (T0 : triu D0) (Hm0 : cm D0 = 2 * N) (Hn0 : cn D0 = 2 * N)
    (S0 : forall a b, 0 <= a < 2 * N -> 0 <= b < 2 * N -> sdns D0 a b = adjS 0 a b).
  Hypothesis (W1 : wf D1) (T1 : triu D1) (Hn1 : cn D1 = 2 * N)
    (S1 : forall a b, 0 <= a < 2 * N -> 0 <= b < 2 * N -> sdns D1 a b = adjS (/ 10 ^ 6) a b).
  Hypothesis (Lp : zlen perm = 2 * N) (HP : perm_ok (Some perm) (2 * N)) (HPi : perm_ok pinv (2 * N))
    (Hinv : forall i, 0 <= i < 2 * N -> pm pinv (znth 0 perm i) = i).
  Hypothesis (ES : csc_symperm (env_jz E) (env_jx E) D1 pinv None = Some (C, None)).

  (** What a vector of length 2N satisfies when it solves a system with adjS. *)
  Lemma adjS_rows ep v i : 0 <= i < N ->
    zsum 0 (2 * N) (fun j => adjS ep i j * v j)%R = ((1 + ep) * v i + mv N M (up N v) i)%R /\
    zsum 0 (2 * N) (fun j => adjS ep (N + i) j * v j)%R = (mv N (tp M) v i - ep * v (N + i)%Z)%R.
  Proof.
    intros Hi. rewrite !(zsum_app 0 N (2 * N)) by lia.
    assert (HS : forall f, zsum N (2 * N) f = zsum 0 N (fun j => f (N + j))).
    { intros f. replace N with (0 + N) at 1 by lia. replace (2 * N) with (N + N) by lia. rewrite zsum_shift. apply zsum_ext. intros j Hj. f_equal. lia. }
    rewrite !HS. unfold adjS, kktS, mv, tp, up. split.
    - replace (i <? N) with true by lia.
      rewrite (zsum_ext 0 N (fun j => (if j <? N then _ else _) * v j)%R (fun j => if j =? i then ((1 + ep) * v i) else 0)%R).
      2:{ intros j Hj. replace (j <? N) with true by lia. rewrite (Z.eqb_sym i j). destruct (Z.eqb_spec j i) as [->|]; ring. }
      rewrite zsum_single by auto. f_equal. apply zsum_ext. intros j Hj. replace (N + j <? N) with false by lia. replace (N + j - N) with j by lia. reflexivity.
    - replace (N + i <? N) with false by lia. replace (N + i - N) with i by lia. unfold Rminus. f_equal.
      + apply zsum_ext. intros j Hj. replace (j <? N) with true by lia. reflexivity.
      + rewrite (zsum_ext 0 N _ (fun j => if j =? i then (- (ep * v (N + i)%Z)) else 0)%R).
        2:{ intros j Hj. replace (N + j <? N) with false by lia. destruct (Z.eqb_spec j i) as [->|]; [rewrite Z.eqb_refl|replace (N + i =? N + j) with false by lia]; ring. }
        rewrite zsum_single by auto. reflexivity.
  Qed.

  Lemma C_solves : solves E C.
  Proof.
    pose proof (symperm_full D1 C (env_jz E) (env_jx E) pinv None None W1 T1) as HF. rewrite Hn1 in HF.
    destruct HF as (WC & TC & HnC & HD & _); auto; [discriminate|].
    apply (el_solve E EX); auto. rewrite HnC.
    apply (reg_ext (Z.to_nat (2 * N)) 0 (fun a b => adjS (/ 10 ^ 6) (znth 0 perm a) (znth 0 perm b))).
    - intros a b Ha Hb. replace (0 + Z.of_nat (Z.to_nat (2 * N))) with (2 * N) in * by lia.
      destruct HP as (_ & Hr & _). cbn [pm] in Hr. rewrite <- S1 by auto. rewrite <- HD by auto. rewrite !Hinv by auto. reflexivity.
    - replace (2 * N) with (N + N) by lia.
      apply (convex_pivots N N (fun i j => if (i =? j)%Z then 1%R else 0%R) (fun r c => M c r) (/ 10 ^ 6) (fun _ => / 10 ^ 6)%R perm); auto.
      + intros. rewrite Z.eqb_sym. auto.
      + replace (N + N) with (2 * N) by lia. auto.
      + intros. lra.
      + lra.
      + intros v. unfold qform. apply zsum_nonneg. intros i Hi. rewrite (zsum_ext 0 N _ (fun j => if j =? i then (v i * v i) else 0)%R).
        2:{ intros j Hj. rewrite (Z.eqb_sym i j). destruct (Z.eqb_spec j i) as [->|]; ring. }
        rewrite zsum_single by auto. nra.
  Qed.

  Lemma adj_solve_exact (x b : list R) : 2 * N <= rlen b -> 2 * N <= rlen x ->
    exists x', adj_solve E C perm (2 * N) x b = Some x' /\ rlen x' = rlen x /\
      forall i, 0 <= i < 2 * N -> zsum 0 (2 * N) (fun j => adjS (/ 10 ^ 6) i j * rnth x' j)%R = rnth b i.
  Proof.
    intros Hb Hx. destruct (adj_solve_spec E EO C perm (2 * N) x b) as (bp & x' & Lbp & Vbp & Ex & Lx & Vx); auto; try lia.
    rewrite n0_R in Vbp, Vx.
    exists x'. split; auto. split; auto. intros i Hi.
    pose proof (symperm_full D1 C (env_jz E) (env_jx E) pinv None None W1 T1) as HF. rewrite Hn1 in HF.
    destruct HF as (WC & TC & HnC & HD & _); auto; [discriminate|].
    destruct (perm_inv perm (2 * N)) as (q & _ & Hq1 & Hq2 & _); [lia|auto|].
    destruct (Hq2 i Hi) as (Hqr & Hqe). set (a := znth 0 q i) in *.
    pose proof C_solves as HS. specialize (HS bp). rewrite HnC in HS. specialize (HS Lbp a Hqr).
    assert (Hr := proj1 (proj2 HP)). cbn [pm] in Hr.
    rewrite <- (zsum_reindex perm (2 * N)) by (lia || auto).
    transitivity (rnth bp a). 2:{ etransitivity; [exact (Vbp a Hqr)|]. rewrite Hqe. reflexivity. }
    rewrite <- HS. apply zsum_ext. intros j Hj. rewrite <- S1 by auto. rewrite <- HD by auto. rewrite <- Hqe, !Hinv by auto. f_equal. exact (Vx j Hj).
  Qed.

  Lemma adj_refine_S t (A B : csc Rops) p dim (rhs sol : list R) : adj_refine E (S t) A B p dim rhs sol =
    match vf_from_raw (zrep dim (env_jx E)) rhs with None => None | Some r =>
    match @csc_Axpy_sym_triu Rops A sol r n1 (@nopp Rops n1) with None => None | Some r =>
    if @nltb Rops (vf_norm_2 r) (nlit 1 (-12)) then Some sol else
    match adj_solve E B p dim r r with None => None | Some r =>
    match @vf_minus Rops sol sol r with None => None | Some sol => adj_refine E t A B p dim rhs sol end end end end.
  Proof. reflexivity. Qed.

  (** The residual of a candidate solution. *)
  Definition resid (rhs sol : Z -> R) (i : Z) : R := (zsum 0 (2 * N) (fun j => adjS 0 i j * sol j) - rhs i)%R.

  Lemma perturbed_step (rhs sol d : Z -> R) :
    (forall i, 0 <= i < 2 * N -> zsum 0 (2 * N) (fun j => adjS (/ 10 ^ 6) i j * d j)%R = resid rhs sol i) ->
    (nrm (2 * N) (resid rhs (fun j => sol j - d j)%R) <= nrm (2 * N) (resid rhs sol) / 50)%R.
  Proof.
    intros HD. assert (HBt : below N M k) by (change M with (tp (tp M)); apply below_tp; auto; lra).
    rewrite (nrm_ext (2 * N) _ (fun i => if i <? N then / 10 ^ 6 * d i else - / 10 ^ 6 * up N d (i - N))%R).
    - apply (contraction N M k d (up N d) (resid rhs sol)); auto; intros i Hi.
      + rewrite <- HD by lia. destruct (adjS_rows (/ 10 ^ 6) d i Hi) as [-> _]. auto.
      + rewrite <- HD by lia. destruct (adjS_rows (/ 10 ^ 6) d i Hi) as [_ ->]. auto.
    - intros i Hi. assert (E0 : resid rhs (fun j => sol j - d j)%R i = (resid rhs sol i - zsum 0 (2 * N) (fun j => adjS 0 i j * d j))%R).
      { unfold resid. rewrite (zsum_ext 0 (2 * N) _ (fun j => adjS 0 i j * sol j - adjS 0 i j * d j)%R) by (intros; ring). rewrite zsum_minus. ring. }
      rewrite E0, <- HD by auto. unfold up. destruct (Z.ltb_spec i N).
      + destruct (adjS_rows (/ 10 ^ 6) d i) as [-> _]; [lia|]. destruct (adjS_rows 0 d i) as [-> _]; [lia|]. ring.
      + set (j := i - N). replace i with (N + j) by (unfold j; lia).
        destruct (adjS_rows (/ 10 ^ 6) d j) as [_ ->]; [unfold j; lia|]. destruct (adjS_rows 0 d j) as [_ ->]; [unfold j; lia|]. ring.
  Qed.

  Lemma first_residual (rhs d : Z -> R) :
    (forall i, 0 <= i < 2 * N -> zsum 0 (2 * N) (fun j => adjS (/ 10 ^ 6) i j * d j)%R = rhs i) ->
    (nrm (2 * N) (resid rhs d) <= nrm (2 * N) rhs / 50)%R.
  Proof.
    intros HD. pose proof (perturbed_step (fun i => - rhs i)%R (fun _ => 0%R) d) as HS.
    assert (E0 : forall i, resid (fun i => - rhs i)%R (fun _ => 0%R) i = rhs i) by (intros i; unfold resid; rewrite (zsum_0 0 (2 * N)) by (intros; ring); ring).
    rewrite (nrm_ext (2 * N) (resid (fun i => - rhs i)%R (fun _ => 0%R)) rhs) in HS by auto.
    rewrite (nrm_ext (2 * N) (resid rhs d) (fun i => -1 * resid (fun i => - rhs i)%R (fun j => 0 - d j)%R i)%R).
    - rewrite nrm_scal. rewrite Rabs_left by lra. replace (- -1)%R with 1%R by ring. rewrite Rmult_1_l. apply HS. intros i Hi. rewrite HD, E0; auto.
    - intros i Hi. unfold resid. rewrite (zsum_ext 0 (2 * N) (fun j => adjS 0 i j * (0 - d j))%R (fun j => -1 * (adjS 0 i j * d j))%R) by (intros; ring). rewrite zsum_scal. ring.
  Qed.

  Lemma adj_refine_exact t (rhs : list R) : 2 * N <= rlen rhs -> forall sol : list R, rlen sol = 2 * N ->
    (nrm (2 * N) (resid (rnth rhs) (rnth sol)) < 50 ^ t * / 10 ^ 12)%R ->
    exists sol', adj_refine E (S t) D0 C perm (2 * N) rhs sol = Some sol' /\ rlen sol' = 2 * N /\
      (nrm (2 * N) (resid (rnth rhs) (rnth sol')) < / 10 ^ 12)%R.
  Proof.
    intros HR. induction t as [|t IH]; intros sol Ls Hs.
    all: rewrite adj_refine_S.
    all: destruct (rs_from_raw (zrep (2 * N) (env_jx E)) rhs) as (r0 & Er0 & Lr0 & Vr0); [rewrite zlen_zrep; lia|].
    all: change (car Rops) with R in *; rewrite zlen_zrep in Lr0, Vr0 by lia; rewrite Er0; cbv beta iota.
    all: destruct (rs_symv D0 sol r0 (@n1 Rops) (@nopp Rops n1)) as (r1 & Er1 & Lr1 & Vr1); auto; try (change (car Rops) with R in *; lia).
    all: change (car Rops) with R in *; rewrite Er1; cbv beta iota.
    all: assert (V : forall i, 0 <= i < 2 * N -> rnth r1 i = resid (rnth rhs) (rnth sol) i)
      by (intros i Hi; rewrite Vr1 by lia; rewrite n1_R; change (@nopp Rops) with Ropp; rewrite Vr0 by lia; unfold resid; rewrite Hn0;
          rewrite (zsum_ext 0 (2 * N) _ (fun j => adjS 0 i j * rnth sol j)%R) by (intros j Hj; rewrite S0 by auto; auto); ring).
    all: rewrite norm_2_R, Lr1, Hm0, (nrm_ext (2 * N) _ _ V); change (@nltb Rops) with Rltb; unfold Rltb; rewrite lit_R;
      rewrite tol12; destruct (Rlt_dec _ _) as [Hlt|Hge].
    - exists sol. auto.
    - exfalso. apply Hge. cbn [pow] in Hs. lra.
    - exists sol. auto.
    - destruct (adj_solve_exact r1 r1) as (d & -> & Ld & Vd); [lia|lia|]. cbv beta iota.
      destruct (rs_v2 sol Rminus sol d) as (s2 & Es2 & Ls2 & Vs2); [auto|lia|].
      assert (Es3 : @vf_minus Rops sol sol d = Some s2) by exact Es2. rewrite Es3.
      destruct (IH s2) as (sol' & E' & L' & V'); [lia| |exists sol'; auto].
      rewrite (nrm_ext (2 * N) _ (resid (rnth rhs) (fun j => rnth sol j - rnth d j)%R)).
      2:{ intros i Hi. unfold resid. f_equal. apply zsum_ext. intros j Hj. rewrite Vs2 by lia. auto. }
      eapply Rle_lt_trans; [apply perturbed_step; intros i Hi; rewrite Vd by auto; apply V; auto|].
      cbn [pow] in Hs. lra.
  Qed.
End Exact.

(** adjoint_derivative_qdldl with a well-conditioned Jacobian. *)
Lemma adj_exact (E : Env Rops) (P G A H : csc Rops) (sv rhs : list R) (k : R) : env_ok E -> exact_ldl E ->
  wf P -> wf G -> wf A -> wf H -> cm P = cn P -> cn G = cn P -> cn A = cn P -> cn H = cn P -> cm H = cm G -> cm G <= rlen sv -> nnz H = nnz G ->
  let N := cm P + cm G + cm A in
  let M := blockM (cm P) (cm G) (dns P) (dns G) (dns A) (dns H) (rnth sv) in
  2 * N <= rlen rhs -> (/ 100 <= k)%R -> below N (tp M) k -> (nrm (2 * N) (rnth rhs) <= 10 ^ 300)%R ->
  exists rhs', adjoint_derivative_qdldl E P G A H sv rhs = Some (0, rhs') /\ rlen rhs' = rlen rhs /\
    (nrm (2 * N) (resid N M (rnth rhs) (rnth rhs')) < / 10 ^ 12)%R.
Proof.
  intros EO EX WP WG WA WH HmP HnG HnA HnH HmH HsL HzH N M HR Hk HB Hb.
  destruct (dims_nonneg P G A WP WG WA) as (Hn & Hx & Hy & HN). fold N in HN.
  destruct (adj_run E EO P G A H sv WP WG WA WH HmP HnG HnA HnH HmH HsL HzH rhs HR) as
    (D0 & D0c & D1 & C & perm & pinv & sol0 & sol & PL0 & Hm0 & Hn0 & EC & PL1 & Hm1 & Hn1 & Lp & HP & HPi & Hinv & ES & E0 & L0 & ER & L1 & ->).
  fold N in Hm0, Hn0, Hm1, Hn1, Lp, HP, HPi, Hinv, E0, L0, ER, L1. fold N. change (car Rops) with R in *.
  pose proof (pl_wf _ _ _ _ _ _ PL0) as W0. pose proof (pl_wf _ _ _ _ _ _ PL1) as W1.
  assert (Tr : forall va (D : csc Rops), cm D = cn D -> placed (acol P G A H) (arow P G A) va (aitems P G A H) (asl P G A H) D -> triu D).
  { intros va D HD PL. apply (placed_triu _ _ _ _ _ _ PL); auto. intros t Ht. apply (aitems_triu P G A H); auto. }
  pose proof (Tr _ D0 ltac:(lia) PL0) as T0. pose proof (Tr _ D1 ltac:(lia) PL1) as T1.
  destruct (csc_copy_wf D0 (env_jz E) (env_jx E) W0) as (D0' & EC' & Hcm & Hcn & WC & HNZ & TC & HC & HRV). rewrite EC in EC'. injection EC' as <-. specialize (TC T0).
  assert (S0 : forall a b, 0 <= a < 2 * N -> 0 <= b < 2 * N -> sdns D0c a b = adjS N M 0 a b).
  { intros a b Ha Hb'. transitivity (sdns D0 a b).
    - assert (CP : copy_of D0 D0c). { repeat split; auto; intros; apply HRV; auto. }
      unfold sdns. destruct (a <=? b); apply (copy_dns D0 D0c W0 CP); lia.
    - rewrite n1_R, n0_R in PL0. rewrite (adj_dense P G A H sv WP WG WA WH HmP HnG HnA HnH HmH 1%R 0%R (asl P G A H) D0 Hn0 PL0 a b Ha Hb').
      unfold adjS, kktS. fold N M. repeat match goal with |- context [if ?c then _ else _] => destruct c end; try reflexivity; ring. }
  assert (S1 : forall a b, 0 <= a < 2 * N -> 0 <= b < 2 * N -> sdns D1 a b = adjS N M (/ 10 ^ 6) a b).
  { intros a b Ha Hb'. rewrite tol6 in PL1. change (@nadd Rops) with Rplus in PL1. change (@nsub Rops) with Rminus in PL1. rewrite n1_R, n0_R in PL1.
    rewrite (adj_dense P G A H sv WP WG WA WH HmP HnG HnA HnH HmH (1 + / 10 ^ 6)%R (0 - / 10 ^ 6)%R (asl P G A H) D1 Hn1 PL1 a b Ha Hb').
    unfold adjS, kktS. fold N M. repeat match goal with |- context [if ?c then _ else _] => destruct c end; try reflexivity; ring. }
  destruct (adj_solve_exact E EO EX N M HN D1 C perm pinv W1 T1 Hn1 S1 Lp HP HPi Hinv ES (zrep (2 * N) (env_jx E)) rhs) as (s0 & Es0 & Ls0 & Vs0);
    [auto|rewrite zlen_zrep; lia|]. pose proof (eq_trans (eq_sym E0) Es0) as Es. injection Es as <-. clear Ls0.
  destruct (adj_refine_exact E EO EX N M k HN Hk HB D0c D1 C perm pinv WC TC) with (t := 199%nat) (rhs := rhs) (sol := sol0) as (s1 & Es1 & Ls1 & Vs1); auto; try lia.
  { eapply Rle_lt_trans; [apply (first_residual N M k HN Hk HB); exact Vs0|].
    assert (HP50 : (10 ^ 312 <= 50 ^ 199)%R) by (rewrite !pow_IZR; apply IZR_le; vm_compute; discriminate).
    rewrite (pow_add 10 300 12 : (10 ^ 312 = _)%R) in HP50.
    assert (HX : (0 < 10 ^ 300)%R) by (apply pow_lt; lra). revert HP50 HX Hb. generalize (10 ^ 300)%R (50 ^ 199)%R (nrm (2 * N) (rnth rhs)). intros X Y z H1 H2 H3.
    assert (HY : (X <= Y * / 10 ^ 12)%R). { apply Rmult_le_reg_r with (10 ^ 12)%R; [apply pow_lt; lra|]. replace (Y * / 10 ^ 12 * 10 ^ 12)%R with Y; [auto|field]. }
    lra. }
  pose proof (eq_trans (eq_sym ER) Es1) as Es. injection Es as <-. unfold vf_subvector_assign.
  destruct (rs_view sol 0 (2 * N)) as (sv1 & Ev1 & Lv1 & Vv1); [lia|lia|lia|].
  assert (Ev1' : @view Rops sol 0 (2 * N) = Some sv1) by exact Ev1. rewrite Ev1'. cbv beta iota.
  destruct (rs_view_write rhs 0 (2 * N) (map (fun v : R => (@nmul Rops n1 v)) sv1)) as (r' & Er & Lr & Vr); [lia|lia|lia|rewrite zlen_map; auto|].
  assert (Er' : @view_write Rops rhs 0 (2 * N) (map (fun v : Rops => (n1 * v)%num) sv1) = Some r') by exact Er. rewrite Er'.
  exists r'. split; auto. split; auto. rewrite (nrm_ext (2 * N) _ (resid N M (rnth rhs) (rnth sol))); auto.
  intros i Hi. unfold resid. f_equal. apply zsum_ext. intros j Hj. f_equal. rewrite Vr by lia.
  replace ((0 <=? j) && (j <? 0 + 2 * N)) with true by lia. rewrite rnth_map by lia. rewrite n1_R. change (@nmul Rops) with Rmult. rewrite Vv1 by lia.
  rewrite Rmult_1_l. f_equal. lia.
Qed.
