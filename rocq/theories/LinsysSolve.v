(** Solving with the linear system solver: memory safety for every number system, exactness over the reals. *)
From Coq Require Import ZArith Reals List Bool Lia Lra Permutation.
From Verif Require Import Num Arr ArrFacts RSum Csc CscSpec CscFacts CscFacts2 Scatter CscFacts3 CscFacts5
  Placed Vec Types Kkt KktFacts KktFacts2 KktFacts3 KktSpec KktDense Linsys VecFacts LinsysFacts.
Import ListNotations.
Open Scope Z_scope.

Lemma znth_zseq lo hi k : 0 <= k < hi - lo -> znth 0 (zseq lo hi) k = lo + k.
Proof.
  intros Hk. rewrite (zseq_split lo hi (lo + k)) by lia. rewrite znth_app by lia.
  rewrite zlen_zseq. replace (k <? Z.max 0 (lo + k - lo)) with false by lia.
  replace (k - Z.max 0 (lo + k - lo)) with 0 by lia. reflexivity.
Qed.

Section Gen.
  Context {K : NumOps}.
  Variable E : Env K.
  Hypothesis EO : env_ok E.

  Lemma LDLSolve_spec (ls : linsys K) x b N : ls_n ls + ls_m ls = N -> 0 <= N ->
    perm_ok (Some (ls_perm ls)) N -> N <= zlen (ls_perm ls) -> N <= zlen b -> N <= zlen x ->
    exists bp x', zlen bp = N /\ (forall j, 0 <= j < N -> znth n0 bp j = znth n0 b (znth 0 (ls_perm ls) j)) /\
      LDLSolve E ls x b = Some x' /\ zlen x' = zlen x /\
      (forall j, 0 <= j < N -> znth n0 x' (znth 0 (ls_perm ls) j) = znth n0 (env_ldlsolve E (ls_fac ls) bp) j).
  Proof.
    intros HN H0 (_ & HP2 & HP3) HL Hb Hx. cbn [pm] in *. unfold LDLSolve. rewrite HN.
    rewrite (for_ext _ _ _ (fun j bp => zset bp j (znth n0 b (znth 0 (ls_perm ls) j)))).
    2:{ intros j s Hj. rewrite (zget_Some 0) by lia. pose proof (HP2 j Hj). rewrite (zget_Some n0) by lia. auto. }
    destruct (for_fill n0 (fun j => znth n0 b (znth 0 (ls_perm ls) j)) N (zrep N (env_jx E))) as (bp & -> & Lb & Vb); [rewrite zlen_zrep; lia|].
    rewrite zlen_zrep in Lb by auto. pose proof (eo_len _ EO (ls_fac ls) bp) as Ly.
    set (y := env_ldlsolve E (ls_fac ls) bp) in *.
    exists bp. 
    loop_rule (fun t s => zlen s = zlen x /\ forall j, 0 <= j < t -> znth n0 s (znth 0 (ls_perm ls) j) = znth n0 y j) HI.
    destruct HI as (x' & -> & Lx' & Vx'); [auto| | |].
    - split; auto. intros; lia.
    - intros j s Hj (Ls & Vs). rewrite (zget_Some 0) by lia. rewrite (zget_Some n0 y) by lia. pose proof (HP2 j Hj).
      rewrite zset_Some by lia. eexists; split; [reflexivity|]. rewrite zlen_upd. split; auto.
      intros i Hi. rewrite znth_upd by lia. destruct (Z.eqb_spec (znth 0 (ls_perm ls) i) (znth 0 (ls_perm ls) j)) as [e|ne].
      + apply HP3 in e; [congruence|lia|lia].
      + apply Vs. assert (i <> j) by congruence. lia.
    - exists x'. split; auto. split.
      { intros j Hj. rewrite Vb. replace ((0 <=? j) && (j <? N)) with true by lia. auto. }
      auto.
  Qed.

  Lemma solve_linsys_spec (ls : linsys K) (P A : csc K) sigma r b : wf P -> wf A ->
    ls_ok ls P A sigma r -> cm A + cn P <= zlen b ->
    exists bp b', zlen bp = cm A + cn P /\
      (forall j, 0 <= j < cm A + cn P -> znth n0 bp j = znth n0 b (znth 0 (ls_perm ls) j)) /\
      solve_linsys E ls b = Some b' /\ zlen b' = zlen b /\
      exists sol, zlen sol = cm A + cn P /\
        (forall j, 0 <= j < cm A + cn P -> znth n0 sol (znth 0 (ls_perm ls) j) = znth n0 (env_ldlsolve E (ls_fac ls) bp) j) /\
        (forall j, 0 <= j < cn P -> znth n0 b' j = znth n0 sol j) /\
        (forall j, 0 <= j < cm A -> znth n0 b' (j + cn P) = nadd (znth n0 b (j + cn P)) (nmul (rinv ls j) (znth n0 sol (j + cn P)))).
  Proof.
    intros WP WA LO Hb. pose proof (wf_n _ WP) as Hn. pose proof (wf_m _ WA) as Hm. set (N := cm A + cn P) in *.
    destruct (LDLSolve_spec ls (zrep (ls_n ls + ls_m ls) (env_jx E)) b N) as (bp & sol & Lbp & Vbp & ES & Lsol & Vsol).
    { rewrite (lo_n _ _ _ _ _ LO), (lo_m _ _ _ _ _ LO). unfold N. lia. } { unfold N. lia. } { apply LO. }
    { rewrite (lo_plen _ _ _ _ _ LO). unfold N. lia. } { lia. }
    { rewrite (lo_n _ _ _ _ _ LO), (lo_m _ _ _ _ _ LO). rewrite zlen_zrep; unfold N; lia. }
    exists bp. unfold solve_linsys. rewrite (lo_pol _ _ _ _ _ LO), ES. cbn [negb].
    rewrite (lo_n _ _ _ _ _ LO), (lo_m _ _ _ _ _ LO) in *. rewrite zlen_zrep in Lsol by lia.
    assert (Lsol' : zlen sol = N) by (unfold N; lia).
    rewrite (for_ext _ _ _ (fun j b => zset b j (znth n0 sol j))).
    2:{ intros j s Hj. rewrite (zget_Some n0) by (unfold N in *; lia). auto. }
    destruct (for_fill n0 (fun j => znth n0 sol j) (cn P) b) as (b1 & -> & Lb1 & Vb1); [unfold N in *; lia|].
    loop_rule (fun t s => zlen s = zlen b /\ forall i, znth n0 s i =
       if (cn P <=? i) && (i <? t + cn P) then nadd (znth n0 b i) (nmul (rinv ls (i - cn P)) (znth n0 sol i)) else znth n0 b1 i) HI.
    destruct HI as (b' & -> & Lb' & Vb'); [auto| | |].
    - split; auto. intros i. replace ((cn P <=? i) && (i <? 0 + cn P)) with false by lia. auto.
    - intros j s Hj (Ls & Vs). rewrite (zget_Some n0) by (unfold N in *; lia). rewrite (zget_Some n0 sol) by (unfold N in *; lia).
      assert (HR : match ls_rho_inv_vec ls with Some w => zget w j | None => Some (ls_rho_inv ls) end = Some (rinv ls j)).
      { unfold rinv. destruct (ls_rho_inv_vec ls) as [w|] eqn:Ew; auto. pose proof (lo_rv _ _ _ _ _ LO w Ew). apply zget_Some. lia. }
      rewrite HR. rewrite zset_Some by (unfold N in *; lia). eexists; split; [reflexivity|]. rewrite zlen_upd. split; auto.
      intros i. rewrite znth_upd by (unfold N in *; lia). rewrite !Vs. destruct (Z.eqb_spec i (j + cn P)) as [->|].
      + replace ((cn P <=? j + cn P) && (j + cn P <? j + 1 + cn P)) with true by lia.
        replace ((cn P <=? j + cn P) && (j + cn P <? j + cn P)) with false by lia. rewrite Vb1.
        replace ((0 <=? j + cn P) && (j + cn P <? cn P)) with false by lia. replace (j + cn P - cn P) with j by lia. auto.
      + replace ((cn P <=? i) && (i <? j + 1 + cn P)) with ((cn P <=? i) && (i <? j + cn P)) by lia. auto.
    - exists b'. split; auto. split; auto. split; auto. split; auto. exists sol. split; auto. split; auto. split.
      + intros j Hj. rewrite Vb'. replace ((cn P <=? j) && (j <? cm A + cn P)) with false by lia. rewrite Vb1.
        replace ((0 <=? j) && (j <? cn P)) with true by lia. auto.
      + intros j Hj. rewrite Vb'. replace ((cn P <=? j + cn P) && (j + cn P <? cm A + cn P)) with true by lia.
        replace (j + cn P - cn P) with j by lia. auto.
  Qed.
End Gen.

Lemma minmax_iff rw cl pa pb qr qc a b : rw <= cl -> a <= b ->
  (qr = a <-> rw = pa) -> (qr = b <-> rw = pb) -> (qc = a <-> cl = pa) -> (qc = b <-> cl = pb) ->
  (Z.max qr qc = b /\ Z.min qr qc = a <-> cl = Z.max pa pb /\ rw = Z.min pa pb).
Proof.
  intros H1 H2 [A1 A2] [B1 B2] [C1 C2] [D1 D2]. split.
  - intros [Ha Hb]. destruct (Z.le_ge_cases qr qc) as [Hq|Hq].
    + rewrite Z.max_r in Ha by auto. rewrite Z.min_l in Hb by auto. specialize (A1 Hb). specialize (D1 Ha). clear A2 B1 B2 C1 C2 D2. lia.
    + rewrite Z.max_l in Ha by auto. rewrite Z.min_r in Hb by auto. specialize (B1 Ha). specialize (C1 Hb). clear A1 A2 B2 C2 D1 D2. lia.
  - intros [Ha Hb]. destruct (Z.le_ge_cases pa pb) as [Hq|Hq].
    + rewrite Z.max_r in Ha by auto. rewrite Z.min_l in Hb by auto. specialize (A2 Hb). specialize (D2 Ha). clear A1 B1 B2 C1 C2 D1. lia.
    + rewrite Z.max_l in Ha by auto. rewrite Z.min_r in Hb by auto. specialize (B2 Hb). specialize (C2 Ha). clear A1 A2 B1 C1 D1 D2. lia.
Qed.

(** The factorised matrix is the KKT matrix with rows and columns permuted. *)
Lemma ls_fac_dense (ls : linsys Rops) (P A : csc Rops) sigma r : wf P -> triu P -> wf A -> cn A = cn P ->
  ls_ok ls P A sigma r ->
  forall a b, 0 <= a < cm A + cn P -> 0 <= b < cm A + cn P ->
    sdns (ls_fac ls) a b =
    kktS (cn P) (sdns P) (dns A) sigma (fun k => - r k)%R (znth 0 (ls_perm ls) a) (znth 0 (ls_perm ls) b).
Proof.
  intros WP TP WA HnA LO. pose proof (wf_n _ WP) as Hn. pose proof (wf_m _ WA) as Hm.
  destruct (lo_placed _ _ _ _ _ LO) as (q & SL & Hq & Hqi & PL & _). rewrite <- (lo_cn _ _ _ _ _ LO).
  pose proof (lo_perm _ _ _ _ _ LO) as HP.
  apply (sdns_placed _ _ _ _ _ _ (fun a b => kktS (cn P) (sdns P) (dns A) sigma (fun k => - r k)%R (znth 0 (ls_perm ls) a) (znth 0 (ls_perm ls) b)) PL).
  { intros a b. apply kktS_sym. intros; apply sdns_sym. }
  rewrite (lo_cn _ _ _ _ _ LO). set (N := cm A + cn P) in *. intros a b Ha Hb.
  destruct HP as (_ & HP2 & HP3). cbn [pm] in *. destruct Hq as (_ & Hq2 & Hq3). cbn [pm] in *.
  assert (Hpq : forall i, 0 <= i < N -> znth 0 q (znth 0 (ls_perm ls) i) = i).
  { intros i Hi. pose proof (HP2 i Hi) as Hpi. pose proof (Hq2 _ Hpi). apply HP3; auto. }
  set (pa := znth 0 (ls_perm ls) a). set (pb := znth 0 (ls_perm ls) b).
  assert (Hpa : 0 <= pa < N) by (apply HP2; lia). assert (Hpb : 0 <= pb < N) by (apply HP2; lia).
  transitivity (lsum (fun x => if (kcol P A false x =? Z.max pa pb) && (krow P A false x =? Z.min pa pb)
                               then @kval Rops P A sigma r x else 0%R) (kitems P A false)).
  - apply lsum_ext. intros x Hx.
    assert (HC : (pcol q P A x =? b) && (prow q P A x =? a) =
                 (kcol P A false x =? Z.max pa pb) && (krow P A false x =? Z.min pa pb)).
    { pose proof (kitems_triu P A WP WA HnA TP x Hx) as Hle.
      pose proof (kcol_range P A WP WA (proj1 TP) HnA false x Hx) as Hc.
      pose proof (krow_range P A WP WA (proj1 TP) HnA false x Hx) as Hr. fold N in Hc, Hr.
      unfold pcol, prow. set (rw := krow P A false x) in *. set (cl := kcol P A false x) in *.
      assert (Er : forall i c, 0 <= i < N -> 0 <= c < N -> (znth 0 q i = c <-> i = znth 0 (ls_perm ls) c)).
      { intros i c Hi Hc'. split; [intros <-; symmetry; auto|intros ->; auto]. }
      pose proof (Er rw a ltac:(lia) ltac:(lia)) as E1. pose proof (Er rw b ltac:(lia) ltac:(lia)) as E2.
      pose proof (Er cl a ltac:(lia) ltac:(lia)) as E3. pose proof (Er cl b ltac:(lia) ltac:(lia)) as E4.
      fold pa in E1, E3. fold pb in E2, E4. apply eq_true_iff_eq. rewrite !andb_true_iff, !Z.eqb_eq.
      apply minmax_iff; auto; lia. }
    rewrite HC. auto.
  - rewrite kitems_sum_sym; auto; try lia.
    destruct (Z_le_gt_dec pa pb).
    + rewrite Z.min_l, Z.max_r by lia. auto.
    + rewrite Z.min_r, Z.max_l by lia. apply kktS_sym. intros; apply sdns_sym.
Qed.

(** QDLDL_solve with the factors of M solves the symmetric system stored in M. *)
Definition solves (E : Env Rops) (M : csc Rops) : Prop :=
  forall b : list R, zlen b = cn M -> forall i, 0 <= i < cn M ->
    zsum 0 (cn M) (fun j => (sdns M i j * rnth (env_ldlsolve E M b) j)%R) = rnth b i.

Lemma solve_linsys_exact (E : Env Rops) (ls : linsys Rops) (P A : csc Rops) sigma r (b : list R) :
  env_ok E -> wf P -> triu P -> wf A -> cn A = cn P ->
  ls_ok ls P A sigma r -> (forall j, 0 <= j < cm A -> r j = (- @rinv Rops ls j)%R) -> solves E (ls_fac ls) -> zlen b = cn P + cm A ->
  exists (b' nu : list R), solve_linsys E ls b = Some b' /\ zlen b' = cn P + cm A /\
    (forall i, 0 <= i < cn P ->
       (zsum 0 (cn P) (fun j => (sdns P i j * rnth b' j)%R) + sigma * rnth b' i + zsum 0 (cm A) (fun k => (dns A k i * rnth nu k)%R))%R = rnth b i) /\
    (forall i, 0 <= i < cm A -> rnth b' (cn P + i) = zsum 0 (cn P) (fun j => (dns A i j * rnth b' j)%R)) /\
    (forall i, 0 <= i < cm A -> rnth b' (cn P + i) = (rnth b (cn P + i) + @rinv Rops ls i * rnth nu i)%R).
Proof.
  intros EO WP TP WA HnA LO HR HS Hb. pose proof (wf_n _ WP) as Hn. pose proof (wf_m _ WA) as Hm.
  destruct (solve_linsys_spec E EO ls P A sigma r b WP WA LO) as (bp & b' & Lbp & Vbp & -> & Lb' & sol & Lsol & Vsol & V1 & V2); [change (car Rops) with R; lia|].
  rewrite n0_R in Vbp, Vsol, V1, V2.
  set (N := cm A + cn P) in *.
  assert (HK : forall i, 0 <= i < N -> zsum 0 N (fun j => (kktS (cn P) (sdns P) (dns A) sigma (fun k => - r k)%R i j * rnth sol j)%R) = rnth b i).
  { intros i Hi. destruct (perm_inv (ls_perm ls) N) as (q & _ & Hq1 & Hq2 & _); [lia|apply LO|].
    destruct (Hq2 i Hi) as (Hqr & Hqe). set (a := znth 0 q i) in *.
    specialize (HS bp). rewrite (lo_cn _ _ _ _ _ LO) in HS. fold N in HS. specialize (HS Lbp a Hqr).
    rewrite <- (zsum_reindex (ls_perm ls) N) by (lia || apply LO).
    transitivity (rnth bp a).
    2:{ etransitivity; [exact (Vbp a Hqr)|]. rewrite Hqe. reflexivity. }
    rewrite <- HS. apply zsum_ext. intros j Hj.
    rewrite (ls_fac_dense ls P A sigma r) by auto. rewrite Hqe. f_equal. exact (Vsol j Hj). }
  set (nu := map (fun k => rnth sol (k + cn P)) (zseq 0 (cm A))).
  assert (Hnu : forall k, 0 <= k < cm A -> rnth nu k = rnth sol (k + cn P)).
  { intros k Hk. unfold nu, rnth. rewrite (znth_map 0%R 0) by (rewrite zlen_zseq; lia). rewrite znth_zseq by lia. auto. }
  exists b', nu. split; auto. split; [change (car Rops) with R in *; lia|].
  assert (V1' : forall j, 0 <= j < cn P -> rnth b' j = rnth sol j) by exact V1.
  assert (V2' : forall j, 0 <= j < cm A -> rnth b' (cn P + j) = (rnth b (cn P + j) + @rinv Rops ls j * rnth nu j)%R).
  { intros j Hj. rewrite Hnu by auto. rewrite (Z.add_comm (cn P)). exact (V2 j Hj). }
  assert (HSP : forall i, 0 <= i < N -> (zsum 0 (cn P) (fun j => kktS (cn P) (sdns P) (dns A) sigma (fun k => - r k) i j * rnth b' j) +
            zsum 0 (cm A) (fun k => kktS (cn P) (sdns P) (dns A) sigma (fun k => - r k) i (k + cn P)%Z * rnth nu k) = rnth b i)%R).
  { intros i Hi. rewrite <- (HK i Hi). rewrite (zsum_app 0 (cn P) N) by lia. f_equal.
    - apply zsum_ext. intros j Hj. rewrite V1' by auto. auto.
    - etransitivity; [|symmetry; exact (zsum_shift 0 (cm A) (cn P) _)]. apply zsum_ext. intros k Hk. rewrite Hnu by auto. auto. }
  split; [|split; auto].
  - intros i Hi. rewrite <- (HSP i) by lia. rewrite Rplus_assoc. rewrite (Rplus_comm (sigma * _)). rewrite <- Rplus_assoc.
    rewrite Rplus_comm. rewrite <- Rplus_assoc. f_equal.
    + unfold kktS. replace (i <? cn P) with true by lia.
      transitivity (zsum 0 (cn P) (fun j => sdns P i j * rnth b' j + (if (i =? j)%Z then sigma * rnth b' j else 0))%R).
      * rewrite zsum_plus. rewrite Rplus_comm. f_equal.
        symmetry. rewrite (zsum_single_r 0 (cn P) i (fun j => sigma * rnth b' j)%R) by lia. auto.
      * apply zsum_ext. intros j Hj. replace (j <? cn P) with true by lia. destruct (i =? j); lra.
    + apply zsum_ext. intros k Hk. unfold kktS. replace (i <? cn P) with true by lia. replace (k + cn P <? cn P) with false by lia.
      replace (k + cn P - cn P) with k by lia. auto.
  - intros i Hi. rewrite V2' by auto. specialize (HSP (i + cn P) ltac:(lia)).
    rewrite (Z.add_comm (cn P)). rewrite <- HSP.
    replace (zsum 0 (cm A) (fun k => kktS (cn P) (sdns P) (dns A) sigma (fun k => - r k) (i + cn P)%Z (k + cn P)%Z * rnth nu k)%R)
      with (- @rinv Rops ls i * rnth nu i)%R.
    + replace (zsum 0 (cn P) (fun j => kktS (cn P) (sdns P) (dns A) sigma (fun k => - r k) (i + cn P)%Z j * rnth b' j)%R)
        with (zsum 0 (cn P) (fun j => dns A i j * rnth b' j)%R); [lra|].
      apply zsum_ext. intros j Hj. unfold kktS. replace (i + cn P <? cn P) with false by lia. replace (j <? cn P) with true by lia.
      replace (i + cn P - cn P) with i by lia. auto.
    + symmetry. transitivity (zsum 0 (cm A) (fun k => if (k =? i)%Z then (- @rinv Rops ls i * rnth nu k)%R else 0%R)).
      * apply zsum_ext. intros k Hk. unfold kktS. replace (i + cn P <? cn P) with false by lia. replace (k + cn P <? cn P) with false by lia.
        replace (i + cn P =? k + cn P) with (k =? i) by lia. destruct (Z.eqb_spec k i) as [->|]; [|lra].
        replace (i + cn P - cn P) with i by lia. rewrite HR by auto. change (car Rops) with R. lra.
      * rewrite (zsum_single 0 (cm A) i (fun k => - @rinv Rops ls i * rnth nu k)%R) by lia. auto.
Qed.
