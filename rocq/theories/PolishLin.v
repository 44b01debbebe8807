(** The reduced system solved by polishing, over the reals. *)
From Coq Require Import ZArith Reals List Bool Lia Lra.
From Verif Require Import Num Arr ArrFacts RSum Csc CscSpec CscFacts CscFacts2 Scatter CscFacts3 CscFacts4 CscFacts5 Placed Vec Types Kkt KktFacts KktFacts2 KktFacts3 KktSpec KktDense Linsys Scaling Validate Auxil Polish
  VecFacts LinsysFacts LinsysSolve Inv InvStep InvApi InvScale InvPolish RecSimp RealVec RealStep Ldl LdlEnv QpSpec.
Import ListNotations.
Open Scope Z_scope.

Section Fac.
  Variable E : Env Rops.
  Hypothesis EO : env_ok E.
  Variables (ls : linsys Rops) (P A : csc Rops) (sigma : R).
  Hypothesis (WP : wf P) (TP : triu P) (WA : wf A) (HnA : cn A = cn P) (LO : pls_ok E ls P A sigma).
  Let N := cm A + cn P.

  Lemma pls_fac : wf (ls_fac ls) /\ forall a b, 0 <= a < N -> 0 <= b < N ->
    sdns (ls_fac ls) a b = kktS (cn P) (sdns P) (dns A) sigma (fun _ => sigma) (znth 0 (ls_perm ls) a) (znth 0 (ls_perm ls) b).
  Proof.
    destruct (po_fac _ _ _ _ _ LO) as (M & q & PL & HnM & TM & Pq & Hqi & ES). fold N in HnM, Pq, Hqi.
    destruct (symperm_full M (ls_fac ls) (env_jz E) (env_jx E) (Some q) None None) as (WC & TC & HnC & HD & _); auto.
    { apply PL. } { rewrite HnM. auto. } { discriminate. }
    rewrite HnM in HD. cbn [pm] in HD. split; [auto|].
    pose proof (po_perm _ _ _ _ _ LO) as (_ & HP2 & HP3). destruct Pq as (_ & Hq2 & _). cbn [pm] in *. fold N in HP2, HP3.
    assert (Hpq : forall i, 0 <= i < N -> znth 0 q (znth 0 (ls_perm ls) i) = i).
    { intros i Hi. pose proof (HP2 i Hi) as Hpi. pose proof (Hq2 _ Hpi). apply HP3; auto. }
    intros a b Ha Hb. rewrite <- (Hpq a Ha) at 1. rewrite <- (Hpq b Hb) at 1. rewrite HD by auto.
    apply (sdns_placed _ _ _ _ _ _ (fun a b => kktS (cn P) (sdns P) (dns A) sigma (fun _ => sigma) a b) PL).
    { intros i j. apply kktS_sym. intros; apply sdns_sym. }
    2,3: rewrite HnM; auto.
    rewrite HnM. intros i j Hi Hj. rewrite kitems_sum_sym by auto. unfold kktS. destruct (i <? cn P), (j <? cn P); auto. destruct (i =? j); auto.
    change (@nsub Rops (@n0 Rops) sigma) with (@n0 Rops - sigma)%R. rewrite n0_R. lra.
  Qed.

  Lemma pls_solves : exact_ldl E -> 0 <= cn P -> LDL_factor E (ls_fac ls) (cn P) = 0 -> solves E (ls_fac ls).
  Proof.
    intros EX Hn HF. destruct pls_fac as (WF & _). pose proof (po_triu _ _ _ _ _ LO) as TF.
    destruct (regular_dec (Z.to_nat (cn (ls_fac ls))) 0 (sdns (ls_fac ls))) as [HR|HR]; [apply (el_solve _ EX); auto|].
    pose proof (el_zero _ EX _ WF TF HR) as H. unfold LDL_factor in HF. destruct (Z.ltb_spec (env_fac E (ls_fac ls)) 0); lia.
  Qed.

  (** A convex P: the factorisation succeeds. *)
  Lemma pls_convex : exact_ldl E -> (0 < sigma)%R -> psd (cn P) (sdns P) -> LDL_factor E (ls_fac ls) (cn P) = 0.
  Proof.
    intros EX Hs HP. pose proof (wf_n _ WP) as H1. pose proof (wf_m _ WA) as H2. destruct pls_fac as (WF & HD). pose proof (po_triu _ _ _ _ _ LO) as TF.
    destruct (convex_pivots (cn P) (cm A) (sdns P) (dns A) sigma (fun _ => sigma) (ls_perm ls)) as [R1 R2]; auto.
    { intros; apply sdns_sym. } { apply LO. }
    destruct (regular_ext ls P A sigma (fun _ => 0%R) (Z.to_nat N) 0 (sdns (ls_fac ls)) (fun a b => kktS (cn P) (sdns P) (dns A) sigma (fun _ => sigma) (znth 0 (ls_perm ls) a) (znth 0 (ls_perm ls) b))) as [G1 G2].
    { intros i j Hi Hj. apply HD; unfold N in *; lia. }
    fold N in R1, R2. apply G1 in R1. pose proof (po_cn _ _ _ _ _ LO) as HN. fold N in HN.
    pose proof (el_fac _ EX _ WF TF) as F. rewrite HN in F. specialize (F R1). rewrite G2, R2 in F.
    unfold LDL_factor. rewrite F. replace (cn P <? 0) with false by lia. rewrite Z.ltb_irrefl. auto.
  Qed.

  Lemma polish_solve_exact (b : list R) : solves E (ls_fac ls) -> zlen b = cn P + cm A ->
    safe (solve_linsys E ls b) (fun x : list R => zlen x = zlen b /\
      (forall i, 0 <= i < cn P -> (zsum 0 (cn P) (fun j => sdns P i j * rnth x j) + sigma * rnth x i + zsum 0 (cm A) (fun k => dns A k i * rnth x (cn P + k)) = rnth b i)%R) /\
      (forall i, 0 <= i < cm A -> (zsum 0 (cn P) (fun j => dns A i j * rnth x j) - sigma * rnth x (cn P + i) = rnth b (cn P + i))%R)).
  Proof.
    intros HS Hb. destruct LO as [H1 H2 H3 H4 H5 H6 H7 _]. unfold solve_linsys. rewrite H3. pose proof (wf_n _ WP) as Hn. pose proof (wf_m _ WA) as Hm. fold N in H4, H5, H7.
    destruct (LDLSolve_spec E EO ls b b N) as (bp & x & Lbp & Vbp & -> & Lx & Vx); auto; try (change (car Rops) with R; unfold N in *; lia).
    apply safe_ret. split; [auto|]. destruct pls_fac as (_ & HD).
    assert (HK : forall i, 0 <= i < N -> zsum 0 N (fun j => (kktS (cn P) (sdns P) (dns A) sigma (fun _ => sigma) i j * rnth x j)%R) = rnth b i).
    { intros i Hi. destruct (perm_inv (ls_perm ls) N) as (q & _ & Hq1 & Hq2 & _); [lia|auto|].
      destruct (Hq2 i Hi) as (Hqr & Hqe). set (a := znth 0 q i) in *. pose proof (HS bp) as HS0. rewrite H7 in HS0. specialize (HS0 Lbp a Hqr).
      rewrite <- (zsum_reindex (ls_perm ls) N) by (lia || auto). rewrite n0_R in Vbp, Vx.
      transitivity (rnth bp a); [|etransitivity; [exact (Vbp a Hqr)|]; rewrite Hqe; reflexivity].
      rewrite <- HS0. apply zsum_ext. intros j Hj. rewrite HD by auto. rewrite Hqe. f_equal. exact (Vx j Hj). }
    assert (HSP : forall i, 0 <= i < N -> (zsum 0 (cn P) (fun j => kktS (cn P) (sdns P) (dns A) sigma (fun _ => sigma) i j * rnth x j) +
            zsum 0 (cm A) (fun k => kktS (cn P) (sdns P) (dns A) sigma (fun _ => sigma) i (cn P + k)%Z * rnth x (cn P + k)) = rnth b i)%R).
    { intros i Hi. rewrite <- (HK i Hi). rewrite (zsum_app 0 (cn P) N) by (unfold N; lia). f_equal.
      etransitivity; [|symmetry; exact (zsum_shift 0 (cm A) (cn P) _)]. apply zsum_ext. intros k Hk. rewrite (Z.add_comm k). auto. }
    split; intros i Hi.
    - rewrite <- (HSP i) by (unfold N; lia). f_equal.
      + transitivity (zsum 0 (cn P) (fun j => sdns P i j * rnth x j + (if (i =? j)%Z then sigma * rnth x j else 0))%R).
        * rewrite zsum_plus. f_equal. symmetry. rewrite (zsum_single_r 0 (cn P) i (fun j => sigma * rnth x j)%R) by lia. auto.
        * apply zsum_ext. intros j Hj. unfold kktS. replace (i <? cn P) with true by lia. replace (j <? cn P) with true by lia. destruct (i =? j); lra.
      + apply zsum_ext. intros k Hk. unfold kktS. replace (i <? cn P) with true by lia. replace (cn P + k <? cn P) with false by lia. replace (cn P + k - cn P) with k by lia. auto.
    - rewrite <- (HSP (cn P + i)) by (unfold N; lia). unfold Rminus. f_equal.
      + apply zsum_ext. intros k Hk. unfold kktS. replace (cn P + i <? cn P) with false by lia. replace (k <? cn P) with true by lia. replace (cn P + i - cn P) with i by lia. auto.
      + transitivity (zsum 0 (cm A) (fun k => if (k =? i)%Z then (- sigma * rnth x (cn P + k))%R else 0%R)).
        * rewrite (zsum_single 0 (cm A) i (fun k => - sigma * rnth x (cn P + k))%R) by lia. lra.
        * apply zsum_ext. intros k Hk. unfold kktS. replace (cn P + i <? cn P) with false by lia. replace (cn P + k <? cn P) with false by lia.
          replace (cn P + i =? cn P + k) with (k =? i) by lia. destruct (k =? i); lra.
  Qed.
End Fac.
