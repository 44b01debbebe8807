(** Lemmas on the sparse kernels of [Csc.v]. *)
From Coq Require Import ZArith Reals List Bool Lia Lra Permutation.
From Verif Require Import Num Arr ArrFacts RSum Csc CscSpec.
Import ListNotations.
Open Scope Z_scope.

Section Gen.
  Context {K : NumOps}.
  Implicit Types A B : csc K.

  (** All (column, slot) pairs in storage order. *)
  Definition pairs A : list (Z * Z) :=
    flat_map (fun j => map (fun k => (j, k)) (zseq (colp A j) (colp A (j + 1)))) (zseq 0 (cn A)).

  Lemma In_pairs A j k : In (j, k) (pairs A) <-> 0 <= j < cn A /\ colp A j <= k < colp A (j + 1).
  Proof.
    unfold pairs. rewrite in_flat_map. split.
    - intros (j' & H1 & H2). apply In_zseq in H1. apply in_map_iff in H2 as (k' & E & H2).
      apply In_zseq in H2. inversion E; subst. auto.
    - intros [H1 H2]. exists j. split; [apply In_zseq; auto|]. apply in_map_iff. exists k.
      split; auto. apply In_zseq; auto.
  Qed.

  Lemma colp_mono A : wf A -> forall i j, 0 <= i <= j -> j <= cn A -> colp A i <= colp A j.
  Proof.
    intros W i j Hij Hj. remember (Z.to_nat (j - i)) as d eqn:E. revert j Hij Hj E.
    induction d; intros j Hij Hj E.
    - replace j with i by lia. lia.
    - specialize (IHd (j - 1)). pose proof (wf_mono _ W (j - 1)) as Hm.
      replace (j - 1 + 1) with j in Hm by lia. lia.
  Qed.

  Lemma colp_range A j : wf A -> 0 <= j <= cn A -> 0 <= colp A j <= nnz A.
  Proof.
    intros W Hj. rewrite <- (wf_p0 _ W) at 1. unfold nnz.
    split; apply colp_mono; auto; lia.
  Qed.

  Lemma nnz_nonneg A : wf A -> 0 <= nnz A.
  Proof. intros W. pose proof (wf_n _ W). pose proof (colp_range A (cn A) W). lia. Qed.

  Lemma slot_range A j k : wf A -> 0 <= j < cn A -> colp A j <= k < colp A (j + 1) -> 0 <= k < nnz A.
  Proof.
    intros W Hj Hk. pose proof (colp_range A j W). pose proof (colp_range A (j + 1) W). lia.
  Qed.

  Lemma zget_colp A j : wf A -> 0 <= j <= cn A -> zget (cp A) j = Some (colp A j).
  Proof. intros W Hj. apply zget_Some. pose proof (wf_plen _ W). lia. Qed.

  Lemma zget_rowi A k : wf A -> 0 <= k < nnz A -> zget (ci A) k = Some (rowi A k).
  Proof. intros W Hk. apply zget_Some. pose proof (wf_ilen _ W). lia. Qed.

  Lemma zget_val A (d : K) k : wf A -> 0 <= k < nnz A -> zget (cx A) k = Some (znth d (cx A) k).
  Proof. intros W Hk. apply zget_Some. pose proof (wf_xlen _ W). lia. Qed.

  Lemma zget_nnz A : wf A -> zget (cp A) (cn A) = Some (nnz A).
  Proof. intros W. apply zget_colp; auto. pose proof (wf_n _ W). lia. Qed.

  Lemma for_cols_foldM {S} A (body : Z -> Z -> S -> option S) s : wf A ->
    for_cols (cn A) (cp A) body s = foldM (fun jk s => body (fst jk) (snd jk) s) (pairs A) s.
  Proof.
    intros W. unfold for_cols, pairs. rewrite foldM_flat_map, for_foldM.
    apply foldM_ext_in. intros j s' Hj. apply In_zseq in Hj.
    rewrite !zget_colp by (auto; lia). rewrite for_foldM, foldM_map. auto.
  Qed.

  (** Loop rule for the nested column loop. *)
  Lemma for_cols_rule {S} (P : list (Z * Z) -> S -> Prop) A (body : Z -> Z -> S -> option S) s0 : wf A ->
    P [] s0 ->
    (forall done j k s, 0 <= j < cn A -> colp A j <= k < colp A (j + 1) -> 0 <= k < nnz A ->
       (exists rest, pairs A = done ++ (j, k) :: rest) ->
       P done s -> exists s', body j k s = Some s' /\ P (done ++ [(j, k)]) s') ->
    exists s', for_cols (cn A) (cp A) body s0 = Some s' /\ P (pairs A) s'.
  Proof.
    intros W H0 H. rewrite for_cols_foldM by auto. apply foldM_rule; auto.
    intros done [j k] rest s E HP. simpl.
    assert (HI : In (j, k) (pairs A)) by (rewrite E; apply in_or_app; simpl; auto).
    apply In_pairs in HI as [H1 H2]. apply H; auto.
    - eapply slot_range; eauto.
    - exists rest; auto.
  Qed.

  Lemma NoDup_pairs A : NoDup (pairs A).
  Proof.
    unfold pairs. assert (HN := NoDup_zseq 0 (cn A)). induction HN; simpl; [constructor|].
    assert (HH : forall (l1 l2 : list (Z * Z)), NoDup l1 -> NoDup l2 ->
              (forall y, In y l1 -> ~ In y l2) -> NoDup (l1 ++ l2)).
    { clear. induction l1; simpl; intros l2 H1 H2 H; auto. inversion H1; subst. constructor.
      - rewrite in_app_iff. intros [Hi|Hi]; auto. eapply H; eauto.
      - apply IHl1; auto. }
    apply HH.
    - apply FinFun.Injective_map_NoDup; [|apply NoDup_zseq]. intros a b E; inversion E; auto.
    - auto.
    - intros [j k] H1 H2. apply in_map_iff in H1 as (k' & E & _). inversion E; subst.
      apply in_flat_map in H2 as (j' & Hj' & H2). apply in_map_iff in H2 as (k2 & E2 & _).
      inversion E2; subst. contradiction.
  Qed.

  (** Slots in storage order are 0, 1, ..., nnz-1. *)
  Lemma map_snd_pairs A : wf A -> map snd (pairs A) = zseq 0 (nnz A).
  Proof.
    intros W. unfold pairs, nnz.
    assert (HH : forall n, 0 <= n -> n <= cn A ->
      map snd (flat_map (fun j => map (fun k => (j, k)) (zseq (colp A j) (colp A (j + 1)))) (zseq 0 n))
      = zseq 0 (colp A n)).
    { intros n Hn. pattern n. apply natlike_ind; auto.
      - intros _. rewrite zseq_nil by lia. rewrite (wf_p0 _ W). rewrite zseq_nil by lia. auto.
      - intros x Hx IH Hle. unfold Z.succ. rewrite zseq_snoc by lia. rewrite flat_map_app, map_app.
        rewrite IH by lia. simpl. rewrite app_nil_r, map_map. simpl. rewrite map_id.
        symmetry. apply zseq_app.
        + apply colp_range; auto; lia.
        + apply wf_mono; auto; lia. }
    apply HH; [apply wf_n; auto|lia].
  Qed.
End Gen.

(** The part beta*y over the reals, and its safety for any scalars. *)
Section BetaGen.
  Context {K : NumOps}.
  Lemma vec_set_scalar_spec (d : K) v (c : K) n : 0 <= n <= zlen v ->
    exists v', vec_set_scalar v c n = Some v' /\ zlen v' = zlen v /\
      forall i, znth d v' i = if (0 <=? i) && (i <? n) then c else znth d v i.
  Proof. intros. apply (for_fill d (fun _ => c)); auto. Qed.

  Lemma vec_mult_scalar_spec (d : K) v (c : K) n : 0 <= n <= zlen v ->
    exists v', vec_mult_scalar v c n = Some v' /\ zlen v' = zlen v /\
      forall i, znth d v' i = if (0 <=? i) && (i <? n) then nmul (znth d v i) c else znth d v i.
  Proof. intros. apply (for_map d (fun _ x => nmul x c)); auto. Qed.

  Lemma vec_negate_spec (d : K) v n : 0 <= n <= zlen v ->
    exists v', vec_negate (K:=K) v n = Some v' /\ zlen v' = zlen v /\
      forall i, znth d v' i = if (0 <=? i) && (i <? n) then nopp (znth d v i) else znth d v i.
  Proof. intros. apply (for_map d (fun _ x => nopp x)); auto. Qed.

  Lemma beta_part_len v (c : K) n : 0 <= n <= zlen v ->
    exists v', beta_part v c n = Some v' /\ zlen v' = zlen v.
  Proof.
    intros H. unfold beta_part.
    destruct (neqb c n0).
    { destruct (vec_set_scalar_spec n0 v n0 n H) as (v' & -> & HL & _); eauto. }
    destruct (neqb c n1); [eauto|].
    destruct (neqb c (nopp n1)).
    { destruct (vec_negate_spec n0 v n H) as (v' & -> & HL & _); eauto. }
    destruct (vec_mult_scalar_spec n0 v c n H) as (v' & -> & HL & _); eauto.
  Qed.
End BetaGen.

(** Real comparisons *)
Lemma Rltb_true a b : (a < b)%R -> Rltb a b = true.
Proof. unfold Rltb; destruct (Rlt_dec a b); auto; lra. Qed.
Lemma Rltb_false a b : (b <= a)%R -> Rltb a b = false.
Proof. unfold Rltb; destruct (Rlt_dec a b); auto; lra. Qed.
Lemma Rleb_true a b : (a <= b)%R -> Rleb a b = true.
Proof. unfold Rleb; destruct (Rle_dec a b); auto; lra. Qed.
Lemma Rleb_false a b : (b < a)%R -> Rleb a b = false.
Proof. unfold Rleb; destruct (Rle_dec a b); auto; lra. Qed.
Lemma Reqb_true a b : a = b -> Reqb a b = true.
Proof. unfold Reqb; destruct (Req_EM_T a b); auto; lra. Qed.
Lemma Reqb_false a b : a <> b -> Reqb a b = false.
Proof. unfold Reqb; destruct (Req_EM_T a b); auto; lra. Qed.
Lemma Rltb_iff a b : Rltb a b = true <-> (a < b)%R.
Proof. unfold Rltb; destruct (Rlt_dec a b); split; auto; try discriminate; lra. Qed.
Lemma Rleb_iff a b : Rleb a b = true <-> (a <= b)%R.
Proof. unfold Rleb; destruct (Rle_dec a b); split; auto; try discriminate; lra. Qed.
Lemma Reqb_iff a b : Reqb a b = true <-> a = b.
Proof. unfold Reqb; destruct (Req_EM_T a b); split; auto; try discriminate; lra. Qed.
Lemma Rltb_niff a b : Rltb a b = false <-> (b <= a)%R.
Proof. unfold Rltb; destruct (Rlt_dec a b); split; auto; try discriminate; lra. Qed.
Lemma Rleb_niff a b : Rleb a b = false <-> (b < a)%R.
Proof. unfold Rleb; destruct (Rle_dec a b); split; auto; try discriminate; lra. Qed.
Lemma Reqb_niff a b : Reqb a b = false <-> a <> b.
Proof. unfold Reqb; destruct (Req_EM_T a b); split; auto; try discriminate; lra. Qed.

Lemma n0_R : @n0 Rops = 0%R. Proof. unfold n0, nlit, Rops, Rlit. simpl. lra. Qed.
Lemma n1_R : @n1 Rops = 1%R. Proof. unfold n1, nlit, Rops, Rlit. simpl. lra. Qed.
Lemma nm1_R : @nopp Rops (@n1 Rops) = (-1)%R. Proof. rewrite n1_R. simpl. lra. Qed.
Lemma nofZ_R z : @nofZ Rops z = IZR z. Proof. unfold nofZ, nlit, Rops, Rlit. simpl. lra. Qed.
Lemma c_max_R a b : @c_max Rops a b = Rmax a b.
Proof. unfold c_max; simpl. unfold Rltb, Rmax. destruct (Rlt_dec b a), (Rle_dec a b); auto; lra. Qed.
Lemma c_min_R a b : @c_min Rops a b = Rmin a b.
Proof. unfold c_min; simpl. unfold Rltb, Rmin. destruct (Rlt_dec a b), (Rle_dec a b); auto; lra. Qed.
Lemma c_absval_R a : @c_absval Rops a = Rabs a.
Proof.
  unfold c_absval. rewrite n0_R. simpl. unfold Rltb, Rabs. destruct (Rlt_dec a 0), (Rcase_abs a); auto; lra.
Qed.

Section RealKernels.
  Implicit Types A : csc Rops.
  Implicit Types x y : list R.

  Lemma beta_part_R (v : list R) (c : R) n : 0 <= n <= zlen v ->
    exists v' : list R, @beta_part Rops v c n = Some v' /\ zlen v' = zlen v /\
      forall i, rnth v' i = if (0 <=? i) && (i <? n) then (c * rnth v i)%R else rnth v i.
  Proof.
    intros H. unfold beta_part. rewrite nm1_R, n0_R, n1_R. simpl neqb.
    unfold Reqb. destruct (Req_EM_T c 0) as [->|N0].
    { destruct (@vec_set_scalar_spec Rops 0%R v 0%R n H) as (v' & E & HL & HV).
      exists v'; split; [exact E|]; split; auto. intros i. unfold rnth. rewrite HV.
      destruct ((0 <=? i) && (i <? n)); auto; lra. }
    destruct (Req_EM_T c 1) as [->|N1].
    { exists v; split; auto; split; auto. intros i. destruct ((0 <=? i) && (i <? n)); auto; lra. }
    destruct (Req_EM_T c (-1)) as [->|N2].
    { destruct (@vec_negate_spec Rops 0%R v n H) as (v' & E & HL & HV).
      exists v'; split; [exact E|]; split; auto. intros i. unfold rnth. rewrite HV. simpl.
      destruct ((0 <=? i) && (i <? n)); auto; lra. }
    destruct (@vec_mult_scalar_spec Rops 0%R v c n H) as (v' & E & HL & HV).
    exists v'; split; [exact E|]; split; auto. intros i. unfold rnth. rewrite HV. simpl.
    destruct ((0 <=? i) && (i <? n)); auto; lra.
  Qed.

  (** If each step of the nested loop adds [t j k r] to component r, the loop adds the sum. *)
  Lemma for_cols_accum A (body : Z -> Z -> list R -> option (list R)) (t : Z -> Z -> Z -> R) (len : Z) y0 :
    wf A -> zlen y0 = len ->
    (forall j k y, 0 <= j < cn A -> colp A j <= k < colp A (j + 1) -> 0 <= k < nnz A -> zlen y = len ->
       exists y' : list R, body j k y = Some y' /\ zlen y' = len /\
         forall r, 0 <= r < len -> rnth y' r = (rnth y r + t j k r)%R) ->
    exists y' : list R, for_cols (cn A) (cp A) body y0 = Some y' /\ zlen y' = len /\
      forall r, 0 <= r < len ->
        rnth y' r = (rnth y0 r + zsum 0 (cn A) (fun j => zsum (colp A j) (colp A (j + 1)) (fun k => t j k r)))%R.
  Proof.
    intros W HL Hb.
    destruct (for_cols_rule (fun done y => zlen y = len /\
        forall r, 0 <= r < len -> rnth y r = (rnth y0 r + lsum (fun jk => t (fst jk) (snd jk) r) done)%R)
        A body y0 W) as (y' & E & HL' & HV).
    - split; auto. intros. simpl. lra.
    - intros done j k y Hj Hk Hk' _ (HLy & HVy).
      destruct (Hb j k y Hj Hk Hk' HLy) as (y' & E & HL' & HV). exists y'. split; auto. split; auto.
      intros r Hr. rewrite HV by auto. rewrite HVy by auto. rewrite lsum_snoc. simpl. lra.
    - exists y'. split; auto. split; auto. intros r Hr. rewrite HV by auto. f_equal.
      unfold pairs. rewrite lsum_flat_map. apply lsum_ext. intros j _. rewrite lsum_map. auto.
  Qed.

  Lemma Axpy_double_sum A x i :
    zsum 0 (cn A) (fun j => zsum (colp A j) (colp A (j + 1))
       (fun k => if rowi A k =? i then (valx A k * rnth x j)%R else 0%R))
    = zsum 0 (cn A) (fun j => (dns A i j * rnth x j)%R).
  Proof.
    apply zsum_ext. intros j _. unfold dns. rewrite <- zsum_scal_r. apply zsum_ext. intros k _.
    destruct (rowi A k =? i); lra.
  Qed.

  (** The three loop bodies: scatter (Axpy), gather (Atxpy) and both (symmetric). *)
  Lemma scatter_step A x (g : R -> R -> R -> R) (a : R) :
    wf A -> cn A <= zlen x -> (forall b v0 x0 : R, g b v0 x0 = b + a * (v0 * x0))%R ->
    forall j k (y : list R), 0 <= j < cn A -> colp A j <= k < colp A (j + 1) -> 0 <= k < nnz A -> zlen y = cm A ->
    exists y' : list R, match zget (ci A) k with Some r => match zget (cx A) k with Some v =>
          match zget x j with Some xj => match zget y r with
          | Some yr => zset y r (g yr v xj) | None => None end | None => None end | None => None end | None => None end
          = Some y' /\ zlen y' = cm A /\
       forall r, 0 <= r < cm A -> rnth y' r = (rnth y r + if rowi A k =? r then a * (valx A k * rnth x j) else 0)%R.
  Proof.
    intros W HX Hg j k y Hj _ Hk HL. rewrite (zget_rowi A k W) by lia.
    rewrite (zget_val A (0%R : Rops) k W) by lia.
    rewrite (zget_Some 0%R x j) by lia. pose proof (wf_rows _ W k Hk) as Hrow.
    rewrite (zget_Some 0%R y) by lia. rewrite zset_Some by lia.
    eexists; split; [reflexivity|]. split; [rewrite zlen_upd; auto|].
    intros r Hr. unfold rnth. rewrite znth_upd by lia. rewrite (Z.eqb_sym (rowi A k) r).
    destruct (r =? rowi A k) eqn:E; [|lra]. assert (r = rowi A k) by lia. subst r. rewrite Hg. reflexivity.
  Qed.

  Lemma gather_step A x (g : R -> R -> R -> R) (a : R) :
    wf A -> cm A <= zlen x -> (forall b v0 x0 : R, g b v0 x0 = b + a * (v0 * x0))%R ->
    forall j k (y : list R), 0 <= j < cn A -> colp A j <= k < colp A (j + 1) -> 0 <= k < nnz A -> zlen y = cn A ->
    exists y' : list R, match zget (ci A) k with Some r => match zget (cx A) k with Some v =>
          match zget x r with Some xr => match zget y j with
          | Some yj => zset y j (g yj v xr) | None => None end | None => None end | None => None end | None => None end
          = Some y' /\ zlen y' = cn A /\
       forall r, 0 <= r < cn A -> rnth y' r = (rnth y r + if j =? r then a * (valx A k * rnth x (rowi A k)) else 0)%R.
  Proof.
    intros W HX Hg j k y Hj _ Hk HL. rewrite (zget_rowi A k W) by lia.
    rewrite (zget_val A (0%R : Rops) k W) by lia. pose proof (wf_rows _ W k Hk) as Hrow.
    rewrite (zget_Some 0%R x) by lia.
    rewrite (zget_Some 0%R y) by lia. rewrite zset_Some by lia.
    eexists; split; [reflexivity|]. split; [rewrite zlen_upd; auto|].
    intros r Hr. unfold rnth. rewrite znth_upd by lia. rewrite (Z.eqb_sym j r).
    destruct (r =? j) eqn:E; [|lra]. assert (r = j) by lia. subst r. rewrite Hg. reflexivity.
  Qed.

  Lemma both_step A x (g : R -> R -> R -> R) (a : R) :
    wf A -> cn A <= zlen x -> cm A = cn A -> (forall b v0 x0 : R, g b v0 x0 = b + a * (v0 * x0))%R ->
    forall j k (y : list R), 0 <= j < cn A -> colp A j <= k < colp A (j + 1) -> 0 <= k < nnz A -> zlen y = cm A ->
    exists y' : list R, match zget (ci A) k with Some r => match zget (cx A) k with Some v =>
          match zget x j with Some xj => match zget y r with Some yr =>
          match zset y r (g yr v xj) with Some y => if r =? j then Some y else
          match zget x r with Some xr => match zget y j with Some yj => zset y j (g yj v xr)
          | None => None end | None => None end | None => None end
          | None => None end | None => None end | None => None end | None => None end
          = Some y' /\ zlen y' = cm A /\
       forall r, 0 <= r < cm A -> rnth y' r = (rnth y r + ((if rowi A k =? r then a * (valx A k * rnth x j) else 0)
          + (if rowi A k =? j then 0 else if j =? r then a * (valx A k * rnth x (rowi A k)) else 0)))%R.
  Proof.
    intros W HX Hmn Hg j k y Hj _ Hk HL. rewrite (zget_rowi A k W) by lia.
    rewrite (zget_val A (0%R : Rops) k W) by lia. pose proof (wf_rows _ W k Hk) as Hrow.
    rewrite (zget_Some 0%R x) by lia.
    rewrite (zget_Some 0%R y) by lia. rewrite zset_Some by lia.
    destruct (rowi A k =? j) eqn:Erj.
    - eexists; split; [reflexivity|]. split; [rewrite zlen_upd; auto|].
      intros r Hr. unfold rnth. rewrite znth_upd by lia. rewrite (Z.eqb_sym (rowi A k) r).
      destruct (r =? rowi A k) eqn:E; [|lra]. assert (r = rowi A k) by lia. subst r. rewrite Hg. unfold valx. change (car Rops) with R in *. lra.
    - rewrite (zget_Some 0%R x) by lia.
      rewrite (zget_Some 0%R) by (rewrite zlen_upd; lia). rewrite zset_Some by (rewrite zlen_upd; lia).
      eexists; split; [reflexivity|]. split; [rewrite !zlen_upd; auto|].
      intros r Hr. unfold rnth. rewrite znth_upd by (rewrite zlen_upd; lia). rewrite !znth_upd by lia.
      rewrite (Z.eqb_sym (rowi A k) r), (Z.eqb_sym j r).
      replace (j =? rowi A k) with false by lia.
      destruct (r =? j) eqn:E1, (r =? rowi A k) eqn:E2; try lia.
      + assert (r = j) by lia. subst r. rewrite Hg. unfold valx. change (car Rops) with R in *. lra.
      + assert (r = rowi A k) by lia. subst r. rewrite Hg. unfold valx. change (car Rops) with R in *. lra.
      + lra.
  Qed.

  Lemma dns_empty A i j : wf A -> nnz A = 0 -> 0 <= j < cn A -> dns A i j = 0%R.
  Proof.
    intros W E Hj. unfold dns. pose proof (colp_range A j W). pose proof (colp_range A (j+1) W).
    apply zsum_nil; lia.
  Qed.

  Lemma csc_Axpy_correct A x y (alpha beta : R) :
    wf A -> cn A <= zlen x -> zlen y = cm A ->
    exists y' : list R, @csc_Axpy Rops A x y alpha beta = Some y' /\ zlen y' = cm A /\
      forall i, 0 <= i < cm A ->
        rnth y' i = (alpha * zsum 0 (cn A) (fun j => dns A i j * rnth x j) + beta * rnth y i)%R.
  Proof.
    intros W HX HY. unfold csc_Axpy.
    destruct (beta_part_R y beta (cm A)) as (y1 & -> & HL1 & HV1); [pose proof (wf_m _ W); lia|].
    rewrite (zget_nnz A W). rewrite nm1_R, n0_R, n1_R. simpl neqb.
    assert (HV1' : forall i, 0 <= i < cm A -> rnth y1 i = (beta * rnth y i)%R).
    { intros i Hi. rewrite HV1. replace ((0 <=? i) && (i <? cm A)) with true by lia. auto. }
    assert (HS : forall (body : Z -> Z -> list R -> option (list R)),
      (forall j k y, 0 <= j < cn A -> colp A j <= k < colp A (j + 1) -> 0 <= k < nnz A -> zlen y = cm A ->
       exists y' : list R, body j k y = Some y' /\ zlen y' = cm A /\
         forall r, 0 <= r < cm A -> rnth y' r = (rnth y r + if rowi A k =? r then alpha * (valx A k * rnth x j) else 0)%R) ->
      exists y' : list R, for_cols (cn A) (cp A) body y1 = Some y' /\ zlen y' = cm A /\
        forall i, 0 <= i < cm A ->
        rnth y' i = (alpha * zsum 0 (cn A) (fun j => dns A i j * rnth x j) + beta * rnth y i)%R).
    { intros body Hb.
      destruct (for_cols_accum A body (fun j k r => if rowi A k =? r then alpha * (valx A k * rnth x j) else 0)%R
                  (cm A) y1 W) as (y' & E & HL & HV); auto.
      { congruence. }
      exists y'. split; auto. split; auto. intros i Hi. rewrite HV by auto. rewrite HV1' by auto.
      rewrite <- Axpy_double_sum. rewrite <- zsum_scal. rewrite Rplus_comm. f_equal.
      apply zsum_ext. intros j Hj. rewrite <- zsum_scal. apply zsum_ext. intros k Hk.
      destruct (rowi A k =? i); lra. }
    destruct ((nnz A =? 0)%Z || Reqb alpha 0) eqn:E0.
    { exists y1. split; auto. split; [congruence|]. intros i Hi. rewrite HV1' by auto.
      apply orb_true_iff in E0 as [E0|E0].
      - apply Z.eqb_eq in E0. rewrite zsum_0; [lra|].
        intros j Hj. rewrite dns_empty by auto. lra.
      - apply Reqb_iff in E0. subst. lra. }
    destruct (Reqb alpha (-1)) eqn:E1; [|destruct (Reqb alpha 1) eqn:E2];
      apply HS; apply (scatter_step A x); auto; intros; simpl nsub; simpl nadd; simpl nmul.
    - apply Reqb_iff in E1. subst. lra.
    - apply Reqb_iff in E2. subst. lra.
    - lra.
  Qed.

  Lemma csc_Atxpy_correct A x y (alpha beta : R) :
    wf A -> cm A <= zlen x -> zlen y = cn A ->
    exists y' : list R, @csc_Atxpy Rops A x y alpha beta = Some y' /\ zlen y' = cn A /\
      forall j, 0 <= j < cn A ->
        rnth y' j = (alpha * zsum 0 (cm A) (fun i => dns A i j * rnth x i) + beta * rnth y j)%R.
  Proof.
    intros W HX HY. unfold csc_Atxpy.
    destruct (beta_part_R y beta (cn A)) as (y1 & -> & HL1 & HV1); [pose proof (wf_n _ W); lia|].
    rewrite (zget_nnz A W). rewrite nm1_R, n0_R, n1_R. simpl neqb.
    assert (HV1' : forall i, 0 <= i < cn A -> rnth y1 i = (beta * rnth y i)%R).
    { intros i Hi. rewrite HV1. replace ((0 <=? i) && (i <? cn A)) with true by lia. auto. }
    assert (HD : forall j, 0 <= j < cn A ->
       zsum 0 (cm A) (fun i => dns A i j * rnth x i)%R
       = zsum (colp A j) (colp A (j + 1)) (fun k => valx A k * rnth x (rowi A k))%R).
    { intros j Hj. unfold dns.
      rewrite (zsum_ext 0 (cm A) _ (fun i => zsum (colp A j) (colp A (j + 1))
          (fun k => if i =? rowi A k then valx A k * rnth x i else 0)%R)).
      2:{ intros i Hi. rewrite <- zsum_scal_r. apply zsum_ext. intros k Hk.
          rewrite (Z.eqb_sym i). destruct (rowi A k =? i); lra. }
      rewrite zsum_swap. apply zsum_ext. intros k Hk.
      rewrite (zsum_single 0 (cm A) (rowi A k) (fun i => valx A k * rnth x i)%R); auto.
      apply (wf_rows _ W). eapply slot_range; eauto. }
    assert (HS : forall (body : Z -> Z -> list R -> option (list R)),
      (forall j k y, 0 <= j < cn A -> colp A j <= k < colp A (j + 1) -> 0 <= k < nnz A -> zlen y = cn A ->
       exists y' : list R, body j k y = Some y' /\ zlen y' = cn A /\
         forall r, 0 <= r < cn A -> rnth y' r = (rnth y r + if j =? r then alpha * (valx A k * rnth x (rowi A k)) else 0)%R) ->
      exists y' : list R, for_cols (cn A) (cp A) body y1 = Some y' /\ zlen y' = cn A /\
        forall j, 0 <= j < cn A ->
        rnth y' j = (alpha * zsum 0 (cm A) (fun i => dns A i j * rnth x i) + beta * rnth y j)%R).
    { intros body Hb.
      destruct (for_cols_accum A body (fun j k r => if j =? r then alpha * (valx A k * rnth x (rowi A k)) else 0)%R
                  (cn A) y1 W) as (y' & E & HL & HV); auto.
      { congruence. }
      exists y'. split; auto. split; auto. intros j Hj. rewrite HV by auto. rewrite HV1' by auto.
      rewrite HD by auto. rewrite Rplus_comm. f_equal.
      rewrite <- zsum_scal.
      rewrite (zsum_ext 0 (cn A) _ (fun j' => if j' =? j then
           zsum (colp A j') (colp A (j' + 1)) (fun i => alpha * (valx A i * rnth x (rowi A i))) else 0)%R).
      - rewrite (zsum_single 0 (cn A) j (fun j' => zsum (colp A j') (colp A (j' + 1)) (fun i => alpha * (valx A i * rnth x (rowi A i))))%R); auto.
      - intros j' Hj'. destruct (j' =? j) eqn:E'.
        + apply zsum_ext; auto.
        + apply zsum_0; auto. }
    destruct ((nnz A =? 0)%Z || Reqb alpha 0) eqn:E0.
    { exists y1. split; auto. split; [congruence|]. intros i Hi. rewrite HV1' by auto.
      apply orb_true_iff in E0 as [E0|E0].
      - apply Z.eqb_eq in E0. rewrite zsum_0; [lra|].
        intros j Hj. rewrite dns_empty by auto. lra.
      - apply Reqb_iff in E0. subst. lra. }
    destruct (Reqb alpha (-1)) eqn:E1; [|destruct (Reqb alpha 1) eqn:E2];
      apply HS; apply (gather_step A x); auto; intros; simpl nsub; simpl nadd; simpl nmul.
    - apply Reqb_iff in E1. subst. lra.
    - apply Reqb_iff in E2. subst. lra.
    - lra.
  Qed.

  (** Column j of the stored upper triangle, split at the diagonal. *)
  Lemma dns_triu A i j : wf A -> triu A -> 0 <= j < cn A -> j < i -> dns A i j = 0%R.
  Proof.
    intros W [_ HT] Hj Hi. unfold dns. apply zsum_0. intros k Hk. specialize (HT j k Hj Hk).
    replace (rowi A k =? i) with false by lia. auto.
  Qed.

  Lemma csc_Axpy_sym_triu_correct A x y (alpha beta : R) :
    wf A -> triu A -> cn A <= zlen x -> zlen y = cm A ->
    exists y' : list R, @csc_Axpy_sym_triu Rops A x y alpha beta = Some y' /\ zlen y' = cm A /\
      forall i, 0 <= i < cm A ->
        rnth y' i = (alpha * zsum 0 (cn A) (fun j => sdns A i j * rnth x j) + beta * rnth y i)%R.
  Proof.
    intros W HT HX HY. destruct HT as [Hmn HTr]. assert (HT : triu A) by (split; auto).
    unfold csc_Axpy_sym_triu.
    destruct (beta_part_R y beta (cm A)) as (y1 & -> & HL1 & HV1); [pose proof (wf_m _ W); lia|].
    rewrite (zget_nnz A W). rewrite nm1_R, n0_R, n1_R. simpl neqb.
    assert (HV1' : forall i, 0 <= i < cm A -> rnth y1 i = (beta * rnth y i)%R).
    { intros i Hi. rewrite HV1. replace ((0 <=? i) && (i <? cm A)) with true by lia. auto. }
    assert (HS : forall (body : Z -> Z -> list R -> option (list R)),
      (forall j k y, 0 <= j < cn A -> colp A j <= k < colp A (j + 1) -> 0 <= k < nnz A -> zlen y = cm A ->
       exists y' : list R, body j k y = Some y' /\ zlen y' = cm A /\
         forall r, 0 <= r < cm A -> rnth y' r = (rnth y r + ((if rowi A k =? r then alpha * (valx A k * rnth x j) else 0)
          + (if rowi A k =? j then 0 else if j =? r then alpha * (valx A k * rnth x (rowi A k)) else 0)))%R) ->
      exists y' : list R, for_cols (cn A) (cp A) body y1 = Some y' /\ zlen y' = cm A /\
        forall i, 0 <= i < cm A ->
        rnth y' i = (alpha * zsum 0 (cn A) (fun j => sdns A i j * rnth x j) + beta * rnth y i)%R).
    { intros body Hb.
      destruct (for_cols_accum A body (fun j k r => (if rowi A k =? r then alpha * (valx A k * rnth x j) else 0)
          + (if rowi A k =? j then 0 else if j =? r then alpha * (valx A k * rnth x (rowi A k)) else 0))%R
                  (cm A) y1 W) as (y' & E & HL & HV); auto.
      { congruence. }
      exists y'. split; auto. split; auto. intros i Hi. rewrite HV by auto. rewrite HV1' by auto.
      rewrite Rplus_comm. f_equal.
      (* split the double sum in its scatter and gather parts *)
      rewrite (zsum_ext 0 (cn A) _ (fun j => (alpha * (dns A i j * rnth x j)) +
         (if j =? i then alpha * zsum (colp A j) (colp A (j+1))
            (fun k => if rowi A k =? j then 0 else valx A k * rnth x (rowi A k)) else 0))%R).
      2:{ intros j Hj. rewrite zsum_plus. f_equal.
          - unfold dns. rewrite <- zsum_scal_r, <- zsum_scal. apply zsum_ext. intros k Hk.
            destruct (rowi A k =? i); lra.
          - destruct (j =? i).
            + rewrite <- zsum_scal. apply zsum_ext. intros k Hk. destruct (rowi A k =? j); lra.
            + apply zsum_0. intros k Hk. destruct (rowi A k =? j); lra. }
      rewrite zsum_plus.
      rewrite (zsum_single 0 (cn A) i (fun j => alpha * zsum (colp A j) (colp A (j+1))
            (fun k => if rowi A k =? j then 0 else valx A k * rnth x (rowi A k)))%R) by lia.
      rewrite zsum_scal, <- Rmult_plus_distr_l. f_equal.
      (* gather part = sum over rows above the diagonal of column i *)
      assert (HG : zsum (colp A i) (colp A (i + 1))
                     (fun k => if rowi A k =? i then 0 else valx A k * rnth x (rowi A k))%R
                 = zsum 0 (cn A) (fun j => if j <? i then dns A j i * rnth x j else 0)%R).
      { unfold dns.
        rewrite (zsum_ext 0 (cn A) _ (fun j => zsum (colp A i) (colp A (i + 1))
          (fun k => if j =? rowi A k then (if j <? i then valx A k * rnth x j else 0) else 0)%R)).
        2:{ intros j Hj. destruct (j <? i).
            - rewrite <- zsum_scal_r. apply zsum_ext. intros k Hk.
              rewrite (Z.eqb_sym j). destruct (rowi A k =? j); lra.
            - symmetry. apply zsum_0. intros k Hk. destruct (j =? rowi A k); auto. }
        rewrite zsum_swap. apply zsum_ext. intros k Hk.
        assert (Hk' : 0 <= k < nnz A) by (eapply slot_range; eauto; lia).
        pose proof (wf_rows _ W k Hk') as Hrow.
        rewrite (zsum_single 0 (cn A) (rowi A k) (fun j => if j <? i then valx A k * rnth x j else 0)%R) by lia.
        specialize (HTr i k). assert (rowi A k <= i) by (apply HTr; auto; lia).
        destruct (rowi A k =? i) eqn:E1, (rowi A k <? i) eqn:E2; try lia; lra. }
      rewrite HG, <- zsum_plus. apply zsum_ext. intros j Hj. unfold sdns.
      destruct (i <=? j) eqn:E1, (j <? i) eqn:E2; try lia; try lra.
      rewrite (dns_triu A i j) by (auto; lia). lra. }
    destruct ((nnz A =? 0)%Z || Reqb alpha 0) eqn:E0.
    { exists y1. split; auto. split; [congruence|]. intros i Hi. rewrite HV1' by auto.
      apply orb_true_iff in E0 as [E0|E0].
      - apply Z.eqb_eq in E0. rewrite zsum_0; [lra|].
        intros j Hj. unfold sdns. destruct (i <=? j); rewrite dns_empty by (auto; lia); lra.
      - apply Reqb_iff in E0. subst. lra. }
    destruct (Reqb alpha (-1)) eqn:E1; [|destruct (Reqb alpha 1) eqn:E2];
      apply HS; apply (both_step A x); auto; intros; simpl nsub; simpl nadd; simpl nmul.
    - apply Reqb_iff in E1. subst. lra.
    - apply Reqb_iff in E2. subst. lra.
    - lra.
  Qed.
End RealKernels.
