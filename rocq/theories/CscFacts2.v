(** More lemmas on the sparse kernels: in-place updates, norms, safety. *)
From Coq Require Import ZArith Reals List Bool Lia Lra Permutation.
From Verif Require Import Num Arr ArrFacts RSum Csc CscSpec CscFacts.
Import ListNotations.
Open Scope Z_scope.

Section InPlace.
  Context {K : NumOps}.
  Implicit Types A B : csc K.

  Lemma pairs_slot_inj A j k j' : wf A -> In (j, k) (pairs A) -> In (j', k) (pairs A) -> j = j'.
  Proof.
    intros W H1 H2. apply In_pairs in H1 as [Hj Hk]. apply In_pairs in H2 as [Hj' Hk'].
    destruct (Z_lt_ge_dec j j').
    - pose proof (colp_mono A W (j + 1) j'). lia.
    - destruct (Z_lt_ge_dec j' j); [|lia].
      pose proof (colp_mono A W (j' + 1) j). lia.
  Qed.

  (** Every slot below nnz lies in exactly one column. *)
  Lemma slot_col A k : wf A -> 0 <= k < nnz A -> exists j, 0 <= j < cn A /\ colp A j <= k < colp A (j + 1).
  Proof.
    intros W Hk. assert (HI : In k (map snd (pairs A))).
    { rewrite map_snd_pairs by auto. apply In_zseq; auto. }
    apply in_map_iff in HI as ([j k'] & E & HI). simpl in E. subst k'. apply In_pairs in HI. eauto.
  Qed.

  (** Loops of the shape  for j, ptr: x[ptr] = g(j, ptr, x[ptr]). *)
  Lemma for_cols_inplace A (d : K) (g : Z -> Z -> K -> K) (body : Z -> Z -> list K -> option (list K)) x0 :
    wf A -> nnz A <= zlen x0 ->
    (forall j k x, 0 <= j < cn A -> colp A j <= k < colp A (j + 1) -> 0 <= k < nnz A -> zlen x = zlen x0 ->
       body j k x = Some (upd x (Z.to_nat k) (g j k (znth d x k)))) ->
    exists x', for_cols (cn A) (cp A) body x0 = Some x' /\ zlen x' = zlen x0 /\
      (forall j k, 0 <= j < cn A -> colp A j <= k < colp A (j + 1) -> znth d x' k = g j k (znth d x0 k)) /\
      (forall k, ~ (0 <= k < nnz A) -> znth d x' k = znth d x0 k).
  Proof.
    intros W HL Hb.
    destruct (for_cols_rule (fun done x => zlen x = zlen x0 /\
        (forall j k, In (j, k) done -> znth d x k = g j k (znth d x0 k)) /\
        (forall k, ~ In k (map snd done) -> znth d x k = znth d x0 k)) A body x0 W) as (x' & E & HL' & HV & HU).
    - repeat split; auto. simpl; tauto.
    - intros done j k x Hj Hk Hk' (rest & Erest) (HLx & HVx & HUx).
      rewrite Hb by auto. eexists; split; [reflexivity|].
      assert (HN : NoDup (map snd (pairs A))) by (rewrite map_snd_pairs by auto; apply NoDup_zseq).
      assert (Hnew : ~ In k (map snd done)).
      { rewrite Erest, map_app in HN. simpl in HN. apply NoDup_remove_2 in HN.
        intros HI. apply HN. apply in_or_app; auto. }
      split; [rewrite zlen_upd; auto|]. split.
      + intros j0 k0 HI. rewrite znth_upd by lia. apply in_app_or in HI as [HI|[HI|[]]].
        * destruct (k0 =? k) eqn:Ek; [|auto]. apply Z.eqb_eq in Ek. subst k0. exfalso. apply Hnew.
          apply in_map_iff. exists (j0, k); auto.
        * inversion HI; subst. rewrite Z.eqb_refl. rewrite HUx by auto. auto.
      + intros k0 HI. rewrite map_app in HI. simpl in HI. rewrite znth_upd by lia.
        destruct (k0 =? k) eqn:Ek.
        * apply Z.eqb_eq in Ek. subst. exfalso. apply HI. apply in_or_app; simpl; auto.
        * apply HUx. intros HI2. apply HI. apply in_or_app; auto.
    - exists x'. split; auto. split; auto. split.
      + intros j k Hj Hk. apply HV. apply In_pairs; auto.
      + intros k Hk. apply HU. rewrite map_snd_pairs by auto. rewrite In_zseq. auto.
  Qed.

  (** Any loop that keeps the length is safe. *)
  Lemma for_cols_len {X} A (body : Z -> Z -> list X -> option (list X)) x0 :
    wf A ->
    (forall j k x, 0 <= j < cn A -> colp A j <= k < colp A (j + 1) -> 0 <= k < nnz A -> zlen x = zlen x0 ->
       exists x', body j k x = Some x' /\ zlen x' = zlen x0) ->
    exists x', for_cols (cn A) (cp A) body x0 = Some x' /\ zlen x' = zlen x0.
  Proof.
    intros W Hb.
    destruct (for_cols_rule (fun _ x => zlen x = zlen x0) A body x0 W) as (x' & E & HL); eauto.
  Qed.

  Lemma csc_lmult_diag_spec A (d : K) (D : list K) : wf A -> cm A <= zlen D ->
    exists A', csc_lmult_diag A D = Some A' /\ cm A' = cm A /\ cn A' = cn A /\ cp A' = cp A /\ ci A' = ci A /\
      cnzmax A' = cnzmax A /\ cnz A' = cnz A /\ zlen (cx A') = zlen (cx A) /\
      (forall k, 0 <= k < nnz A -> znth d (cx A') k = nmul (znth d (cx A) k) (znth d D (rowi A k))) /\
      (forall k, ~ (0 <= k < nnz A) -> znth d (cx A') k = znth d (cx A) k).
  Proof.
    intros W HD. unfold csc_lmult_diag.
    destruct (for_cols_inplace A d (fun j k x => nmul x (znth d D (rowi A k)))
      (fun j i x => match zget x i with Some xi => match zget (ci A) i with Some r => match zget D r with
        Some dr => zset x i (nmul xi dr) | None => None end | None => None end | None => None end) (cx A) W)
      as (x' & -> & HL & HV & HU).
    - apply (wf_xlen _ W).
    - intros j k x Hj Hk Hk' HLx. pose proof (wf_xlen _ W). rewrite (zget_Some d x) by lia.
      rewrite zget_rowi by auto. pose proof (wf_rows _ W k Hk').
      rewrite (zget_Some d D) by lia. rewrite zset_Some by lia. auto.
    - eexists; split; [reflexivity|]. simpl. repeat (split; [solve [auto]|]). split; auto.
      intros k Hk. destruct (slot_col A k W Hk) as (j & Hj & Hkj). rewrite (HV j) by auto. auto.
  Qed.

  Lemma csc_rmult_diag_spec A (d : K) (D : list K) : wf A -> cn A <= zlen D ->
    exists A', csc_rmult_diag A D = Some A' /\ cm A' = cm A /\ cn A' = cn A /\ cp A' = cp A /\ ci A' = ci A /\
      cnzmax A' = cnzmax A /\ cnz A' = cnz A /\ zlen (cx A') = zlen (cx A) /\
      (forall j k, 0 <= j < cn A -> colp A j <= k < colp A (j + 1) ->
         znth d (cx A') k = nmul (znth d (cx A) k) (znth d D j)) /\
      (forall k, ~ (0 <= k < nnz A) -> znth d (cx A') k = znth d (cx A) k).
  Proof.
    intros W HD. unfold csc_rmult_diag.
    destruct (for_cols_inplace A d (fun j k x => nmul x (znth d D j))
      (fun j i x => match zget x i with Some xi => match zget D j with
        Some dr => zset x i (nmul xi dr) | None => None end | None => None end) (cx A) W)
      as (x' & -> & HL & HV & HU).
    - apply (wf_xlen _ W).
    - intros j k x Hj Hk Hk' HLx. pose proof (wf_xlen _ W). rewrite (zget_Some d x) by lia.
      rewrite (zget_Some d D) by lia. rewrite zset_Some by lia. auto.
    - eexists; split; [reflexivity|]. simpl. repeat (split; [solve [auto]|]). auto.
  Qed.

  Lemma csc_scale_spec A (d : K) (c : K) : wf A ->
    exists A', csc_scale A c = Some A' /\ cm A' = cm A /\ cn A' = cn A /\ cp A' = cp A /\ ci A' = ci A /\
      cnzmax A' = cnzmax A /\ cnz A' = cnz A /\ zlen (cx A') = zlen (cx A) /\
      (forall k, 0 <= k < nnz A -> znth d (cx A') k = nmul (znth d (cx A) k) c) /\
      (forall k, ~ (0 <= k < nnz A) -> znth d (cx A') k = znth d (cx A) k).
  Proof.
    intros W. unfold csc_scale. rewrite zget_nnz by auto.
    destruct (for_map d (fun _ x => nmul x c) (nnz A) (cx A)) as (x' & E & HL & HV).
    { pose proof (nnz_nonneg A W). pose proof (wf_xlen _ W). lia. }
    cbv beta in E. rewrite E. eexists; split; [reflexivity|]. simpl. repeat (split; [solve [auto]|]).
    split; intros k Hk; rewrite HV.
    - replace ((0 <=? k) && (k <? nnz A)) with true by lia. auto.
    - replace ((0 <=? k) && (k <? nnz A)) with false by lia. auto.
  Qed.

  (** Same sparsity pattern, values of the same length: well-formedness carries over. *)
  Lemma wf_same_pattern A B : wf A -> cm B = cm A -> cn B = cn A -> cp B = cp A -> ci B = ci A ->
    zlen (cx A) <= zlen (cx B) -> wf B.
  Proof.
    intros [] E1 E2 E3 E4 HL. unfold colp, rowi, nnz in *.
    constructor; unfold nnz, colp, rowi in *; rewrite ?E1, ?E2, ?E3, ?E4; auto. unfold colp in *. lia.
  Qed.

  Lemma triu_same_pattern A B : triu A -> cm B = cm A -> cn B = cn A -> cp B = cp A -> ci B = ci A -> triu B.
  Proof.
    intros [H1 H2] E1 E2 E3 E4. unfold triu, colp, rowi in *. rewrite E1, E2, E3, E4. auto.
  Qed.

  (** csc_update_values, whole matrix *)
  Lemma csc_update_values_all A (d : K) new n : 0 <= n -> n <= zlen new -> n <= zlen (cx A) ->
    exists A', csc_update_values A new None n = Some A' /\ cm A' = cm A /\ cn A' = cn A /\ cp A' = cp A /\
      ci A' = ci A /\ cnzmax A' = cnzmax A /\ cnz A' = cnz A /\ zlen (cx A') = zlen (cx A) /\
      forall k, znth d (cx A') k = if (0 <=? k) && (k <? n) then znth d new k else znth d (cx A) k.
  Proof.
    intros H0 H1 H2. unfold csc_update_values.
    rewrite (for_ext 0 n _ (fun i x => zset x i (znth d new i))).
    2:{ intros i x Hi. rewrite (zget_Some d new) by lia. auto. }
    destruct (for_fill d (znth d new) n (cx A)) as (x' & -> & HL & HV); [lia|].
    eexists; split; [reflexivity|]. simpl. repeat (split; [solve [auto]|]). auto.
  Qed.

  (** csc_update_values with indices: the last assignment to a slot wins. *)
  Lemma csc_update_values_idx A (d : K) new idx n : 0 <= n -> n <= zlen new -> n <= zlen idx ->
    (forall i, 0 <= i < n -> 0 <= znth 0 idx i < zlen (cx A)) ->
    exists A', csc_update_values A new (Some idx) n = Some A' /\ cm A' = cm A /\ cn A' = cn A /\ cp A' = cp A /\
      ci A' = ci A /\ cnzmax A' = cnzmax A /\ cnz A' = cnz A /\ zlen (cx A') = zlen (cx A) /\
      (forall i, 0 <= i < n -> (forall i', i < i' < n -> znth 0 idx i' <> znth 0 idx i) ->
          znth d (cx A') (znth 0 idx i) = znth d new i) /\
      (forall k, (forall i, 0 <= i < n -> znth 0 idx i <> k) -> znth d (cx A') k = znth d (cx A) k).
  Proof.
    intros H0 H1 H2 Hidx. unfold csc_update_values.
    destruct (for_rule (fun t x => zlen x = zlen (cx A) /\
       (forall i, 0 <= i < t -> (forall i', i < i' < t -> znth 0 idx i' <> znth 0 idx i) ->
          znth d x (znth 0 idx i) = znth d new i) /\
       (forall k, (forall i, 0 <= i < t -> znth 0 idx i <> k) -> znth d x k = znth d (cx A) k)) 0 n
       (fun i x => match zget idx i with Some k => match zget new i with Some v => zset x k v | None => None end | None => None end) (cx A))
      as (x' & -> & HL & HV & HU).
    - auto.
    - repeat split; auto. intros; lia.
    - intros i x Hi (HLx & HVx & HUx). rewrite (zget_Some 0 idx) by lia. rewrite (zget_Some d new) by lia.
      rewrite zset_Some by (rewrite HLx; auto). eexists; split; [reflexivity|].
      split; [rewrite zlen_upd; auto|]. split.
      + intros i0 Hi0 Hlast. rewrite znth_upd by (rewrite HLx; auto).
        destruct (znth 0 idx i0 =? znth 0 idx i) eqn:E.
        * apply Z.eqb_eq in E. destruct (Z.eq_dec i0 i) as [->|N]; auto.
          exfalso. apply (Hlast i); [lia|]. auto.
        * destruct (Z.eq_dec i0 i) as [->|N]; [lia|]. apply HVx; [lia|]. intros i' Hi'. apply Hlast. lia.
      + intros k Hk. rewrite znth_upd by (rewrite HLx; auto).
        replace (k =? znth 0 idx i) with false by (specialize (Hk i); lia). apply HUx.
        intros i0 Hi0. apply Hk. lia.
    - eexists; split; [reflexivity|]. simpl. repeat (split; [solve [auto]|]). auto.
  Qed.

  (** csc_copy *)
  Lemma for_copy {X} (d : X) (a b : list X) n : 0 <= n -> n <= zlen a -> n <= zlen b ->
    exists b', for_ 0 n (fun i b => match zget a i with Some v => zset b i v | None => None end) b = Some b' /\
      zlen b' = zlen b /\ forall i, 0 <= i < n -> znth d b' i = znth d a i.
  Proof.
    intros H0 H1 H2. rewrite (for_ext 0 n _ (fun i x => zset x i (znth d a i))).
    2:{ intros i x Hi. rewrite (zget_Some d a) by lia. auto. }
    destruct (for_fill d (znth d a) n b) as (x' & -> & HL & HV); [lia|].
    eexists; split; [reflexivity|]. split; auto. intros i Hi. rewrite HV.
    replace ((0 <=? i) && (i <? n)) with true by lia. auto.
  Qed.

  Lemma csc_copy_spec A jz jx (d : K) : wf A ->
    exists B, csc_copy jz jx A = Some B /\ cm B = cm A /\ cn B = cn A /\
      zlen (cp B) = cn A + 1 /\ zlen (ci B) = nnz A /\ zlen (cx B) = nnz A /\ cnzmax B = nnz A /\ cnz B = -1 /\
      (forall j, 0 <= j <= cn A -> colp B j = colp A j) /\
      (forall k, 0 <= k < nnz A -> rowi B k = rowi A k /\ znth d (cx B) k = znth d (cx A) k).
  Proof.
    intros W. unfold csc_copy. rewrite zget_nnz by auto. pose proof (nnz_nonneg A W). pose proof (wf_n _ W).
    unfold csc_spalloc. simpl. rewrite Z.max_l by lia.
    destruct (for_copy 0 (cp A) (zrep (cn A + 1) jz) (cn A + 1)) as (p & -> & Lp & Vp);
      [lia|apply (wf_plen _ W)|rewrite zlen_zrep; lia|].
    destruct (for_copy 0 (ci A) (zrep (nnz A) jz) (nnz A)) as (i & -> & Li & Vi);
      [lia|apply (wf_ilen _ W)|rewrite zlen_zrep; lia|].
    destruct (for_copy d (cx A) (zrep (nnz A) jx) (nnz A)) as (x & -> & Lx & Vx);
      [lia|apply (wf_xlen _ W)|rewrite zlen_zrep; lia|].
    rewrite zlen_zrep in Lp by lia. rewrite zlen_zrep in Li by lia. rewrite zlen_zrep in Lx by lia.
    eexists; split; [reflexivity|]. simpl. repeat (split; [solve [auto; lia]|]).
    split.
    - intros j Hj. unfold colp. simpl. apply Vp; lia.
    - intros k Hk. split; [unfold rowi; simpl; apply Vi; lia|apply Vx; lia].
  Qed.
End InPlace.

(** Column entries as a list, in storage order. *)
Section Entries.
  Context {K : NumOps}.
  Definition slots (Ci : list Z) (Cx : list K) (lo hi : Z) : list (Z * K) :=
    map (fun s => (znth 0 Ci s, znth n0 Cx s)) (zseq lo hi).
  Definition col_entries (A : csc K) (j : Z) : list (Z * K) := slots (ci A) (cx A) (colp A j) (colp A (j + 1)).
End Entries.

Lemma dns_entries (A : csc Rops) i j :
  dns A i j = lsum (fun rv : Z * R => if fst rv =? i then snd rv else 0%R) (col_entries A j).
Proof.
  unfold dns, col_entries, slots. rewrite lsum_map. unfold zsum. apply lsum_ext. intros k _. cbn [fst snd].
  unfold rowi, valx. rewrite n0_R. reflexivity.
Qed.

(** ** Norms over the reals *)

Lemma is_maxabs_unique S e1 e2 : is_maxabs S e1 -> is_maxabs S e2 -> e1 = e2.
Proof.
  intros (H1 & H2 & H3) (H1' & H2' & H3'). apply Rle_antisym.
  - destruct H3 as [->|(v & Hv & ->)]; auto.
  - destruct H3' as [->|(v & Hv & ->)]; auto.
Qed.

Lemma is_maxabs_ext (S S' : R -> Prop) e : (forall v, S v <-> S' v) -> is_maxabs S e -> is_maxabs S' e.
Proof.
  intros H (H1 & H2 & H3). split; auto. split.
  - intros v Hv. apply H2. apply H; auto.
  - destruct H3 as [?|(v & Hv & E)]; auto. right. exists v. split; auto. apply H; auto.
Qed.

Lemma is_maxabs_add (S S' : R -> Prop) e v : is_maxabs S e -> (forall w, S' w <-> S w \/ w = v) ->
  is_maxabs S' (Rmax (Rabs v) e).
Proof.
  intros (H1 & H2 & H3) HS. pose proof (Rabs_pos v).
  split; [eapply Rle_trans; [exact H|apply Rmax_l]|]. split.
  - intros w Hw. apply HS in Hw as [Hw| ->].
    + eapply Rle_trans; [apply H2; auto|apply Rmax_r].
    + apply Rmax_l.
  - unfold Rmax. destruct (Rle_dec (Rabs v) e).
    + destruct H3 as [?|(w & Hw & E)]; auto. right. exists w. split; auto. apply HS; auto.
    + right. exists v. split; auto. apply HS; auto.
Qed.

Lemma for_cols_max (A : csc Rops) (body : Z -> Z -> list R -> option (list R)) (t : Z -> Z -> Z -> bool) (len : Z) y0 :
  wf A -> zlen y0 = len -> (forall r, 0 <= r < len -> rnth y0 r = 0%R) ->
  (forall j k y, 0 <= j < cn A -> colp A j <= k < colp A (j + 1) -> 0 <= k < nnz A -> zlen y = len ->
     exists y' : list R, body j k y = Some y' /\ zlen y' = len /\
       forall r, 0 <= r < len -> rnth y' r = if t j k r then Rmax (Rabs (valx A k)) (rnth y r) else rnth y r) ->
  exists y' : list R, for_cols (cn A) (cp A) body y0 = Some y' /\ zlen y' = len /\
    forall r, 0 <= r < len ->
      is_maxabs (fun v => exists j k, 0 <= j < cn A /\ colp A j <= k < colp A (j + 1) /\ t j k r = true /\ v = valx A k)
                (rnth y' r).
Proof.
  intros W HL H0 Hb.
  destruct (for_cols_rule (fun done y => zlen y = len /\
      forall r, 0 <= r < len -> is_maxabs (fun v => exists j k, In (j, k) done /\ t j k r = true /\ v = valx A k) (rnth y r))
      A body y0 W) as (y' & E & HL' & HV).
  - split; auto. intros r Hr. rewrite H0 by auto. split; [lra|]. split; auto.
    intros v (j & k & [] & _).
  - intros done j k y Hj Hk Hk' _ (HLy & HVy).
    destruct (Hb j k y Hj Hk Hk' HLy) as (y' & E & HL' & HV). exists y'. split; auto. split; auto.
    intros r Hr. rewrite HV by auto. specialize (HVy r Hr). destruct (t j k r) eqn:Et.
    + eapply is_maxabs_add; [exact HVy|]. intros w. split.
      * intros (j0 & k0 & HI & Ht & ->). apply in_app_or in HI as [HI|[HI|[]]].
        { left. eauto. } { inversion HI; subst; auto. }
      * intros [(j0 & k0 & HI & Ht & ->)| ->].
        { exists j0, k0. split; auto. apply in_or_app; auto. }
        { exists j, k. split; auto. apply in_or_app; simpl; auto. }
    + eapply is_maxabs_ext; [|exact HVy]. intros w. split.
      * intros (j0 & k0 & HI & Ht & ->). exists j0, k0. split; auto. apply in_or_app; auto.
      * intros (j0 & k0 & HI & Ht & ->). apply in_app_or in HI as [HI|[HI|[]]]; [eauto|].
        inversion HI; subst. congruence.
  - exists y'. split; auto. split; auto. intros r Hr. eapply is_maxabs_ext; [|apply HV; auto].
    intros v. split.
    + intros (j & k & HI & Ht & ->). apply In_pairs in HI as [? ?]. exists j, k; auto.
    + intros (j & k & ? & ? & Ht & ->). exists j, k. split; auto. apply In_pairs; auto.
Qed.

Lemma vec_zero_R (v : list R) n : 0 <= n <= zlen v ->
  exists v' : list R, @vec_set_scalar Rops v n0 n = Some v' /\ zlen v' = zlen v /\
    forall i, 0 <= i < n -> rnth v' i = 0%R.
Proof.
  intros H. destruct (@vec_set_scalar_spec Rops 0%R v n0 n H) as (v' & E & HL & HV).
  exists v'. split; auto. split; auto. intros i Hi. unfold rnth. rewrite HV.
  replace ((0 <=? i) && (i <? n)) with true by lia. apply n0_R.
Qed.

Lemma csc_col_norm_inf_correct (A : csc Rops) (E : list R) : wf A -> zlen E = cn A ->
  exists E' : list R, @csc_col_norm_inf Rops A E = Some E' /\ zlen E' = cn A /\
    forall j, 0 <= j < cn A ->
      is_maxabs (fun v => exists k, colp A j <= k < colp A (j + 1) /\ v = valx A k) (rnth E' j).
Proof.
  intros W HE. unfold csc_col_norm_inf.
  destruct (vec_zero_R E (cn A)) as (E1 & -> & HL1 & H1); [pose proof (wf_n _ W); lia|].
  destruct (for_cols_max A (fun j ptr E => match zget (cx A) ptr with Some v => match zget E j with
     Some Ej => zset E j (@c_max Rops (c_absval v) Ej) | None => None end | None => None end)
     (fun j k r => j =? r) (cn A) E1 W) as (E2 & HE2 & HL2 & H2); auto; try lia.
  - intros j k y Hj Hk Hk' HL. rewrite (zget_val A (0%R : Rops) k W) by lia.
    rewrite (zget_Some 0%R y) by lia. rewrite zset_Some by lia. eexists; split; [reflexivity|].
    split; [rewrite zlen_upd; auto|]. intros r Hr. unfold rnth. rewrite znth_upd by lia.
    rewrite (Z.eqb_sym j r). destruct (r =? j) eqn:Er; auto. assert (r = j) by lia; subst.
    rewrite c_max_R, c_absval_R. reflexivity.
  - exists E2. split; auto. split; auto. intros j Hj. eapply is_maxabs_ext; [|apply H2; auto].
    intros v. split.
    + intros (j' & k & ? & ? & Ht & ->). exists k. split; auto. apply Z.eqb_eq in Ht. subst; auto.
    + intros (k & ? & ->). exists j, k. rewrite Z.eqb_refl. auto.
Qed.

Lemma csc_row_norm_inf_correct (A : csc Rops) (E : list R) : wf A -> zlen E = cm A ->
  exists E' : list R, @csc_row_norm_inf Rops A E = Some E' /\ zlen E' = cm A /\
    forall i, 0 <= i < cm A ->
      is_maxabs (fun v => exists k, 0 <= k < nnz A /\ rowi A k = i /\ v = valx A k) (rnth E' i).
Proof.
  intros W HE. unfold csc_row_norm_inf.
  destruct (vec_zero_R E (cm A)) as (E1 & -> & HL1 & H1); [pose proof (wf_m _ W); lia|].
  destruct (for_cols_max A (fun j ptr E => match zget (ci A) ptr with Some i => match zget (cx A) ptr with Some v => match zget E i with
     Some Ei => zset E i (@c_max Rops (c_absval v) Ei) | None => None end | None => None end | None => None end)
     (fun j k r => rowi A k =? r) (cm A) E1 W) as (E2 & HE2 & HL2 & H2); auto; try lia.
  - intros j k y Hj Hk Hk' HL. rewrite zget_rowi by auto. rewrite (zget_val A (0%R : Rops) k W) by lia.
    pose proof (wf_rows _ W k Hk').
    rewrite (zget_Some 0%R y) by lia. rewrite zset_Some by lia. eexists; split; [reflexivity|].
    split; [rewrite zlen_upd; auto|]. intros r Hr. unfold rnth. rewrite znth_upd by lia.
    rewrite (Z.eqb_sym (rowi A k) r). destruct (r =? rowi A k) eqn:Er; auto. assert (r = rowi A k) by lia; subst.
    rewrite c_max_R, c_absval_R. reflexivity.
  - exists E2. split; auto. split; auto. intros i Hi. eapply is_maxabs_ext; [|apply H2; auto].
    intros v. split.
    + intros (j' & k & ? & ? & Ht & ->). exists k. split; [eapply slot_range; eauto|]. split; auto. lia.
    + intros (k & Hk & ? & ->). destruct (slot_col A k W Hk) as (j & ? & ?). exists j, k. repeat split; auto; lia.
Qed.

Lemma csc_row_norm_inf_sym_triu_correct (A : csc Rops) (E : list R) : wf A -> cm A = cn A -> zlen E = cm A ->
  exists E' : list R, @csc_row_norm_inf_sym_triu Rops A E = Some E' /\ zlen E' = cm A /\
    forall i, 0 <= i < cm A ->
      is_maxabs (fun v => exists j k, 0 <= j < cn A /\ colp A j <= k < colp A (j + 1) /\
                                      (j = i \/ rowi A k = i) /\ v = valx A k) (rnth E' i).
Proof.
  intros W Hmn HE. unfold csc_row_norm_inf_sym_triu.
  destruct (vec_zero_R E (cm A)) as (E1 & -> & HL1 & H1); [pose proof (wf_m _ W); lia|].
  destruct (for_cols_max A (fun j ptr E => match zget (ci A) ptr with Some i => match zget (cx A) ptr with Some v =>
     let abs_x := @c_absval Rops v in match zget E j with Some Ej => match zset E j (c_max abs_x Ej) with Some E =>
     if i =? j then Some E else match zget E i with Some Ei => zset E i (c_max abs_x Ei) | None => None end
       | None => None end | None => None end | None => None end | None => None end)
     (fun j k r => (j =? r) || (rowi A k =? r)) (cm A) E1 W) as (E2 & HE2 & HL2 & H2); auto; try lia.
  - intros j k y Hj Hk Hk' HL. rewrite zget_rowi by auto. rewrite (zget_val A (0%R : Rops) k W) by lia.
    pose proof (wf_rows _ W k Hk'). cbv zeta.
    rewrite (zget_Some 0%R y) by lia. rewrite zset_Some by lia. rewrite c_max_R, c_absval_R.
    destruct (rowi A k =? j) eqn:Erj.
    + eexists; split; [reflexivity|].
      split; [rewrite zlen_upd; auto|]. intros r Hr. unfold rnth. rewrite znth_upd by lia.
      destruct (r =? j) eqn:Er.
      * replace ((j =? r) || (rowi A k =? r)) with true by lia. assert (r = j) by lia; subst. reflexivity.
      * replace ((j =? r) || (rowi A k =? r)) with false by lia. auto.
    + rewrite (zget_Some 0%R) by (rewrite zlen_upd; lia). rewrite zset_Some by (rewrite zlen_upd; lia).
      eexists; split; [reflexivity|].
      split; [rewrite !zlen_upd; auto|]. intros r Hr. unfold rnth. rewrite znth_upd by (rewrite zlen_upd; lia).
      rewrite !znth_upd by lia. replace (rowi A k =? j) with false by lia. rewrite c_max_R.
      destruct (r =? rowi A k) eqn:E3; [|destruct (r =? j) eqn:E4].
      * replace ((j =? r) || (rowi A k =? r)) with true by lia. assert (r = rowi A k) by lia; subst. reflexivity.
      * replace ((j =? r) || (rowi A k =? r)) with true by lia. assert (r = j) by lia; subst. reflexivity.
      * replace ((j =? r) || (rowi A k =? r)) with false by lia. auto.
  - exists E2. split; auto. split; auto. intros i Hi. eapply is_maxabs_ext; [|apply H2; auto].
    intros v. split.
    + intros (j' & k & ? & ? & Ht & ->). exists j', k. repeat (split; [solve [auto; lia]|]). auto.
    + intros (j' & k & ? & ? & Ht & ->). exists j', k. repeat (split; [solve [auto; lia]|]). auto.
Qed.
