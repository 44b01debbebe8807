(** Assembly of the KKT matrix (Kkt.v). *)
From Coq Require Import ZArith Reals List Bool Lia Lra Permutation.
From Verif Require Import Num Arr ArrFacts RSum Csc CscSpec CscFacts CscFacts2 Scatter CscFacts3 Placed Kkt.
Import ListNotations.
Open Scope Z_scope.

Section Count.
  Context {K : NumOps}.

  (** The last entry of column j is missing or not on the diagonal. *)
  Definition miss (M : csc K) (j : Z) : bool :=
    (colp M j =? colp M (j + 1)) || negb (rowi M (colp M (j + 1) - 1) =? j).

  Lemma missing_diag_spec (M : csc K) j : wf M -> 0 <= j < cn M -> missing_diag M j = Some (miss M j).
  Proof.
    intros W Hj. unfold missing_diag, miss. rewrite !zget_colp by (auto; lia).
    destruct (colp M j =? colp M (j + 1)) eqn:E; auto.
    pose proof (wf_mono _ W j Hj). rewrite zget_rowi; auto.
    pose proof (slot_range M j (colp M (j + 1) - 1) W Hj). lia.
  Qed.

  Lemma count_diag_spec p a b : 0 <= a -> 0 <= b -> a + b <= zlen p ->
    exists p', kkt_colcount_diag p a b = Some p' /\ zlen p' = zlen p /\
      forall i, znth 0 p' i = znth 0 p i + cnt (fun j => j + a =? i) (zseq 0 b).
  Proof.
    intros Ha Hb HL. unfold kkt_colcount_diag. rewrite for_foldM.
    replace (zseq a (a + b)) with (map (fun j => j + a) (zseq 0 b)).
    2:{ unfold zseq. rewrite map_map. replace (a + b - a) with (b - 0) by lia. apply map_ext. intros; lia. }
    rewrite foldM_map.
    destruct (count_loop (fun j => j + a) (fun p : list Z => p)
      (fun x s => match zget s (x + a) with Some v => zset s (x + a) (v + 1) | None => None end) (zseq 0 b) p (zlen p))
      as (p' & E & HL' & HV); auto.
    - intros x s Hx Hs. apply In_zseq in Hx. rewrite (zget_Some 0) by lia. rewrite zset_Some by lia. eauto.
    - intros x Hx. apply In_zseq in Hx. lia.
    - eauto.
  Qed.

  Lemma count_missing_spec p (M : csc K) : wf M -> cn M <= zlen p ->
    exists p', kkt_colcount_missing_diag p M 0 = Some p' /\ zlen p' = zlen p /\
      forall i, znth 0 p' i = znth 0 p i + cnt (fun j => j =? i) (filter (miss M) (zseq 0 (cn M))).
  Proof.
    intros W HL. unfold kkt_colcount_missing_diag. rewrite for_foldM.
    rewrite (foldM_ext_in _ (fun j p => if miss M j then match zget p j with Some v => zset p j (v + 1) | None => None end else Some p)).
    2:{ intros j s Hj. apply In_zseq in Hj. rewrite missing_diag_spec by auto. rewrite Z.add_0_r. auto. }
    rewrite (foldM_filter (miss M)). 2:{ intros j s _ ->. auto. }
    destruct (count_loop (fun j => j) (fun p : list Z => p)
      (fun j p => if miss M j then match zget p j with Some v => zset p j (v + 1) | None => None end else Some p)
      (filter (miss M) (zseq 0 (cn M))) p (zlen p)) as (p' & E & HL' & HV); auto.
    - intros x s Hx Hs. apply filter_In in Hx as [Hx ->]. apply In_zseq in Hx. rewrite (zget_Some 0) by lia. rewrite zset_Some by lia. eauto.
    - intros x Hx. apply filter_In in Hx as [Hx _]. apply In_zseq in Hx. lia.
    - eauto.
  Qed.

  Lemma cnt_pairs_col (M : csc K) i : wf M ->
    cnt (fun jk => fst jk =? i) (pairs M) = if (0 <=? i) && (i <? cn M) then colp M (i + 1) - colp M i else 0.
  Proof.
    intros W. unfold pairs.
    assert (HH : forall n, 0 <= n -> n <= cn M ->
      cnt (fun jk => fst jk =? i) (flat_map (fun j => map (fun k => (j, k)) (zseq (colp M j) (colp M (j + 1)))) (zseq 0 n))
      = if (0 <=? i) && (i <? n) then colp M (i + 1) - colp M i else 0).
    { intros n Hn. pattern n. apply natlike_ind; auto.
      - intros _. rewrite zseq_nil by lia. cbn [flat_map]. rewrite cnt_nil. replace ((0 <=? i) && (i <? 0)) with false by lia. auto.
      - intros x Hx IH Hle. unfold Z.succ. rewrite zseq_snoc by lia. rewrite flat_map_app, cnt_app, IH by lia.
        cbn [flat_map]. rewrite app_nil_r, cnt_map. cbn [fst]. pose proof (wf_mono _ W x ltac:(lia)).
        destruct (Z.eqb_spec x i) as [->|Hne].
        + rewrite cnt_all by auto. rewrite zlen_zseq. replace ((0 <=? i) && (i <? i)) with false by lia.
          replace ((0 <=? i) && (i <? i + 1)) with true by lia. lia.
        + rewrite cnt_none by auto. replace ((0 <=? i) && (i <? x + 1)) with ((0 <=? i) && (i <? x)) by lia. lia. }
    apply HH; [apply wf_n; auto|lia].
  Qed.

  Lemma count_block_spec p (M : csc K) initcol (tr : bool) : wf M -> 0 <= initcol ->
    initcol + (if tr then cm M else cn M) <= zlen p ->
    exists p', kkt_colcount_block p M initcol tr = Some p' /\ zlen p' = zlen p /\
      forall i, znth 0 p' i = znth 0 p i + cnt (fun jk => (if tr then rowi M (snd jk) else fst jk) + initcol =? i) (pairs M).
  Proof.
    intros W Hi HL. unfold kkt_colcount_block. destruct tr.
    - rewrite zget_nnz by auto. rewrite for_foldM. rewrite <- map_snd_pairs by auto. rewrite foldM_map.
      lazymatch goal with |- context [foldM ?b (pairs M) p] =>
      destruct (count_loop (fun jk => rowi M (snd jk) + initcol) (fun p : list Z => p) b (pairs M) p (zlen p))
        as (p' & E & HL' & HV) end; auto.
      + intros [j k] s Hx Hs. cbn [snd]. apply In_pairs in Hx as [Hj Hk].
        assert (Hk' : 0 <= k < nnz M) by (eapply slot_range; eauto). pose proof (wf_rows _ W k Hk').
        rewrite zget_rowi by auto. rewrite (zget_Some 0) by lia. rewrite zset_Some by lia. eauto.
      + intros [j k] Hx. cbn [snd]. apply In_pairs in Hx as [Hj Hk].
        assert (Hk' : 0 <= k < nnz M) by (eapply slot_range; eauto). pose proof (wf_rows _ W k Hk'). lia.
      + eauto.
    - pose proof (wf_n _ W).
      loop_rule (fun t p' => zlen p' = zlen p /\ forall i, znth 0 p' i = znth 0 p i +
          (if (0 <=? i - initcol) && (i - initcol <? t) then colp M (i - initcol + 1) - colp M (i - initcol) else 0)) HR.
      destruct HR as (p' & -> & HL' & HV); auto.
      + split; auto. intros i. replace ((0 <=? i - initcol) && (i - initcol <? 0)) with false by lia. lia.
      + intros t s Ht (Ls & Vs). rewrite !zget_colp by (auto; lia). rewrite (zget_Some 0 s) by lia.
        rewrite zset_Some by lia. eexists; split; [reflexivity|]. rewrite zlen_upd. split; auto.
        intros i. rewrite znth_upd by lia. rewrite Vs. rewrite Vs. destruct (Z.eqb_spec i (t + initcol)) as [->|Hne].
        * replace (t + initcol - initcol) with t by lia. replace ((0 <=? t) && (t <? t)) with false by lia.
          replace ((0 <=? t) && (t <? t + 1)) with true by lia. lia.
        * replace ((0 <=? i - initcol) && (i - initcol <? t + 1)) with ((0 <=? i - initcol) && (i - initcol <? t)) by lia. auto.
      + exists p'. split; auto. split; auto. intros i. rewrite HV.
        rewrite <- (cnt_pairs_col M (i - initcol)) by auto. f_equal. apply cnt_ext. intros x _. lia.
  Qed.

  Lemma colptr_spec p n : 0 <= n -> n + 1 <= zlen p ->
    exists p', kkt_colcount_to_colptr p n = Some p' /\ zlen p' = zlen p /\
      forall j, 0 <= j <= n -> znth 0 p' j = psum (fun i => znth 0 p i) j.
  Proof.
    intros Hn HL. unfold kkt_colcount_to_colptr.
    loop_rule (fun t (s : list Z * Z) => let '(p', cur) := s in zlen p' = zlen p /\ cur = psum (fun i => znth 0 p i) t /\
        (forall j, 0 <= j < t -> znth 0 p' j = psum (fun i => znth 0 p i) j) /\
        (forall j, t <= j -> znth 0 p' j = znth 0 p j)) HR.
    destruct HR as ([p' cur] & -> & HL' & Hcur & HV & HU).
    - lia.
    - split; auto. split; auto. split; [intros; lia|auto].
    - intros t [s cur] Ht (Ls & Hc & Vs & Us). rewrite (zget_Some 0 s) by lia. rewrite zset_Some by lia.
      eexists; split; [reflexivity|]. cbv beta iota. rewrite zlen_upd. split; auto. split.
      { rewrite psum_succ by lia. rewrite Us by lia. lia. }
      split.
      + intros j Hj. rewrite znth_upd by lia. destruct (Z.eqb_spec j t) as [->|]; auto. apply Vs. lia.
      + intros j Hj. rewrite znth_upd by lia. replace (j =? t) with false by lia. apply Us. lia.
    - exists p'. split; auto. split; auto. intros j Hj. apply HV. lia.
  Qed.

  Lemma backshift_spec p n : 0 <= n -> n + 1 <= zlen p ->
    exists p', kkt_backshift_colptrs p n = Some p' /\ zlen p' = zlen p /\
      znth 0 p' 0 = 0 /\ forall j, 0 <= j < n -> znth 0 p' (j + 1) = znth 0 p j.
  Proof.
    intros Hn HL. unfold kkt_backshift_colptrs.
    loop_rule (fun t p' => zlen p' = zlen p /\ (forall j, n - t <= j < n -> znth 0 p' (j + 1) = znth 0 p j) /\
        (forall j, 0 <= j <= n - t -> znth 0 p' j = znth 0 p j)) HR.
    destruct HR as (p' & -> & HL' & HV & HU).
    - auto.
    - split; auto. split; [intros; lia|auto].
    - intros t s Ht (Ls & Vs & Us). rewrite (zget_Some 0 s) by lia. rewrite zset_Some by lia.
      eexists; split; [reflexivity|]. rewrite zlen_upd. split; auto. split.
      + intros j Hj. rewrite znth_upd by lia. destruct (Z.eqb_spec (j + 1) (n - t)).
        * rewrite Us by lia. f_equal. lia.
        * apply Vs. lia.
      + intros j Hj. rewrite znth_upd by lia. replace (j =? n - t) with false by lia. apply Us. lia.
    - rewrite zset_Some by lia. eexists; split; [reflexivity|]. rewrite zlen_upd. split; auto.
      rewrite !znth_upd by lia. split; auto. intros j Hj. rewrite znth_upd by lia.
      replace (j + 1 =? 0) with false by lia. apply HV. lia.
  Qed.

  Lemma count_diagonal_spec (P : csc K) : wf P ->
    count_diagonal_entries P = Some (cn P - cnt (miss P) (zseq 0 (cn P))).
  Proof.
    intros W. unfold count_diagonal_entries. pose proof (wf_n _ W).
    loop_rule (fun t c => c = t - cnt (miss P) (zseq 0 t)) HR.
    destruct HR as (c & -> & ->); auto.
    intros t c Ht ->. rewrite missing_diag_spec by auto. eexists; split; [reflexivity|].
    rewrite zseq_snoc by lia. rewrite cnt_snoc. destruct (miss P t); lia.
  Qed.
End Count.

(** ** Filling *)
Section Fill.
  Context {K : NumOps} {X : Type} (dec : forall a b : X, {a = b} + {a <> b}).
  Variable (col row : X -> Z) (val : X -> K) (n : Z) (L : list X).
  Hypothesis Hcol : forall x, In x L -> 0 <= col x < n.
  Hypothesis HND : NoDup L.
  Definition sl (x : X) : Z := slot_of col L (before dec x L) x.

  (** The entry of the map belonging to each item placed. *)
  Definition mapinv {Y} (f : Y -> X) (key : Y -> Z) (m0 m : option (list Z)) (done : list Y) : Prop :=
    match m0, m with
    | None, None => True
    | Some t0, Some t => zlen t = zlen t0 /\ forall y, In y done -> znth 0 t (key y) = sl (f y)
    | _, _ => False
    end.

  Lemma store_map_spec {Y} (f : Y -> X) (key : Y -> Z) m0 m done y dest :
    (forall t, m0 = Some t -> 0 <= key y < zlen t) ->
    mapinv f key m0 m done -> dest = sl (f y) -> (forall z, In z done -> key z = key y -> z = y) ->
    exists m', store_map m (key y) dest = Some m' /\ mapinv f key m0 m' (done ++ [y]).
  Proof.
    intros Hk HM Hd Hinj. unfold store_map, mapinv in *. destruct m0 as [t0|], m as [t|]; try tauto.
    - destruct HM as (HL & HV). specialize (Hk t0 eq_refl). rewrite zset_Some by lia. eexists; split; [reflexivity|].
      cbv beta iota. rewrite zlen_upd. split; auto. intros z Hz. rewrite znth_upd by lia.
      apply in_app_or in Hz as [Hz|[->|[]]].
      + destruct (Z.eqb_spec (key z) (key y)) as [E|]; auto. rewrite (Hinj z Hz E). auto.
      + rewrite Z.eqb_refl. auto.
    - eauto.
  Qed.

  Lemma sl_split pre x post : L = pre ++ x :: post -> sl x = slot_of col L pre x.
  Proof. intros E. unfold sl. rewrite (before_NoDup dec x L pre post); auto. Qed.

  (** Where the item y sits in L. *)
  Lemma split_map {Y} (f : Y -> X) pre l post done y rest : L = pre ++ map f l ++ post -> l = done ++ y :: rest ->
    L = (pre ++ map f done) ++ f y :: (map f rest ++ post).
  Proof. intros -> ->. rewrite map_app. cbn [map]. rewrite <- !app_assoc. reflexivity. Qed.

  Lemma fill_block_spec (M : csc K) (f : Z * Z -> X) initrow initcol (tr : bool) pre post p i x mp :
    wf M -> L = pre ++ map f (pairs M) ++ post ->
    (forall j k, In (j, k) (pairs M) ->
       col (f (j, k)) = (if tr then rowi M k + initcol else j + initcol) /\
       row (f (j, k)) = (if tr then j + initrow else rowi M k + initrow) /\
       val (f (j, k)) = znth n0 (cx M) k) ->
    (forall t, mp = Some t -> nnz M <= zlen t) ->
    sinv col row val n L pre p i x ->
    exists p' i' x' mp', kkt_fill_block (p, i, x) M mp initrow initcol tr = Some ((p', i', x'), mp') /\
      zlen p' = zlen p /\ zlen i' = zlen i /\ zlen x' = zlen x /\
      sinv col row val n L (pre ++ map f (pairs M)) p' i' x' /\
      mapinv f snd mp mp' (pairs M).
  Proof.
    intros W EL Hf Hmp HS. unfold kkt_fill_block.
    lazymatch goal with |- context [for_cols _ _ ?b ?s0] =>
    destruct (for_cols_rule (fun done (s : kst * option (list Z)) => let '((p', i', x'), mp') := s in
       zlen p' = zlen p /\ zlen i' = zlen i /\ zlen x' = zlen x /\
       sinv col row val n L (pre ++ map f done) p' i' x' /\ mapinv f snd mp mp' done) M b s0 W)
     as ([[[p' i'] x'] mp'] & E & H1 & H2 & H3 & H4 & H5) end.
    - cbn [map]. rewrite app_nil_r. repeat (split; [solve [auto]|]). unfold mapinv. destruct mp; auto. split; auto. intros y [].
    - intros done j k [[[p1 i1] x1] m1] Hj Hk Hk' (rest & Epr) (L1 & L2 & L3 & S1 & M1).
      assert (HI : In (j, k) (pairs M)) by (apply In_pairs; auto).
      pose proof (split_map f pre (pairs M) post done (j, k) rest EL Epr) as EL'.
      destruct (sinv_slot col row val n L Hcol _ _ _ _ _ _ EL' S1) as (Hc1 & Esl & Hsl).
      pose proof (sinv_step col row val n L Hcol _ _ _ _ _ _ EL' S1) as S2.
      destruct (Hf j k HI) as (Ec & Er & Ev).
      rewrite zget_rowi by auto. cbv zeta. rewrite <- Ec, <- Er.
      rewrite (zget_Some 0 p1) by auto. rewrite zset_Some by auto.
      pose proof (si_il _ _ _ _ _ _ _ _ _ S1). pose proof (si_xl _ _ _ _ _ _ _ _ _ S1).
      rewrite zset_Some by lia. rewrite (zget_val M n0) by auto. rewrite zset_Some by lia.
      destruct (store_map_spec f snd mp m1 done (j, k) (znth 0 p1 (col (f (j, k))))) as (m2 & Em & M2); auto.
      { intros t Ht. specialize (Hmp t Ht). cbn [snd]. lia. }
      { rewrite Esl. symmetry. eapply sl_split; eauto. }
      { intros [j' k'] Hz Ek. cbn [snd] in Ek. subst k'.
        assert (HI' : In (j', k) (pairs M)) by (rewrite Epr; apply in_or_app; auto).
        apply In_pairs in HI' as [Hj' Hk'']. f_equal. apply (slot_col_iff M j j' k); auto. }
      cbn [snd] in Em. rewrite Em. eexists; split; [reflexivity|]. cbv beta iota. rewrite !zlen_upd.
      repeat (split; [solve [auto]|]). rewrite map_app. cbn [map]. rewrite app_assoc. rewrite <- Ev. auto.
    - exists p', i', x', mp'. rewrite E. auto 10.
  Qed.

  Lemma fill_diag_zeros_spec (f : Z -> X) offset dim pre post p i x mp :
    0 <= dim -> L = pre ++ map f (zseq 0 dim) ++ post ->
    (forall j, 0 <= j < dim -> col (f j) = j + offset /\ row (f j) = j + offset /\ val (f j) = n0) ->
    (forall t, mp = Some t -> dim <= zlen t) ->
    sinv col row val n L pre p i x ->
    exists p' i' x' mp', kkt_fill_diag_zeros (p, i, x) mp offset dim = Some ((p', i', x'), mp') /\
      zlen p' = zlen p /\ zlen i' = zlen i /\ zlen x' = zlen x /\
      sinv col row val n L (pre ++ map f (zseq 0 dim)) p' i' x' /\
      mapinv f (fun j => j) mp mp' (zseq 0 dim).
  Proof.
    intros Hd EL Hf Hmp HS. unfold kkt_fill_diag_zeros.
    loop_rule (fun t (s : kst * option (list Z)) => let '((p', i', x'), mp') := s in
       zlen p' = zlen p /\ zlen i' = zlen i /\ zlen x' = zlen x /\
       sinv col row val n L (pre ++ map f (zseq 0 t)) p' i' x' /\ mapinv f (fun j => j) mp mp' (zseq 0 t)) HR.
    destruct HR as ([[[p' i'] x'] mp'] & E & H1 & H2 & H3 & H4 & H5).
    - auto.
    - rewrite zseq_nil by lia. cbn [map]. rewrite app_nil_r. repeat (split; [solve [auto]|]). unfold mapinv. destruct mp; auto. split; auto. intros y [].
    - intros j [[[p1 i1] x1] m1] Hj (L1 & L2 & L3 & S1 & M1).
      pose proof (split_map f pre (zseq 0 dim) post _ j _ EL (zseq_split 0 dim j Hj)) as EL'.
      destruct (sinv_slot col row val n L Hcol _ _ _ _ _ _ EL' S1) as (Hc1 & Esl & Hsl).
      pose proof (sinv_step col row val n L Hcol _ _ _ _ _ _ EL' S1) as S2.
      destruct (Hf j Hj) as (Ec & Er & Ev). cbv zeta. rewrite Er, Ev in S2. rewrite <- Ec in *.
      rewrite (zget_Some 0 p1) by auto.
      pose proof (si_il _ _ _ _ _ _ _ _ _ S1). pose proof (si_xl _ _ _ _ _ _ _ _ _ S1).
      rewrite zset_Some by lia. rewrite zset_Some by lia. rewrite zset_Some by lia.
      destruct (store_map_spec f (fun j => j) mp m1 (zseq 0 j) j (znth 0 p1 (col (f j)))) as (m2 & Em & M2); auto.
      { intros t Ht. specialize (Hmp t Ht). lia. }
      { rewrite Esl. symmetry. eapply sl_split; eauto. }
      rewrite Em. eexists; split; [reflexivity|]. cbv beta iota. rewrite !zlen_upd.
      repeat (split; [solve [auto]|]). rewrite zseq_snoc by lia. rewrite map_app. cbn [map]. rewrite app_assoc. auto.
    - exists p', i', x', mp'. rewrite E. auto 10.
  Qed.

  Lemma fill_missing_spec (M : csc K) (f : Z -> X) pre post p i x :
    wf M -> L = pre ++ map f (filter (miss M) (zseq 0 (cn M))) ++ post ->
    (forall j, 0 <= j < cn M -> col (f j) = j /\ row (f j) = j /\ val (f j) = n0) ->
    sinv col row val n L pre p i x ->
    exists p' i' x', kkt_fill_missing_diag_zeros (p, i, x) M 0 = Some (p', i', x') /\
      zlen p' = zlen p /\ zlen i' = zlen i /\ zlen x' = zlen x /\
      sinv col row val n L (pre ++ map f (filter (miss M) (zseq 0 (cn M)))) p' i' x'.
  Proof.
    intros W EL Hf HS. unfold kkt_fill_missing_diag_zeros. rewrite for_foldM.
    set (body := fun j (st : @kst K) => let '(p, i, x) := st in
      if miss M j then
        match zget p j with Some dest => match zset i dest j with Some i => match zset x dest n0 with Some x =>
        match zget p j with Some v => match zset p j (v + 1) with Some p => Some (p, i, x)
        | None => None end | None => None end | None => None end | None => None end | None => None end
      else Some st).
    rewrite (foldM_ext_in _ body).
    2:{ intros j [[p1 i1] x1] Hj. apply In_zseq in Hj. rewrite missing_diag_spec by auto. rewrite Z.add_0_r. reflexivity. }
    rewrite (foldM_filter (miss M)). 2:{ intros j [[p1 i1] x1] _ HH. unfold body. rewrite HH. auto. }
    destruct (foldM_rule (fun done (s : @kst K) => let '(p', i', x') := s in
       zlen p' = zlen p /\ zlen i' = zlen i /\ zlen x' = zlen x /\
       sinv col row val n L (pre ++ map f done) p' i' x') body (filter (miss M) (zseq 0 (cn M))) (p, i, x))
     as ([[p' i'] x'] & E & H1 & H2 & H3 & H4).
    - cbn [map]. rewrite app_nil_r. auto.
    - intros done j rest [[p1 i1] x1] Epr (L1 & L2 & L3 & S1).
      assert (HI : In j (filter (miss M) (zseq 0 (cn M)))) by (rewrite Epr; apply in_or_app; simpl; auto).
      apply filter_In in HI as [Hj Hmj]. apply In_zseq in Hj.
      pose proof (split_map f pre _ post done j rest EL Epr) as EL'.
      destruct (sinv_slot col row val n L Hcol _ _ _ _ _ _ EL' S1) as (Hc1 & Esl & Hsl).
      pose proof (sinv_step col row val n L Hcol _ _ _ _ _ _ EL' S1) as S2.
      destruct (Hf j Hj) as (Ec & Er & Ev). rewrite Er, Ev in S2. rewrite Ec in *.
      unfold body. rewrite Hmj. rewrite (zget_Some 0 p1) by auto.
      pose proof (si_il _ _ _ _ _ _ _ _ _ S1). pose proof (si_xl _ _ _ _ _ _ _ _ _ S1).
      rewrite zset_Some by lia. rewrite zset_Some by lia. rewrite zset_Some by lia.
      eexists; split; [reflexivity|]. cbv beta iota. rewrite !zlen_upd.
      repeat (split; [solve [auto]|]). rewrite map_app. cbn [map]. rewrite app_assoc. auto.
    - exists p', i', x'. rewrite E. auto 10.
  Qed.
End Fill.
