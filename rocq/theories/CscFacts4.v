(** Row selection, diagonals, full storage, stacking, comparison. *)
From Coq Require Import ZArith Reals List Bool Lia Lra Permutation.
From Verif Require Import Num Arr ArrFacts RSum Csc CscSpec CscFacts CscFacts2 Scatter CscFacts3.
Import ListNotations.
Open Scope Z_scope.

Lemma slots_app {K : NumOps} (Ci : list Z) (Cx : list K) a b c : a <= b -> b <= c ->
  slots Ci Cx a c = slots Ci Cx a b ++ slots Ci Cx b c.
Proof. intros. unfold slots. rewrite (zseq_app a b c) by auto. apply map_app. Qed.

Lemma zlen_slots {K : NumOps} (Ci : list Z) (Cx : list K) a b : a <= b -> zlen (slots Ci Cx a b) = b - a.
Proof. intros. unfold slots. rewrite zlen_map, zlen_zseq. lia. Qed.

Lemma app_inj_len {X} (a b c d : list X) : length a = length c -> a ++ b = c ++ d -> b = d.
Proof.
  revert c; induction a; intros [|x c] HL E; simpl in *; try discriminate; auto.
  inversion E. apply (IHa c); auto.
Qed.

(** ** csc_submatrix_byrows *)
Section ByRows.
  Context {K : NumOps}.
  Lemma rank_cnt rows i : rank rows i = cnt (selb rows) (zseq 0 i).
  Proof. reflexivity. Qed.
  Lemma rank_succ rows i : 0 <= i -> rank rows (i + 1) = rank rows i + (if selb rows i then 1 else 0).
  Proof. intros. rewrite !rank_cnt. rewrite zseq_snoc by auto. apply cnt_snoc. Qed.
  Lemma rank_mono rows i j : 0 <= i <= j -> rank rows i <= rank rows j.
  Proof.
    intros H. rewrite !rank_cnt. rewrite (zseq_app 0 i j) by lia. rewrite cnt_app.
    pose proof (cnt_nonneg (selb rows) (zseq i j)). lia.
  Qed.
  Lemma rank_lt rows i j : 0 <= i < j -> selb rows i = true -> rank rows i < rank rows j.
  Proof.
    intros H Hs. pose proof (rank_succ rows i ltac:(lia)) as E. rewrite Hs in E.
    pose proof (rank_mono rows (i + 1) j ltac:(lia)). lia.
  Qed.
  Lemma rank_inj rows i j : 0 <= i -> 0 <= j -> selb rows i = true -> selb rows j = true ->
    rank rows i = rank rows j -> i = j.
  Proof.
    intros Hi Hj Si Sj E. destruct (Z_lt_ge_dec i j).
    - pose proof (rank_lt rows i j ltac:(lia) Si). lia.
    - destruct (Z_lt_ge_dec j i); [|lia]. pose proof (rank_lt rows j i ltac:(lia) Sj). lia.
  Qed.

  Definition kept (A : csc K) rows (k : Z) : bool := selb rows (rowi A k).
  Definition kent (A : csc K) rows (k : Z) : Z * K := (rank rows (rowi A k), znth n0 (cx A) k).

  Lemma csc_submatrix_byrows_spec (A : csc K) jz jx rows : wf A -> cm A <= zlen rows ->
    exists R, csc_submatrix_byrows jz jx A rows = Some R /\ wf R /\
      cm R = rank rows (cm A) /\ cn R = cn A /\ nnz R = cnt (kept A rows) (zseq 0 (nnz A)) /\
      zlen (cp R) = cn A + 1 /\ zlen (ci R) = nnz R /\ zlen (cx R) = nnz R /\ cnzmax R = nnz R /\ cnz R = -1 /\
      (forall j, 0 <= j < cn A ->
         col_entries R j = map (kent A rows) (filter (kept A rows) (zseq (colp A j) (colp A (j + 1))))).
  Proof.
    intros W HL. pose proof (nnz_nonneg A W) as Hnn. pose proof (wf_n _ W) as Hn. pose proof (wf_m _ W) as Hm.
    unfold csc_submatrix_byrows.
    loop_rule (fun t (s : list Z * Z) => zlen (fst s) = cm A /\ snd s = rank rows t /\
        forall i, 0 <= i < t -> selb rows i = true -> znth 0 (fst s) i = rank rows i) HR.
    destruct HR as ([rr Rm] & -> & Lrr & HRm & Vrr).
    { auto. } { cbn [fst snd]. rewrite zlen_zrep by auto. repeat split; auto. intros; lia. }
    { intros j [rr Rm] Hj (Lrr & HRm & Vrr). cbn [fst snd] in *. rewrite (zget_Some 0 rows) by lia.
      pose proof (rank_succ rows j ltac:(lia)) as HS.
      assert (Esel : selb rows j = negb (znth 0 rows j =? 0)) by reflexivity.
      destruct (znth 0 rows j =? 0) eqn:E; cbn [negb] in Esel; rewrite Esel in HS.
      - eexists; split; [reflexivity|]. cbn [fst snd]. split; auto. split; [lia|].
        intros i Hi Hs. apply Vrr; auto. destruct (Z.eq_dec i j); [subst; congruence|lia].
      - rewrite zset_Some by lia. eexists; split; [reflexivity|]. cbn [fst snd]. rewrite zlen_upd. split; auto. split; [lia|].
        intros i Hi Hs. rewrite znth_upd by lia. destruct (i =? j) eqn:Ei.
        + assert (i = j) by lia. subst; auto.
        + apply Vrr; auto; lia. }
    cbn [fst snd] in *. subst Rm.
    rewrite zget_nnz by auto.
    loop_rule (fun t nz => nz = cnt (kept A rows) (zseq 0 t)) HR.
    destruct HR as (nzR & -> & HnzR).
    { auto. } { reflexivity. }
    { intros k nz Hk ->. rewrite zget_rowi by auto. pose proof (wf_rows _ W k Hk). rewrite (zget_Some 0 rows) by lia.
      eexists; split; [reflexivity|]. rewrite zseq_snoc, cnt_snoc by lia. unfold kept at 4, selb.
      destruct (znth 0 rows (rowi A k) =? 0); simpl; lia. }
    pose proof (cnt_nonneg (kept A rows) (zseq 0 (nnz A))) as Hc0.
    unfold csc_spalloc. cbn [cp ci cx cm cn cnzmax cnz]. rewrite Z.max_l by lia.
    set (c := fun b => cnt (kept A rows) (zseq 0 b)).
    assert (Hcs : forall a b, 0 <= a <= b -> c b = c a + cnt (kept A rows) (zseq a b)).
    { intros a b Hab. unfold c. rewrite (zseq_app 0 a b) by lia. apply cnt_app. }
    assert (Hcm : forall a b, 0 <= a <= b -> c a <= c b).
    { intros a b Hab. rewrite (Hcs a b) by auto. pose proof (cnt_nonneg (kept A rows) (zseq a b)). lia. }
    assert (Hcr : forall j, 0 <= j <= cn A -> 0 <= colp A j <= nnz A) by (intros; apply colp_range; auto).
    assert (Fin : forall Rp Ri Rx, zlen Rp = cn A + 1 -> zlen Ri = nzR -> zlen Rx = nzR ->
        (forall j, 0 <= j <= cn A -> znth 0 Rp j = c (colp A j)) ->
        slots Ri Rx 0 (c (nnz A)) = map (kent A rows) (filter (kept A rows) (zseq 0 (nnz A))) ->
        let R := mkcsc (rank rows (cm A)) (cn A) Rp Ri Rx nzR (-1) in
        wf R /\ cm R = rank rows (cm A) /\ cn R = cn A /\ nnz R = cnt (kept A rows) (zseq 0 (nnz A)) /\
      zlen (cp R) = cn A + 1 /\ zlen (ci R) = nnz R /\ zlen (cx R) = nnz R /\ cnzmax R = nnz R /\ cnz R = -1 /\
      (forall j, 0 <= j < cn A ->
         col_entries R j = map (kent A rows) (filter (kept A rows) (zseq (colp A j) (colp A (j + 1)))))).
    { intros Rp Ri Rx LRp LRi LRx VRp VS R.
      assert (HRp : forall j, 0 <= j <= cn A -> colp R j = c (colp A j)) by (intros j0 Hj0; exact (VRp j0 Hj0)).
      assert (HnR : nnz R = nzR).
      { unfold nnz. change (cn R) with (cn A). rewrite HRp by lia. subst nzR. reflexivity. }
      assert (Hpre : forall b, 0 <= b <= nnz A -> slots Ri Rx 0 (c b) = map (kent A rows) (filter (kept A rows) (zseq 0 b)) /\
                 slots Ri Rx (c b) (c (nnz A)) = map (kent A rows) (filter (kept A rows) (zseq b (nnz A)))).
      { intros b Hb. rewrite (slots_app Ri Rx 0 (c b) (c (nnz A))) in VS by (try apply cnt_nonneg; apply Hcm; lia).
        rewrite (zseq_app 0 b (nnz A)), filter_app, map_app in VS by lia.
        assert (HLs : length (slots Ri Rx 0 (c b)) = length (map (kent A rows) (filter (kept A rows) (zseq 0 b)))).
        { apply Nat2Z.inj. fold (zlen (slots Ri Rx 0 (c b))). rewrite zlen_slots by (apply cnt_nonneg).
          fold (zlen (map (kent A rows) (filter (kept A rows) (zseq 0 b)))). rewrite zlen_map. unfold c, cnt. lia. }
        split.
        - apply (f_equal (firstn (length (slots Ri Rx 0 (c b))))) in VS. rewrite firstn_app, Nat.sub_diag, firstn_O, app_nil_r, firstn_all in VS.
          rewrite VS, HLs. rewrite firstn_app, Nat.sub_diag, firstn_O, app_nil_r, firstn_all. auto.
        - eapply app_inj_len; eauto. }
      assert (HE : forall j, 0 <= j < cn A ->
         col_entries R j = map (kent A rows) (filter (kept A rows) (zseq (colp A j) (colp A (j + 1))))).
      { intros j Hj. pose proof (Hcr j ltac:(lia)). pose proof (Hcr (j+1) ltac:(lia)). pose proof (wf_mono _ W j Hj).
        unfold col_entries. rewrite !HRp by lia. unfold R; cbn [ci cx].
        destruct (Hpre (colp A (j + 1)) ltac:(lia)) as [P1 _]. destruct (Hpre (colp A j) ltac:(lia)) as [P2 _].
        rewrite (slots_app Ri Rx 0 (c (colp A j))) in P1 by (try apply cnt_nonneg; apply Hcm; lia).
        rewrite (zseq_app 0 (colp A j) (colp A (j + 1))), filter_app, map_app in P1 by lia.
        eapply app_inj_len; [|exact P1]. rewrite P2. auto. }
      split.
      { constructor; try (change (cm R) with (rank rows (cm A))); try (change (cn R) with (cn A)).
        - rewrite rank_cnt. apply cnt_nonneg.
        - auto.
        - unfold R; cbn [cp]. lia.
        - rewrite HRp by lia. rewrite (wf_p0 _ W). reflexivity.
        - intros j Hj. rewrite !HRp by lia. apply Hcm. pose proof (Hcr j ltac:(lia)). pose proof (wf_mono _ W j Hj). lia.
        - rewrite HnR. unfold R; cbn [ci]. lia.
        - rewrite HnR. unfold R; cbn [cx]. lia.
        - intros s Hs. rewrite HnR in Hs.
          assert (HI : In (rowi R s, znth n0 (cx R) s) (map (kent A rows) (filter (kept A rows) (zseq 0 (nnz A))))).
          { rewrite <- VS. apply in_map_iff. exists s. split; auto. apply In_zseq. subst nzR. auto. }
          apply in_map_iff in HI as (k & Ek & Hk). apply filter_In in Hk as [Hk Hkk]. apply In_zseq in Hk.
          apply (f_equal fst) in Ek. cbn [fst kent] in Ek. rewrite <- Ek. pose proof (wf_rows _ W k Hk).
          split; [apply cnt_nonneg|]. apply rank_lt; auto. }
      rewrite HnR. repeat (split; [solve [auto]|]). exact HE. }
    destruct (rank rows (cm A) =? 0) eqn:ERm.
    - apply Z.eqb_eq in ERm.
      assert (Hnone : forall k, 0 <= k < nnz A -> kept A rows k = false).
      { intros k Hk. pose proof (wf_rows _ W k Hk). destruct (kept A rows k) eqn:Ek; auto. exfalso.
        pose proof (rank_lt rows (rowi A k) (cm A) ltac:(lia) Ek). pose proof (cnt_nonneg (selb rows) (zseq 0 (rowi A k))).
        rewrite !rank_cnt in *. lia. }
      assert (Hc00 : forall b, 0 <= b <= nnz A -> c b = 0).
      { intros b Hb. apply cnt_none. intros k Hk. apply In_zseq in Hk. apply Hnone; lia. }
      destruct (for_fill 0 (fun _ => 0) (cn A + 1) (zrep (cn A + 1) jz)) as (Rp & -> & LRp & VRp).
      { rewrite zlen_zrep; lia. }
      rewrite zlen_zrep in LRp by lia.
      eexists; split; [reflexivity|].
      assert (Hz0 : nzR = 0) by (subst nzR; apply Hc00; lia).
      apply Fin; auto.
      + rewrite zlen_zrep; lia.
      + rewrite zlen_zrep; lia.
      + intros j Hj. rewrite VRp. replace ((0 <=? j) && (j <? cn A + 1)) with true by lia.
        symmetry. apply Hc00. apply Hcr; auto.
      + rewrite Hc00 by lia. rewrite slots_nil by lia.
        replace (filter (kept A rows) (zseq 0 (nnz A))) with (@nil Z); auto. symmetry.
        assert (HH : zlen (filter (kept A rows) (zseq 0 (nnz A))) = 0) by (apply (Hc00 (nnz A)); lia).
        destruct (filter (kept A rows) (zseq 0 (nnz A))); auto. rewrite zlen_cons in HH. pose proof (zlen_nonneg l). lia.
    - loop_rule (fun j (s : list Z * list Z * list K * Z) => let '(Rp, Ri, Rx, nz) := s in
         zlen Rp = cn A + 1 /\ zlen Ri = nzR /\ zlen Rx = nzR /\ nz = c (colp A j) /\
         (forall j', 0 <= j' < j -> znth 0 Rp j' = c (colp A j')) /\
         slots Ri Rx 0 (c (colp A j)) = map (kent A rows) (filter (kept A rows) (zseq 0 (colp A j)))) HR.
      destruct HR as ([[[Rp Ri] Rx] nz] & -> & LRp & LRi & LRx & Hnz & VRp & VS).
      { auto. }
      { rewrite !zlen_zrep by lia. rewrite (wf_p0 _ W). repeat split; auto. intros; lia. }
      { intros j [[[Rp Ri] Rx] nz] Hj (LRp & LRi & LRx & Hnz & VRp & VS).
        rewrite zset_Some by lia. rewrite !zget_colp by (auto; lia).
        loop_rule (fun t (s : list Z * list K * Z) => let '(Ri, Rx, nz) := s in
          zlen Ri = nzR /\ zlen Rx = nzR /\ nz = c t /\
          slots Ri Rx 0 (c t) = map (kent A rows) (filter (kept A rows) (zseq 0 t))) HR2.
        destruct HR2 as ([[Ri' Rx'] nz'] & -> & LRi' & LRx' & Hnz' & VS').
        { apply (wf_mono _ W); auto. }
        { auto. }
        { intros k [[Ri1 Rx1] nz1] Hk (LRi1 & LRx1 & Hnz1 & VS1).
          assert (Hk' : 0 <= k < nnz A) by (eapply slot_range; eauto).
          rewrite zget_rowi by auto. pose proof (wf_rows _ W k Hk'). rewrite (zget_Some 0 rows) by lia.
          assert (Hck : c (k + 1) = c k + if kept A rows k then 1 else 0).
          { unfold c. rewrite zseq_snoc by lia. apply cnt_snoc. }
          assert (Hkept : kept A rows k = negb (znth 0 rows (rowi A k) =? 0)) by reflexivity.
          destruct (znth 0 rows (rowi A k) =? 0) eqn:Ez; cbn [negb] in Hkept; rewrite Hkept in Hck.
          - eexists; split; [reflexivity|]. split; auto. split; auto. split; [lia|].
            rewrite Hck, Z.add_0_r. rewrite zseq_snoc, filter_app by lia. simpl filter. rewrite Hkept. rewrite app_nil_r. auto.
          - rewrite (zget_Some 0 rr) by lia. rewrite (zget_val A n0) by auto.
            assert (Hlt : c k < nzR).
            { subst nzR. pose proof (Hcm (k + 1) (nnz A) ltac:(lia)). unfold c at 2 in H0. lia. }
            pose proof (cnt_nonneg (kept A rows) (zseq 0 k)) as Hck0. fold (c k) in Hck0.
            rewrite !zset_Some by lia. eexists; split; [reflexivity|]. cbv beta iota. rewrite !zlen_upd. split; auto. split; auto. split; [lia|].
            rewrite Hck. rewrite slots_snoc by lia. rewrite zseq_snoc, filter_app, map_app by lia. simpl filter. rewrite Hkept.
            simpl map. f_equal.
            + rewrite <- VS1. apply slots_ext. intros s Hs. rewrite !znth_upd by lia. replace (s =? nz1) with false by lia. auto.
            + rewrite <- Hnz1. rewrite !znth_upd by lia. rewrite Z.eqb_refl. unfold kent. rewrite Vrr; auto. }
        eexists; split; [reflexivity|]. cbv beta iota. rewrite zlen_upd. repeat (split; [solve [auto]|]). split; [|auto].
        intros j' Hj'. rewrite znth_upd by lia. destruct (j' =? j) eqn:E.
        - assert (j' = j) by lia. subst. auto.
        - apply VRp; lia. }
      rewrite zset_Some by lia. eexists; split; [reflexivity|].
      apply Fin; auto.
      + rewrite zlen_upd; auto.
      + intros j Hj. rewrite znth_upd by lia. destruct (j =? cn A) eqn:E.
        * assert (j = cn A) by lia. subst. auto.
        * apply VRp; lia.
  Qed.
End ByRows.

Lemma csc_submatrix_byrows_dense (A : csc Rops) jz jx rows R : wf A -> cm A <= zlen rows ->
  csc_submatrix_byrows jz jx A rows = Some R ->
  forall i j, 0 <= i < cm A -> selb rows i = true -> 0 <= j < cn A -> dns R (rank rows i) j = dns A i j.
Proof.
  intros W HL E i j Hi Hs Hj.
  destruct (csc_submatrix_byrows_spec A jz jx rows W HL) as (R' & E' & _ & _ & _ & _ & _ & _ & _ & _ & _ & HE).
  rewrite E in E'. inversion E'; subst R'. rewrite dns_entries, HE by auto. rewrite lsum_map, <- lsum_filter.
  unfold dns, zsum. apply lsum_ext. intros k Hk. apply In_zseq in Hk.
  assert (Hk' : 0 <= k < nnz A) by (eapply slot_range; eauto). pose proof (wf_rows _ W k Hk').
  unfold kent, kept. cbn [fst snd]. destruct (rowi A k =? i) eqn:Ei.
  - assert (rowi A k = i) by lia. subst i. rewrite Hs, Z.eqb_refl. unfold valx. rewrite n0_R. auto.
  - destruct (selb rows (rowi A k)) eqn:Es; auto.
    destruct (rank rows (rowi A k) =? rank rows i) eqn:Er; auto. exfalso.
    assert (rowi A k = i) by (apply (rank_inj rows); auto; lia). lia.
Qed.

(** ** csc_extract_diag *)
Lemma csc_extract_diag_spec {K : NumOps} (A : csc K) (d : list K) : wf A -> cn A <= zlen d ->
  exists d', csc_extract_diag A d = Some d' /\ zlen d' = zlen d /\
    (forall i, 0 <= i < cn A -> (forall k, colp A i <= k < colp A (i + 1) -> rowi A k <> i) -> znth n0 d' i = n0) /\
    (forall i k, 0 <= i < cn A -> colp A i <= k < colp A (i + 1) -> rowi A k = i ->
       (forall k', k < k' < colp A (i + 1) -> rowi A k' <> i) -> znth n0 d' i = znth n0 (cx A) k).
Proof.
  intros W HL. pose proof (wf_n _ W) as Hn. unfold csc_extract_diag.
  destruct (for_fill n0 (fun _ => n0) (cn A) d) as (d1 & -> & L1 & V1); [lia|].
  lazymatch goal with |- context [for_cols _ _ ?b _] =>
  destruct (for_cols_rule (fun done x => zlen x = zlen d /\ forall i, 0 <= i < cn A ->
      ((forall k, In (i, k) done -> rowi A k <> i) -> znth n0 x i = n0) /\
      (forall pre k post, done = pre ++ (i, k) :: post -> rowi A k = i ->
         (forall k', In (i, k') post -> rowi A k' <> i) -> znth n0 x i = znth n0 (cx A) k)) A b d1 W)
    as (d2 & -> & L2 & V2) end.
  - split; auto. intros i Hi. split.
    + intros _. rewrite V1. replace ((0 <=? i) && (i <? cn A)) with true by lia. auto.
    + intros [|? ?] k post E; discriminate.
  - intros done j k x Hj Hk Hk' _ (Lx & Vx). rewrite zget_rowi by auto.
    assert (Hsplit : forall i k0 pre post, done ++ [(j, k)] = pre ++ (i, k0) :: post ->
       (post = [] /\ pre = done /\ i = j /\ k0 = k) \/ (exists post', post = post' ++ [(j, k)] /\ done = pre ++ (i, k0) :: post')).
    { intros i k0 pre post E. destruct post as [|z post].
      - apply app_inj_tail in E as [-> E]. inversion E. auto.
      - assert (Hne : z :: post <> []) by discriminate. destruct (exists_last Hne) as (post' & z' & Ez). rewrite Ez in *.
        rewrite app_comm_cons, app_assoc in E. apply app_inj_tail in E as [E <-]. right. eauto. }
    destruct (rowi A k =? j) eqn:E.
    + rewrite (zget_val A n0) by auto. rewrite zset_Some by lia. eexists; split; [reflexivity|].
      rewrite zlen_upd. split; auto. intros i Hi. rewrite !znth_upd by lia. destruct (i =? j) eqn:Ei.
      * assert (i = j) by lia. subst i. split.
        { intros H. exfalso. apply (H k). { apply in_or_app; simpl; auto. } lia. }
        intros pre k0 post E0 Hr Hlast. apply Hsplit in E0 as [(-> & _ & _ & ->)|(post' & -> & _)]; auto.
        exfalso. apply (Hlast k); [apply in_or_app; simpl; auto|lia].
      * destruct (Vx i Hi) as [H1 H2]. split.
        { intros H. apply H1. intros k0 Hk0. apply H. apply in_or_app; auto. }
        intros pre k0 post E0 Hr Hlast. apply Hsplit in E0 as [(_ & _ & -> & _)|(post' & -> & E0)]; [lia|].
        apply (H2 _ _ _ E0 Hr). intros k' Hk0. apply Hlast. apply in_or_app; auto.
    + eexists; split; [reflexivity|]. split; auto. intros i Hi. destruct (Vx i Hi) as [H1 H2]. split.
      { intros H. apply H1. intros k0 Hk0. apply H. apply in_or_app; auto. }
      intros pre k0 post E0 Hr Hlast. apply Hsplit in E0 as [(_ & _ & -> & ->)|(post' & -> & E0)]; [lia|].
      apply (H2 _ _ _ E0 Hr). intros k' Hk0. apply Hlast. apply in_or_app; auto.
  - exists d2. split; auto. split; auto. split.
    + intros i Hi H. apply V2; auto. intros k HI. apply In_pairs in HI as [_ HI]. auto.
    + intros i k Hi Hk Hr Hlast.
      assert (HI : In (i, k) (pairs A)) by (apply In_pairs; auto).
      destruct (in_split _ _ HI) as (pre & post & EP).
      apply (proj2 (V2 i Hi) _ _ _ EP Hr). intros k' HI'. apply Hlast.
      assert (HI2 : In (i, k') (pairs A)) by (rewrite EP; apply in_or_app; simpl; auto).
      apply In_pairs in HI2 as [_ HI2]. split; [|lia].
      (* slots appear in increasing order *)
      assert (EM : map snd (pairs A) = zseq 0 (nnz A)) by (apply map_snd_pairs; auto).
      rewrite EP, map_app in EM. simpl in EM. symmetry in EM. apply zseq_prefix in EM as (_ & _ & Epost).
      apply (in_map snd) in HI'. rewrite Epost in HI'. cbn [snd] in HI'. apply In_zseq in HI'. lia.
Qed.

Lemma dns_nodup (A : csc Rops) j k : wf A -> nodup_rows A -> 0 <= j < cn A -> colp A j <= k < colp A (j + 1) ->
  dns A (rowi A k) j = valx A k.
Proof.
  intros W HN Hj Hk. unfold dns.
  rewrite (zsum_ext _ _ _ (fun k' => if k' =? k then valx A k' else 0%R)).
  - apply zsum_single; auto.
  - intros k' Hk'. destruct (k' =? k) eqn:E.
    + assert (k' = k) by lia. subst. rewrite Z.eqb_refl. auto.
    + destruct (rowi A k' =? rowi A k) eqn:E2; auto. exfalso. assert (k' = k) by (apply (HN j); auto; lia). lia.
Qed.

Lemma dns_no_entry (A : csc Rops) i j : (forall k, colp A j <= k < colp A (j + 1) -> rowi A k <> i) -> dns A i j = 0%R.
Proof.
  intros H. unfold dns. apply zsum_0. intros k Hk. replace (rowi A k =? i) with false by (specialize (H k Hk); lia). auto.
Qed.

(** ** csc_AtDA_extract_diag *)
Lemma csc_AtDA_extract_diag_correct (A : csc Rops) (D d : list R) : wf A -> cm A <= zlen D -> cn A <= zlen d ->
  exists d' : list R, @csc_AtDA_extract_diag Rops A D d = Some d' /\ zlen d' = zlen d /\
    forall j, 0 <= j < cn A ->
      rnth d' j = zsum (colp A j) (colp A (j + 1)) (fun k => valx A k * valx A k * rnth D (rowi A k))%R.
Proof.
  intros W HD Hd. unfold csc_AtDA_extract_diag.
  loop_rule (fun t (x : list R) => zlen x = zlen d /\ forall j, 0 <= j < t ->
      rnth x j = zsum (colp A j) (colp A (j + 1)) (fun k => valx A k * valx A k * rnth D (rowi A k))%R) HR.
  destruct HR as (d' & E & L & V).
  - apply (wf_n _ W).
  - split; auto. intros; lia.
  - intros j x Hj (Lx & Vx). rewrite zset_Some by (unfold car, Rops in *; lia). rewrite !zget_colp by (auto; lia).
    loop_rule (fun t (y : list R) => zlen y = zlen d /\ (forall j', 0 <= j' < j -> rnth y j' = rnth x j') /\
       rnth y j = zsum (colp A j) t (fun k => valx A k * valx A k * rnth D (rowi A k))%R) HR2.
    destruct HR2 as (y & E & Ly & Uy & Vy).
    + apply (wf_mono _ W); auto.
    + rewrite zlen_upd. split; auto. unfold rnth. split.
      * intros j' Hj'. rewrite znth_upd by lia. replace (j' =? j) with false by lia. auto.
      * rewrite znth_upd by lia. rewrite Z.eqb_refl, zsum_nil by lia. apply n0_R.
    + intros k y Hk (Ly & Uy & Vy). assert (Hk' : 0 <= k < nnz A) by (eapply slot_range; eauto).
      rewrite (zget_val A (0%R : Rops)) by auto. rewrite zget_rowi by auto. pose proof (wf_rows _ W k Hk').
      rewrite (zget_Some 0%R D) by lia. change (car Rops) with R in *. rewrite (zget_Some 0%R y) by lia. rewrite zset_Some by lia.
      eexists; split; [reflexivity|]. rewrite zlen_upd. split; auto. unfold rnth in *. split.
      * intros j' Hj'. rewrite znth_upd by lia. replace (j' =? j) with false by lia. auto.
      * rewrite znth_upd by lia. rewrite Z.eqb_refl. rewrite zsum_snoc by lia. rewrite Vy. reflexivity.
    + exists y. split; auto. split; auto. intros j' Hj'. destruct (Z.eq_dec j' j) as [->|N]; auto.
      rewrite Uy by lia. apply Vx; lia.
  - exists d'. split; auto.
Qed.

(** ** Appending triplets *)
Section Append.
  Context {K : NumOps}.
  (** The first z triplets as (column, row, value). *)
  Definition trips (Tp Ti : list Z) (Tx : list K) (z : Z) : list (Z * Z * K) :=
    map (fun t => (znth 0 Tp t, znth 0 Ti t, znth n0 Tx t)) (zseq 0 z).

  Lemma zlen_trips Tp Ti Tx z : 0 <= z -> zlen (trips Tp Ti Tx z) = z.
  Proof. intros. unfold trips. rewrite zlen_map, zlen_zseq. lia. Qed.

  Lemma trips_push Tp Ti (Tx : list K) z c r v : 0 <= z -> z < zlen Tp -> z < zlen Ti -> z < zlen Tx ->
    trips (upd Tp (Z.to_nat z) c) (upd Ti (Z.to_nat z) r) (upd Tx (Z.to_nat z) v) (z + 1)
    = trips Tp Ti Tx z ++ [(c, r, v)].
  Proof.
    intros H0 H1 H2 H3. unfold trips. rewrite zseq_snoc by lia. rewrite map_app. simpl. f_equal.
    - apply map_ext_in. intros t Ht. apply In_zseq in Ht. rewrite !znth_upd by lia.
      replace (t =? z) with false by lia. auto.
    - rewrite !znth_upd by lia. rewrite Z.eqb_refl. auto.
  Qed.

  (** A triplet matrix given by its list of triplets. *)
  Lemma wf_triplet_of (T : csc K) (l : list (Z * Z * K)) : 0 <= cm T -> 0 <= cn T -> 0 <= cnz T ->
    cnz T <= zlen (cp T) -> cnz T <= zlen (ci T) -> cnz T <= zlen (cx T) ->
    trips (cp T) (ci T) (cx T) (cnz T) = l ->
    (forall c r v, In (c, r, v) l -> 0 <= c < cn T /\ 0 <= r < cm T) -> wf_triplet T.
  Proof.
    intros Hm Hn Hz Lp Li Lx E H.
    assert (HI : forall k, 0 <= k < cnz T -> In (znth 0 (cp T) k, znth 0 (ci T) k, znth n0 (cx T) k) l).
    { intros k Hk. rewrite <- E. unfold trips. apply in_map_iff. exists k. split; auto. apply In_zseq; auto. }
    constructor; auto; intros k Hk; apply (H _ _ _ (HI k Hk)).
  Qed.

  Lemma trip_col_of (T : csc K) l j : trips (cp T) (ci T) (cx T) (cnz T) = l ->
    trip_col T j = map (fun t => (snd (fst t), snd t)) (filter (fun t => fst (fst t) =? j) l).
  Proof.
    intros <-. unfold trip_col, trips. generalize (zseq 0 (cnz T)). induction l as [|a l IH]; simpl; auto.
    destruct (znth 0 (cp T) a =? j); simpl; rewrite IH; auto.
  Qed.
End Append.

Lemma dns_trips (C : csc Rops) (l : list (Z * Z * R)) i j :
  col_entries C j = map (fun t => (snd (fst t), snd t)) (filter (fun t => fst (fst t) =? j) l) ->
  dns C i j = lsum (fun t => if (fst (fst t) =? j) && (snd (fst t) =? i) then snd t else 0%R) l.
Proof.
  intros H. rewrite dns_entries, H, lsum_map, <- lsum_filter. apply lsum_ext. intros [[c r] v] _. cbn [fst snd].
  destruct (c =? j); auto.
Qed.

(** ** triu_to_csc *)
Section Full.
  Context {K : NumOps}.
  Definition full_items (M : csc K) : list (Z * Z * K) :=
    flat_map (fun jk => let j := fst jk in let k := snd jk in let i := rowi M k in let v := znth n0 (cx M) k in
      (j, i, v) :: if i <? j then [(i, j, v)] else []) (pairs M).

  Lemma triu_to_csc_spec (M : csc K) jz jx : wf M -> cm M = cn M ->
    exists C, triu_to_csc jz jx M = Some (Some C) /\ wf C /\ cm C = cn M /\ cn C = cn M /\
      nnz C = zlen (full_items M) /\ cnzmax C = nnz C /\ cnz C = -1 /\
      (forall j, 0 <= j < cn M -> col_entries C j =
         map (fun t => (snd (fst t), snd t)) (filter (fun t => fst (fst t) =? j) (full_items M))).
  Proof.
    intros W Hmn. pose proof (nnz_nonneg M W) as Hnn. pose proof (wf_n _ W) as Hn.
    unfold triu_to_csc. rewrite Hmn, Z.eqb_refl. cbn [negb]. rewrite zget_nnz by auto.
    unfold csc_spalloc. cbn [cp ci cx cm cn cnzmax cnz]. rewrite Z.max_l by lia.
    set (item := fun jk : Z * Z => let j := fst jk in let k := snd jk in let i := rowi M k in let v := znth n0 (cx M) k in
      (j, i, v) :: if i <? j then [(i, j, v)] else []).
    assert (Hitem : forall l, zlen (flat_map item l) <= 2 * zlen l).
    { induction l as [|a l IH]; [cbn; lia|]. cbn [flat_map]. rewrite zlen_app, zlen_cons. unfold item at 1. cbv zeta.
      destruct (rowi M (snd a) <? fst a); rewrite ?zlen_cons, zlen_nil; lia. }
    lazymatch goal with |- context [for_cols _ _ ?b ?s0] =>
    destruct (for_cols_rule (fun done (s : list Z * list Z * list K * Z) => let '(Ti, Tp, Tx, z) := s in
       zlen Ti = 2 * nnz M /\ zlen Tp = 2 * nnz M /\ zlen Tx = 2 * nnz M /\ 0 <= z /\
       trips Tp Ti Tx z = flat_map item done) M b s0 W)
      as ([[[Ti Tp] Tx] z] & -> & LTi & LTp & LTx & Hz & VT) end.
    - rewrite !zlen_zrep by lia. repeat split; auto; lia.
    - intros done j k [[[Ti Tp] Tx] z] Hj Hk Hk' (rest & Er) (LTi & LTp & LTx & Hz & VT).
      rewrite zget_rowi by auto. rewrite (zget_val M n0) by auto.
      assert (Hroom : z + zlen (item (j, k)) <= 2 * nnz M).
      { rewrite <- (zlen_pairs M W), Er, zlen_app, zlen_cons.
        pose proof (Hitem done). pose proof (Hitem [(j, k)]) as Hi1. cbn [flat_map] in Hi1. rewrite app_nil_r in Hi1.
        rewrite zlen_cons, zlen_nil in Hi1. rewrite <- VT, zlen_trips in H by auto. pose proof (zlen_nonneg rest). lia. }
      unfold item in Hroom. cbn [fst snd] in Hroom. cbv zeta in Hroom. rewrite zlen_cons in Hroom.
      assert (0 <= zlen (if rowi M k <? j then [(rowi M k, j, znth n0 (cx M) k)] else [])) by apply zlen_nonneg.
      rewrite !zset_Some by lia. cbv zeta.
      destruct (rowi M k <? j) eqn:El.
      + rewrite zlen_cons, zlen_nil in Hroom.
        rewrite !zset_Some by (rewrite ?zlen_upd; lia). eexists; split; [reflexivity|]. cbv beta iota.
        rewrite !zlen_upd. repeat (split; [solve [auto; lia]|]).
        rewrite trips_push by (rewrite ?zlen_upd; lia). rewrite trips_push by lia. rewrite VT, flat_map_app.
        cbn [flat_map]. rewrite app_nil_r. unfold item at 3. cbn [fst snd]. cbv zeta. rewrite El. rewrite <- app_assoc. auto.
      + eexists; split; [reflexivity|]. cbv beta iota. rewrite !zlen_upd. repeat (split; [solve [auto; lia]|]).
        rewrite trips_push by lia. rewrite VT, flat_map_app.
        cbn [flat_map]. rewrite app_nil_r. unfold item at 3. cbn [fst snd]. cbv zeta. rewrite El. auto.
    - assert (Hzl : z = zlen (full_items M)).
      { unfold full_items. fold item. rewrite <- VT, zlen_trips; auto. }
      assert (Hzle : z <= 2 * nnz M).
      { rewrite Hzl. unfold full_items. fold item. rewrite <- (zlen_pairs M W). apply Hitem. }
      set (T := mkcsc (cn M) (cn M) Tp Ti Tx (2 * nnz M) z).
      assert (WT : wf_triplet T).
      { apply (wf_triplet_of T (full_items M)); unfold T; cbn [cm cn cp ci cx cnz]; auto; try lia.
        intros c r v HI. unfold full_items in HI. apply in_flat_map in HI as ([j k] & HI & HI2).
        apply In_pairs in HI as [Hj Hk]. cbn [fst snd] in HI2.
        assert (Hk' : 0 <= k < nnz M) by (eapply slot_range; eauto). pose proof (wf_rows _ W k Hk').
        destruct HI2 as [E|HI2]; [inversion E; subst; lia|].
        destruct (rowi M k <? j); [|contradiction]. destruct HI2 as [E|[]]. inversion E; subst; lia. }
      destruct (triplet_to_csc_spec T jz jx None WT) as (C & MM & -> & WC & Hcm & Hcn & HnC & HnzC & _ & Lp & Li & Lx & HE & _).
      { discriminate. }
      cbn [fst]. eexists; split; [reflexivity|].
      assert (WC' : wf (mkcsc (cm C) (cn C) (cp C) (ci C) (cx C) z (cnz C))).
      { apply (wf_same_pattern C); auto. cbn [cx]. lia. }
      split; [exact WC'|]. cbn [cm cn cnzmax cnz]. split; [exact Hcm|]. split; [exact Hcn|].
      change (nnz (mkcsc (cm C) (cn C) (cp C) (ci C) (cx C) z (cnz C))) with (nnz C).
      rewrite HnC. unfold T; cbn [cnz]. split; [auto|]. split; [auto|]. split; [auto|].
      intros j Hj. change (col_entries (mkcsc (cm C) (cn C) (cp C) (ci C) (cx C) z (cnz C)) j) with (col_entries C j).
      rewrite HE by auto. apply trip_col_of. exact VT.
  Qed.

  Definition stack_items (A B : csc K) : list (Z * Z * K) :=
    map (fun jk => (fst jk, rowi A (snd jk), znth n0 (cx A) (snd jk))) (pairs A) ++
    map (fun jk => (fst jk, rowi B (snd jk) + cm A, znth n0 (cx B) (snd jk))) (pairs B).

  Lemma vstack_spec (A B : csc K) jz jx : wf A -> wf B -> cn A = cn B -> nnz A <= cnzmax A -> nnz B <= cnzmax B ->
    exists C, vstack jz jx A B = Some (Some C) /\ wf C /\ cm C = cm A + cm B /\ cn C = cn A /\
      nnz C = nnz A + nnz B /\ cnzmax C = nnz C /\ cnz C = -1 /\
      (forall j, 0 <= j < cn A -> col_entries C j =
         map (fun t => (snd (fst t), snd t)) (filter (fun t => fst (fst t) =? j) (stack_items A B))).
  Proof.
    intros WA WB Hnn HnA HnB. pose proof (nnz_nonneg A WA). pose proof (nnz_nonneg B WB).
    pose proof (wf_n _ WA) as Hn. pose proof (wf_m _ WA). pose proof (wf_m _ WB).
    unfold vstack. replace (cn A =? cn B) with true by lia. cbn [negb].
    unfold csc_spalloc. cbn [cp ci cx cm cn cnzmax cnz]. rewrite Z.max_l by lia.
    set (N := cnzmax A + cnzmax B).
    set (fA := fun jk : Z * Z => (fst jk, rowi A (snd jk), znth n0 (cx A) (snd jk))).
    set (fB := fun jk : Z * Z => (fst jk, rowi B (snd jk) + cm A, znth n0 (cx B) (snd jk))).
    lazymatch goal with |- context [for_cols (cn A) (cp A) ?b ?s0] =>
    destruct (for_cols_rule (fun done (s : list Z * list Z * list K * Z) => let '(Ti, Tp, Tx, z) := s in
       zlen Ti = N /\ zlen Tp = N /\ zlen Tx = N /\ 0 <= z /\ z = zlen done /\
       trips Tp Ti Tx z = map fA done) A b s0 WA)
      as ([[[Ti Tp] Tx] z] & -> & LTi & LTp & LTx & Hz & Hzd & VT) end.
    { rewrite !zlen_zrep by lia. repeat split; auto; lia. }
    { intros done j k [[[Ti Tp] Tx] z] Hj Hk Hk' (rest & Er) (LTi & LTp & LTx & Hz & Hzd & VT).
      rewrite zget_rowi by auto. rewrite (zget_val A n0) by auto.
      assert (Hroom : z < nnz A).
      { rewrite <- (zlen_pairs A WA), Er, zlen_app, zlen_cons. pose proof (zlen_nonneg rest). lia. }
      rewrite !zset_Some by lia. eexists; split; [reflexivity|]. cbv beta iota. rewrite !zlen_upd.
      repeat (split; [solve [auto; lia]|]). split; [rewrite zlen_app, zlen_cons, zlen_nil; lia|].
      rewrite trips_push by lia. rewrite VT, map_app. auto. }
    rewrite zlen_pairs in Hzd by auto. rewrite Hnn.
    lazymatch goal with |- context [for_cols (cn B) (cp B) ?b ?s0] =>
    destruct (for_cols_rule (fun done (s : list Z * list Z * list K * Z) => let '(Ti, Tp, Tx, z) := s in
       zlen Ti = N /\ zlen Tp = N /\ zlen Tx = N /\ 0 <= z /\ z = nnz A + zlen done /\
       trips Tp Ti Tx z = map fA (pairs A) ++ map fB done) B b s0 WB)
      as ([[[Ti2 Tp2] Tx2] z2] & -> & LTi2 & LTp2 & LTx2 & Hz2 & Hzd2 & VT2) end.
    { repeat (split; [solve [auto; lia]|]). split; [rewrite zlen_nil; lia|]. rewrite VT. simpl. rewrite app_nil_r. auto. }
    { intros done j k [[[Ti1 Tp1] Tx1] z1] Hj Hk Hk' (rest & Er) (LTi1 & LTp1 & LTx1 & Hz1 & Hzd1 & VT1).
      rewrite zget_rowi by auto. rewrite (zget_val B n0) by auto. cbv zeta.
      assert (Hroom : z1 < nnz A + nnz B).
      { rewrite <- (zlen_pairs B WB), Er, zlen_app, zlen_cons. pose proof (zlen_nonneg rest). lia. }
      rewrite !zset_Some by lia. eexists; split; [reflexivity|]. cbv beta iota. rewrite !zlen_upd.
      repeat (split; [solve [auto; lia]|]). split; [rewrite zlen_app, zlen_cons, zlen_nil; lia|].
      rewrite trips_push by lia. rewrite VT1, map_app, <- app_assoc. auto. }
    rewrite zlen_pairs in Hzd2 by auto.
    set (T := mkcsc (cm A + cm B) (cn B) Tp2 Ti2 Tx2 N z2).
    assert (WT : wf_triplet T).
    { apply (wf_triplet_of T (stack_items A B)); unfold T; cbn [cm cn cp ci cx cnz]; auto; try lia.
      intros c r v HI. unfold stack_items in HI. apply in_app_or in HI as [HI|HI]; apply in_map_iff in HI as ([j k] & E & HI);
        inversion E; subst; clear E; apply In_pairs in HI as [Hj Hk]; cbn [fst snd].
      - assert (Hk' : 0 <= k < nnz A) by (eapply slot_range; eauto). pose proof (wf_rows _ WA k Hk'). lia.
      - assert (Hk' : 0 <= k < nnz B) by (eapply slot_range; eauto). pose proof (wf_rows _ WB k Hk'). lia. }
    destruct (triplet_to_csc_spec T jz jx None WT) as (C & MM & -> & WC & Hcm & Hcn & HnC & HnzC & _ & Lp & Li & Lx & HE & _).
    { discriminate. }
    cbn [fst]. eexists; split; [reflexivity|].
    assert (WC' : wf (mkcsc (cm C) (cn C) (cp C) (ci C) (cx C) z2 (cnz C))).
    { apply (wf_same_pattern C); auto. cbn [cx]. lia. }
    split; [exact WC'|]. cbn [cm cn cnzmax cnz]. split; [exact Hcm|]. split; [exact Hcn|].
    change (nnz (mkcsc (cm C) (cn C) (cp C) (ci C) (cx C) z2 (cnz C))) with (nnz C).
    rewrite HnC. unfold T; cbn [cnz]. split; [auto|]. split; [auto|]. split; [auto|].
    intros j Hj. change (col_entries (mkcsc (cm C) (cn C) (cp C) (ci C) (cx C) z2 (cnz C)) j) with (col_entries C j).
    rewrite HE by (unfold T; cbn [cn]; lia). apply trip_col_of. exact VT2.
  Qed.
End Full.

Lemma triu_to_csc_dense (M : csc Rops) jz jx C : wf M -> triu M -> triu_to_csc jz jx M = Some (Some C) ->
  forall i j, 0 <= i < cn M -> 0 <= j < cn M -> dns C i j = sdns M i j.
Proof.
  intros W HT E i j Hi Hj.
  destruct (triu_to_csc_spec M jz jx W (proj1 HT)) as (C' & E' & _ & _ & _ & _ & _ & _ & HE).
  rewrite E in E'. inversion E'; subst C'. rewrite (dns_trips C (full_items M)) by auto.
  unfold full_items. rewrite lsum_flat_map.
  assert (HS : sdns M i j = Rplus (if i <=? j then dns M i j else 0%R) (if j <? i then dns M j i else 0%R)).
  { unfold sdns. destruct (i <=? j) eqn:E1, (j <? i) eqn:E2; try lia; lra. }
  rewrite HS.
  assert (H1 : (if i <=? j then dns M i j else 0%R) = dns M i j).
  { destruct (i <=? j) eqn:E1; auto. symmetry. apply dns_triu; auto; lia. }
  rewrite H1. rewrite (dns_pairs M i j), (dns_pairs M j i) by lia.
  replace (if j <? i then lsum _ _ else 0%R) with
    (lsum (fun jk => if (j <? i) && (fst jk =? i) && (rowi M (snd jk) =? j) then valx M (snd jk) else 0%R) (pairs M)).
  2:{ destruct (j <? i); simpl; auto. apply lsum_0; auto. }
  rewrite <- lsum_plus. apply lsum_ext. intros [a b] Hx. apply In_pairs in Hx as [Ha Hb]. cbn [fst snd].
  cbv zeta. destruct HT as [_ HT]. specialize (HT a b Ha Hb).
  unfold valx. destruct (rowi M b <? a) eqn:El; cbn [lsum fst snd]; rewrite n0_R; change (car Rops) with R.
  - destruct (a =? j) eqn:E1, (rowi M b =? i) eqn:E2, (rowi M b =? j) eqn:E3, (a =? i) eqn:E4, (j <? i) eqn:E5; try lia; simpl; lra.
  - destruct (a =? j) eqn:E1, (rowi M b =? i) eqn:E2, (rowi M b =? j) eqn:E3, (a =? i) eqn:E4, (j <? i) eqn:E5; try lia; simpl; lra.
Qed.

Lemma vstack_dense (A B : csc Rops) jz jx C : wf A -> wf B -> cn A = cn B -> nnz A <= cnzmax A -> nnz B <= cnzmax B ->
  vstack jz jx A B = Some (Some C) ->
  forall i j, 0 <= i < cm A + cm B -> 0 <= j < cn A ->
    dns C i j = if i <? cm A then dns A i j else dns B (i - cm A) j.
Proof.
  intros WA WB Hn HA HB E i j Hi Hj.
  destruct (vstack_spec A B jz jx WA WB Hn HA HB) as (C' & E' & _ & _ & _ & _ & _ & _ & HE).
  rewrite E in E'. inversion E'; subst C'. rewrite (dns_trips C (stack_items A B)) by auto.
  unfold stack_items. rewrite lsum_app, !lsum_map. cbn [fst snd].
  rewrite (dns_pairs A i j), (dns_pairs B (i - cm A) j) by lia.
  destruct (i <? cm A) eqn:El.
  - rewrite (lsum_0 _ (pairs B)).
    + rewrite Rplus_0_r. apply lsum_ext. intros [a b] _. cbn [fst snd]. unfold valx. rewrite n0_R. reflexivity.
    + intros [a b] Hx. apply In_pairs in Hx as [Ha Hb]. cbn [fst snd].
      assert (Hk' : 0 <= b < nnz B) by (eapply slot_range; eauto). pose proof (wf_rows _ WB b Hk').
      replace (rowi B b + cm A =? i) with false by lia. rewrite andb_false_r. auto.
  - rewrite (lsum_0 _ (pairs A)).
    + rewrite Rplus_0_l. apply lsum_ext. intros [a b] _. cbn [fst snd]. unfold valx. rewrite n0_R.
      replace (rowi B b + cm A =? i) with (rowi B b =? i - cm A) by lia. reflexivity.
    + intros [a b] Hx. apply In_pairs in Hx as [Ha Hb]. cbn [fst snd].
      assert (Hk' : 0 <= b < nnz A) by (eapply slot_range; eauto). pose proof (wf_rows _ WA b Hk').
      replace (rowi A b =? i) with false by lia. rewrite andb_false_r. auto.
Qed.
