(** Matrix construction: symmetric permutation, row selection, full storage, stacking. *)
From Coq Require Import ZArith Reals List Bool Lia Lra Permutation.
From Verif Require Import Num Arr ArrFacts RSum Csc CscSpec CscFacts CscFacts2 Scatter.
Import ListNotations.
Open Scope Z_scope.

Lemma foldM_filter {X S} (keep : X -> bool) (body : X -> S -> option S) L s :
  (forall x s, In x L -> keep x = false -> body x s = Some s) ->
  foldM body L s = foldM body (filter keep L) s.
Proof.
  revert s; induction L as [|a L IH]; intros s H; simpl; auto.
  destruct (keep a) eqn:E; simpl.
  - destruct (body a s); auto. apply IH. intros; apply H; simpl; auto.
  - rewrite H by (simpl; auto). apply IH. intros; apply H; simpl; auto.
Qed.

Lemma foldM_cols {K : NumOps} {S} (A : csc K) (outer : Z -> S -> option S) (body : Z * Z -> S -> option S) s :
  (forall j s, 0 <= j < cn A -> outer j s = foldM (fun k s => body (j, k) s) (zseq (colp A j) (colp A (j + 1))) s) ->
  foldM outer (zseq 0 (cn A)) s = foldM body (pairs A) s.
Proof.
  intros H. unfold pairs. rewrite foldM_flat_map. apply foldM_ext_in.
  intros j s' Hj. apply In_zseq in Hj. rewrite H by auto. rewrite foldM_map. auto.
Qed.

Section WfScatter.
  Context {K : NumOps} {X : Type}.
  Variable (col row : X -> Z) (val : X -> K).

  Lemma start_find (L : list X) n s : (forall x, In x L -> 0 <= col x) -> 0 <= n -> 0 <= s < start col L n ->
    exists j, 0 <= j < n /\ start col L j <= s < start col L (j + 1).
  Proof.
    intros Hc Hn. pattern n. apply natlike_ind; auto.
    - rewrite start_0 by auto. lia.
    - intros x Hx IH Hs. unfold Z.succ in *. destruct (Z_lt_ge_dec s (start col L x)).
      + destruct IH as (j & ? & ?); try lia. exists j; lia.
      + exists x. lia.
  Qed.

  Lemma wf_scatter (L : list X) (C : csc K) :
    0 <= cm C -> 0 <= cn C -> cn C + 1 <= zlen (cp C) ->
    (forall j, 0 <= j <= cn C -> colp C j = start col L j) ->
    (forall x, In x L -> 0 <= col x < cn C) -> (forall x, In x L -> 0 <= row x < cm C) ->
    zlen L <= zlen (ci C) -> zlen L <= zlen (cx C) ->
    (forall j, 0 <= j < cn C ->
       slots (ci C) (cx C) (start col L j) (start col L (j + 1)) = map (ent row val) (filter (fun x => col x =? j) L)) ->
    wf C /\ nnz C = zlen L /\
    (forall j, 0 <= j < cn C -> col_entries C j = map (ent row val) (filter (fun x => col x =? j) L)).
  Proof.
    intros Hm Hn Hp HCp Hc Hr Li Lx VS.
    assert (Hnnz : nnz C = zlen L).
    { unfold nnz. rewrite HCp by lia. apply start_n. intros x Hx; apply Hc; auto. }
    assert (HE : forall j, 0 <= j < cn C -> col_entries C j = map (ent row val) (filter (fun x => col x =? j) L)).
    { intros j Hj. unfold col_entries. rewrite !HCp by lia. auto. }
    split; [|auto]. constructor; auto; try lia.
    - rewrite HCp by lia. apply start_0. intros x Hx; apply Hc; auto.
    - intros j Hj. rewrite !HCp by lia. apply start_mono. lia.
    - intros s Hs. destruct (start_find L (cn C) s) as (j & Hj & Hsj); auto.
      { intros x Hx; apply Hc; auto. } { rewrite <- HCp by lia. exact Hs. }
      assert (HI : In (rowi C s, znth n0 (cx C) s) (map (ent row val) (filter (fun x => col x =? j) L))).
      { rewrite <- HE by auto. unfold col_entries, slots. apply in_map_iff. exists s. split; auto.
        apply In_zseq. rewrite !HCp by lia. auto. }
      apply in_map_iff in HI as (x & Ex & Hx). apply filter_In in Hx as [Hx _].
      apply (f_equal fst) in Ex. simpl in Ex. rewrite <- Ex. auto.
  Qed.
End WfScatter.

Lemma dns_scatter {X} (col row : X -> Z) (val : X -> R) (L : list X) (C : csc Rops) a b :
  col_entries C b = map (ent (K := Rops) row val) (filter (fun x => col x =? b) L) ->
  dns C a b = lsum (fun x => if (col x =? b) && (row x =? a) then val x else 0%R) L.
Proof.
  intros H. rewrite dns_entries, H, lsum_map. rewrite <- lsum_filter. apply lsum_ext.
  intros x _. cbn [ent fst snd]. destruct (col x =? b); auto.
Qed.

Lemma dns_pairs (A : csc Rops) i j : 0 <= j < cn A ->
  dns A i j = lsum (fun jk => if (fst jk =? j) && (rowi A (snd jk) =? i) then valx A (snd jk) else 0%R) (pairs A).
Proof.
  intros Hj. unfold pairs. rewrite lsum_flat_map.
  rewrite (lsum_ext _ (fun j' => if j' =? j then dns A i j' else 0%R)).
  - symmetry. apply zsum_single. auto.
  - intros j' _. rewrite lsum_map. cbn [fst snd]. destruct (j' =? j).
    + apply lsum_ext. intros k _. simpl. auto.
    + apply lsum_0. auto.
Qed.

Lemma zlen_pairs {K : NumOps} (A : csc K) : wf A -> zlen (pairs A) = nnz A.
Proof.
  intros W. rewrite <- (zlen_map snd), map_snd_pairs by auto. rewrite zlen_zseq.
  pose proof (nnz_nonneg A W). lia.
Qed.

(** Split the pairs at a given slot. *)
Lemma split_filter {X} (b : X -> bool) L x : In x L -> b x = true -> exists pre post, filter b L = pre ++ x :: post.
Proof. intros H Hb. apply in_split. apply filter_In; auto. Qed.

(** ** csc_symperm *)
Section Symperm.
  Context {K : NumOps}.

  Lemma perm_at_ok pinv n i : perm_ok pinv n -> 0 <= i < n -> perm_at pinv i = Some (pm pinv i).
  Proof.
    intros (H & _) Hi. unfold perm_at, pm. destruct pinv as [p|]; auto. apply zget_Some.
    specialize (H p eq_refl). lia.
  Qed.

  Definition sp_items (A : csc K) : list (Z * Z) := filter (fun jk => rowi A (snd jk) <=? fst jk) (pairs A).
  Definition sp_col (A : csc K) pinv (jk : Z * Z) := Z.max (pm pinv (rowi A (snd jk))) (pm pinv (fst jk)).
  Definition sp_row (A : csc K) pinv (jk : Z * Z) := Z.min (pm pinv (rowi A (snd jk))) (pm pinv (fst jk)).
  Definition sp_val (A : csc K) (jk : Z * Z) : K := znth n0 (cx A) (snd jk).

  Lemma csc_symperm_spec (A : csc K) jz jx pinv AtoC : wf A -> cm A = cn A -> perm_ok pinv (cn A) ->
    (forall t, AtoC = Some t -> nnz A <= zlen t) ->
    exists C M, csc_symperm jz jx A pinv AtoC = Some (C, M) /\ wf C /\ triu C /\
      cm C = cn A /\ cn C = cn A /\ nnz C = zlen (sp_items A) /\ zlen (cp C) = cn A + 1 /\ zlen (ci C) = nnz A /\
      zlen (cx C) = nnz A /\ cnzmax C = nnz A /\ cnz C = -1 /\
      (forall j, 0 <= j < cn A -> col_entries C j =
          map (ent (sp_row A pinv) (sp_val A)) (filter (fun x => sp_col A pinv x =? j) (sp_items A))) /\
      match AtoC, M with
      | None, None => True
      | Some t0, Some t => zlen t = zlen t0 /\
          (forall j k, In (j, k) (sp_items A) ->
             colp C (sp_col A pinv (j, k)) <= znth 0 t k < colp C (sp_col A pinv (j, k) + 1) /\
             rowi C (znth 0 t k) = sp_row A pinv (j, k) /\ znth n0 (cx C) (znth 0 t k) = znth n0 (cx A) k) /\
          (forall x y, In x (sp_items A) -> In y (sp_items A) -> znth 0 t (snd x) = znth 0 t (snd y) -> x = y)
      | _, _ => False
      end.
  Proof.
    intros W Hmn HP HT. pose proof (nnz_nonneg A W) as Hnn. pose proof (wf_n _ W) as Hn.
    pose proof HP as (HP1 & HP2 & HP3).
    unfold csc_symperm. rewrite zget_nnz by auto.
    unfold csc_spalloc. cbn [cp ci cx cm cn cnzmax cnz]. rewrite Z.max_l by lia.
    set (L := sp_items A). set (col := sp_col A pinv). set (row := sp_row A pinv).
    assert (HinL : forall j k, In (j, k) L -> 0 <= j < cn A /\ colp A j <= k < colp A (j + 1) /\ 0 <= k < nnz A /\
              0 <= rowi A k <= j).
    { intros j k HI. apply filter_In in HI as [HI Hle]. apply In_pairs in HI as [Hj Hk]. cbn [fst snd] in Hle.
      assert (Hk' : 0 <= k < nnz A) by (eapply slot_range; eauto). pose proof (wf_rows _ W k Hk'). lia. }
    assert (HcL : forall x, In x L -> 0 <= col x < cn A).
    { intros [j k] Hx. apply HinL in Hx as (Hj & _ & _ & Hr). unfold col, sp_col. cbn [fst snd].
      pose proof (HP2 j Hj). pose proof (HP2 (rowi A k)). lia. }
    assert (HrL : forall x, In x L -> 0 <= row x < cn A).
    { intros [j k] Hx. apply HinL in Hx as (Hj & _ & _ & Hr). unfold row, sp_row. cbn [fst snd].
      pose proof (HP2 j Hj). pose proof (HP2 (rowi A k)). lia. }
    assert (HLen : zlen L <= nnz A).
    { rewrite <- (zlen_pairs A W). apply (cnt_le_len (fun jk => rowi A (snd jk) <=? fst jk)). }
    (* the counting loop *)
    rewrite for_foldM.
    rewrite (foldM_cols A _ (fun jk w => match zget w (col jk) with
        Some c => if fst jk <? rowi A (snd jk) then Some w else zset w (col jk) (c + 1)
        | None => if fst jk <? rowi A (snd jk) then Some w else None end)).
    2:{ intros j w Hj. rewrite (perm_at_ok pinv (cn A)) by auto. rewrite !zget_colp by (auto; lia).
        rewrite for_foldM. apply foldM_ext_in. intros k w' Hk. apply In_zseq in Hk.
        assert (Hk' : 0 <= k < nnz A) by (eapply slot_range; eauto).
        rewrite zget_rowi by auto. cbn [fst snd]. pose proof (wf_rows _ W k Hk').
        rewrite (perm_at_ok pinv (cn A)) by (auto; lia). unfold col, sp_col. cbn [fst snd].
        destruct (zget w' _), (j <? rowi A k); auto. }
    rewrite (foldM_filter (fun jk => rowi A (snd jk) <=? fst jk)).
    2:{ intros [j k] w _ Hk. cbn [fst snd] in *. replace (j <? rowi A k) with true by lia. destruct (zget w _); auto. }
    change (filter (fun jk => rowi A (snd jk) <=? fst jk) (pairs A)) with L.
    lazymatch goal with |- context [foldM ?b L (zrep (cn A) 0)] =>
    destruct (count_loop col (fun w : list Z => w) b L (zrep (cn A) 0) (cn A)) as (w & -> & Lw & Vw) end.
    { rewrite zlen_zrep; lia. }
    { intros [j k] w Hx HLw. pose proof (HcL _ Hx). apply HinL in Hx as (Hj & _ & _ & Hr). cbn [fst snd].
      rewrite (zget_Some 0) by lia. replace (j <? rowi A k) with false by lia. rewrite zset_Some by lia. eauto. }
    { auto. }
    assert (Vw' : forall j, 0 <= j < cn A -> znth 0 w j = cnt (fun x => col x =? j) L).
    { intros j Hj. rewrite Vw, znth_zrep by lia. lia. }
    destruct (csc_cumsum_spec (zrep (cn A + 1) jz) w (cn A)) as (Cp & w2 & -> & LCp & Lw2 & VCp & Vw2 & _);
      [lia|rewrite zlen_zrep; lia|lia|].
    rewrite zlen_zrep in LCp by lia.
    assert (HPS : forall j, 0 <= j <= cn A -> psum (fun i => znth 0 w i) j = start col L j).
    { intros j Hj. rewrite <- psum_start by (try lia; intros x Hx; apply HcL; auto).
      apply psum_ext. intros i Hi. apply Vw'. lia. }
    (* the scatter loop *)
    rewrite for_foldM.
    set (body2 := fun (jk : Z * Z) (s : list Z * list Z * list K * option (list Z)) =>
      let '(w, Ci, Cx, AtoC) := s in
      if fst jk <? rowi A (snd jk) then Some s else
      match zget w (col jk) with Some q => match zset w (col jk) (q + 1) with Some w =>
      match zset Ci q (row jk) with Some Ci => match zget (cx A) (snd jk) with Some v =>
      match zset Cx q v with Some Cx => match AtoC with None => Some (w, Ci, Cx, None)
      | Some t => match zset t (snd jk) q with Some t => Some (w, Ci, Cx, Some t) | None => None end end
      | None => None end | None => None end | None => None end | None => None end | None => None end).
    rewrite (foldM_cols A _ body2).
    2:{ intros j w' Hj. rewrite (perm_at_ok pinv (cn A)) by auto. rewrite !zget_colp by (auto; lia).
        rewrite for_foldM. apply foldM_ext_in. intros k [[[w1 Ci1] Cx1] M1] Hk. apply In_zseq in Hk.
        assert (Hk' : 0 <= k < nnz A) by (eapply slot_range; eauto). unfold body2.
        rewrite zget_rowi by auto. cbn [fst snd]. pose proof (wf_rows _ W k Hk').
        rewrite (perm_at_ok pinv (cn A)) by (auto; lia). unfold col, sp_col, row, sp_row. cbn [fst snd]. reflexivity. }
    rewrite (foldM_filter (fun jk => rowi A (snd jk) <=? fst jk)).
    2:{ intros [j k] [[[w1 Ci1] Cx1] M1] _ Hk. unfold body2. cbn [fst snd] in *. replace (j <? rowi A k) with true by lia. auto. }
    change (filter (fun jk => rowi A (snd jk) <=? fst jk) (pairs A)) with L.
    assert (HNk : NoDup (map snd L)).
    { assert (HN : NoDup (map snd (pairs A))) by (rewrite map_snd_pairs by auto; apply NoDup_zseq).
      unfold L, sp_items. revert HN. generalize (pairs A). intros l. induction l as [|a l IH]; simpl; intros HN; auto.
      inversion HN; subst. destruct (rowi A (snd a) <=? fst a); simpl; auto. constructor; auto.
      intros HI. apply H1. apply in_map_iff in HI as (y & E & Hy). apply filter_In in Hy as [Hy _].
      rewrite <- E. apply in_map; auto. }
    destruct (scatter_loop (S := list Z * list Z * list K * option (list Z)) col row snd (sp_val A) (fun s => s) body2
       L (w2, zrep (nnz A) jz, zrep (nnz A) jx, AtoC) w2 (zrep (nnz A) jz) (zrep (nnz A) jx) AtoC (cn A))
      as (s' & w3 & Ci & Cx & M & -> & -> & Lw3 & LCi & LCx & Vw3 & _ & VS & VM); auto.
    { lia. }
    { intros j Hj. rewrite Vw2 by lia. apply HPS. lia. }
    { rewrite zlen_zrep; lia. }
    { rewrite zlen_zrep; lia. }
    { intros t Ht. split; auto. intros [j k] Hx. apply HinL in Hx. specialize (HT t Ht). cbn [snd]. lia. }
    { intros [j k] s w' Ci Cx M Hx -> Lw' LCi LCx Hp HMM. pose proof (HcL _ Hx) as Hck.
      apply HinL in Hx as (Hj & Hk & Hk' & Hr). rewrite zlen_zrep in LCi by lia. rewrite zlen_zrep in LCx by lia.
      unfold body2. cbn [fst snd] in *. replace (j <? rowi A k) with false by lia.
      rewrite (zget_Some 0 w') by lia. rewrite zset_Some by lia. rewrite zset_Some by lia.
      rewrite (zget_val A n0) by auto. rewrite zset_Some by lia.
      destruct AtoC as [t0|], M as [t|]; try tauto.
      - specialize (HT t0 eq_refl). rewrite zset_Some by lia. eauto.
      - eauto. }
    rewrite zlen_zrep in LCi by lia. rewrite zlen_zrep in LCx by lia.
    eexists; eexists; split; [reflexivity|].
    set (C := mkcsc (cn A) (cn A) Cp Ci Cx (nnz A) (-1)).
    assert (HCp : forall j, 0 <= j <= cn A -> colp C j = start col L j).
    { intros j Hj. unfold colp, C; cbn [cp]. rewrite VCp by lia. apply HPS; lia. }
    destruct (wf_scatter col row (sp_val A) L C) as (WC & HnC & HE); unfold C; cbn [cm cn cp ci cx]; auto; try lia.
    fold C in WC, HnC, HE |- *. split; [exact WC|].
    assert (Hpos : forall x, In x L -> exists pre post, L = pre ++ x :: post) by (intros; apply in_split; auto).
    split.
    { split; [reflexivity|]. intros j k Hj Hk. change (cn C) with (cn A) in Hj.
      assert (HI : In (rowi C k, znth n0 (cx C) k) (map (ent row (sp_val A)) (filter (fun x => col x =? j) L))).
      { rewrite <- HE by auto. apply in_map_iff. exists k. split; auto. apply In_zseq. auto. }
      apply in_map_iff in HI as (x & Ex & Hx). apply filter_In in Hx as [Hx Hcx].
      apply (f_equal fst) in Ex. cbn [ent fst] in Ex. rewrite <- Ex. unfold row, sp_row. unfold col, sp_col in Hcx. lia. }
    repeat (split; [solve [auto]|]).
    destruct AtoC as [t0|], M as [t|]; auto. destruct VM as (Lt & Vt & _). split; auto. split.
    - intros j k Hx. destruct (Hpos _ Hx) as (pre & post & EL). pose proof (Vt _ _ _ EL) as Ek. cbn [snd] in Ek.
      rewrite Ek. pose proof (slot_of_range col L _ _ _ EL) as HRg. pose proof (HcL _ Hx) as Hck.
      split. { change (sp_col A pinv (j, k)) with (col (j, k)). rewrite !HCp by lia. exact HRg. }
      exact (slot_of_entry col row (sp_val A) L _ _ _ Ci Cx EL (VS _ Hck)).
    - intros x y Hx Hy Eq. destruct (Hpos _ Hx) as (pre & post & EL). destruct (Hpos _ Hy) as (pre' & post' & EL').
      rewrite (Vt _ _ _ EL), (Vt _ _ _ EL') in Eq.
      pose proof (slot_of_inj col L _ _ _ _ _ _ EL EL' Eq) as HLn.
      rewrite EL in EL'. revert EL'. clear - HLn. revert pre' HLn.
      induction pre as [|a pre IH]; intros [|b pre'] HLn E; simpl in *; try lia; inversion E; auto.
      apply (IH pre'); auto.
  Qed.
End Symperm.

(** Over the reals: the result stores the symmetrically permuted matrix. *)
Lemma csc_symperm_dense (A : csc Rops) jz jx pinv AtoC C M : wf A -> triu A -> perm_ok pinv (cn A) ->
  (forall t, AtoC = Some t -> nnz A <= zlen t) ->
  csc_symperm jz jx A pinv AtoC = Some (C, M) ->
  forall i j, 0 <= i < cn A -> 0 <= j < cn A -> sdns C (pm pinv i) (pm pinv j) = sdns A i j.
Proof.
  intros W HT HP HM E.
  destruct (csc_symperm_spec A jz jx pinv AtoC W (proj1 HT) HP HM) as (C' & M' & E' & WC & TC & _ & HnC & _ & _ & _ & _ & _ & _ & HE & _).
  rewrite E in E'. inversion E'; subst C' M'. clear E'.
  destruct HP as (_ & HP2 & HP3).
  assert (Hmain : forall i j, 0 <= i <= j -> j < cn A ->
     dns C (Z.min (pm pinv i) (pm pinv j)) (Z.max (pm pinv i) (pm pinv j)) = dns A i j).
  { intros i j Hij Hj. pose proof (HP2 i ltac:(lia)). pose proof (HP2 j ltac:(lia)).
    rewrite (dns_scatter (sp_col A pinv) (sp_row A pinv) (sp_val A) (sp_items A)) by (apply HE; lia).
    rewrite dns_pairs by lia.
    assert (HF : sp_items A = pairs A).
    { unfold sp_items. destruct HT as [_ HT]. assert (HH : forall l, (forall x, In x l -> In x (pairs A)) ->
         filter (fun jk => rowi A (snd jk) <=? fst jk) l = l).
      { induction l as [|[a b] l IH]; intros Hl; auto. simpl.
        assert (HI : In (a, b) (pairs A)) by (apply Hl; simpl; auto). apply In_pairs in HI as [Ha Hb].
        specialize (HT a b Ha Hb). replace (rowi A b <=? a) with true by lia. f_equal. apply IH. intros; apply Hl; simpl; auto. }
      apply HH. auto. }
    rewrite HF. apply lsum_ext. intros [a b] Hx. pose proof Hx as Hx'. rewrite <- HF in Hx'. apply filter_In in Hx' as [_ Hle].
    apply In_pairs in Hx as [Ha Hb]. cbn [fst snd] in *.
    assert (Hk' : 0 <= b < nnz A) by (eapply slot_range; eauto). pose proof (wf_rows _ W b Hk') as Hr.
    destruct HT as [Hmn _].
    unfold sp_col, sp_row, sp_val. cbn [fst snd].
    replace ((Z.max (pm pinv (rowi A b)) (pm pinv a) =? Z.max (pm pinv i) (pm pinv j)) &&
       (Z.min (pm pinv (rowi A b)) (pm pinv a) =? Z.min (pm pinv i) (pm pinv j)))
      with ((a =? j) && (rowi A b =? i)).
    - destruct ((a =? j) && (rowi A b =? i)); auto. unfold valx. rewrite n0_R. auto.
    - pose proof (HP3 (rowi A b) i ltac:(lia) ltac:(lia)). pose proof (HP3 (rowi A b) j ltac:(lia) ltac:(lia)).
      pose proof (HP3 a i ltac:(lia) ltac:(lia)). pose proof (HP3 a j ltac:(lia) ltac:(lia)).
      destruct (a =? j) eqn:E1, (rowi A b =? i) eqn:E2; simpl; symmetry.
      + assert (a = j) by lia. assert (rowi A b = i) by lia. subst a i. lia.
      + apply andb_false_iff. assert (a = j) by lia. subst a. lia.
      + apply andb_false_iff. assert (rowi A b = i) by lia. subst i. lia.
      + apply andb_false_iff. lia. }
  assert (Hs : forall i j, 0 <= i <= j -> j < cn A -> sdns C (pm pinv i) (pm pinv j) = dns A i j /\ sdns C (pm pinv j) (pm pinv i) = dns A i j).
  { intros i j Hij Hj. specialize (Hmain i j Hij Hj). unfold sdns. split.
    - destruct (pm pinv i <=? pm pinv j) eqn:E1.
      + rewrite Z.min_l, Z.max_r in Hmain by lia. auto.
      + rewrite Z.min_r, Z.max_l in Hmain by lia. auto.
    - destruct (pm pinv j <=? pm pinv i) eqn:E1.
      + rewrite Z.min_r, Z.max_l in Hmain by lia. auto.
      + rewrite Z.min_l, Z.max_r in Hmain by lia. auto. }
  intros i j Hi Hj. unfold sdns at 2. destruct (i <=? j) eqn:Eij.
  - apply Hs; lia.
  - apply (Hs j i); lia.
Qed.

(** ** csc_pinv *)
Lemma csc_pinv_spec jz (p : list Z) n : 0 <= n -> n <= zlen p ->
  (forall i, 0 <= i < n -> 0 <= znth 0 p i < n) ->
  (forall i j, 0 <= i < n -> 0 <= j < n -> znth 0 p i = znth 0 p j -> i = j) ->
  exists q, csc_pinv jz (Some p) n = Some (Some q) /\ zlen q = n /\
    (forall k, 0 <= k < n -> znth 0 q (znth 0 p k) = k) /\
    (forall i, 0 <= i < n -> 0 <= znth 0 q i < n /\ znth 0 p (znth 0 q i) = i) /\
    perm_ok (Some q) n.
Proof.
  intros Hn HL Hr Hinj. unfold csc_pinv.
  loop_rule (fun t q => zlen q = n /\ forall k, 0 <= k < t -> znth 0 q (znth 0 p k) = k) HR.
  destruct HR as (q & -> & Lq & Vq).
  - auto.
  - rewrite zlen_zrep by auto. split; auto. intros; lia.
  - intros k q Hk (Lq & Vq). rewrite (zget_Some 0 p) by lia. pose proof (Hr k Hk) as Hpk.
    rewrite zset_Some by lia. eexists; split; [reflexivity|]. rewrite zlen_upd. split; auto.
    intros k' Hk'. rewrite znth_upd by lia. destruct (znth 0 p k' =? znth 0 p k) eqn:E.
    + apply Z.eqb_eq in E. symmetry. apply Hinj; auto; lia.
    + apply Vq. destruct (Z.eq_dec k' k); [subst; lia|lia].
  - exists q. split; auto. split; auto. split; auto.
    assert (Hsur : forall i, 0 <= i < n -> exists k, 0 <= k < n /\ znth 0 p k = i).
    { intros i Hi.
      assert (HI : incl (zseq 0 n) (map (fun k => znth 0 p k) (zseq 0 n))).
      { apply NoDup_length_incl.
        - assert (HH : forall l, NoDup l -> (forall x, In x l -> 0 <= x < n) -> NoDup (map (fun k => znth 0 p k) l)).
          { induction 1; simpl; intros Hl; constructor.
            - intros HI. apply in_map_iff in HI as (y & E & Hy). apply Hinj in E; [subst; contradiction| |]; apply Hl; auto.
            - apply IHNoDup. intros; apply Hl; auto. }
          apply HH; [apply NoDup_zseq|]. intros x Hx. apply In_zseq in Hx. auto.
        - rewrite map_length. lia.
        - intros x Hx. apply in_map_iff in Hx as (k & <- & Hk). apply In_zseq in Hk. apply In_zseq. auto. }
      specialize (HI i). rewrite In_zseq in HI. apply HI in Hi. apply in_map_iff in Hi as (k & E & Hk).
      apply In_zseq in Hk. eauto. }
    assert (Hq : forall i, 0 <= i < n -> 0 <= znth 0 q i < n /\ znth 0 p (znth 0 q i) = i).
    { intros i Hi. destruct (Hsur i Hi) as (k & Hk & <-). rewrite Vq by auto. auto. }
    split; auto. split; [intros p' Ep; inversion Ep; subst; lia|]. split.
    + intros i Hi. apply Hq; auto.
    + intros i j Hi Hj E. cbn [pm] in E. destruct (Hq i Hi) as [_ H1]. destruct (Hq j Hj) as [_ H2]. congruence.
Qed.
