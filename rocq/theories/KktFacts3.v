(** form_KKT, the dense KKT matrix, and the incremental updates. *)
From Coq Require Import ZArith Reals List Bool Lia Lra Permutation.
From Verif Require Import Num Arr ArrFacts RSum Csc CscSpec CscFacts CscFacts2 Scatter CscFacts3 Placed Kkt KktFacts KktFacts2.
Import ListNotations.
Open Scope Z_scope.

Section Form.
  Context {K : NumOps}.
  Variable (P A : csc K).
  Hypothesis WP : wf P.
  Hypothesis WA : wf A.
  Hypothesis HmP : cm P = cn P.
  Hypothesis HnA : cn A = cn P.
  Let N := cm A + cn P.
  Let L := kitems P A false.
  Let col := kcol P A false.
  Let row := krow P A false.
  Let SL := ksl P A false.

  (** The item on the diagonal of column j < n that the shift is added to. *)
  Definition dit (j : Z) : kit := if miss P j then ID j else IP j (colp P (j + 1) - 1).
  Definition is_dit (x : kit) : bool :=
    match x with
    | IP j k => negb (miss P j) && (k =? colp P (j + 1) - 1)
    | ID _ => true
    | _ => false
    end.

  Lemma miss_false j : 0 <= j < cn P -> miss P j = false ->
    colp P j <= colp P (j + 1) - 1 < colp P (j + 1) /\ rowi P (colp P (j + 1) - 1) = j.
  Proof.
    intros Hj H. unfold miss in H. apply orb_false_iff in H as [H1 H2].
    pose proof (wf_mono _ WP j Hj). apply negb_false_iff in H2. lia.
  Qed.

  Lemma In_dit j : 0 <= j < cn P -> In (dit j) L /\ col (dit j) = j /\ row (dit j) = j /\ is_dit (dit j) = true.
  Proof.
    intros Hj. unfold dit. destruct (miss P j) eqn:E.
    - split; [apply In_kitems; auto|]. cbn. auto.
    - destruct (miss_false j Hj E) as (H1 & H2). split; [apply In_kitems; auto|].
      unfold col, row. cbn [kcol krow is_dit]. rewrite E, Z.eqb_refl. auto.
  Qed.

  Lemma is_dit_eq x : In x L -> is_dit x = true -> x = dit (col x).
  Proof.
    intros Hx Hd. apply In_kitems in Hx. destruct x as [j k|j|j k|j]; try discriminate; unfold dit, col; cbn [kcol is_dit] in *.
    - destruct (miss P j); [discriminate|]. f_equal. lia.
    - destruct Hx as [_ ->]. auto.
  Qed.

  Lemma pairs_last (M : csc K) j k : wf M -> 0 <= j < cn M -> k = colp M (j + 1) - 1 -> colp M j <= k ->
    exists pre post, pairs M = pre ++ (j, k) :: post /\ forall x, In x post -> fst x <> j.
  Proof.
    intros W Hj Hk Hk'. assert (HI : In (j, k) (pairs M)) by (apply In_pairs; lia).
    apply in_split in HI as (pre & post & E). exists pre, post. split; auto.
    intros [j' k'] Hx Hne. cbn [fst] in Hne. subst j'.
    assert (HI : In (j, k') (pairs M)) by (rewrite E; apply in_or_app; simpl; auto).
    apply In_pairs in HI as [_ Hk'2].
    pose proof (map_snd_pairs M W) as ES. rewrite E in ES. rewrite map_app in ES. cbn [map snd] in ES.
    symmetry in ES. apply zseq_prefix in ES as (_ & _ & EP).
    assert (HI : In k' (map snd post)) by (apply in_map_iff; exists (j, k'); auto).
    rewrite EP in HI. apply In_zseq in HI. lia.
  Qed.

  Lemma SL_last pre x post : L = pre ++ x :: post -> (forall y, In y post -> col y <> col x) ->
    SL x = start col L (col x + 1) - 1.
  Proof.
    intros E Hp. unfold SL, ksl. rewrite (sl_split kit_dec (kcol P A false) (kitems P A false) (NoDup_kitems P A false) pre x post E).
    apply (slot_of_last col L pre x post E Hp).
  Qed.

  Lemma SL_dit j : 0 <= j < cn P -> SL (dit j) = start col L (j + 1) - 1.
  Proof.
    intros Hj. destruct (In_dit j Hj) as (_ & Hc & _ & _). rewrite <- Hc at 2.
    assert (HAR : forall y, In y (iA A ++ iR A) -> col y >= cn P).
    { intros y Hy. apply in_app_or in Hy as [Hy|Hy]; apply in_map_iff in Hy as (z & <- & Hz).
      - destruct z as [a b]. apply In_pairs in Hz as [Ha Hb]. unfold col; cbn [kIA kcol fst snd].
        pose proof (wf_rows _ WA b (slot_range _ _ _ WA Ha Hb)). lia.
      - apply In_zseq in Hz. unfold col; cbn [kcol]. lia. }
    rewrite Hc in *.
    assert (HX : exists pre post, L = pre ++ dit j :: post /\ forall y, In y post -> col y <> j).
    { unfold L, kitems, iP, iD, dit. destruct (miss P j) eqn:E.
      - assert (HI : In j (filter (miss P) (zseq 0 (cn P)))) by (apply filter_In; split; [apply In_zseq; auto|auto]).
        apply in_split in HI as (d1 & d2 & ED). rewrite ED. rewrite map_app. cbn [map].
        exists (map kIP (pairs P) ++ map ID d1), (map ID d2 ++ iA A ++ iR A). split.
        { rewrite <- !app_assoc. cbn [app]. auto. }
        intros y Hy. apply in_app_or in Hy as [Hy|Hy].
        + apply in_map_iff in Hy as (z & <- & Hz). unfold col; cbn [kcol]. intros ->.
          assert (HN : NoDup (filter (miss P) (zseq 0 (cn P)))) by apply NoDup_filter, NoDup_zseq.
          rewrite ED in HN. apply NoDup_remove_2 in HN. apply HN. apply in_or_app; auto.
        + specialize (HAR y Hy). lia.
      - destruct (miss_false j Hj E) as (H1 & H2).
        destruct (pairs_last P j (colp P (j + 1) - 1) WP Hj eq_refl ltac:(lia)) as (p1 & p2 & EP & Hp2).
        rewrite EP. rewrite map_app. cbn [map].
        exists (map kIP p1), (map kIP p2 ++ map ID (filter (miss P) (zseq 0 (cn P))) ++ iA A ++ iR A). split.
        { rewrite <- !app_assoc. cbn [app]. auto. }
        intros y Hy. rewrite !in_app_iff in Hy. rewrite <- in_app_iff in Hy. destruct Hy as [Hy|[Hy|Hy]].
        + apply in_map_iff in Hy as (z & <- & Hz). unfold col; cbn [kIP kcol]. apply Hp2; auto.
        + apply in_map_iff in Hy as (z & <- & Hz). unfold col; cbn [kcol]. apply filter_In in Hz as [_ Hz].
          intros ->. congruence.
        + specialize (HAR y Hy). lia. }
    destruct HX as (pre & post & EL & Hp). rewrite (SL_last pre (dit j) post EL).
    - rewrite Hc. auto.
    - intros y Hy. rewrite Hc. apply Hp; auto.
  Qed.

  Lemma SL_IR j : 0 <= j < cm A -> SL (IR j) = start col L (j + cn P + 1) - 1.
  Proof.
    intros Hj.
    assert (EL : L = (iP P ++ iD P ++ iA A ++ map IR (zseq 0 j)) ++ IR j :: map IR (zseq (j + 1) (cm A))).
    { unfold L, kitems, iR. rewrite (zseq_split 0 (cm A) j Hj), map_app. cbn [map]. rewrite <- !app_assoc. auto. }
    rewrite (SL_last _ _ _ EL).
    - reflexivity.
    - intros y Hy. apply in_map_iff in Hy as (z & <- & Hz). apply In_zseq in Hz. unfold col; cbn [kcol]. lia.
  Qed.

  (** Values of the items: [r j] is the j-th entry of the lower right diagonal. *)
  Definition kval (sigma : K) (r : Z -> K) (x : kit) : K :=
    match x with
    | IP j k => if is_dit x then nadd (znth n0 (cx P) k) sigma else znth n0 (cx P) k
    | ID _ => nadd n0 sigma
    | IA _ k => znth n0 (cx A) k
    | IR j => r j
    end.
  Definition kmap {Y} (f : Y -> kit) (key : Y -> Z) := mapspec P A false f key.

  Definition prm (param2 : option (list K)) (sc : K) (j : Z) : K :=
    match param2 with Some w => znth n0 w j | None => sc end.

  Lemma form_KKT_spec jz jx sigma param2 sc mP mA mR :
    (forall w, param2 = Some w -> cm A <= zlen w) ->
    (forall t, mP = Some t -> nnz P <= zlen t) -> (forall t, mA = Some t -> nnz A <= zlen t) ->
    (forall t, mR = Some t -> cm A <= zlen t) ->
    exists M mP' mA' mR', form_KKT jz jx P A false sigma param2 sc mP mA mR = Some (M, mP', mA', mR') /\
      placed col row (kval sigma (fun j => nsub n0 (prm param2 sc j))) L SL M /\
      cm M = N /\ cn M = N /\ nnz M = zlen L /\ zlen (cp M) = N + 1 /\ zlen (cx M) = nnz M /\ zlen (ci M) = nnz M /\ cnz M = -1 /\
      kmap kIP snd mP mP' (pairs P) /\ kmap kIA snd mA mA' (pairs A) /\
      kmap IR (fun j => j) mR mR' (zseq 0 (cm A)).
  Proof.
    intros Hp2 HmP' HmA' HmR'. pose proof (wf_n _ WP) as HnP. pose proof (wf_m _ WA) as HmA0.
    unfold form_KKT. cbv zeta. rewrite count_diagonal_spec by auto. rewrite zget_nnz by auto.
    replace (zget (cp A) (cn P)) with (Some (nnz A)) by (rewrite <- HnA, zget_nnz by auto; auto).
    assert (EN : nnz P + cn P - (cn P - cnt (miss P) (zseq 0 (cn P))) + nnz A + cm A = zlen L)
      by (unfold L; rewrite zlen_kitems by auto; lia).
    rewrite EN. unfold csc_spalloc. cbn [cp ci cx cm cn cnzmax cnz].
    pose proof (zlen_nonneg L) as HLL.
    destruct (kkt_assemble_spec P A WP WA HmP HnA false (zrep (cm A + cn P + 1) jz) (zrep (Z.max (zlen L) 0) jz) (zrep (Z.max (zlen L) 0) jx) mP mA mR)
      as (p & i & x & mP2 & mA2 & mR2 & -> & Lp & Li & Lx & Vp & VS & MP & MA & MR); auto.
    { rewrite zlen_zrep; lia. } { rewrite zlen_zrep by lia. fold L. lia. } { rewrite zlen_zrep by lia. fold L. lia. }
    rewrite zlen_zrep in Li by lia. rewrite zlen_zrep in Lx by lia. rewrite Z.max_l in Li, Lx by lia.
    fold N in Lp, Vp, VS. fold L in Vp, VS. fold col in Vp, VS. fold row in VS.
    (* the assembled matrix *)
    set (M0 := mkcsc N N p i x (zlen L) (-1)).
    destruct (placed_scatter kit_dec col row (kval0 P A) L M0) as (PL0 & HnM0); unfold M0; cbn [cm cn cp ci cx]; auto; try lia.
    { apply NoDup_kitems. }
    { intros y Hy. apply kcol_range; auto. }
    { intros y Hy. apply krow_range; auto. }
    fold M0 in PL0, HnM0.
    change (fun x : kit => slot_of col L (before kit_dec x L) x) with SL in PL0.
    assert (Hinj : forall a b, In a L -> In b L -> SL a = SL b -> a = b).
    { intros a b Ha Hb E. eapply placed_inj; eauto. apply NoDup_kitems. }
    assert (Hrng : forall a, In a L -> 0 <= SL a < zlen x).
    { intros a Ha. destruct (placed_slot _ _ _ _ _ _ PL0 a Ha) as (H1 & _). rewrite HnM0 in H1. lia. }
    assert (Hval0 : forall a, In a L -> znth n0 x (SL a) = kval0 P A a).
    { intros a Ha. apply (pl_item _ _ _ _ _ _ PL0 a Ha). }
    (* first shift *)
    unfold kkt_shifts_param1. cbn [kofs].
    loop_rule (fun t x' => zlen x' = zlen x /\ forall a, In a L ->
        znth n0 x' (SL a) = if is_dit a && (col a <? t) then nadd (kval0 P A a) sigma else kval0 P A a) HR1.
    destruct HR1 as (x1 & -> & Lx1 & Vx1).
    { auto. }
    { split; auto. intros a Ha. pose proof (kcol_range P A WP WA HmP HnA false a Ha) as Hr. fold col in Hr.
      replace (col a <? 0) with false by lia. rewrite andb_false_r. auto. }
    { intros t x' Ht (Lx' & Vx'). destruct (In_dit t Ht) as (HdI & Hdc & Hdr & Hdd).
      rewrite (zget_Some 0 p) by (unfold N in Lp; lia). rewrite Vp by (unfold N; lia).
      rewrite <- SL_dit by auto. pose proof (Hrng _ HdI).
      rewrite (zget_Some n0 x') by lia. rewrite zset_Some by lia. eexists; split; [reflexivity|].
      rewrite zlen_upd. split; auto. intros a Ha. rewrite znth_upd by lia.
      destruct (Z.eqb_spec (SL a) (SL (dit t))) as [E|Hne].
      - apply Hinj in E; auto. subst a. rewrite Hdd, Hdc. replace (t <? t + 1) with true by lia. cbn [andb].
        rewrite Vx' by auto. rewrite Hdd, Hdc. replace (t <? t) with false by lia. auto.
      - rewrite Vx' by auto. destruct (is_dit a) eqn:Ed; auto. cbn [andb].
        replace (col a <? t + 1) with (col a <? t); auto.
        destruct (Z.eq_dec (col a) t) as [Ec|]; [|lia]. exfalso. apply Hne. f_equal. rewrite <- Ec. apply is_dit_eq; auto. }
    (* second shift *)
    unfold kkt_shifts_param2. cbn [kofs].
    loop_rule (fun t x' => zlen x' = zlen x /\ forall a, In a L ->
        znth n0 x' (SL a) = match a with IR j => if j <? t then nsub n0 (prm param2 sc j) else n0
                            | _ => znth n0 x1 (SL a) end) HR2.
    destruct HR2 as (x2 & -> & Lx2 & Vx2).
    { auto. }
    { split; auto. intros a Ha. destruct a as [j k|j|j k|j]; auto. rewrite Vx1 by auto. cbn [is_dit andb kval0].
      apply In_kitems in Ha. replace (j <? 0) with false by lia. auto. }
    { intros t x' Ht (Lx' & Vx').
      assert (HI : In (IR t) L) by (apply In_kitems; auto).
      rewrite (zget_Some 0 p) by (unfold N in Lp; lia). rewrite Vp by (unfold N; lia).
      rewrite <- SL_IR by auto. pose proof (Hrng _ HI).
      rewrite (zget_Some n0 x') by lia.
      replace (match param2 with Some w => zget w t | None => Some sc end) with (Some (prm param2 sc t)).
      2:{ unfold prm. destruct param2 as [w|]; auto. specialize (Hp2 w eq_refl). rewrite (zget_Some n0) by lia. auto. }
      rewrite zset_Some by lia. eexists; split; [reflexivity|].
      rewrite zlen_upd. split; auto. intros a Ha. rewrite znth_upd by lia.
      destruct (Z.eqb_spec (SL a) (SL (IR t))) as [E|Hne].
      - apply Hinj in E; auto. subst a. replace (t <? t + 1) with true by lia.
        rewrite Vx' by auto. replace (t <? t) with false by lia. auto.
      - rewrite Vx' by auto. destruct a as [j k|j|j k|j]; auto.
        replace (j <? t + 1) with (j <? t); auto.
        destruct (Z.eq_dec j t) as [Ec|]; [|lia]. exfalso. apply Hne. congruence. }
    rewrite (Z.max_l (zlen L) 0) by lia.
    do 4 eexists. split; [reflexivity|].
    assert (PL : placed col row (kval sigma (fun j => nsub n0 (prm param2 sc j))) L SL (set_x M0 x2)).
    { eapply placed_set_x; [exact PL0|unfold M0; cbn [cx]; lia|].
      intros a Ha. rewrite Vx2 by auto. pose proof (kcol_range P A WP WA HmP HnA false a Ha) as Hr. fold col in Hr.
      pose proof Ha as Ha'. apply In_kitems in Ha'. destruct a as [j k|j|j k|j].
      - rewrite Vx1 by auto. cbn [kval kval0]. unfold col; cbn [kcol]. replace (j <? cn P) with true by lia. rewrite andb_true_r. auto.
      - rewrite Vx1 by auto. cbn [kval kval0 is_dit]. unfold col; cbn [kcol]. replace (j <? cn P) with true by lia. auto.
      - rewrite Vx1 by auto. auto.
      - cbn [kval]. replace (j <? cm A) with true by lia. auto. }
    split; [exact PL|]. cbn [cm cn cp ci cx cnz]. split; auto. split; auto. split; [exact HnM0|]. split; [lia|].
    change (nnz (mkcsc (cm A + cn P) (cm A + cn P) p i x2 (zlen L) (-1))) with (nnz M0).
    split; [lia|]. split; [lia|]. auto.
  Qed.
End Form.
