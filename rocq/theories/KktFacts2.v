(** The KKT matrix as a list of placed items. *)
From Coq Require Import ZArith Reals List Bool Lia Lra Permutation.
From Verif Require Import Num Arr ArrFacts RSum Csc CscSpec CscFacts CscFacts2 Scatter CscFacts3 Placed Kkt KktFacts.
Import ListNotations.
Open Scope Z_scope.

(** An entry of the KKT matrix: entry k of column j of P, an added diagonal zero, entry k of
    column j of A, a diagonal entry of the lower right block. *)
Inductive kit := IP (j k : Z) | ID (j : Z) | IA (j k : Z) | IR (j : Z).

Definition kit_dec (a b : kit) : {a = b} + {a <> b}.
Proof. decide equality; apply Z.eq_dec. Defined.

Section Items.
  Context {K : NumOps}.
  Variable (P A : csc K).

  Definition kIP (jk : Z * Z) := IP (fst jk) (snd jk).
  Definition kIA (jk : Z * Z) := IA (fst jk) (snd jk).
  Definition kcol (csr : bool) (x : kit) : Z :=
    match x with
    | IP j k => if csr then rowi P k else j
    | ID j => j
    | IA j k => if csr then j else rowi A k + cn P
    | IR j => j + cn P
    end.
  Definition krow (csr : bool) (x : kit) : Z :=
    match x with
    | IP j k => if csr then j else rowi P k
    | ID j => j
    | IA j k => if csr then rowi A k + cn P else j
    | IR j => j + cn P
    end.
  Definition kval0 (x : kit) : K :=
    match x with
    | IP j k => znth n0 (cx P) k
    | IA j k => znth n0 (cx A) k
    | _ => n0
    end.
  Definition iP := map kIP (pairs P).
  Definition iD := map ID (filter (miss P) (zseq 0 (cn P))).
  Definition iA := map kIA (pairs A).
  Definition iR := map IR (zseq 0 (cm A)).
  Definition kitems (csr : bool) : list kit := if csr then iD ++ iP ++ iA ++ iR else iP ++ iD ++ iA ++ iR.

  Lemma In_kitems csr x : In x (kitems csr) <->
    match x with
    | IP j k => 0 <= j < cn P /\ colp P j <= k < colp P (j + 1)
    | ID j => 0 <= j < cn P /\ miss P j = true
    | IA j k => 0 <= j < cn A /\ colp A j <= k < colp A (j + 1)
    | IR j => 0 <= j < cm A
    end.
  Proof.
    assert (HH : In x (kitems csr) <-> In x iP \/ In x iD \/ In x iA \/ In x iR).
    { unfold kitems. destruct csr; rewrite !in_app_iff; tauto. }
    rewrite HH. unfold iP, iD, iA, iR. rewrite !in_map_iff. split.
    - intros [([j k] & <- & H)|[(j & <- & H)|[([j k] & <- & H)|(j & <- & H)]]].
      + apply In_pairs in H. auto.
      + apply filter_In in H as [H ?]. apply In_zseq in H. auto.
      + apply In_pairs in H. auto.
      + apply In_zseq in H. auto.
    - destruct x as [j k|j|j k|j]; intros H.
      + left. exists (j, k). split; auto. apply In_pairs. auto.
      + right; left. exists j. split; auto. apply filter_In. split; [apply In_zseq|]; tauto.
      + right; right; left. exists (j, k). split; auto. apply In_pairs. auto.
      + right; right; right. exists j. split; auto. apply In_zseq; auto.
  Qed.

  Lemma NoDup_app' {Y} (l1 l2 : list Y) : NoDup l1 -> NoDup l2 -> (forall y, In y l1 -> ~ In y l2) -> NoDup (l1 ++ l2).
  Proof.
    induction l1; cbn [app]; intros H1 H2 H; auto. inversion H1; subst. constructor.
    - rewrite in_app_iff. intros [Hi|Hi]; auto. apply (H a); simpl; auto.
    - apply IHl1; auto. intros y Hy. apply H. simpl; auto.
  Qed.

  Lemma NoDup_kitems csr : NoDup (kitems csr).
  Proof.
    assert (HP : NoDup iP).
    { apply FinFun.Injective_map_NoDup; [|apply NoDup_pairs]. intros [a b] [c d] E. inversion E; auto. }
    assert (HD : NoDup iD).
    { apply FinFun.Injective_map_NoDup; [|apply NoDup_filter, NoDup_zseq]. intros a b E. inversion E; auto. }
    assert (HA : NoDup iA).
    { apply FinFun.Injective_map_NoDup; [|apply NoDup_pairs]. intros [a b] [c d] E. inversion E; auto. }
    assert (HR : NoDup iR).
    { apply FinFun.Injective_map_NoDup; [|apply NoDup_zseq]. intros a b E. inversion E; auto. }
    unfold kitems. destruct csr; repeat apply NoDup_app'; auto; intros y H1 H2;
      unfold iP, iD, iA, iR in *; rewrite ?in_app_iff, ?in_map_iff in *;
      repeat match goal with H : _ \/ _ |- _ => destruct H | H : exists _, _ |- _ => destruct H | H : _ /\ _ |- _ => destruct H end;
      subst; unfold kIP, kIA in *; try discriminate.
  Qed.

  Hypothesis WP : wf P.
  Hypothesis WA : wf A.
  Hypothesis HmP : cm P = cn P.
  Hypothesis HnA : cn A = cn P.
  Let N := cm A + cn P.

  Lemma kcol_range csr x : In x (kitems csr) -> 0 <= kcol csr x < N.
  Proof.
    intros Hx. apply In_kitems in Hx. pose proof (wf_n _ WP). pose proof (wf_m _ WA). unfold N.
    destruct x as [j k|j|j k|j]; cbn [kcol].
    - destruct Hx as [Hj Hk]. pose proof (wf_rows _ WP k (slot_range _ _ _ WP Hj Hk)). destruct csr; lia.
    - lia.
    - destruct Hx as [Hj Hk]. pose proof (wf_rows _ WA k (slot_range _ _ _ WA Hj Hk)). destruct csr; lia.
    - lia.
  Qed.
  Lemma krow_range csr x : In x (kitems csr) -> 0 <= krow csr x < N.
  Proof.
    intros Hx. apply In_kitems in Hx. pose proof (wf_n _ WP). pose proof (wf_m _ WA). unfold N.
    destruct x as [j k|j|j k|j]; cbn [krow].
    - destruct Hx as [Hj Hk]. pose proof (wf_rows _ WP k (slot_range _ _ _ WP Hj Hk)). destruct csr; lia.
    - lia.
    - destruct Hx as [Hj Hk]. pose proof (wf_rows _ WA k (slot_range _ _ _ WA Hj Hk)). destruct csr; lia.
    - lia.
  Qed.

  Lemma zlen_kitems csr : zlen (kitems csr) = nnz P + cnt (miss P) (zseq 0 (cn P)) + nnz A + cm A.
  Proof.
    assert (HH : zlen (kitems csr) = zlen iP + zlen iD + zlen iA + zlen iR).
    { unfold kitems. destruct csr; rewrite !zlen_app; lia. }
    rewrite HH. unfold iP, iD, iA, iR. rewrite !zlen_map, !zlen_pairs by auto. rewrite zlen_zseq.
    unfold cnt. pose proof (wf_m _ WA). lia.
  Qed.

  Lemma cnt_kitems csr (b : kit -> bool) : cnt b (kitems csr) = cnt b iP + cnt b iD + cnt b iA + cnt b iR.
  Proof. unfold kitems. destruct csr; rewrite !cnt_app; lia. Qed.

  Definition ksl (csr : bool) (x : kit) : Z := sl kit_dec (kcol csr) (kitems csr) x.

  (** Final state of a map handed to form_KKT. *)
  Definition mapspec {Y} (csr : bool) (f : Y -> kit) (key : Y -> Z) := mapinv kit_dec (kcol csr) (kitems csr) f key.

  Lemma kkt_assemble_spec csr p i x mP mA mR :
    zlen p = N + 1 -> zlen (kitems csr) <= zlen i -> zlen (kitems csr) <= zlen x ->
    (forall t, mP = Some t -> nnz P <= zlen t) -> (forall t, mA = Some t -> nnz A <= zlen t) ->
    (forall t, mR = Some t -> cm A <= zlen t) ->
    exists p' i' x' mP' mA' mR', kkt_assemble (p, i, x) P A mP mA mR csr = Some ((p', i', x'), mP', mA', mR') /\
      zlen p' = N + 1 /\ zlen i' = zlen i /\ zlen x' = zlen x /\
      (forall j, 0 <= j <= N -> znth 0 p' j = start (kcol csr) (kitems csr) j) /\
      (forall j, 0 <= j < N -> slots i' x' (start (kcol csr) (kitems csr) j) (start (kcol csr) (kitems csr) (j + 1))
         = map (ent (krow csr) kval0) (filter (fun x => kcol csr x =? j) (kitems csr))) /\
      mapspec csr kIP snd mP mP' (pairs P) /\ mapspec csr kIA snd mA mA' (pairs A) /\
      mapspec csr IR (fun j => j) mR mR' (zseq 0 (cm A)).
  Proof.
    intros HLp HLi HLx HmapP HmapA HmapR. pose proof (wf_n _ WP) as HnP. pose proof (wf_m _ WA) as HmA.
    assert (HN : 0 <= N) by (unfold N; lia).
    set (L := kitems csr). set (col := kcol csr).
    assert (HcolL : forall x, In x L -> 0 <= col x < N) by (intros; apply kcol_range; auto).
    assert (HND : NoDup L) by apply NoDup_kitems.
    unfold kkt_assemble. cbv beta iota zeta.
    lazymatch goal with |- context [for_ 0 (cm A + cn P + 1) ?b p] =>
      destruct (for_fill 0 (fun _ => 0) (cm A + cn P + 1) p) as (p0 & E0 & L0 & V0) end.
    { unfold N in HLp. lia. }
    rewrite E0. clear E0.
    assert (V0' : forall j, 0 <= j <= N -> znth 0 p0 j = 0).
    { intros j Hj. rewrite V0. unfold N in Hj. replace ((0 <=? j) && (j <? cm A + cn P + 1)) with true by lia. auto. }
    (* the counts *)
    assert (HC : forall q j, (forall i, znth 0 q i = znth 0 p0 i
         + cnt (fun x => col x =? i) iP + cnt (fun x => col x =? i) iD + cnt (fun x => col x =? i) iA + cnt (fun x => col x =? i) iR) ->
         0 <= j <= N -> psum (fun i => znth 0 q i) j = start col L j).
    { intros q j Hq Hj. rewrite <- psum_start by (try lia; intros y Hy; apply HcolL; auto).
      apply psum_ext. intros t Ht. rewrite Hq, V0' by lia. unfold L. rewrite cnt_kitems. lia. }
    destruct csr.
    - destruct (count_missing_spec p0 P WP) as (p1 & -> & L1 & V1); [unfold N in *; lia|].
      destruct (count_block_spec p1 P 0 true WP) as (p2 & -> & L2 & V2); [lia|unfold N in *; lia|].
      destruct (count_block_spec p2 A 0 false WA) as (p3 & -> & L3 & V3); [lia|unfold N in *; lia|].
      destruct (count_diag_spec p3 (cn P) (cm A)) as (p4 & -> & L4 & V4); [lia|lia|unfold N in *; lia|].
      destruct (colptr_spec p4 N HN) as (p5 & E5 & L5 & V5); [lia|]. unfold N in E5. rewrite E5. clear E5.
      assert (V5' : forall j, 0 <= j <= N -> znth 0 p5 j = start col L j).
      { intros j Hj. rewrite V5 by lia. apply HC; auto. intros t. rewrite V4, V3, V2, V1.
        unfold iP, iD, iA, iR. rewrite !cnt_map.
        rewrite (cnt_ext (fun jk => (if true then rowi P (snd jk) else fst jk) + 0 =? t) (fun x => col (kIP x) =? t))
          by (intros [a b] _; unfold col; cbn [kcol kIP fst snd]; rewrite Z.add_0_r; auto).
        rewrite (cnt_ext (fun jk => (if false then rowi A (snd jk) else fst jk) + 0 =? t) (fun x => col (kIA x) =? t))
          by (intros [a b] _; unfold col; cbn [kcol kIA fst snd]; rewrite Z.add_0_r; auto).
        rewrite (cnt_ext (fun j0 => j0 + cn P =? t) (fun x => col (IR x) =? t)) by auto.
        rewrite (cnt_ext (fun j0 => j0 =? t) (fun x => col (ID x) =? t)) by auto. lia. }
      assert (S0 : sinv col (krow true) kval0 N L [] p5 i x).
      { apply sinv_init; auto; try lia. intros j Hj. apply V5'. lia. }
      destruct (fill_missing_spec col (krow true) kval0 N L HcolL HND P ID [] (iP ++ iA ++ iR) p5 i x WP) as (q1 & i1 & x1 & -> & Lq1 & Li1 & Lx1 & S1); auto.
      destruct (fill_block_spec kit_dec col (krow true) kval0 N L HcolL HND P kIP 0 0 true iD (iA ++ iR) q1 i1 x1 mP WP)
        as (q2 & i2 & x2 & mP2 & -> & Lq2 & Li2 & Lx2 & S2 & MP); auto.
      { intros j k Hjk. unfold col; cbn [kIP kcol krow kval0 fst snd]. rewrite !Z.add_0_r. auto. }
      destruct (fill_block_spec kit_dec col (krow true) kval0 N L HcolL HND A kIA (cn P) 0 false (iD ++ iP) iR q2 i2 x2 mA WA)
        as (q3 & i3 & x3 & mA2 & -> & Lq3 & Li3 & Lx3 & S3 & MA); auto.
      { unfold L, kitems. rewrite <- !app_assoc. auto. }
      { intros j k Hjk. unfold col; cbn [kIA kcol krow kval0 fst snd]. rewrite !Z.add_0_r. auto. }
      destruct (fill_diag_zeros_spec kit_dec col (krow true) kval0 N L HcolL HND IR (cn P) (cm A) ((iD ++ iP) ++ iA) [] q3 i3 x3 mR)
        as (q4 & i4 & x4 & mR2 & -> & Lq4 & Li4 & Lx4 & S4 & MR); auto.
      { unfold L, kitems. rewrite <- !app_assoc, app_nil_r. auto. }
      destruct (backshift_spec q4 N HN) as (q5 & E6 & L6 & V60 & V6); [lia|]. unfold N in E6. rewrite E6. clear E6.
      exists q5, i4, x4, mP2, mA2, mR2. split; [reflexivity|].
      change (map IR (zseq 0 (cm A))) with iR in S4.
      replace (((iD ++ iP) ++ iA) ++ iR) with L in S4 by (unfold L, kitems; rewrite <- !app_assoc; auto).
      destruct (sinv_final _ _ _ _ _ _ _ _ S4) as (Vw & VS).
      split; [lia|]. split; [lia|]. split; [lia|]. split.
      { intros j Hj. destruct (Z.eq_dec j 0) as [->|].
        - rewrite V60, start_0; auto. intros y Hy. apply HcolL; auto.
        - replace j with (j - 1 + 1) by lia. rewrite V6 by lia. apply Vw. lia. }
      auto.
    - destruct (count_block_spec p0 P 0 false WP) as (p1 & -> & L1 & V1); [lia|unfold N in *; lia|].
      destruct (count_missing_spec p1 P WP) as (p2 & -> & L2 & V2); [unfold N in *; lia|].
      destruct (count_block_spec p2 A (cn P) true WA) as (p3 & -> & L3 & V3); [lia|unfold N in *; lia|].
      destruct (count_diag_spec p3 (cn P) (cm A)) as (p4 & -> & L4 & V4); [lia|lia|unfold N in *; lia|].
      destruct (colptr_spec p4 N HN) as (p5 & E5 & L5 & V5); [lia|]. unfold N in E5. rewrite E5. clear E5.
      assert (V5' : forall j, 0 <= j <= N -> znth 0 p5 j = start col L j).
      { intros j Hj. rewrite V5 by lia. apply HC; auto. intros t. rewrite V4, V3, V2, V1.
        unfold iP, iD, iA, iR. rewrite !cnt_map.
        rewrite (cnt_ext (fun jk => (if false then rowi P (snd jk) else fst jk) + 0 =? t) (fun x => col (kIP x) =? t))
          by (intros [a b] _; unfold col; cbn [kcol kIP fst snd]; rewrite Z.add_0_r; auto).
        rewrite (cnt_ext (fun jk => (if true then rowi A (snd jk) else fst jk) + cn P =? t) (fun x => col (kIA x) =? t))
          by (intros [a b] _; unfold col; cbn [kcol kIA fst snd]; auto).
        rewrite (cnt_ext (fun j0 => j0 + cn P =? t) (fun x => col (IR x) =? t)) by auto.
        rewrite (cnt_ext (fun j0 => j0 =? t) (fun x => col (ID x) =? t)) by auto. lia. }
      assert (S0 : sinv col (krow false) kval0 N L [] p5 i x).
      { apply sinv_init; auto; try lia. intros j Hj. apply V5'. lia. }
      destruct (fill_block_spec kit_dec col (krow false) kval0 N L HcolL HND P kIP 0 0 false [] (iD ++ iA ++ iR) p5 i x mP WP)
        as (q1 & i1 & x1 & mP2 & -> & Lq1 & Li1 & Lx1 & S1 & MP); auto.
      { intros j k Hjk. unfold col; cbn [kIP kcol krow kval0 fst snd]. rewrite !Z.add_0_r. auto. }
      destruct (fill_missing_spec col (krow false) kval0 N L HcolL HND P ID iP (iA ++ iR) q1 i1 x1 WP) as (q2 & i2 & x2 & -> & Lq2 & Li2 & Lx2 & S2); auto.
      destruct (fill_block_spec kit_dec col (krow false) kval0 N L HcolL HND A kIA 0 (cn P) true (iP ++ iD) iR q2 i2 x2 mA WA)
        as (q3 & i3 & x3 & mA2 & -> & Lq3 & Li3 & Lx3 & S3 & MA); auto.
      { unfold L, kitems. rewrite <- !app_assoc. auto. }
      { intros j k Hjk. unfold col; cbn [kIA kcol krow kval0 fst snd]. rewrite !Z.add_0_r. auto. }
      destruct (fill_diag_zeros_spec kit_dec col (krow false) kval0 N L HcolL HND IR (cn P) (cm A) ((iP ++ iD) ++ iA) [] q3 i3 x3 mR)
        as (q4 & i4 & x4 & mR2 & -> & Lq4 & Li4 & Lx4 & S4 & MR); auto.
      { unfold L, kitems. rewrite <- !app_assoc, app_nil_r. auto. }
      destruct (backshift_spec q4 N HN) as (q5 & E6 & L6 & V60 & V6); [lia|]. unfold N in E6. rewrite E6. clear E6.
      exists q5, i4, x4, mP2, mA2, mR2. split; [reflexivity|].
      change (map IR (zseq 0 (cm A))) with iR in S4.
      replace (((iP ++ iD) ++ iA) ++ iR) with L in S4 by (unfold L, kitems; rewrite <- !app_assoc; auto).
      destruct (sinv_final _ _ _ _ _ _ _ _ S4) as (Vw & VS).
      split; [lia|]. split; [lia|]. split; [lia|]. split.
      { intros j Hj. destruct (Z.eq_dec j 0) as [->|].
        - rewrite V60, start_0; auto. intros y Hy. apply HcolL; auto.
        - replace j with (j - 1 + 1) by lia. rewrite V6 by lia. apply Vw. lia. }
      auto.
  Qed.
End Items.
