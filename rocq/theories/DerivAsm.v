(** The matrix of the adjoint linear system (Deriv.v): assembly, perturbation, dense meaning. *)
From Coq Require Import ZArith Reals List Bool Lia Lra Permutation.
From Verif Require Import Num Arr ArrFacts RSum Csc CscSpec CscFacts CscFacts2 Scatter CscFacts3 CscFacts5 Placed
  Vec Types Kkt KktFacts KktFacts2 KktFacts3 KktSpec KktDense Linsys VecFacts LinsysFacts Deriv.
Import ListNotations.
Open Scope Z_scope.

(** An entry of the adjoint matrix, one constructor for each block written by _adj_assemble_csc: the identity,
    P, G, A_eq, the transpose of diag(lambda) G, the slacks, the transpose of A_eq, the zeros on the diagonal. *)
Inductive ait := JI (j : Z) | JP (j k : Z) | JG (j k : Z) | JE (j k : Z) | JH (j k : Z) | JS (j : Z) | JF (j k : Z) | JZ (j : Z).

Definition ait_dec (a b : ait) : {a = b} + {a <> b}.
Proof. decide equality; apply Z.eq_dec. Defined.

Section FillValues.
  Context {K : NumOps} {X : Type} (dec : forall a b : X, {a = b} + {a <> b}).
  Variable (col row : X -> Z) (val : X -> K) (n : Z) (L : list X).
  Hypothesis Hcol : forall x, In x L -> 0 <= col x < n.
  Hypothesis HND : NoDup L.

  Lemma adj_fill_diag_spec (f : Z -> X) initrow initcol dim (vs : option (list K)) sc pre post p i x :
    0 <= dim -> L = pre ++ map f (zseq 0 dim) ++ post ->
    (forall l, vs = Some l -> dim <= zlen l) ->
    (forall j, 0 <= j < dim -> col (f j) = j + initcol /\ row (f j) = j + initrow /\
       val (f j) = match vs with Some l => znth n0 l j | None => sc end) ->
    sinv col row val n L pre p i x ->
    exists p' i' x', adj_fill_diag_values (p, i, x) initrow initcol vs sc dim = Some (p', i', x') /\
      zlen p' = zlen p /\ zlen i' = zlen i /\ zlen x' = zlen x /\
      sinv col row val n L (pre ++ map f (zseq 0 dim)) p' i' x'.
  Proof.
    intros Hd EL Hvs Hf HS. unfold adj_fill_diag_values.
    loop_rule (fun t (s : @kst K) => let '(p', i', x') := s in
       zlen p' = zlen p /\ zlen i' = zlen i /\ zlen x' = zlen x /\
       sinv col row val n L (pre ++ map f (zseq 0 t)) p' i' x') HR.
    destruct HR as ([[p' i'] x'] & E & H1 & H2 & H3 & H4).
    - auto.
    - rewrite zseq_nil by lia. cbn [map]. rewrite app_nil_r. auto.
    - intros j [[p1 i1] x1] Hj (L1 & L2 & L3 & S1).
      pose proof (split_map col n L Hcol HND f pre (zseq 0 dim) post _ j _ EL (zseq_split 0 dim j Hj)) as EL'.
      destruct (sinv_slot col row val n L Hcol _ _ _ _ _ _ EL' S1) as (Hc1 & Esl & Hsl).
      pose proof (sinv_step col row val n L Hcol _ _ _ _ _ _ EL' S1) as S2.
      destruct (Hf j Hj) as (Ec & Er & Ev). cbv zeta. rewrite Er in S2. rewrite <- Ec in *.
      rewrite (zget_Some 0 p1) by auto.
      pose proof (si_il _ _ _ _ _ _ _ _ _ S1). pose proof (si_xl _ _ _ _ _ _ _ _ _ S1).
      rewrite zset_Some by lia.
      assert (HV : match vs with Some l => zget l j | None => Some sc end = Some (val (f j))).
      { rewrite Ev. destruct vs as [l|]; auto. specialize (Hvs l eq_refl). apply zget_Some. lia. }
      rewrite HV. rewrite zset_Some by lia. rewrite zset_Some by lia.
      eexists; split; [reflexivity|]. cbv beta iota. rewrite !zlen_upd.
      repeat (split; [solve [auto]|]). rewrite zseq_snoc by lia. rewrite map_app. cbn [map]. rewrite app_assoc. auto.
    - exists p', i', x'. rewrite E. auto 10.
  Qed.

  Lemma adj_fill_block_spec (M : csc K) (f : Z * Z -> X) initrow initcol (tr : bool) pre post p i x :
    wf M -> L = pre ++ map f (pairs M) ++ post ->
    (forall j k, In (j, k) (pairs M) ->
       col (f (j, k)) = (if tr then rowi M k + initcol else j + initcol) /\
       row (f (j, k)) = (if tr then j + initrow else rowi M k + initrow) /\
       val (f (j, k)) = znth n0 (cx M) k) ->
    sinv col row val n L pre p i x ->
    exists p' i' x', adj_fill_block (p, i, x) M initrow initcol tr = Some (p', i', x') /\
      zlen p' = zlen p /\ zlen i' = zlen i /\ zlen x' = zlen x /\
      sinv col row val n L (pre ++ map f (pairs M)) p' i' x'.
  Proof.
    intros W EL Hf HS. unfold adj_fill_block.
    destruct (fill_block_spec dec col row val n L Hcol HND M f initrow initcol tr pre post p i x None W EL Hf) as (p' & i' & x' & mp & -> & H1 & H2 & H3 & H4 & _); auto.
    { discriminate. }
    exists p', i', x'. cbv beta iota. cbn [fst]. auto.
  Qed.
End FillValues.

Section Asm.
  Context {K : NumOps}.
  Variables (P G A H : csc K) (sv : list K).
  Hypothesis (WP : wf P) (WG : wf G) (WA : wf A) (WH : wf H).
  Hypothesis (HmP : cm P = cn P) (HnG : cn G = cn P) (HnA : cn A = cn P) (HnH : cn H = cn P) (HmH : cm H = cm G).
  Hypothesis (Hsv : cm G <= zlen sv).
  Let n := cm P.
  Let x := cm G.
  Let y := cm A.
  Let N := n + x + y.

  Definition aJP (jk : Z * Z) := JP (fst jk) (snd jk).
  Definition aJG (jk : Z * Z) := JG (fst jk) (snd jk).
  Definition aJE (jk : Z * Z) := JE (fst jk) (snd jk).
  Definition aJH (jk : Z * Z) := JH (fst jk) (snd jk).
  Definition aJF (jk : Z * Z) := JF (fst jk) (snd jk).

  Definition acol (t : ait) : Z :=
    match t with
    | JI j => j | JP j _ => j + N | JG j _ => j + N | JE j _ => j + N
    | JH _ k => rowi H k + (N + n) | JS j => j + (N + n) | JF _ k => rowi A k + (N + n + x) | JZ j => j + N
    end.
  Definition arow (t : ait) : Z :=
    match t with
    | JI j => j | JP _ k => rowi P k | JG _ k => rowi G k + n | JE _ k => rowi A k + (n + x)
    | JH j _ => j | JS j => j + n | JF j _ => j | JZ j => j + N
    end.
  (** [di] and [dz]: the values on the two halves of the diagonal. *)
  Definition aval (di dz : K) (t : ait) : K :=
    match t with
    | JI _ => di | JP _ k => znth n0 (cx P) k | JG _ k => znth n0 (cx G) k | JE _ k => znth n0 (cx A) k
    | JH _ k => znth n0 (cx H) k | JS j => znth n0 sv j | JF _ k => znth n0 (cx A) k | JZ _ => dz
    end.
  Definition aitems : list ait :=
    map JI (zseq 0 N) ++ map aJP (pairs P) ++ map aJG (pairs G) ++ map aJE (pairs A) ++ map aJH (pairs H)
    ++ map JS (zseq 0 x) ++ map aJF (pairs A) ++ map JZ (zseq 0 N).

  Lemma In_aitems t : In t aitems <->
    match t with
    | JI j => 0 <= j < N
    | JP j k => 0 <= j < cn P /\ colp P j <= k < colp P (j + 1)
    | JG j k => 0 <= j < cn G /\ colp G j <= k < colp G (j + 1)
    | JE j k => 0 <= j < cn A /\ colp A j <= k < colp A (j + 1)
    | JH j k => 0 <= j < cn H /\ colp H j <= k < colp H (j + 1)
    | JS j => 0 <= j < x
    | JF j k => 0 <= j < cn A /\ colp A j <= k < colp A (j + 1)
    | JZ j => 0 <= j < N
    end.
  Proof.
    unfold aitems. rewrite !in_app_iff, !in_map_iff. split.
    - intros HH. repeat match goal with H : _ \/ _ |- _ => destruct H | H : exists _, _ |- _ => destruct H | H : _ /\ _ |- _ => destruct H | q : (Z * Z)%type |- _ => destruct q end;
        subst; cbn [aJP aJG aJE aJH aJF fst snd];
        match goal with H : In _ (pairs _) |- _ => apply In_pairs in H; auto | H : In _ (zseq _ _) |- _ => apply In_zseq in H; auto end.
    - destruct t as [j|j k|j k|j k|j k|j|j k|j]; intros HH.
      + left. exists j. split; auto. apply In_zseq; auto.
      + right; left. exists (j, k). split; auto. apply In_pairs; auto.
      + right; right; left. exists (j, k). split; auto. apply In_pairs; auto.
      + right; right; right; left. exists (j, k). split; auto. apply In_pairs; auto.
      + right; right; right; right; left. exists (j, k). split; auto. apply In_pairs; auto.
      + right; right; right; right; right; left. exists j. split; auto. apply In_zseq; auto.
      + do 6 right; left. exists (j, k). split; auto. apply In_pairs; auto.
      + do 7 right. exists j. split; auto. apply In_zseq; auto.
  Qed.

  Lemma NoDup_aitems : NoDup aitems.
  Proof.
    assert (HZ : forall f : Z -> ait, (forall a b, f a = f b -> a = b) -> forall a b, NoDup (map f (zseq a b))).
    { intros f Hf a b. apply FinFun.Injective_map_NoDup; [exact Hf|apply NoDup_zseq]. }
    assert (HPr : forall f : Z * Z -> ait, (forall a b, f a = f b -> a = b) -> forall M : csc K, NoDup (map f (pairs M))).
    { intros f Hf M. apply FinFun.Injective_map_NoDup; [exact Hf|apply NoDup_pairs]. }
    unfold aitems. repeat apply NoDup_app';
      try (apply HZ; intros a b E; inversion E; auto);
      try (apply HPr; intros [a b] [c d] E; inversion E; auto);
      intros t H1 H2; rewrite ?in_app_iff, ?in_map_iff in *;
      repeat match goal with H : _ \/ _ |- _ => destruct H | H : exists _, _ |- _ => destruct H | H : _ /\ _ |- _ => destruct H end;
      subst; unfold aJP, aJG, aJE, aJH, aJF in *; discriminate.
  Qed.

  Lemma dims_nonneg : 0 <= n /\ 0 <= x /\ 0 <= y /\ 0 <= N.
  Proof. pose proof (wf_m _ WP). pose proof (wf_m _ WG). pose proof (wf_m _ WA). unfold N, n, x, y. lia. Qed.

  Ltac rows M W := match goal with Hj : 0 <= ?j < cn M, Hk : colp M ?j <= ?k < colp M (?j + 1) |- _ =>
    pose proof (wf_rows _ W k (slot_range _ _ _ W Hj Hk)) end.

  Lemma acol_range t : In t aitems -> 0 <= acol t < 2 * N.
  Proof.
    intros Ht. apply In_aitems in Ht. destruct dims_nonneg as (H1 & H2 & H3 & H4).
    destruct t as [j|j k|j k|j k|j k|j|j k|j]; cbn [acol]; try (destruct Ht as [Hj Hk]); try (rows H WH); try (rows A WA);
      unfold N, n, x, y in *; lia.
  Qed.
  Lemma arow_range t : In t aitems -> 0 <= arow t < 2 * N.
  Proof.
    intros Ht. apply In_aitems in Ht. destruct dims_nonneg as (H1 & H2 & H3 & H4).
    destruct t as [j|j k|j k|j k|j k|j|j k|j]; cbn [arow]; try (destruct Ht as [Hj Hk]); try (rows P WP); try (rows G WG); try (rows A WA);
      unfold N, n, x, y in *; lia.
  Qed.
  Lemma aitems_triu t : In t aitems -> arow t <= acol t.
  Proof.
    intros Ht. apply In_aitems in Ht. destruct dims_nonneg as (H1 & H2 & H3 & H4).
    destruct t as [j|j k|j k|j k|j k|j|j k|j]; cbn [arow acol]; try (destruct Ht as [Hj Hk]); try (rows P WP); try (rows G WG); try (rows A WA); try (rows H WH);
      unfold N, n, x, y in *; lia.
  Qed.

  Lemma zlen_aitems : zlen aitems = N + nnz P + nnz G + nnz A + nnz H + x + nnz A + N.
  Proof.
    destruct dims_nonneg as (H1 & H2 & H3 & H4).
    unfold aitems. rewrite !zlen_app, !zlen_map, !zlen_pairs, !zlen_zseq by auto. lia.
  Qed.

  Definition asl (t : ait) : Z := sl ait_dec acol aitems t.

  Lemma adj_assemble_spec p i v :
    zlen p = 2 * N + 1 -> zlen aitems <= zlen i -> zlen aitems <= zlen v ->
    exists p' i' v', adj_assemble_csc (p, i, v) P G A H sv = Some (p', i', v') /\
      zlen p' = 2 * N + 1 /\ zlen i' = zlen i /\ zlen v' = zlen v /\
      (forall j, 0 <= j <= 2 * N -> znth 0 p' j = start acol aitems j) /\
      (forall j, 0 <= j < 2 * N -> slots i' v' (start acol aitems j) (start acol aitems (j + 1))
         = map (ent arow (aval n1 n0)) (filter (fun t => acol t =? j) aitems)).
  Proof.
    intros HLp HLi HLv. destruct dims_nonneg as (Hn & Hx & Hy & HN).
    assert (Hc : forall t, In t aitems -> 0 <= acol t < 2 * N) by (intros; apply acol_range; auto).
    pose proof NoDup_aitems as HND.
    unfold adj_assemble_csc. cbv beta iota zeta. fold n x y. fold N.
    unfold adj_colcount_diag, adj_colcount_block, adj_colcount_to_colptr, adj_backshift_colptrs.
    destruct (for_fill 0 (fun _ => 0) (2 * N + 1) p) as (p0 & -> & L0 & V0); [lia|].
    assert (V0' : forall j, 0 <= j <= 2 * N -> znth 0 p0 j = 0).
    { intros j Hj. rewrite V0. replace ((0 <=? j) && (j <? 2 * N + 1)) with true by lia. auto. }
    destruct (count_diag_spec p0 0 N) as (p1 & -> & L1 & V1); [lia|lia|lia|].
    destruct (count_block_spec p1 P N false WP) as (p2 & -> & L2 & V2); [lia|unfold N, n, x, y in *; lia|].
    destruct (count_block_spec p2 G N false WG) as (p3 & -> & L3 & V3); [lia|unfold N, n, x, y in *; lia|].
    destruct (count_block_spec p3 A N false WA) as (p4 & -> & L4 & V4); [lia|unfold N, n, x, y in *; lia|].
    destruct (count_block_spec p4 H (N + n) true WH) as (p5 & -> & L5 & V5); [lia|unfold N, n, x, y in *; lia|].
    destruct (count_diag_spec p5 (N + n) x) as (p6 & -> & L6 & V6); [lia|lia|unfold N, n, x, y in *; lia|].
    destruct (count_block_spec p6 A (N + n + x) true WA) as (p7 & -> & L7 & V7); [lia|unfold N, n, x, y in *; lia|].
    destruct (count_diag_spec p7 N N) as (p8 & -> & L8 & V8); [lia|lia|lia|].
    destruct (colptr_spec p8 (2 * N)) as (p9 & -> & L9 & V9); [lia|lia|].
    assert (V9' : forall j, 0 <= j <= 2 * N -> znth 0 p9 j = start acol aitems j).
    { intros j Hj. rewrite V9 by lia. rewrite <- psum_start by (try lia; intros t Ht; apply Hc; auto).
      apply psum_ext. intros t Ht. rewrite V8, V7, V6, V5, V4, V3, V2, V1, V0' by lia.
      unfold aitems. rewrite !cnt_app, !cnt_map.
      rewrite (cnt_ext (fun j0 => j0 + 0 =? t) (fun u => acol (JI u) =? t) (zseq 0 N)) by (intros; cbn [acol]; rewrite Z.add_0_r; auto).
      rewrite (cnt_ext (fun jk => (if false then rowi P (snd jk) else fst jk) + N =? t) (fun u => acol (aJP u) =? t) (pairs P)) by auto.
      rewrite (cnt_ext (fun jk => (if false then rowi G (snd jk) else fst jk) + N =? t) (fun u => acol (aJG u) =? t) (pairs G)) by auto.
      rewrite (cnt_ext (fun jk => (if false then rowi A (snd jk) else fst jk) + N =? t) (fun u => acol (aJE u) =? t) (pairs A)) by auto.
      rewrite (cnt_ext (fun jk => (if true then rowi H (snd jk) else fst jk) + (N + n) =? t) (fun u => acol (aJH u) =? t) (pairs H)) by auto.
      rewrite (cnt_ext (fun j0 => j0 + (N + n) =? t) (fun u => acol (JS u) =? t) (zseq 0 x)) by auto.
      rewrite (cnt_ext (fun jk => (if true then rowi A (snd jk) else fst jk) + (N + n + x) =? t) (fun u => acol (aJF u) =? t) (pairs A)) by auto.
      rewrite (cnt_ext (fun j0 => j0 + N =? t) (fun u => acol (JZ u) =? t) (zseq 0 N)) by auto. lia. }
    assert (S0 : sinv acol arow (aval n1 n0) (2 * N) aitems [] p9 i v).
    { apply sinv_init; auto; try lia. intros j Hj. apply V9'. lia. }
    set (b1 := map JI (zseq 0 N)). set (b2 := map aJP (pairs P)). set (b3 := map aJG (pairs G)). set (b4 := map aJE (pairs A)).
    set (b5 := map aJH (pairs H)). set (b6 := map JS (zseq 0 x)). set (b7 := map aJF (pairs A)). set (b8 := map JZ (zseq 0 N)).
    assert (EL : aitems = b1 ++ b2 ++ b3 ++ b4 ++ b5 ++ b6 ++ b7 ++ b8) by reflexivity.
    destruct (adj_fill_diag_spec acol arow (aval n1 n0) (2 * N) aitems Hc HND JI 0 0 N None n1 [] (b2 ++ b3 ++ b4 ++ b5 ++ b6 ++ b7 ++ b8) p9 i v)
      as (q1 & i1 & x1 & -> & Lq1 & Li1 & Lx1 & S1); auto; [discriminate| |].
    { intros j Hj. cbn [acol arow aval]. rewrite Z.add_0_r. auto. }
    destruct (adj_fill_block_spec ait_dec acol arow (aval n1 n0) (2 * N) aitems Hc HND P aJP 0 N false b1 (b3 ++ b4 ++ b5 ++ b6 ++ b7 ++ b8) q1 i1 x1 WP)
      as (q2 & i2 & x2 & -> & Lq2 & Li2 & Lx2 & S2); auto.
    { intros j k Hjk. unfold aJP; cbn [acol arow aval fst snd]. rewrite Z.add_0_r. auto. }
    destruct (adj_fill_block_spec ait_dec acol arow (aval n1 n0) (2 * N) aitems Hc HND G aJG n N false (b1 ++ b2) (b4 ++ b5 ++ b6 ++ b7 ++ b8) q2 i2 x2 WG)
      as (q3 & i3 & x3 & -> & Lq3 & Li3 & Lx3 & S3); auto.
    { rewrite EL. fold b3. rewrite <- !app_assoc. auto. }
    destruct (adj_fill_block_spec ait_dec acol arow (aval n1 n0) (2 * N) aitems Hc HND A aJE (n + x) N false ((b1 ++ b2) ++ b3) (b5 ++ b6 ++ b7 ++ b8) q3 i3 x3 WA)
      as (q4 & i4 & x4 & -> & Lq4 & Li4 & Lx4 & S4); auto.
    { rewrite EL. fold b4. rewrite <- !app_assoc. auto. }
    destruct (adj_fill_block_spec ait_dec acol arow (aval n1 n0) (2 * N) aitems Hc HND H aJH 0 (N + n) true (((b1 ++ b2) ++ b3) ++ b4) (b6 ++ b7 ++ b8) q4 i4 x4 WH)
      as (q5 & i5 & x5 & -> & Lq5 & Li5 & Lx5 & S5); auto.
    { rewrite EL. fold b5. rewrite <- !app_assoc. auto. }
    { intros j k Hjk. unfold aJH; cbn [acol arow aval fst snd]. rewrite Z.add_0_r. auto. }
    destruct (adj_fill_diag_spec acol arow (aval n1 n0) (2 * N) aitems Hc HND JS n (N + n) x (Some sv) n0 ((((b1 ++ b2) ++ b3) ++ b4) ++ b5) (b7 ++ b8) q5 i5 x5)
      as (q6 & i6 & x6 & -> & Lq6 & Li6 & Lx6 & S6); auto.
    { rewrite EL. fold b6. rewrite <- !app_assoc. auto. }
    { intros l E. injection E as <-. exact Hsv. }
    destruct (adj_fill_block_spec ait_dec acol arow (aval n1 n0) (2 * N) aitems Hc HND A aJF 0 (N + n + x) true (((((b1 ++ b2) ++ b3) ++ b4) ++ b5) ++ b6) b8 q6 i6 x6 WA)
      as (q7 & i7 & x7 & -> & Lq7 & Li7 & Lx7 & S7); auto.
    { rewrite EL. fold b7. rewrite <- !app_assoc. auto. }
    { intros j k Hjk. unfold aJF; cbn [acol arow aval fst snd]. rewrite Z.add_0_r. auto. }
    destruct (adj_fill_diag_spec acol arow (aval n1 n0) (2 * N) aitems Hc HND JZ N N N None n0 ((((((b1 ++ b2) ++ b3) ++ b4) ++ b5) ++ b6) ++ b7) [] q7 i7 x7)
      as (q8 & i8 & x8 & -> & Lq8 & Li8 & Lx8 & S8); auto.
    { rewrite EL. fold b8. rewrite <- !app_assoc, app_nil_r. auto. }
    { discriminate. }
    destruct (backshift_spec q8 (2 * N)) as (q9 & -> & L10 & V100 & V10); [lia|lia|].
    exists q9, i8, x8. split; [reflexivity|].
    match type of S8 with sinv _ _ _ _ _ ?l _ _ _ => replace l with aitems in S8 by (rewrite EL; fold b8; rewrite <- !app_assoc; auto) end.
    destruct (sinv_final _ _ _ _ _ _ _ _ S8) as (Vw & VS).
    split; [lia|]. split; [lia|]. split; [lia|]. split; auto.
    intros j Hj. destruct (Z.eq_dec j 0) as [->|].
    - rewrite V100, start_0; auto. intros t Ht. apply Hc; auto.
    - replace j with (j - 1 + 1) by lia. rewrite V10 by lia. apply Vw. lia.
  Qed.

  Lemma adj_placed p i v (nzm nz : Z) : zlen p = 2 * N + 1 -> zlen aitems <= zlen i -> zlen aitems <= zlen v ->
    (forall j, 0 <= j <= 2 * N -> znth 0 p j = start acol aitems j) ->
    (forall j, 0 <= j < 2 * N -> slots i v (start acol aitems j) (start acol aitems (j + 1))
         = map (ent arow (aval n1 n0)) (filter (fun t => acol t =? j) aitems)) ->
    placed acol arow (aval n1 n0) aitems asl (mkcsc (2 * N) (2 * N) p i v nzm nz) /\
    nnz (mkcsc (2 * N) (2 * N) p i v nzm nz) = zlen aitems.
  Proof.
    intros Lp Li Lv Vp VS. destruct dims_nonneg as (Hn & Hx & Hy & HN).
    apply (placed_scatter ait_dec acol arow (aval n1 n0) aitems (mkcsc (2 * N) (2 * N) p i v nzm nz)); cbn [cm cn cp ci cx]; try lia; auto.
    - apply NoDup_aitems.
    - intros t Ht. apply acol_range; auto.
    - intros t Ht. apply arow_range; auto.
  Qed.

  (** The diagonal items are the last of their columns. *)
  Lemma asl_last pre t post : aitems = pre ++ t :: post -> (forall u, In u post -> acol u <> acol t) ->
    asl t = start acol aitems (acol t + 1) - 1.
  Proof.
    intros E Hp. unfold asl. rewrite (sl_split ait_dec acol aitems NoDup_aitems pre t post E).
    apply (slot_of_last acol aitems pre t post E Hp).
  Qed.
  Lemma asl_JI j : 0 <= j < N -> asl (JI j) = start acol aitems (j + 1) - 1.
  Proof.
    intros Hj. destruct dims_nonneg as (Hn & Hx & Hy & HN).
    destruct (in_split (JI j) aitems) as (pre & post & EL); [apply In_aitems; auto|].
    rewrite (asl_last pre (JI j) post EL); [reflexivity|]. intros u Hu Ec. cbn [acol] in Ec.
    assert (HI : In u aitems) by (rewrite EL; apply in_or_app; simpl; auto). pose proof HI as HI'. apply In_aitems in HI'.
    assert (Eu : u = JI j).
    { destruct u as [a|a k|a k|a k|a k|a|a k|a]; cbn [acol] in Ec; try (destruct HI' as [Ha Hk]); try (rows H WH); try (rows A WA); try (exfalso; unfold N, n, x, y in *; lia). congruence. }
    pose proof NoDup_aitems as HND. rewrite EL in HND. apply NoDup_remove_2 in HND. apply HND. apply in_or_app. subst u. auto.
  Qed.
  Lemma asl_JZ j : 0 <= j < N -> asl (JZ j) = start acol aitems (j + N + 1) - 1.
  Proof.
    intros Hj. destruct dims_nonneg as (Hn & Hx & Hy & HN).
    set (b := map JI (zseq 0 N) ++ map aJP (pairs P) ++ map aJG (pairs G) ++ map aJE (pairs A) ++ map aJH (pairs H) ++ map JS (zseq 0 x) ++ map aJF (pairs A)).
    assert (EL : aitems = (b ++ map JZ (zseq 0 j)) ++ JZ j :: map JZ (zseq (j + 1) N)).
    { unfold b, aitems. rewrite (zseq_split 0 N j Hj) at 2. rewrite map_app. cbn [map]. rewrite <- !app_assoc. auto. }
    rewrite (asl_last _ _ _ EL); [reflexivity|].
    intros u Hu. apply in_map_iff in Hu as (z & <- & Hz). apply In_zseq in Hz. cbn [acol]. lia.
  Qed.

  Lemma adj_perturb_spec p i v nzm nz eps : zlen p = 2 * N + 1 ->
    placed acol arow (aval n1 n0) aitems asl (mkcsc (2 * N) (2 * N) p i v nzm nz) ->
    (forall j, 0 <= j <= 2 * N -> znth 0 p j = start acol aitems j) ->
    exists v', adj_perturb p v (2 * N) eps = Some v' /\ zlen v' = zlen v /\
      placed acol arow (aval (nadd n1 eps) (nsub n0 eps)) aitems asl (mkcsc (2 * N) (2 * N) p i v' nzm nz).
  Proof.
    intros Lp PL Vp. destruct dims_nonneg as (Hn & Hx & Hy & HN). unfold adj_perturb.
    replace (2 * N / 2) with N by (rewrite Z.mul_comm, Z.div_mul; lia).
    set (M := mkcsc (2 * N) (2 * N) p i v nzm nz) in *. pose proof NoDup_aitems as HND.
    assert (Hsl : forall t, In t aitems -> 0 <= asl t < zlen v).
    { intros t Ht. apply (placed_slot _ _ _ _ _ _ PL t Ht). }
    assert (Hinj : forall t u, In t aitems -> In u aitems -> asl t = asl u -> t = u).
    { intros t u Ht Hu E. apply (placed_inj _ _ _ _ _ _ PL t u Ht Hu E HND). }
    assert (HvI : forall j, 0 <= j < N -> znth 0 p (j + 1) - 1 = asl (JI j)).
    { intros j Hj. rewrite asl_JI, Vp by lia. auto. }
    assert (HvZ : forall j, 0 <= j < N -> znth 0 p (j + N + 1) - 1 = asl (JZ j)).
    { intros j Hj. rewrite asl_JZ, Vp by lia. auto. }
    set (W1 := fun t (s : ait) => match s with JI j => if j <? t then nadd n1 eps else n1 | _ => aval n1 n0 s end).
    loop_rule (fun t w => zlen w = zlen v /\ forall s, In s aitems -> znth n0 w (asl s) = W1 t s) HR.
    destruct HR as (v1 & E1 & L1 & V1); [lia| | |].
    { split; auto. intros s Hs. destruct (pl_item _ _ _ _ _ _ PL s Hs) as (_ & _ & _ & Hv). change (cx M) with v in Hv. rewrite Hv.
      apply In_aitems in Hs. unfold W1. destruct s; auto. replace (j <? 0) with false by lia. auto. }
    { intros j w Hj (Lw & Vw). assert (HI : In (JI j) aitems) by (apply In_aitems; auto). pose proof (Hsl _ HI).
      rewrite (zget_Some 0) by lia. rewrite HvI by auto. rewrite (zget_Some n0) by lia. rewrite zset_Some by lia.
      eexists; split; [reflexivity|]. rewrite zlen_upd. split; auto. intros s Hs. rewrite znth_upd by lia.
      destruct (Z.eqb_spec (asl s) (asl (JI j))) as [e|ne].
      - apply (Hinj s (JI j) Hs HI) in e. subst s. rewrite Vw by auto. unfold W1. rewrite Z.ltb_irrefl. replace (j <? j + 1) with true by lia. auto.
      - rewrite Vw by auto. unfold W1. destruct s; auto. assert (j0 <> j) by congruence. replace (j0 <? j + 1) with (j0 <? j) by lia. auto. }
    rewrite E1. clear E1.
    set (W2 := fun t (s : ait) => match s with JI j => nadd n1 eps | JZ j => if j + N <? t then nsub n0 eps else n0 | _ => aval n1 n0 s end).
    destruct (for_rule (fun t w => zlen w = zlen v /\ forall s, In s aitems -> znth n0 w (asl s) = W2 t s) N (2 * N)
       (fun (j : Z) (x0 : list K) => match zget p (j + 1) with Some e => match zget x0 (e - 1) with Some v0 => zset x0 (e - 1) (nsub v0 eps) | None => None end | None => None end) v1) as (v2 & E2 & L2 & V2).
    { lia. }
    { split; auto. intros s Hs. rewrite V1 by auto. apply In_aitems in Hs. unfold W1, W2. destruct s; auto.
      - replace (j <? N) with true by lia. auto.
      - replace (j + N <? N) with false by lia. auto. }
    { intros j w Hj (Lw & Vw). assert (HI : In (JZ (j - N)) aitems) by (apply In_aitems; lia). pose proof (Hsl _ HI).
      rewrite (zget_Some 0) by lia. assert (HvJ : znth 0 p (j + 1) - 1 = asl (JZ (j - N))) by (rewrite <- HvZ by lia; f_equal; f_equal; lia). rewrite HvJ. rewrite (zget_Some n0) by lia. rewrite zset_Some by lia.
      eexists; split; [reflexivity|]. rewrite zlen_upd. split; auto. intros s Hs. rewrite znth_upd by lia.
      destruct (Z.eqb_spec (asl s) (asl (JZ (j - N)))) as [e|ne].
      - apply (Hinj s (JZ (j - N)) Hs HI) in e. subst s. rewrite Vw by auto. unfold W2. replace (j - N + N <? j) with false by lia. replace (j - N + N <? j + 1) with true by lia. auto.
      - rewrite Vw by auto. unfold W2. destruct s; auto. assert (j0 + N <> j) by (intros <-; apply ne; f_equal; f_equal; lia). replace (j0 + N <? j + 1) with (j0 + N <? j) by lia. auto. }
    rewrite E2. exists v2. split; auto. split; auto.
    apply (placed_set_x acol arow (aval n1 n0) (aval (nadd n1 eps) (nsub n0 eps)) aitems asl M v2 PL L2).
    intros s Hs. rewrite V2 by auto. unfold W2. apply In_aitems in Hs. destruct s; auto. replace (j + N <? 2 * N) with true by lia. auto.
  Qed.
End Asm.

(** ** Over the reals *)
(** Block (a, b) of the upper right part, given entry by entry:
      [ P, G' diag(lambda), A_eq' ; G, diag(slack), 0 ; A_eq, 0, 0 ]  where H = diag(lambda) G. *)
Definition blockM (n x : Z) (P G A H : Z -> Z -> R) (s : Z -> R) (a b : Z) : R :=
  if b <? n then
    if a <? n then P a b else if a <? n + x then G (a - n) b else A (a - n - x) b
  else if b <? n + x then
    if a <? n then H (b - n) a else if a =? b then s (a - n) else 0%R
  else if a <? n then A (b - n - x) a else 0%R.

Section Dense.
  Variables (P G A H : csc Rops) (sv : list R).
  Hypothesis (WP : wf P) (WG : wf G) (WA : wf A) (WH : wf H).
  Hypothesis (HmP : cm P = cn P) (HnG : cn G = cn P) (HnA : cn A = cn P) (HnH : cn H = cn P) (HmH : cm H = cm G).
  Let n := cm P.
  Let x := cm G.
  Let y := cm A.
  Let N := n + x + y.
  Variables (di dz : R).
  Let BM := blockM n x (dns P) (dns G) (dns A) (dns H) (rnth sv).

  Lemma aitems_sum a b : 0 <= a <= b -> b < 2 * N ->
    lsum (fun t => if (acol P G A H t =? b) && (arow P G A t =? a) then @aval Rops P G A H sv di dz t else 0%R) (aitems P G A H)
    = if b <? N then (if a =? b then di else 0%R) else if a <? N then BM a (b - N) else if a =? b then dz else 0%R.
  Proof.
    intros Ha Hb. destruct (dims_nonneg P G A WP WG WA) as (Hn & Hx & Hy & HN). fold n x y in Hn, Hx, Hy. fold n x y in HN. fold N in HN.
    unfold aitems. rewrite !lsum_app, !lsum_map. fold n x y. fold N.
    assert (HZ : forall (f : Z -> ait) k o q (v : Z -> R), 0 <= k ->
       (forall j, acol P G A H (f j) = j + o) -> (forall j, arow P G A (f j) = j + q) -> (forall j, @aval Rops P G A H sv di dz (f j) = v j) ->
       lsum (fun j => if (acol P G A H (f j) =? b) && (arow P G A (f j) =? a) then @aval Rops P G A H sv di dz (f j) else 0%R) (zseq 0 k)
       = if ((0 <=? b - o) && (b - o <? k)) && (a =? b - o + q) then v (b - o) else 0%R).
    { intros f k o q v Hk H1 H2 H3. destruct (((0 <=? b - o) && (b - o <? k)) && (a =? b - o + q)) eqn:Ec.
      - rewrite <- H3. apply (lsum_unique (fun j => (acol P G A H (f j) =? b) && (arow P G A (f j) =? a)) (fun j => @aval Rops P G A H sv di dz (f j))).
        + apply NoDup_zseq. + apply In_zseq; lia. + rewrite H1, H2. lia. + intros j _. rewrite H1. lia.
      - apply lsum_0. intros j Hj. apply In_zseq in Hj. rewrite H1, H2. replace ((j + o =? b) && (j + q =? a)) with false by lia. auto. }
    assert (HB : forall (f : Z * Z -> ait) (M : csc Rops) o q, wf M ->
       (forall jk, acol P G A H (f jk) = fst jk + o) -> (forall jk, arow P G A (f jk) = rowi M (snd jk) + q) -> (forall jk, @aval Rops P G A H sv di dz (f jk) = valx M (snd jk)) ->
       lsum (fun jk => if (acol P G A H (f jk) =? b) && (arow P G A (f jk) =? a) then @aval Rops P G A H sv di dz (f jk) else 0%R) (pairs M)
       = if ((0 <=? b - o) && (b - o <? cn M)) && ((0 <=? a - q) && (a - q <? cm M)) then dns M (a - q) (b - o) else 0%R).
    { intros f M o q W H1 H2 H3. destruct (((0 <=? b - o) && (b - o <? cn M)) && ((0 <=? a - q) && (a - q <? cm M))) eqn:Ec.
      - rewrite (dns_pairs M (a - q) (b - o)) by lia. apply lsum_ext. intros [j k] _. rewrite H1, H2, H3. cbn [fst snd].
        replace ((j + o =? b) && (rowi M k + q =? a)) with ((j =? b - o) && (rowi M k =? a - q)) by lia. auto.
      - apply lsum_0. intros [j k] Hx'. apply In_pairs in Hx' as [Hj Hk]. rewrite H1, H2. cbn [fst snd].
        pose proof (wf_rows _ W k (slot_range _ _ _ W Hj Hk)). replace ((j + o =? b) && (rowi M k + q =? a)) with false by lia. auto. }
    assert (HT : forall (f : Z * Z -> ait) (M : csc Rops) o, wf M ->
       (forall jk, acol P G A H (f jk) = rowi M (snd jk) + o) -> (forall jk, arow P G A (f jk) = fst jk) -> (forall jk, @aval Rops P G A H sv di dz (f jk) = valx M (snd jk)) ->
       lsum (fun jk => if (acol P G A H (f jk) =? b) && (arow P G A (f jk) =? a) then @aval Rops P G A H sv di dz (f jk) else 0%R) (pairs M)
       = if ((0 <=? b - o) && (b - o <? cm M)) && (a <? cn M) then dns M (b - o) a else 0%R).
    { intros f M o W H1 H2 H3. destruct (((0 <=? b - o) && (b - o <? cm M)) && (a <? cn M)) eqn:Ec.
      - rewrite (dns_pairs M (b - o) a) by lia. apply lsum_ext. intros [j k] _. rewrite H1, H2, H3. cbn [fst snd].
        replace ((rowi M k + o =? b) && (j =? a)) with ((j =? a) && (rowi M k =? b - o)) by lia. auto.
      - apply lsum_0. intros [j k] Hx'. apply In_pairs in Hx' as [Hj Hk]. rewrite H1, H2. cbn [fst snd].
        pose proof (wf_rows _ W k (slot_range _ _ _ W Hj Hk)). replace ((rowi M k + o =? b) && (j =? a)) with false by lia. auto. }
    rewrite (HZ JI N 0 0 (fun _ => di)) by (intros; cbn [acol arow aval]; auto; lia).
    rewrite (HB aJP P N 0 WP) by (intros [j k]; unfold aJP; cbn [acol arow aval fst snd]; unfold valx; rewrite ?n0_R; auto; lia).
    rewrite (HB aJG G N n WG) by (intros [j k]; unfold aJG; cbn [acol arow aval fst snd]; unfold valx; rewrite ?n0_R; auto; lia).
    rewrite (HB aJE A N (n + x) WA) by (intros [j k]; unfold aJE; cbn [acol arow aval fst snd]; unfold valx; rewrite ?n0_R; auto; lia).
    rewrite (HT aJH H (N + n) WH) by (intros [j k]; unfold aJH; cbn [acol arow aval fst snd]; unfold valx; rewrite ?n0_R; auto; lia).
    rewrite (HZ JS x (N + n) n (fun j => rnth sv j)) by (intros; cbn [acol arow aval]; rewrite ?n0_R; auto).
    rewrite (HT aJF A (N + n + x) WA) by (intros [j k]; unfold aJF; cbn [acol arow aval fst snd]; unfold valx; rewrite ?n0_R; auto; lia).
    rewrite (HZ JZ N N N (fun _ => dz)) by (intros; cbn [acol arow aval]; rewrite ?n0_R; auto).
    rewrite HnG, HnA, HnH, HmH, <- HmP. fold n x y.
    unfold BM, blockM.
    replace (b - 0) with b by lia. replace (a - 0) with a by lia. replace (a - (n + x)) with (a - n - x) by lia.
    replace (b - (N + n + x)) with (b - N - n - x) by lia. replace (b - (N + n)) with (b - N - n) by lia.
    repeat match goal with |- context [if ?c then _ else _] => let E := fresh in destruct c eqn:E; try (exfalso; unfold N in *; lia) end;
      cbv beta; try ring; replace (a - n) with (b - N - n) by lia; ring.
  Qed.

  (** The adjoint matrix: [ di I, M ; M', dz I ] *)
  Lemma adj_dense sl (D : csc Rops) : cn D = 2 * N ->
    placed (acol P G A H) (arow P G A) (@aval Rops P G A H sv di dz) (aitems P G A H) sl D ->
    forall a b, 0 <= a < 2 * N -> 0 <= b < 2 * N ->
    sdns D a b = kktS N (fun i j => if (i =? j)%Z then 1%R else 0%R) (fun r c => BM c r) (di - 1) (fun _ => - dz)%R a b.
  Proof.
    intros HD PL a b Ha Hb. rewrite <- HD in Ha, Hb. revert a b Ha Hb.
    apply (sdns_placed _ _ _ _ _ _ (kktS N (fun i j => if (i =? j)%Z then 1%R else 0%R) (fun r c => BM c r) (di - 1) (fun _ => - dz)%R) PL).
    { intros a b. apply kktS_sym. intros i j. rewrite Z.eqb_sym. auto. }
    rewrite HD. intros a b Ha Hb. rewrite aitems_sum by auto. unfold kktS.
    destruct (Z.ltb_spec b N).
    - replace (a <? N) with true by lia. destruct (a =? b); ring.
    - destruct (Z.ltb_spec a N); auto. destruct (a =? b); ring.
  Qed.
End Dense.
