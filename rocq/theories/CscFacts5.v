(** Comparison of matrices, constructors, memory safety of the kernels for every scalar type. *)
From Coq Require Import ZArith Reals List Bool Lia Lra.
From Verif Require Import Num Arr ArrFacts RSum Csc CscApi CscSpec CscFacts CscFacts2 Scatter CscFacts3 CscFacts4.
Import ListNotations.
Open Scope Z_scope.

(** ** csc_is_eq *)
Section Eq.
  Context {K : NumOps}.
  Definition entry_same (A B : csc K) (tol : K) (k : Z) : Prop :=
    rowi A k = rowi B k /\ nltb tol (c_absval (nsub (znth n0 (cx A) k) (znth n0 (cx B) k))) = false.

  Lemma csc_is_eq_spec (A B : csc K) tol : wf A -> wf B ->
    exists b, csc_is_eq A B tol = Some b /\
      (b = true <-> cn A = cn B /\ (forall j, 0 <= j <= cn A -> colp A j = colp B j) /\
                    (forall k, 0 <= k < nnz A -> entry_same A B tol k)).
  Proof.
    intros WA WB. unfold csc_is_eq. destruct (cn A =? cn B) eqn:En; cbn [negb].
    2:{ exists false. split; auto. split; [discriminate|]. intros [H _]. lia. }
    apply Z.eqb_eq in En.
    loop_rule (fun t (b : bool) => b = true <-> (forall j, 0 <= j < t -> colp A (j + 1) = colp B (j + 1) /\
       forall k, colp A j <= k < colp A (j + 1) -> entry_same A B tol k)) HR.
    destruct HR as (b & -> & Hb).
    - apply (wf_n _ WA).
    - split; auto. intros _ j Hj; lia.
    - intros j b Hj Hb. destruct b; cbn [negb].
      2:{ exists false. split; auto. split; [discriminate|]. intros H. apply Hb. intros; apply H; lia. }
      rewrite !zget_colp by (auto; lia). destruct (colp A (j + 1) =? colp B (j + 1)) eqn:Ep; cbn [negb].
      2:{ exists false. split; auto. split; [discriminate|]. intros H. specialize (H j ltac:(lia)). lia. }
      apply Z.eqb_eq in Ep. pose proof (proj1 Hb eq_refl) as Hb'. clear Hb.
      loop_rule (fun t (b : bool) => b = true <-> (forall k, colp A j <= k < t -> entry_same A B tol k)) HR2.
      destruct HR2 as (b & -> & Hb).
      + apply (wf_mono _ WA); auto.
      + split; auto. intros _ k Hk; lia.
      + intros k b Hk Hb. destruct b; cbn [negb].
        2:{ exists false. split; auto. split; [discriminate|]. intros H. apply Hb. intros; apply H; lia. }
        assert (Hk' : 0 <= k < nnz A) by (eapply slot_range; eauto).
        assert (HkB : 0 <= k < nnz B).
        { pose proof (colp_range B (j + 1) WB ltac:(lia)). lia. }
        rewrite !zget_rowi by auto. destruct (rowi A k =? rowi B k) eqn:Er; cbn [negb].
        2:{ exists false. split; auto. split; [discriminate|]. intros H. specialize (H k ltac:(lia)) as [H _]. lia. }
        rewrite (zget_val A n0), (zget_val B n0) by auto.
        destruct (nltb tol (c_absval (nsub (znth n0 (cx A) k) (znth n0 (cx B) k)))) eqn:Et.
        * exists false. split; auto. split; [discriminate|]. intros H. specialize (H k ltac:(lia)) as [_ H]. congruence.
        * exists true. split; auto. split; auto. intros _ k' Hk2. destruct (Z.eq_dec k' k) as [->|N].
          { split; auto. lia. } { apply (proj1 Hb eq_refl). lia. }
      + exists b. split; auto. rewrite Hb. split.
        * intros H j' Hj'. destruct (Z.eq_dec j' j) as [->|N]; auto. apply Hb'. lia.
        * intros H. apply (H j). lia.
    - exists b. split; auto. rewrite Hb. split.
      + intros H. split; auto. assert (Hp : forall j, 0 <= j <= cn A -> colp A j = colp B j).
        { intros j Hj. destruct (Z.eq_dec j 0) as [->|N].
          - rewrite (wf_p0 _ WA), (wf_p0 _ WB). auto.
          - replace j with (j - 1 + 1) by lia. apply H. lia. }
        split; auto. intros k Hk. destruct (slot_col A k WA Hk) as (j & Hj & Hjk). apply (H j); auto.
      + intros (_ & Hp & Hk) j Hj. split; [apply Hp; lia|]. intros k Hjk. apply Hk. eapply slot_range; eauto.
  Qed.
End Eq.

(** ** Diagonals in dense terms *)
Lemma extract_diag_dense (A : csc Rops) (d d' : list R) : wf A -> cn A <= zlen d -> nodup_rows A ->
  @csc_extract_diag Rops A d = Some d' -> forall i, 0 <= i < cn A -> rnth d' i = dns A i i.
Proof.
  intros W HL HN E i Hi. destruct (csc_extract_diag_spec A d W HL) as (d2 & E2 & _ & H0 & H1).
  rewrite E in E2. inversion E2; subst d2. unfold rnth.
  assert (Hdec : (exists k, colp A i <= k < colp A (i + 1) /\ rowi A k = i) \/
                 (forall k, colp A i <= k < colp A (i + 1) -> rowi A k <> i)).
  { assert (Hgen : forall l, (exists k, In k l /\ rowi A k = i) \/ (forall k, In k l -> rowi A k <> i)).
    { induction l as [|a l IH]; [right; intros k []|]. destruct (Z.eq_dec (rowi A a) i) as [Ea|Na].
      - left. exists a. simpl; auto.
      - destruct IH as [(k & Hk & Hr)|IH]; [left; exists k; simpl; auto|]. right. intros k [<-|Hk]; auto. }
    destruct (Hgen (zseq (colp A i) (colp A (i + 1)))) as [(k & Hk & Hr)|H].
    - left. exists k. apply In_zseq in Hk. auto.
    - right. intros k Hk. apply H. apply In_zseq. auto. }
  rewrite n0_R in *. destruct Hdec as [(k & Hk & Hr)|Hno].
  - etransitivity; [apply (H1 i k Hi Hk Hr)|].
    2:{ rewrite <- Hr at 1. symmetry. apply dns_nodup; auto. }
    intros k' Hk' Hr'. assert (k' = k) by (apply (HN i); auto; lia). lia.
  - etransitivity; [apply (H0 i Hi Hno)|]. symmetry. apply dns_no_entry. auto.
Qed.

(** diag(A' D A) *)
Lemma AtDA_extract_diag_dense (A : csc Rops) (D d d' : list R) : wf A -> cm A <= zlen D -> cn A <= zlen d -> nodup_rows A ->
  @csc_AtDA_extract_diag Rops A D d = Some d' ->
  forall j, 0 <= j < cn A -> rnth d' j = zsum 0 (cm A) (fun i => dns A i j * rnth D i * dns A i j)%R.
Proof.
  intros W HD Hd HN E j Hj. destruct (csc_AtDA_extract_diag_correct A D d W HD Hd) as (d2 & E2 & _ & H).
  rewrite E in E2. inversion E2; subst d2. rewrite H by auto.
  transitivity (zsum (colp A j) (colp A (j + 1)) (fun k => zsum 0 (cm A) (fun i => if i =? rowi A k then valx A k * rnth D i * dns A i j else 0)%R)).
  - apply zsum_ext. intros k Hk. assert (Hk' : 0 <= k < nnz A) by (eapply slot_range; eauto). pose proof (wf_rows _ W k Hk').
    rewrite (zsum_single 0 (cm A) (rowi A k) (fun i => valx A k * rnth D i * dns A i j)%R) by auto.
    rewrite dns_nodup by auto. change (car Rops) with R. lra.
  - rewrite zsum_swap. apply zsum_ext. intros i Hi. unfold dns at 2. rewrite Rmult_assoc, <- zsum_scal_r.
    apply zsum_ext. intros k Hk. rewrite (Z.eqb_sym i). destruct (rowi A k =? i); change (car Rops) with R; lra.
Qed.

(** ** Constructors *)
Section Constr.
  Context {K : NumOps}.
  Lemma diag_scalar_spec jz (jx : K) m n s : 0 <= m -> 0 <= n ->
    exists A, OSQPCscMatrix_diag_scalar jz jx m n s = Some A /\ cm A = m /\ cn A = n /\ cnzmax A = Z.min m n /\ cnz A = -1 /\
      zlen (cp A) = n + 1 /\ zlen (ci A) = Z.min m n /\ zlen (cx A) = Z.min m n /\
      (forall j, 0 <= j <= n -> colp A j = Z.min j (Z.min m n)) /\
      (forall k, 0 <= k < Z.min m n -> rowi A k = k /\ znth n0 (cx A) k = s).
  Proof.
    intros Hm Hn. unfold OSQPCscMatrix_diag_scalar.
    assert (Hmin : (if m <? n then m else n) = Z.min m n) by (destruct (m <? n) eqn:E; lia). rewrite !Hmin.
    assert (Hp : exists p, (if m <? n then for_ 0 n (fun i p => if i <? m then zset p i i else zset p i m) (zrep (n + 1) 0)
          else for_ 0 n (fun i p => zset p i i) (zrep (n + 1) 0)) = Some p /\ zlen p = n + 1 /\
          forall j, 0 <= j < n -> znth 0 p j = Z.min j m).
    { destruct (m <? n) eqn:E.
      - rewrite (for_ext 0 n _ (fun i p => zset p i (Z.min i m))).
        2:{ intros i p Hi. destruct (i <? m) eqn:E2; f_equal; lia. }
        destruct (for_fill 0 (fun i => Z.min i m) n (zrep (n + 1) 0)) as (p & -> & L & V); [rewrite zlen_zrep; lia|].
        rewrite zlen_zrep in L by lia. exists p. split; auto. split; auto. intros j Hj. rewrite V.
        replace ((0 <=? j) && (j <? n)) with true by lia. auto.
      - destruct (for_fill 0 (fun i => i) n (zrep (n + 1) 0)) as (p & -> & L & V); [rewrite zlen_zrep; lia|].
        rewrite zlen_zrep in L by lia. exists p. split; auto. split; auto. intros j Hj. rewrite V.
        replace ((0 <=? j) && (j <? n)) with true by lia. lia. }
    destruct Hp as (p & -> & Lp & Vp).
    loop_rule (fun t (s' : list Z * list K) => zlen (fst s') = Z.min m n /\ zlen (snd s') = Z.min m n /\
      forall k, 0 <= k < t -> znth 0 (fst s') k = k /\ znth n0 (snd s') k = s) HR.
    destruct HR as ([mi mx] & -> & Li & Lx & V).
    - lia.
    - cbn [fst snd]. rewrite !zlen_zrep by lia. repeat split; auto; lia.
    - intros k [mi mx] Hk (Li & Lx & V). cbn [fst snd] in *. rewrite !zset_Some by lia.
      eexists; split; [reflexivity|]. cbn [fst snd]. rewrite !zlen_upd. repeat (split; [solve [auto]|]).
      intros k' Hk'. rewrite !znth_upd by lia. destruct (k' =? k) eqn:E; [split; auto; lia|]. apply V; lia.
    - cbn [fst snd] in *. rewrite zset_Some by lia. eexists; split; [reflexivity|].
      cbn [cm cn cnzmax cnz cp ci cx]. rewrite zlen_upd. repeat (split; [solve [auto]|]). split.
      + intros j Hj. unfold colp; cbn [cp]. rewrite znth_upd by lia. destruct (j =? n) eqn:E; [lia|]. rewrite Vp by lia. lia.
      + intros k Hk. unfold rowi; cbn [ci cx]. apply V; auto.
  Qed.

  Lemma diag_pattern_wf (A : csc K) m n : 0 <= m -> 0 <= n -> cm A = m -> cn A = n ->
      zlen (cp A) = n + 1 -> zlen (ci A) = Z.min m n -> zlen (cx A) = Z.min m n ->
      (forall j, 0 <= j <= n -> colp A j = Z.min j (Z.min m n)) ->
      (forall k, 0 <= k < Z.min m n -> rowi A k = k) -> wf A.
  Proof.
    intros Hm Hn Em En Lp Li Lx Hp Hi.
    assert (Hnn : nnz A = Z.min m n) by (unfold nnz; rewrite En, Hp; lia).
    constructor; try lia.
    - rewrite Hp; lia.
    - intros j Hj. rewrite !Hp by lia. lia.
    - intros k Hk. rewrite Hi by lia. lia.
  Qed.

  Lemma diag_vec_spec jz (jx : K) m n vec : 0 <= m -> 0 <= n -> Z.min m n <= zlen vec ->
    exists A, OSQPCscMatrix_diag_vec jz jx m n vec = Some A /\ cm A = m /\ cn A = n /\ cnzmax A = Z.min m n /\ cnz A = -1 /\
      zlen (cp A) = n + 1 /\ zlen (ci A) = Z.min m n /\ zlen (cx A) = Z.min m n /\
      (forall j, 0 <= j <= n -> colp A j = Z.min j (Z.min m n)) /\
      (forall k, 0 <= k < Z.min m n -> rowi A k = k /\ znth n0 (cx A) k = znth n0 vec k).
  Proof.
    intros Hm Hn HL. unfold OSQPCscMatrix_diag_vec.
    assert (Hmin : (if m <? n then m else n) = Z.min m n) by (destruct (m <? n) eqn:E; lia). rewrite !Hmin.
    destruct (diag_scalar_spec jz jx m n n1 Hm Hn) as (A & -> & Em & En & Ez & Enz & Lp & Li & Lx & Hp & Hk).
    destruct (for_copy n0 vec (cx A) (Z.min m n)) as (x & -> & L & V); try lia.
    eexists; split; [reflexivity|]. unfold set_x. cbn [cm cn cnzmax cnz cp ci cx]. repeat (split; [solve [auto; lia]|]).
    intros k Hk'. split; [apply (Hk k Hk')|]. apply V; auto.
  Qed.

  Lemma zeros_wf m n : 0 <= m -> 0 <= n -> wf (OSQPCscMatrix_zeros m n : csc K) /\ nnz (OSQPCscMatrix_zeros m n : csc K) = 0.
  Proof.
    intros Hm Hn. assert (HH : forall j, 0 <= j <= n -> colp (OSQPCscMatrix_zeros m n : csc K) j = 0).
    { intros j Hj. unfold colp, OSQPCscMatrix_zeros; cbn [cp]. apply znth_zrep. lia. }
    assert (Hz : nnz (OSQPCscMatrix_zeros m n : csc K) = 0).
    { unfold nnz, OSQPCscMatrix_zeros; cbn [cn]. apply HH. lia. }
    split; auto. constructor; rewrite ?Hz; auto.
    - unfold OSQPCscMatrix_zeros; cbn [cn cp]. rewrite zlen_zrep; lia.
    - apply HH; lia.
    - intros j Hj. change (cn (OSQPCscMatrix_zeros m n : csc K)) with n in Hj. rewrite !HH by lia. lia.
    - apply zlen_nonneg.
    - apply zlen_nonneg.
    - intros; lia.
  Qed.
End Constr.

Lemma diag_pattern_dense (A : csc Rops) m n (f : Z -> R) : 0 <= m -> 0 <= n -> cn A = n ->
      (forall j, 0 <= j <= n -> colp A j = Z.min j (Z.min m n)) ->
      (forall k, 0 <= k < Z.min m n -> rowi A k = k /\ valx A k = f k) ->
  forall i j, 0 <= i < m -> 0 <= j < n -> dns A i j = if i =? j then f i else 0%R.
Proof.
  intros Hm Hn En Hp Hk i j Hi Hj. unfold dns. rewrite !Hp by lia.
  destruct (Z_lt_ge_dec j m) as [Hlt|Hge].
  - replace (Z.min j (Z.min m n)) with j by lia. replace (Z.min (j + 1) (Z.min m n)) with (j + 1) by lia.
    rewrite zsum_snoc, zsum_nil by lia. destruct (Hk j ltac:(lia)) as [Hr Hv]. rewrite Hr, (Z.eqb_sym i), Hv.
    destruct (j =? i) eqn:E; [|lra]. assert (i = j) by lia. subst. lra.
  - rewrite zsum_nil by lia. replace (i =? j) with false by lia. auto.
Qed.

(** ** Memory safety for every scalar type *)
Section Safe.
  Context {K : NumOps}.
  Implicit Types (A : csc K).

  Lemma csc_Axpy_safe A x y (alpha beta : K) : wf A -> cn A <= zlen x -> cm A <= zlen y ->
    exists y', csc_Axpy A x y alpha beta = Some y' /\ zlen y' = zlen y.
  Proof.
    intros W Hx Hy. unfold csc_Axpy.
    destruct (beta_part_len y beta (cm A)) as (y1 & -> & HL1); [pose proof (wf_m _ W); lia|].
    rewrite zget_nnz by auto. destruct ((nnz A =? 0) || neqb alpha n0); [eauto|].
    assert (HS : forall f, exists y', for_cols (cn A) (cp A) (fun j i y => match zget (ci A) i with Some r => match zget (cx A) i with Some v =>
        match zget x j with Some xj => match zget y r with Some yr => zset y r (f v xj yr) | None => None end | None => None end
        | None => None end | None => None end) y1 = Some y' /\ zlen y' = zlen y1).
    { intros f. apply for_cols_len; auto. intros j k y2 Hj Hjk Hk HL2. pose proof (wf_rows _ W k Hk).
      rewrite zget_rowi by auto. rewrite (zget_val A n0) by auto. rewrite (zget_Some n0 x) by lia.
      rewrite (zget_Some n0 y2) by lia. rewrite zset_Some by lia. rewrite <- HL2. eexists; split; [reflexivity|]. apply zlen_upd. }
    rewrite <- HL1. destruct (neqb alpha (nopp n1)); [apply (HS (fun v xj yr => nsub yr (nmul v xj)))|].
    destruct (neqb alpha n1); [apply (HS (fun v xj yr => nadd yr (nmul v xj)))|apply (HS (fun v xj yr => nadd yr (nmul (nmul alpha v) xj)))].
  Qed.

  Lemma csc_Atxpy_safe A x y (alpha beta : K) : wf A -> cm A <= zlen x -> cn A <= zlen y ->
    exists y', csc_Atxpy A x y alpha beta = Some y' /\ zlen y' = zlen y.
  Proof.
    intros W Hx Hy. unfold csc_Atxpy.
    destruct (beta_part_len y beta (cn A)) as (y1 & -> & HL1); [pose proof (wf_n _ W); lia|].
    rewrite zget_nnz by auto. destruct ((nnz A =? 0) || neqb alpha n0); [eauto|].
    assert (HS : forall f, exists y', for_cols (cn A) (cp A) (fun j i y => match zget (ci A) i with Some r => match zget (cx A) i with Some v =>
        match zget x r with Some xr => match zget y j with Some yj => zset y j (f v xr yj) | None => None end | None => None end
        | None => None end | None => None end) y1 = Some y' /\ zlen y' = zlen y1).
    { intros f. apply for_cols_len; auto. intros j k y2 Hj Hjk Hk HL2. pose proof (wf_rows _ W k Hk).
      rewrite zget_rowi by auto. rewrite (zget_val A n0) by auto. rewrite (zget_Some n0 x) by lia.
      rewrite (zget_Some n0 y2) by lia. rewrite zset_Some by lia. rewrite <- HL2. eexists; split; [reflexivity|]. apply zlen_upd. }
    rewrite <- HL1. destruct (neqb alpha (nopp n1)); [apply (HS (fun v xj yr => nsub yr (nmul v xj)))|].
    destruct (neqb alpha n1); [apply (HS (fun v xj yr => nadd yr (nmul v xj)))|apply (HS (fun v xj yr => nadd yr (nmul (nmul alpha v) xj)))].
  Qed.

  Lemma csc_Axpy_sym_triu_safe A x y (alpha beta : K) : wf A -> cm A = cn A -> cn A <= zlen x -> cm A <= zlen y ->
    exists y', csc_Axpy_sym_triu A x y alpha beta = Some y' /\ zlen y' = zlen y.
  Proof.
    intros W Hsq Hx Hy. unfold csc_Axpy_sym_triu.
    destruct (beta_part_len y beta (cm A)) as (y1 & -> & HL1); [pose proof (wf_m _ W); lia|].
    rewrite zget_nnz by auto. destruct ((nnz A =? 0) || neqb alpha n0); [eauto|].
    assert (HS : forall f, exists y', for_cols (cn A) (cp A) (fun j i y => match zget (ci A) i with Some r => match zget (cx A) i with Some v =>
        match zget x j with Some xj => match zget y r with Some yr => match zset y r (f v xj yr) with Some y => if r =? j then Some y else
          match zget x r with Some xr => match zget y j with Some yj => zset y j (f v xr yj) | None => None end | None => None end
        | None => None end | None => None end | None => None end
        | None => None end | None => None end) y1 = Some y' /\ zlen y' = zlen y1).
    { intros f. apply for_cols_len; auto. intros j k y2 Hj Hjk Hk HL2. pose proof (wf_rows _ W k Hk).
      rewrite zget_rowi by auto. rewrite (zget_val A n0) by auto. rewrite (zget_Some n0 x) by lia.
      rewrite (zget_Some n0 y2) by lia. rewrite zset_Some by lia. rewrite <- HL2.
      destruct (rowi A k =? j); [eexists; split; [reflexivity|]; apply zlen_upd|].
      rewrite (zget_Some n0 x) by lia. rewrite (zget_Some n0 (upd _ _ _)) by (rewrite zlen_upd; lia).
      rewrite zset_Some by (rewrite zlen_upd; lia). eexists; split; [reflexivity|]. rewrite !zlen_upd. auto. }
    rewrite <- HL1. destruct (neqb alpha (nopp n1)); [apply (HS (fun v xj yr => nsub yr (nmul v xj)))|].
    destruct (neqb alpha n1); [apply (HS (fun v xj yr => nadd yr (nmul v xj)))|apply (HS (fun v xj yr => nadd yr (nmul (nmul alpha v) xj)))].
  Qed.

  Lemma vec_set_scalar_len (v : list K) (c : K) n : 0 <= n <= zlen v ->
    exists v', vec_set_scalar v c n = Some v' /\ zlen v' = zlen v.
  Proof. intros H. destruct (vec_set_scalar_spec n0 v c n H) as (v' & -> & HL & _); eauto. Qed.

  Lemma csc_col_norm_inf_safe A E : wf A -> cn A <= zlen E ->
    exists E', csc_col_norm_inf A E = Some E' /\ zlen E' = zlen E.
  Proof.
    intros W HE. unfold csc_col_norm_inf.
    destruct (vec_set_scalar_len E n0 (cn A)) as (E1 & -> & HL1); [pose proof (wf_n _ W); lia|]. rewrite <- HL1.
    apply for_cols_len; auto. intros j k E2 Hj Hjk Hk HL2.
    rewrite (zget_val A n0) by auto. rewrite (zget_Some n0 E2) by lia. rewrite zset_Some by lia.
    eexists; split; [reflexivity|]. rewrite zlen_upd. auto.
  Qed.

  Lemma csc_row_norm_inf_safe A E : wf A -> cm A <= zlen E ->
    exists E', csc_row_norm_inf A E = Some E' /\ zlen E' = zlen E.
  Proof.
    intros W HE. unfold csc_row_norm_inf.
    destruct (vec_set_scalar_len E n0 (cm A)) as (E1 & -> & HL1); [pose proof (wf_m _ W); lia|]. rewrite <- HL1.
    apply for_cols_len; auto. intros j k E2 Hj Hjk Hk HL2. pose proof (wf_rows _ W k Hk). rewrite zget_rowi by auto.
    rewrite (zget_val A n0) by auto. rewrite (zget_Some n0 E2) by lia. rewrite zset_Some by lia.
    eexists; split; [reflexivity|]. rewrite zlen_upd. auto.
  Qed.

  Lemma csc_row_norm_inf_sym_triu_safe A E : wf A -> cm A = cn A -> cm A <= zlen E ->
    exists E', csc_row_norm_inf_sym_triu A E = Some E' /\ zlen E' = zlen E.
  Proof.
    intros W Hsq HE. unfold csc_row_norm_inf_sym_triu.
    destruct (vec_set_scalar_len E n0 (cm A)) as (E1 & -> & HL1); [pose proof (wf_m _ W); lia|]. rewrite <- HL1.
    apply for_cols_len; auto. intros j k E2 Hj Hjk Hk HL2. pose proof (wf_rows _ W k Hk). rewrite zget_rowi by auto.
    rewrite (zget_val A n0) by auto. cbv zeta. rewrite (zget_Some n0 E2) by lia. rewrite zset_Some by lia.
    destruct (rowi A k =? j).
    - eexists; split; [reflexivity|]. rewrite zlen_upd. auto.
    - rewrite (zget_Some n0 (upd _ _ _)) by (rewrite zlen_upd; lia).
      rewrite zset_Some by (rewrite zlen_upd; lia). eexists; split; [reflexivity|]. rewrite !zlen_upd. auto.
  Qed.

  Lemma csc_AtDA_safe A D d : wf A -> cm A <= zlen D -> cn A <= zlen d ->
    exists d', csc_AtDA_extract_diag A D d = Some d' /\ zlen d' = zlen d.
  Proof.
    intros W HD Hd. unfold csc_AtDA_extract_diag.
    loop_rule (fun (_ : Z) (x : list K) => zlen x = zlen d) HR.
    destruct HR as (d' & -> & L); [apply (wf_n _ W)|auto| |eauto].
    intros j x Hj Lx. rewrite zset_Some by lia. rewrite !zget_colp by (auto; lia).
    loop_rule (fun (_ : Z) (x : list K) => zlen x = zlen d) HR2.
    destruct HR2 as (d' & -> & L); [apply (wf_mono _ W); auto|rewrite zlen_upd; auto| |eauto].
    intros k y Hk Ly. assert (Hk' : 0 <= k < nnz A) by (eapply slot_range; eauto).
    rewrite (zget_val A n0) by auto. rewrite zget_rowi by auto. pose proof (wf_rows _ W k Hk').
    rewrite (zget_Some n0 D) by lia. rewrite (zget_Some n0 y) by lia. rewrite zset_Some by lia.
    eexists; split; [reflexivity|]. rewrite zlen_upd. auto.
  Qed.
End Safe.

(** ** Norms in dense terms *)
Lemma is_maxabs_zero (S S' : R -> Prop) e : (forall v, S v -> S' v) -> (forall v, S' v -> S v \/ v = 0%R) ->
  is_maxabs S e -> is_maxabs S' e.
Proof.
  intros H1 H2 (P1 & P2 & P3). split; auto. split.
  - intros v Hv. destruct (H2 v Hv) as [Hs| ->]; auto. rewrite Rabs_R0. auto.
  - destruct P3 as [->|(v & Hv & ->)]; auto. right. exists v. auto.
Qed.

Lemma entry_dec {K : NumOps} (A : csc K) i j :
  (exists k, colp A j <= k < colp A (j + 1) /\ rowi A k = i) \/
  (forall k, colp A j <= k < colp A (j + 1) -> rowi A k <> i).
Proof.
  assert (Hgen : forall l, (exists k, In k l /\ rowi A k = i) \/ (forall k, In k l -> rowi A k <> i)).
  { induction l as [|a l IH]; [right; intros k []|]. destruct (Z.eq_dec (rowi A a) i) as [Ea|Na].
    - left. exists a. simpl; auto.
    - destruct IH as [(k & Hk & Hr)|IH]; [left; exists k; simpl; auto|]. right. intros k [<-|Hk]; auto. }
  destruct (Hgen (zseq (colp A j) (colp A (j + 1)))) as [(k & Hk & Hr)|H].
  - left. exists k. apply In_zseq in Hk. auto.
  - right. intros k Hk. apply H. apply In_zseq. auto.
Qed.

Lemma col_norm_dense (A : csc Rops) j e : wf A -> nodup_rows A -> 0 <= j < cn A ->
  is_maxabs (fun v => exists k, colp A j <= k < colp A (j + 1) /\ v = valx A k) e ->
  is_maxabs (fun v => exists i, 0 <= i < cm A /\ v = dns A i j) e.
Proof.
  intros W HN Hj. apply is_maxabs_zero.
  - intros v (k & Hk & ->). exists (rowi A k). split; [apply (wf_rows _ W); eapply slot_range; eauto|].
    symmetry. apply dns_nodup; auto.
  - intros v (i & Hi & ->). destruct (entry_dec A i j) as [(k & Hk & Hr)|H].
    + left. exists k. split; auto. rewrite <- Hr. apply dns_nodup; auto.
    + right. apply dns_no_entry; auto.
Qed.

Lemma row_norm_dense (A : csc Rops) i e : wf A -> nodup_rows A -> 0 <= i < cm A ->
  is_maxabs (fun v => exists k, 0 <= k < nnz A /\ rowi A k = i /\ v = valx A k) e ->
  is_maxabs (fun v => exists j, 0 <= j < cn A /\ v = dns A i j) e.
Proof.
  intros W HN Hi. apply is_maxabs_zero.
  - intros v (k & Hk & Hr & ->). destruct (slot_col A k W Hk) as (j & Hj & Hjk). exists j. split; auto.
    rewrite <- Hr. symmetry. apply dns_nodup; auto.
  - intros v (j & Hj & ->). destruct (entry_dec A i j) as [(k & Hk & Hr)|H].
    + left. exists k. split; [eapply slot_range; eauto|]. split; auto. rewrite <- Hr. apply dns_nodup; auto.
    + right. apply dns_no_entry; auto.
Qed.

Lemma sym_norm_dense (A : csc Rops) i e : wf A -> triu A -> nodup_rows A -> 0 <= i < cm A ->
  is_maxabs (fun v => exists j k, 0 <= j < cn A /\ colp A j <= k < colp A (j + 1) /\
                                      (j = i \/ rowi A k = i) /\ v = valx A k) e ->
  is_maxabs (fun v => exists j, 0 <= j < cn A /\ v = sdns A i j) e.
Proof.
  intros W [Hsq HT] HN Hi. apply is_maxabs_zero.
  - intros v (j & k & Hj & Hk & Hor & ->). pose proof (HT j k Hj Hk) as Hle.
    pose proof (wf_rows _ W k ltac:(eapply slot_range; eauto)) as Hr.
    destruct Hor as [-> | Hri].
    + exists (rowi A k). split; [lia|]. unfold sdns. destruct (i <=? rowi A k) eqn:E.
      * assert (E2 : rowi A k = i) by lia. symmetry. rewrite <- (dns_nodup A i k) by auto. rewrite E2. auto.
      * symmetry. apply dns_nodup; auto.
    + exists j. split; auto. unfold sdns. replace (i <=? j) with true by lia. rewrite <- Hri. symmetry. apply dns_nodup; auto.
  - intros v (j & Hj & ->). unfold sdns. destruct (i <=? j) eqn:E.
    + destruct (entry_dec A i j) as [(k & Hk & Hr)|H].
      * left. exists j, k. repeat (split; [solve [auto]|]). rewrite <- Hr. apply dns_nodup; auto.
      * right. apply dns_no_entry; auto.
    + destruct (entry_dec A j i) as [(k & Hk & Hr)|H].
      * left. exists i, k. split; [lia|]. split; auto. split; auto. rewrite <- Hr. apply dns_nodup; auto. lia.
      * right. apply dns_no_entry; auto.
Qed.

(** ** Scalings in dense terms *)
Lemma lmult_dense (A A' : csc Rops) (D : list R) : wf A -> cm A <= zlen D -> @csc_lmult_diag Rops A D = Some A' ->
  wf A' /\ cm A' = cm A /\ cn A' = cn A /\ cp A' = cp A /\ ci A' = ci A /\
  forall i j, 0 <= i < cm A -> 0 <= j < cn A -> dns A' i j = (rnth D i * dns A i j)%R.
Proof.
  intros W HL E. destruct (csc_lmult_diag_spec A (0%R : Rops) D W HL) as (A2 & E2 & Hm & Hn & Hp & Hi & _ & _ & Lx & HV & _).
  rewrite E in E2. inversion E2; subst A2. clear E2.
  split; [apply (wf_same_pattern A); auto; rewrite Lx; lia|]. repeat (split; [solve [auto]|]).
  intros i j Hi' Hj. unfold dns, colp, rowi. rewrite Hp, Hi. fold (colp A j) (colp A (j + 1)). rewrite <- zsum_scal.
  apply zsum_ext. intros k Hk. fold (rowi A k). assert (Hk' : 0 <= k < nnz A) by (eapply slot_range; eauto).
  destruct (rowi A k =? i) eqn:Er; [|lra]. assert (Hri : rowi A k = i) by lia. rewrite Rmult_comm.
  etransitivity; [exact (HV k Hk')|]. rewrite Hri. reflexivity.
Qed.

Lemma rmult_dense (A A' : csc Rops) (D : list R) : wf A -> cn A <= zlen D -> @csc_rmult_diag Rops A D = Some A' ->
  wf A' /\ cm A' = cm A /\ cn A' = cn A /\ cp A' = cp A /\ ci A' = ci A /\
  forall i j, 0 <= i < cm A -> 0 <= j < cn A -> dns A' i j = (dns A i j * rnth D j)%R.
Proof.
  intros W HL E. destruct (csc_rmult_diag_spec A (0%R : Rops) D W HL) as (A2 & E2 & Hm & Hn & Hp & Hi & _ & _ & Lx & HV & _).
  rewrite E in E2. inversion E2; subst A2. clear E2.
  split; [apply (wf_same_pattern A); auto; rewrite Lx; lia|]. repeat (split; [solve [auto]|]).
  intros i j Hi' Hj. unfold dns, colp, rowi. rewrite Hp, Hi. fold (colp A j) (colp A (j + 1)). rewrite <- zsum_scal_r.
  apply zsum_ext. intros k Hk. fold (rowi A k).
  destruct (rowi A k =? i) eqn:Er; [|lra]. exact (HV j k Hj Hk).
Qed.

Lemma scale_dense (A A' : csc Rops) (c : R) : wf A -> @csc_scale Rops A c = Some A' ->
  wf A' /\ cm A' = cm A /\ cn A' = cn A /\ cp A' = cp A /\ ci A' = ci A /\
  forall i j, 0 <= i < cm A -> 0 <= j < cn A -> dns A' i j = (c * dns A i j)%R.
Proof.
  intros W E. destruct (csc_scale_spec A (0%R : Rops) c W) as (A2 & E2 & Hm & Hn & Hp & Hi & _ & _ & Lx & HV & _).
  rewrite E in E2. inversion E2; subst A2. clear E2.
  split; [apply (wf_same_pattern A); auto; rewrite Lx; lia|]. repeat (split; [solve [auto]|]).
  intros i j Hi' Hj. unfold dns, colp, rowi. rewrite Hp, Hi. fold (colp A j) (colp A (j + 1)). rewrite <- zsum_scal.
  apply zsum_ext. intros k Hk. fold (rowi A k). assert (Hk' : 0 <= k < nnz A) by (eapply slot_range; eauto).
  destruct (rowi A k =? i) eqn:Er; [|lra]. rewrite Rmult_comm. exact (HV k Hk').
Qed.

(** ** Packaged forms *)
Lemma triplet_to_csc_dense (T C : csc Rops) jz jx TtoC M : wf_triplet T ->
  (forall t, TtoC = Some t -> cnz T <= zlen t) ->
  triplet_to_csc jz jx T TtoC = Some (C, M) ->
  forall i j, 0 <= j < cn T ->
    dns C i j = zsum 0 (cnz T) (fun k => if (znth 0 (ci T) k =? i) && (znth 0 (cp T) k =? j) then valx T k else 0%R).
Proof.
  intros W HT E i j Hj. destruct (triplet_to_csc_spec T jz jx TtoC W HT) as (C' & M' & E' & _ & _ & _ & _ & _ & _ & _ & _ & _ & HE & _).
  rewrite E in E'. inversion E'; subst C' M'. rewrite dns_entries, HE by auto. unfold trip_col. rewrite lsum_map, <- lsum_filter.
  unfold zsum. apply lsum_ext. intros k _. cbn [fst snd]. unfold valx. rewrite n0_R.
  destruct (znth 0 (cp T) k =? j), (znth 0 (ci T) k =? i); reflexivity.
Qed.

Lemma triplet_to_csr_out_of_bounds : exists T : csc F64, wf_triplet T /\ forall jz jx, triplet_to_csr jz jx T None = None.
Proof.
  exists (mkcsc 2 0 [] [] [] 0 0). split.
  - constructor; try (cbn; lia); intros k Hk; cbn in Hk; lia.
  - intros jz jx. reflexivity.
Qed.

Lemma symperm_total (K : NumOps) (A : csc K) jz jx pinv AtoC : wf A -> cm A = cn A -> perm_ok pinv (cn A) ->
  (forall t, AtoC = Some t -> nnz A <= zlen t) ->
  exists C M, csc_symperm jz jx A pinv AtoC = Some (C, M) /\ wf C /\ triu C /\ (AtoC = None <-> M = None).
Proof.
  intros W Hs HP HM. destruct (csc_symperm_spec A jz jx pinv AtoC W Hs HP HM) as (C & M & E & WC & TC & _ & _ & _ & _ & _ & _ & _ & _ & _ & H).
  exists C, M. repeat (split; [solve [auto]|]). destruct AtoC, M; try contradiction; split; auto; discriminate.
Qed.

Lemma filter_all {X} (b : X -> bool) l : (forall x, In x l -> b x = true) -> filter b l = l.
Proof. induction l as [|a l IH]; simpl; intros H; auto. rewrite H by auto. f_equal. auto. Qed.

Lemma symperm_full (A C : csc Rops) jz jx pinv AtoC M : wf A -> triu A -> perm_ok pinv (cn A) ->
  (forall t, AtoC = Some t -> nnz A <= zlen t) ->
  csc_symperm jz jx A pinv AtoC = Some (C, M) ->
  wf C /\ triu C /\ cn C = cn A /\
  (forall i j, 0 <= i < cn A -> 0 <= j < cn A -> sdns C (pm pinv i) (pm pinv j) = sdns A i j) /\
  (forall t, M = Some t -> zlen t >= nnz A /\
     (forall k, 0 <= k < nnz A -> 0 <= znth 0 t k < nnz C /\ valx C (znth 0 t k) = valx A k) /\
     (forall k k', 0 <= k < nnz A -> 0 <= k' < nnz A -> znth 0 t k = znth 0 t k' -> k = k')) /\
  nnz C = nnz A.
Proof.
  intros W T HP HM E.
  destruct (csc_symperm_spec A jz jx pinv AtoC W (proj1 T) HP HM) as (C' & M' & E' & WC & TC & _ & Hn & Hnn & _ & _ & _ & _ & _ & _ & H).
  pose proof (csc_symperm_dense A jz jx pinv AtoC C M W T HP HM E) as HD.
  rewrite E in E'. inversion E'; subst C' M'. clear E'.
  assert (Hall : sp_items A = pairs A).
  { unfold sp_items. apply filter_all. intros [j k] HI. apply In_pairs in HI as [Hj Hk]. cbn [fst snd].
    destruct T as [_ T]. specialize (T j k Hj Hk). lia. }
  assert (HnC : nnz C = nnz A) by (rewrite Hnn, Hall; apply zlen_pairs; auto).
  repeat (split; [solve [auto]|]). split; [|auto].
  intros t ->. destruct AtoC as [t0|]; [|contradiction]. destruct H as (Lt & H1 & H2).
  split; [specialize (HM t0 eq_refl); lia|]. rewrite Hall in *. split.
  - intros k Hk. destruct (slot_col A k W Hk) as (j & Hj & Hjk).
    assert (HI : In (j, k) (pairs A)) by (apply In_pairs; auto).
    destruct (H1 j k HI) as (P1 & _ & P3). split.
    + eapply slot_range; [eauto| |exact P1]. rewrite Hn. destruct HP as (_ & HP & _). unfold sp_col. cbn [fst snd].
      pose proof (HP j ltac:(lia)). pose proof (HP (rowi A k)). pose proof (wf_rows _ W k Hk). destruct T as [T _]. lia.
    + unfold valx. rewrite n0_R in P3. exact P3.
  - intros k k' Hk Hk' Et. destruct (slot_col A k W Hk) as (j & Hj & Hjk). destruct (slot_col A k' W Hk') as (j' & Hj' & Hjk').
    assert (HX : (j, k) = (j', k')) by (apply H2; auto; apply In_pairs; auto). inversion HX; auto.
Qed.

Lemma nodup_diag {K : NumOps} (A : csc K) m n : 0 <= m -> 0 <= n -> cn A = n ->
  (forall j, 0 <= j <= n -> colp A j = Z.min j (Z.min m n)) -> nodup_rows A.
Proof. intros Hm Hn En Hp j k k' Hj Hk Hk' _. rewrite !Hp in * by lia. lia. Qed.

Lemma diag_scalar_dense jz (jx : R) m n (s : R) : 0 <= m -> 0 <= n ->
  exists A : csc Rops, @OSQPCscMatrix_diag_scalar Rops jz jx m n s = Some A /\ wf A /\ nodup_rows A /\ cm A = m /\ cn A = n /\ cnzmax A = nnz A /\ cnz A = -1 /\
    forall i j, 0 <= i < m -> 0 <= j < n -> dns A i j = if i =? j then s else 0%R.
Proof.
  intros Hm Hn. destruct (@diag_scalar_spec Rops jz jx m n s Hm Hn) as (A & E & Em & En & Ez & Enz & Lp & Li & Lx & Hp & Hk).
  exists A. split; auto. split; [apply (diag_pattern_wf A m n); auto; apply Hk|].
  split; [apply (nodup_diag A m n); auto|]. repeat (split; [solve [auto]|]).
  split; [unfold nnz; rewrite En, Hp; lia|]. split; auto.
  apply (diag_pattern_dense A m n (fun _ => s)); auto. intros k Hk'. destruct (Hk k Hk') as [H1 H2]. split; auto.
  unfold valx. rewrite n0_R in H2. exact H2.
Qed.

Lemma identity_dense jz (jx : R) n : 0 <= n ->
  exists A : csc Rops, @OSQPCscMatrix_identity Rops jz jx n = Some A /\ wf A /\ nodup_rows A /\ cm A = n /\ cn A = n /\
    forall i j, 0 <= i < n -> 0 <= j < n -> dns A i j = if i =? j then 1%R else 0%R.
Proof.
  intros Hn. destruct (diag_scalar_dense jz jx n n (n1 : Rops) Hn Hn) as (A & E & W & N & Em & En & _ & _ & H).
  exists A. repeat (split; [solve [auto]|]). rewrite n1_R in H. auto.
Qed.

Lemma diag_vec_dense jz (jx : R) m n (v : list R) : 0 <= m -> 0 <= n -> Z.min m n <= zlen v ->
  exists A : csc Rops, @OSQPCscMatrix_diag_vec Rops jz jx m n v = Some A /\ wf A /\ nodup_rows A /\ cm A = m /\ cn A = n /\ cnzmax A = nnz A /\ cnz A = -1 /\
    forall i j, 0 <= i < m -> 0 <= j < n -> dns A i j = if i =? j then rnth v i else 0%R.
Proof.
  intros Hm Hn HL. destruct (@diag_vec_spec Rops jz jx m n v Hm Hn HL) as (A & E & Em & En & Ez & Enz & Lp & Li & Lx & Hp & Hk).
  exists A. split; auto. split; [apply (diag_pattern_wf A m n); auto; apply Hk|].
  split; [apply (nodup_diag A m n); auto|]. repeat (split; [solve [auto]|]).
  split; [unfold nnz; rewrite En, Hp; lia|]. split; auto.
  apply (diag_pattern_dense A m n (rnth v)); auto. intros k Hk'. destruct (Hk k Hk') as [H1 H2]. split; auto.
  unfold valx, rnth. rewrite n0_R in H2. exact H2.
Qed.

Lemma zeros_dense m n : 0 <= m -> 0 <= n ->
  let A := @OSQPCscMatrix_zeros Rops m n in
  wf A /\ cm A = m /\ cn A = n /\ nnz A = 0 /\ forall i j, 0 <= i < m -> 0 <= j < n -> dns A i j = 0%R.
Proof.
  intros Hm Hn A. destruct (@zeros_wf Rops m n Hm Hn) as [W Hz]. fold A in W, Hz. repeat (split; [solve [auto]|]).
  intros i j Hi Hj. apply dns_no_entry. intros k Hk.
  assert (0 <= k < nnz A) by (eapply slot_range; eauto). lia.
Qed.

Lemma triu_to_csc_full (M : csc Rops) jz jx : wf M -> triu M ->
  exists C, triu_to_csc jz jx M = Some (Some C) /\ wf C /\ cm C = cn M /\ cn C = cn M /\
    forall i j, 0 <= i < cn M -> 0 <= j < cn M -> dns C i j = sdns M i j.
Proof.
  intros W T. destruct (triu_to_csc_spec M jz jx W (proj1 T)) as (C & E & WC & H1 & H2 & _).
  exists C. repeat (split; [solve [auto]|]). eapply triu_to_csc_dense; eauto.
Qed.

Lemma vstack_full (A B : csc Rops) jz jx : wf A -> wf B -> cn A = cn B -> nnz A <= cnzmax A -> nnz B <= cnzmax B ->
  exists C, vstack jz jx A B = Some (Some C) /\ wf C /\ cm C = cm A + cm B /\ cn C = cn A /\
    forall i j, 0 <= i < cm A + cm B -> 0 <= j < cn A ->
      dns C i j = if i <? cm A then dns A i j else dns B (i - cm A) j.
Proof.
  intros WA WB Hn HA HB. destruct (vstack_spec A B jz jx WA WB Hn HA HB) as (C & E & WC & H1 & H2 & _).
  exists C. repeat (split; [solve [auto]|]). eapply vstack_dense; eauto.
Qed.

Lemma wrong_shape (K : NumOps) (A B : csc K) jz jx :
  (cm A <> cn A -> triu_to_csc jz jx A = Some None) /\ (cn A <> cn B -> vstack jz jx A B = Some None).
Proof.
  split; intros H; [unfold triu_to_csc|unfold vstack].
  - replace (cm A =? cn A) with false by lia. reflexivity.
  - replace (cn A =? cn B) with false by lia. reflexivity.
Qed.

Lemma extract_diag_full (A : csc Rops) (d : list R) : wf A -> cn A <= zlen d -> nodup_rows A ->
  exists d' : list R, @csc_extract_diag Rops A d = Some d' /\ zlen d' = zlen d /\
    forall i, 0 <= i < cn A -> rnth d' i = dns A i i.
Proof.
  intros W HL HN. destruct (csc_extract_diag_spec A d W HL) as (d' & E & L & _).
  exists d'. repeat (split; [solve [auto]|]). eapply extract_diag_dense; eauto.
Qed.
