(** Properties C04-C10, C56, C57: sparse-matrix kernels.
    Specifications used: CscSpec.v ([wf], [triu], [dns], [sdns], [rnth], [is_maxabs], [rank], [perm_ok], ...). *)
From Coq Require Import ZArith Reals List Bool Lia Lra.
From Verif Require Import Num Arr ArrFacts RSum Csc CscApi CscSpec CscFacts CscFacts2 Scatter CscFacts3 CscFacts4 CscFacts5 CscExamples.
Import ListNotations.
Open Scope Z_scope.

(** C04: y := alpha*A*x + beta*y *)
Theorem C04_matvec : forall (A : csc Rops) (x y : list R) (alpha beta : R),
  wf A -> cn A <= zlen x -> zlen y = cm A ->
  exists y' : list R, @csc_Axpy Rops A x y alpha beta = Some y' /\ zlen y' = cm A /\
    forall i, 0 <= i < cm A ->
      rnth y' i = (alpha * zsum 0 (cn A) (fun j => dns A i j * rnth x j) + beta * rnth y i)%R.
Proof. exact csc_Axpy_correct. Qed.
Print Assumptions C04_matvec.
Example C04_matvec_ex : wf (exA : csc Rops) /\ cn (exA : csc Rops) <= zlen [1; 2; 3]%R /\ zlen [1; 1]%R = cm (exA : csc Rops).
Proof. split; [apply exA_wf|]. unfold exA, exB, exP, exT, zlen; cbn [cm cn cp ci cx cnz length]; lia. Qed.

(** C04: y := alpha*A'*x + beta*y *)
Theorem C04_transpose_matvec : forall (A : csc Rops) (x y : list R) (alpha beta : R),
  wf A -> cm A <= zlen x -> zlen y = cn A ->
  exists y' : list R, @csc_Atxpy Rops A x y alpha beta = Some y' /\ zlen y' = cn A /\
    forall j, 0 <= j < cn A ->
      rnth y' j = (alpha * zsum 0 (cm A) (fun i => dns A i j * rnth x i) + beta * rnth y j)%R.
Proof. exact csc_Atxpy_correct. Qed.
Print Assumptions C04_transpose_matvec.
Example C04_transpose_matvec_ex : wf (exA : csc Rops) /\ cm (exA : csc Rops) <= zlen [1; 2]%R /\ zlen [1; 1; 0]%R = cn (exA : csc Rops).
Proof. split; [apply exA_wf|]. unfold exA, exB, exP, exT, zlen; cbn [cm cn cp ci cx cnz length]; lia. Qed.

(** C04: the same for a symmetric matrix given by its upper triangle *)
Theorem C04_symmetric_matvec : forall (P : csc Rops) (x y : list R) (alpha beta : R),
  wf P -> triu P -> cn P <= zlen x -> zlen y = cm P ->
  exists y' : list R, @csc_Axpy_sym_triu Rops P x y alpha beta = Some y' /\ zlen y' = cm P /\
    forall i, 0 <= i < cm P ->
      rnth y' i = (alpha * zsum 0 (cn P) (fun j => sdns P i j * rnth x j) + beta * rnth y i)%R.
Proof. exact csc_Axpy_sym_triu_correct. Qed.
Print Assumptions C04_symmetric_matvec.
Example C04_symmetric_matvec_ex : wf (exP : csc Rops) /\ triu (exP : csc Rops) /\ cn (exP : csc Rops) <= zlen [1; 2; 3]%R.
Proof. split; [apply exP_wf|]. split; [apply exP_triu|]. unfold exA, exB, exP, exT, zlen; cbn [cm cn cp ci cx cnz length]; lia. Qed.

(** C05: no kernel leaves its arrays, whatever the values (NaN included) are. *)
Theorem C05_products_in_bounds : forall (K : NumOps) (A : csc K) (x y : list K) (alpha beta : K), wf A ->
  (cn A <= zlen x -> cm A <= zlen y -> exists y', csc_Axpy A x y alpha beta = Some y' /\ zlen y' = zlen y) /\
  (cm A <= zlen x -> cn A <= zlen y -> exists y', csc_Atxpy A x y alpha beta = Some y' /\ zlen y' = zlen y) /\
  (cm A = cn A -> cn A <= zlen x -> cm A <= zlen y -> exists y', csc_Axpy_sym_triu A x y alpha beta = Some y' /\ zlen y' = zlen y).
Proof.
  exact (fun K A x y alpha beta W => conj (csc_Axpy_safe A x y alpha beta W)
    (conj (csc_Atxpy_safe A x y alpha beta W) (csc_Axpy_sym_triu_safe A x y alpha beta W))).
Qed.
Print Assumptions C05_products_in_bounds.
Theorem C05_norms_in_bounds : forall (K : NumOps) (A : csc K) (E : list K), wf A ->
  (cn A <= zlen E -> exists E', csc_col_norm_inf A E = Some E' /\ zlen E' = zlen E) /\
  (cm A <= zlen E -> exists E', csc_row_norm_inf A E = Some E' /\ zlen E' = zlen E) /\
  (cm A = cn A -> cm A <= zlen E -> exists E', csc_row_norm_inf_sym_triu A E = Some E' /\ zlen E' = zlen E).
Proof.
  exact (fun K A E W => conj (csc_col_norm_inf_safe A E W)
    (conj (csc_row_norm_inf_safe A E W) (csc_row_norm_inf_sym_triu_safe A E W))).
Qed.
Print Assumptions C05_norms_in_bounds.
Theorem C05_gram_diag_in_bounds : forall (K : NumOps) (A : csc K) (D d : list K),
  wf A -> cm A <= zlen D -> cn A <= zlen d ->
  exists d', csc_AtDA_extract_diag A D d = Some d' /\ zlen d' = zlen d.
Proof. exact (fun K => csc_AtDA_safe (K := K)). Qed.
Print Assumptions C05_gram_diag_in_bounds.
(** Ill-formed matrices do lead to out-of-bounds accesses: the hypothesis is needed. *)
Example C05_needs_wf : forall K : NumOps,
  csc_Axpy (mkcsc 1 1 [0; 1] [5] [n1] 1 (-1) : csc F64) [@n1 F64] [@n1 F64] n1 n1 = None.
Proof. intros; vm_compute; reflexivity. Qed.

(** C06 *)
Theorem C06_column_norms : forall (A : csc Rops) (E : list R), wf A -> zlen E = cn A ->
  exists E' : list R, @csc_col_norm_inf Rops A E = Some E' /\ zlen E' = cn A /\
    (forall j, 0 <= j < cn A ->
      is_maxabs (fun v => exists k, colp A j <= k < colp A (j + 1) /\ v = valx A k) (rnth E' j)) /\
    (nodup_rows A -> forall j, 0 <= j < cn A ->
      is_maxabs (fun v => exists i, 0 <= i < cm A /\ v = dns A i j) (rnth E' j)).
Proof.
  exact (fun A E W HL => let '(ex_intro _ E' (conj H1 (conj H2 H3))) := csc_col_norm_inf_correct A E W HL in
    ex_intro _ E' (conj H1 (conj H2 (conj H3 (fun HN j Hj => col_norm_dense A j _ W HN Hj (H3 j Hj)))))).
Qed.
Print Assumptions C06_column_norms.
Theorem C06_row_norms : forall (A : csc Rops) (E : list R), wf A -> zlen E = cm A ->
  exists E' : list R, @csc_row_norm_inf Rops A E = Some E' /\ zlen E' = cm A /\
    (forall i, 0 <= i < cm A ->
      is_maxabs (fun v => exists k, 0 <= k < nnz A /\ rowi A k = i /\ v = valx A k) (rnth E' i)) /\
    (nodup_rows A -> forall i, 0 <= i < cm A ->
      is_maxabs (fun v => exists j, 0 <= j < cn A /\ v = dns A i j) (rnth E' i)).
Proof.
  exact (fun A E W HL => let '(ex_intro _ E' (conj H1 (conj H2 H3))) := csc_row_norm_inf_correct A E W HL in
    ex_intro _ E' (conj H1 (conj H2 (conj H3 (fun HN i Hi => row_norm_dense A i _ W HN Hi (H3 i Hi)))))).
Qed.
Print Assumptions C06_row_norms.
Theorem C06_symmetric_row_norms : forall (P : csc Rops) (E : list R), wf P -> triu P -> nodup_rows P -> zlen E = cm P ->
  exists E' : list R, @csc_row_norm_inf_sym_triu Rops P E = Some E' /\ zlen E' = cm P /\
    forall i, 0 <= i < cm P -> is_maxabs (fun v => exists j, 0 <= j < cn P /\ v = sdns P i j) (rnth E' i).
Proof.
  exact (fun P E W T HN HL => let '(ex_intro _ E' (conj H1 (conj H2 H3))) := csc_row_norm_inf_sym_triu_correct P E W (proj1 T) HL in
    ex_intro _ E' (conj H1 (conj H2 (fun i Hi => sym_norm_dense P i _ W T HN Hi (H3 i Hi))))).
Qed.
Print Assumptions C06_symmetric_row_norms.
Example C06_ex : wf (exP : csc Rops) /\ triu (exP : csc Rops) /\ nodup_rows (exP : csc Rops) /\ zlen [0; 0; 0]%R = cm (exP : csc Rops) /\
  wf (exB : csc Rops) /\ nodup_rows (exB : csc Rops).
Proof. exact (conj (exP_wf _) (conj (exP_triu _) (conj (exP_nodup _) (conj eq_refl (conj (exB_wf _) (exB_nodup _)))))). Qed.

(** C07 *)
Theorem C07_left_scaling : forall (A A' : csc Rops) (D : list R), wf A -> cm A <= zlen D ->
  @csc_lmult_diag Rops A D = Some A' ->
  wf A' /\ cm A' = cm A /\ cn A' = cn A /\ cp A' = cp A /\ ci A' = ci A /\
  forall i j, 0 <= i < cm A -> 0 <= j < cn A -> dns A' i j = (rnth D i * dns A i j)%R.
Proof. exact lmult_dense. Qed.
Print Assumptions C07_left_scaling.
Theorem C07_right_scaling : forall (A A' : csc Rops) (D : list R), wf A -> cn A <= zlen D ->
  @csc_rmult_diag Rops A D = Some A' ->
  wf A' /\ cm A' = cm A /\ cn A' = cn A /\ cp A' = cp A /\ ci A' = ci A /\
  forall i j, 0 <= i < cm A -> 0 <= j < cn A -> dns A' i j = (dns A i j * rnth D j)%R.
Proof. exact rmult_dense. Qed.
Print Assumptions C07_right_scaling.
Theorem C07_scalar_scaling : forall (A A' : csc Rops) (c : R), wf A -> @csc_scale Rops A c = Some A' ->
  wf A' /\ cm A' = cm A /\ cn A' = cn A /\ cp A' = cp A /\ ci A' = ci A /\
  forall i j, 0 <= i < cm A -> 0 <= j < cn A -> dns A' i j = (c * dns A i j)%R.
Proof. exact scale_dense. Qed.
Print Assumptions C07_scalar_scaling.
(** The kernels succeed on every well-formed matrix (any scalar type), entry by entry. *)
Theorem C07_scalings_total : forall (K : NumOps) (A : csc K) (D : list K) (c : K), wf A ->
  (cm A <= zlen D -> exists A', csc_lmult_diag A D = Some A' /\ cm A' = cm A /\ cn A' = cn A /\ cp A' = cp A /\ ci A' = ci A /\
      cnzmax A' = cnzmax A /\ cnz A' = cnz A /\ zlen (cx A') = zlen (cx A) /\
      (forall k, 0 <= k < nnz A -> znth n0 (cx A') k = nmul (znth n0 (cx A) k) (znth n0 D (rowi A k))) /\
      (forall k, ~ (0 <= k < nnz A) -> znth n0 (cx A') k = znth n0 (cx A) k)) /\
  (cn A <= zlen D -> exists A', csc_rmult_diag A D = Some A' /\ cm A' = cm A /\ cn A' = cn A /\ cp A' = cp A /\ ci A' = ci A /\
      cnzmax A' = cnzmax A /\ cnz A' = cnz A /\ zlen (cx A') = zlen (cx A) /\
      (forall j k, 0 <= j < cn A -> colp A j <= k < colp A (j + 1) ->
         znth n0 (cx A') k = nmul (znth n0 (cx A) k) (znth n0 D j)) /\
      (forall k, ~ (0 <= k < nnz A) -> znth n0 (cx A') k = znth n0 (cx A) k)) /\
  (exists A', csc_scale A c = Some A' /\ cm A' = cm A /\ cn A' = cn A /\ cp A' = cp A /\ ci A' = ci A /\
      cnzmax A' = cnzmax A /\ cnz A' = cnz A /\ zlen (cx A') = zlen (cx A) /\
      (forall k, 0 <= k < nnz A -> znth n0 (cx A') k = nmul (znth n0 (cx A) k) c) /\
      (forall k, ~ (0 <= k < nnz A) -> znth n0 (cx A') k = znth n0 (cx A) k)).
Proof.
  exact (fun K A D c W => conj (csc_lmult_diag_spec A n0 D W) (conj (csc_rmult_diag_spec A n0 D W) (csc_scale_spec A n0 c W))).
Qed.
Print Assumptions C07_scalings_total.
Example C07_ex : wf (exA : csc Rops) /\ exists A', @csc_lmult_diag Rops exA [2; 3]%R = Some A'.
Proof. split; [apply exA_wf|]. eexists. reflexivity. Qed.

(** C08: [rank rows i] is the number of selected rows before row i. *)
Theorem C08_row_selection : forall (K : NumOps) (A : csc K) jz jx rows, wf A -> cm A <= zlen rows ->
  exists R, csc_submatrix_byrows jz jx A rows = Some R /\ wf R /\ cm R = rank rows (cm A) /\ cn R = cn A /\
    forall j, 0 <= j < cn A ->
      col_entries R j = map (kent A rows) (filter (kept A rows) (zseq (colp A j) (colp A (j + 1)))).
Proof.
  exact (fun K A jz jx rows W HL => let '(ex_intro _ R (conj H1 (conj H2 (conj H3 (conj H4 (conj _ (conj _ (conj _ (conj _ (conj _ (conj _ H)))))))))))
    := csc_submatrix_byrows_spec A jz jx rows W HL in ex_intro _ R (conj H1 (conj H2 (conj H3 (conj H4 H))))).
Qed.
Print Assumptions C08_row_selection.
Theorem C08_row_selection_dense : forall (A R : csc Rops) jz jx rows, wf A -> cm A <= zlen rows ->
  csc_submatrix_byrows jz jx A rows = Some R ->
  forall i j, 0 <= i < cm A -> selb rows i = true -> 0 <= j < cn A -> dns R (rank rows i) j = dns A i j.
Proof. exact (fun A R jz jx rows W HL E => csc_submatrix_byrows_dense A jz jx rows R W HL E). Qed.
Print Assumptions C08_row_selection_dense.
Example C08_ex : wf (exA : csc F64) /\ selb [0; 1] 1 = true /\ rank [0; 1] 1 = 0 /\
  option_map (fun R => (cm R, cp R, ci R)) (csc_submatrix_byrows 9 n1 (exA : csc F64) [0; 1]) = Some (1, [0; 1; 1; 3], [0; 0; 0]).
Proof. split; [apply exA_wf|]. split; [reflexivity|]. split; [reflexivity|]. vm_compute; reflexivity. Qed.

(** C09 *)
Theorem C09_triplet_to_csc : forall (K : NumOps) (T : csc K) jz jx TtoC, wf_triplet T ->
  (forall t, TtoC = Some t -> cnz T <= zlen t) ->
  exists C M, triplet_to_csc jz jx T TtoC = Some (C, M) /\ wf C /\
    cm C = cm T /\ cn C = cn T /\ nnz C = cnz T /\ cnz C = -1 /\ cnzmax C = cnz T /\
    zlen (cp C) = cn T + 1 /\ zlen (ci C) = cnz T /\ zlen (cx C) = cnz T /\
    (forall j, 0 <= j < cn T -> col_entries C j = trip_col T j) /\
    match TtoC, M with
    | None, None => True
    | Some t0, Some t => zlen t = zlen t0 /\
        (forall k, 0 <= k < cnz T -> colp C (znth 0 (cp T) k) <= znth 0 t k < colp C (znth 0 (cp T) k + 1) /\
            rowi C (znth 0 t k) = znth 0 (ci T) k /\ znth n0 (cx C) (znth 0 t k) = znth n0 (cx T) k) /\
        (forall k k', 0 <= k < cnz T -> 0 <= k' < cnz T -> znth 0 t k = znth 0 t k' -> k = k')
    | _, _ => False
    end.
Proof. exact (fun K => triplet_to_csc_spec (K := K)). Qed.
Print Assumptions C09_triplet_to_csc.
Theorem C09_triplet_to_csc_dense : forall (T C : csc Rops) jz jx TtoC M, wf_triplet T ->
  (forall t, TtoC = Some t -> cnz T <= zlen t) ->
  triplet_to_csc jz jx T TtoC = Some (C, M) ->
  forall i j, 0 <= j < cn T ->
    dns C i j = zsum 0 (cnz T) (fun k => if (znth 0 (ci T) k =? i) && (znth 0 (cp T) k =? j) then valx T k else 0%R).
Proof. exact triplet_to_csc_dense. Qed.
Print Assumptions C09_triplet_to_csc_dense.
Example C09_ex : wf_triplet (exT : csc F64) /\ (forall t, Some [7; 7; 7; 7] = Some t -> cnz (exT : csc F64) <= zlen t).
Proof. split; [apply exT_wf|]. intros t H. inversion H. unfold exA, exB, exP, exT, zlen; cbn [cm cn cp ci cx cnz length]; lia. Qed.
(** The CSR variant writes outside its pointer array when there are more rows than columns. *)
Theorem C09_triplet_to_csr_refuted : exists T : csc F64, wf_triplet T /\ forall jz jx, triplet_to_csr jz jx T None = None.
Proof. exact triplet_to_csr_out_of_bounds. Qed.
Print Assumptions C09_triplet_to_csr_refuted.

(** C10 *)
Theorem C10_symmetric_permutation : forall (A C : csc Rops) jz jx pinv AtoC M, wf A -> triu A -> perm_ok pinv (cn A) ->
  (forall t, AtoC = Some t -> nnz A <= zlen t) ->
  csc_symperm jz jx A pinv AtoC = Some (C, M) ->
  wf C /\ triu C /\ cn C = cn A /\
  (forall i j, 0 <= i < cn A -> 0 <= j < cn A -> sdns C (pm pinv i) (pm pinv j) = sdns A i j) /\
  (forall t, M = Some t -> zlen t >= nnz A /\
     (forall k, 0 <= k < nnz A -> 0 <= znth 0 t k < nnz C /\ valx C (znth 0 t k) = valx A k) /\
     (forall k k', 0 <= k < nnz A -> 0 <= k' < nnz A -> znth 0 t k = znth 0 t k' -> k = k')) /\
  nnz C = nnz A.
Proof. exact symperm_full. Qed.
Print Assumptions C10_symmetric_permutation.
Theorem C10_symmetric_permutation_total : forall (K : NumOps) (A : csc K) jz jx pinv AtoC, wf A -> cm A = cn A -> perm_ok pinv (cn A) ->
  (forall t, AtoC = Some t -> nnz A <= zlen t) ->
  exists C M, csc_symperm jz jx A pinv AtoC = Some (C, M) /\ wf C /\ triu C /\ (AtoC = None <-> M = None).
Proof. exact symperm_total. Qed.
Print Assumptions C10_symmetric_permutation_total.
Theorem C10_inverse_permutation : forall jz (p : list Z) n, 0 <= n -> n <= zlen p ->
  (forall i, 0 <= i < n -> 0 <= znth 0 p i < n) ->
  (forall i j, 0 <= i < n -> 0 <= j < n -> znth 0 p i = znth 0 p j -> i = j) ->
  exists q, csc_pinv jz (Some p) n = Some (Some q) /\ zlen q = n /\
    (forall k, 0 <= k < n -> znth 0 q (znth 0 p k) = k) /\
    (forall i, 0 <= i < n -> 0 <= znth 0 q i < n /\ znth 0 p (znth 0 q i) = i) /\
    perm_ok (Some q) n.
Proof. exact csc_pinv_spec. Qed.
Print Assumptions C10_inverse_permutation.
Example C10_ex : wf (exP : csc Rops) /\ triu (exP : csc Rops) /\ perm_ok (Some [2; 0; 1]) (cn (exP : csc Rops)).
Proof.
  split; [apply exP_wf|]. split; [apply exP_triu|]. split; [|split].
  - intros p H. inversion H. apply Z.leb_le. reflexivity.
  - intros i Hi. cbn in Hi. assert (H : i = 0 \/ i = 1 \/ i = 2) by lia. destruct H as [->|[->| ->]]; unfold pm, znth, zget; simpl; lia.
  - intros i j Hi Hj. cbn in Hi, Hj. assert (H : i = 0 \/ i = 1 \/ i = 2) by lia. assert (H' : j = 0 \/ j = 1 \/ j = 2) by lia.
    destruct H as [->|[->| ->]], H' as [->|[->| ->]]; unfold pm, znth, zget; simpl; lia.
Qed.

(** C56 *)
Theorem C56_diag_scalar : forall jz (jx : R) m n (s : R), 0 <= m -> 0 <= n ->
  exists A : csc Rops, @OSQPCscMatrix_diag_scalar Rops jz jx m n s = Some A /\ wf A /\ nodup_rows A /\ cm A = m /\ cn A = n /\ cnzmax A = nnz A /\ cnz A = -1 /\
    forall i j, 0 <= i < m -> 0 <= j < n -> dns A i j = if i =? j then s else 0%R.
Proof. exact diag_scalar_dense. Qed.
Print Assumptions C56_diag_scalar.
Theorem C56_identity : forall jz (jx : R) n, 0 <= n ->
  exists A : csc Rops, @OSQPCscMatrix_identity Rops jz jx n = Some A /\ wf A /\ nodup_rows A /\ cm A = n /\ cn A = n /\
    forall i j, 0 <= i < n -> 0 <= j < n -> dns A i j = if i =? j then 1%R else 0%R.
Proof. exact identity_dense. Qed.
Print Assumptions C56_identity.
Theorem C56_diag_vec : forall jz (jx : R) m n (v : list R), 0 <= m -> 0 <= n -> Z.min m n <= zlen v ->
  exists A : csc Rops, @OSQPCscMatrix_diag_vec Rops jz jx m n v = Some A /\ wf A /\ nodup_rows A /\ cm A = m /\ cn A = n /\ cnzmax A = nnz A /\ cnz A = -1 /\
    forall i j, 0 <= i < m -> 0 <= j < n -> dns A i j = if i =? j then rnth v i else 0%R.
Proof. exact diag_vec_dense. Qed.
Print Assumptions C56_diag_vec.
Theorem C56_zeros : forall m n, 0 <= m -> 0 <= n ->
  let A := @OSQPCscMatrix_zeros Rops m n in
  wf A /\ cm A = m /\ cn A = n /\ nnz A = 0 /\ forall i j, 0 <= i < m -> 0 <= j < n -> dns A i j = 0%R.
Proof. exact zeros_dense. Qed.
Print Assumptions C56_zeros.
Example C56_ex : option_map (fun A => (cp A, ci A)) (OSQPCscMatrix_diag_vec 7 n0 2 4 [n1; OSQP_RHO F64]) = Some ([0; 1; 2; 2; 2], [0; 1]).
Proof. vm_compute; reflexivity. Qed.

(** C57 *)
Theorem C57_symmetric_expansion : forall (M : csc Rops) jz jx, wf M -> triu M ->
  exists C, triu_to_csc jz jx M = Some (Some C) /\ wf C /\ cm C = cn M /\ cn C = cn M /\
    forall i j, 0 <= i < cn M -> 0 <= j < cn M -> dns C i j = sdns M i j.
Proof. exact triu_to_csc_full. Qed.
Print Assumptions C57_symmetric_expansion.
Theorem C57_stacking : forall (A B : csc Rops) jz jx, wf A -> wf B -> cn A = cn B -> nnz A <= cnzmax A -> nnz B <= cnzmax B ->
  exists C, vstack jz jx A B = Some (Some C) /\ wf C /\ cm C = cm A + cm B /\ cn C = cn A /\
    forall i j, 0 <= i < cm A + cm B -> 0 <= j < cn A ->
      dns C i j = if i <? cm A then dns A i j else dns B (i - cm A) j.
Proof. exact vstack_full. Qed.
Print Assumptions C57_stacking.
(** Wrong shapes are refused with an error value. *)
Theorem C57_wrong_shape : forall (K : NumOps) (A B : csc K) jz jx,
  (cm A <> cn A -> triu_to_csc jz jx A = Some None) /\ (cn A <> cn B -> vstack jz jx A B = Some None).
Proof. exact wrong_shape. Qed.
Print Assumptions C57_wrong_shape.
Example C57_ex : wf (exP : csc Rops) /\ triu (exP : csc Rops) /\ wf (exA : csc Rops) /\ wf (exB : csc Rops) /\
  nnz (exA : csc Rops) <= cnzmax (exA : csc Rops) /\ nnz (exB : csc Rops) <= cnzmax (exB : csc Rops).
Proof. split; [apply exP_wf|]. split; [apply exP_triu|]. split; [apply exA_wf|]. split; [apply exB_wf|]. split; apply Z.leb_le; reflexivity. Qed.

(** Comparison and copy *)
Theorem C05_is_eq : forall (K : NumOps) (A B : csc K) tol, wf A -> wf B ->
  exists b, csc_is_eq A B tol = Some b /\
    (b = true <-> cn A = cn B /\ (forall j, 0 <= j <= cn A -> colp A j = colp B j) /\
                  (forall k, 0 <= k < nnz A -> entry_same A B tol k)).
Proof. exact (fun K => csc_is_eq_spec (K := K)). Qed.
Print Assumptions C05_is_eq.
Theorem C05_copy : forall (K : NumOps) (A : csc K) jz jx, wf A ->
  exists B, csc_copy jz jx A = Some B /\ cm B = cm A /\ cn B = cn A /\
    zlen (cp B) = cn A + 1 /\ zlen (ci B) = nnz A /\ zlen (cx B) = nnz A /\ cnzmax B = nnz A /\ cnz B = -1 /\
    (forall j, 0 <= j <= cn A -> colp B j = colp A j) /\
    (forall k, 0 <= k < nnz A -> rowi B k = rowi A k /\ znth n0 (cx B) k = znth n0 (cx A) k).
Proof. exact (fun K A jz jx => csc_copy_spec A jz jx n0). Qed.
Print Assumptions C05_copy.
Theorem C05_diagonal : forall (A : csc Rops) (d : list R), wf A -> cn A <= zlen d -> nodup_rows A ->
  exists d' : list R, @csc_extract_diag Rops A d = Some d' /\ zlen d' = zlen d /\
    forall i, 0 <= i < cn A -> rnth d' i = dns A i i.
Proof. exact extract_diag_full. Qed.
Print Assumptions C05_diagonal.
