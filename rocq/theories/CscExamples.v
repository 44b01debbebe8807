(** Concrete matrices that meet the hypotheses of the theorems, and a checker for well-formedness. *)
From Coq Require Import ZArith Reals List Bool Lia.
From Verif Require Import Num Arr ArrFacts RSum Csc CscSpec CscFacts CscFacts2 Scatter CscFacts3 CscFacts4.
Import ListNotations.
Open Scope Z_scope.

Section Check.
  Context {K : NumOps}.
  Definition forallz (lo hi : Z) (f : Z -> bool) : bool := forallb f (zseq lo hi).
  Lemma forallz_ok lo hi f : forallz lo hi f = true -> forall i, lo <= i < hi -> f i = true.
  Proof. unfold forallz. rewrite forallb_forall. intros H i Hi. apply H. apply In_zseq; auto. Qed.

  Definition wfb (A : csc K) : bool :=
    (0 <=? cm A) && (0 <=? cn A) && (cn A + 1 <=? zlen (cp A)) && (colp A 0 =? 0) &&
    forallz 0 (cn A) (fun j => colp A j <=? colp A (j + 1)) && (nnz A <=? zlen (ci A)) && (nnz A <=? zlen (cx A)) &&
    forallz 0 (nnz A) (fun k => (0 <=? rowi A k) && (rowi A k <? cm A)).
  Lemma wfb_ok A : wfb A = true -> wf A.
  Proof.
    unfold wfb. rewrite !andb_true_iff. intros (((((((H1 & H2) & H3) & H4) & H5) & H6) & H7) & H8).
    constructor; try lia.
    - intros j Hj. pose proof (forallz_ok _ _ _ H5 j Hj). cbv beta in *. lia.
    - intros k Hk. pose proof (forallz_ok _ _ _ H8 k Hk). cbv beta in *. lia.
  Qed.
  Definition triub (A : csc K) : bool :=
    (cm A =? cn A) && forallz 0 (cn A) (fun j => forallz (colp A j) (colp A (j + 1)) (fun k => rowi A k <=? j)).
  Lemma triub_ok A : triub A = true -> triu A.
  Proof.
    unfold triub. rewrite andb_true_iff. intros [H1 H2]. split; [lia|]. intros j k Hj Hk.
    pose proof (forallz_ok _ _ _ (forallz_ok _ _ _ H2 j Hj) k Hk). cbv beta in *. lia.
  Qed.
  Definition nodupb (A : csc K) : bool :=
    forallz 0 (cn A) (fun j => forallz (colp A j) (colp A (j + 1)) (fun k =>
      forallz (colp A j) (colp A (j + 1)) (fun k' => negb (rowi A k =? rowi A k') || (k =? k')))).
  Lemma nodupb_ok A : nodupb A = true -> nodup_rows A.
  Proof.
    unfold nodupb. intros H j k k' Hj Hk Hk' E.
    pose proof (forallz_ok _ _ _ (forallz_ok _ _ _ (forallz_ok _ _ _ H j Hj) k Hk) k' Hk'). cbv beta in *. lia.
  Qed.

  (** [ [2, 1, .], [1, ., 5], [., 5, 3] ] as an upper triangle: the (1,1) entry is missing. *)
  Definition exP : csc K := mkcsc 3 3 [0; 1; 2; 4] [0; 0; 1; 2] [nofZ 2; nofZ 1; nofZ 5; nofZ 3] 4 (-1).
  (** a 2 x 3 matrix with an empty column and a repeated entry *)
  Definition exA : csc K := mkcsc 2 3 [0; 2; 2; 5] [1; 0; 1; 0; 1] [nofZ 4; nofZ 7; nofZ 1; nofZ (-2); nofZ 6] 5 (-1).
  (** the same without repeated entries *)
  Definition exB : csc K := mkcsc 2 3 [0; 2; 2; 4] [1; 0; 1; 0] [nofZ 4; nofZ 7; nofZ 1; nofZ (-2)] 4 (-1).
  (** a triplet list with a repeated position *)
  Definition exT : csc K := mkcsc 2 3 [2; 0; 2; 0] [1; 0; 1; 1] [nofZ 4; nofZ 7; nofZ 1; nofZ (-2)] 4 4.
End Check.

Lemma exP_wf (K : NumOps) : wf (exP : csc K). Proof. apply wfb_ok. reflexivity. Qed.
Lemma exP_triu (K : NumOps) : triu (exP : csc K). Proof. apply triub_ok. reflexivity. Qed.
Lemma exA_wf (K : NumOps) : wf (exA : csc K). Proof. apply wfb_ok. reflexivity. Qed.
Lemma exB_wf (K : NumOps) : wf (exB : csc K). Proof. apply wfb_ok. reflexivity. Qed.
Lemma exP_nodup (K : NumOps) : nodup_rows (exP : csc K). Proof. apply nodupb_ok. reflexivity. Qed.
Lemma exB_nodup (K : NumOps) : nodup_rows (exB : csc K). Proof. apply nodupb_ok. reflexivity. Qed.
Lemma exT_wf (K : NumOps) : wf_triplet (exT : csc K).
Proof.
  constructor; try (vm_compute; discriminate);
  intros k Hk; change (cnz (exT : csc K)) with 4 in Hk; assert (H : k = 0 \/ k = 1 \/ k = 2 \/ k = 3) by lia;
  destruct H as [->|[->|[->| ->]]]; split; vm_compute; (discriminate || reflexivity).
Qed.
