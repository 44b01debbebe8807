(** What a CSC matrix means: well-formedness and the dense matrix it represents. *)
From Coq Require Import ZArith Reals List Bool.
From Verif Require Import Num Arr ArrFacts RSum Csc.
Open Scope Z_scope.

Section S.
  Context {K : NumOps}.
  (** j-th column pointer, row index of stored entry k *)
  Definition colp (A : csc K) (j : Z) : Z := znth 0 (cp A) j.
  Definition rowi (A : csc K) (k : Z) : Z := znth 0 (ci A) k.
  Definition nnz (A : csc K) : Z := colp A (cn A).

  (** A well-formed CSC matrix.  Row indices may be unsorted and repeated. *)
  Record wf (A : csc K) : Prop := {
    wf_m    : 0 <= cm A;
    wf_n    : 0 <= cn A;
    wf_plen : cn A + 1 <= zlen (cp A);
    wf_p0   : colp A 0 = 0;
    wf_mono : forall j, 0 <= j < cn A -> colp A j <= colp A (j + 1);
    wf_ilen : nnz A <= zlen (ci A);
    wf_xlen : nnz A <= zlen (cx A);
    wf_rows : forall k, 0 <= k < nnz A -> 0 <= rowi A k < cm A
  }.

  (** Square with entries on or above the diagonal only. *)
  Definition triu (A : csc K) : Prop :=
    cm A = cn A /\
    forall j k, 0 <= j < cn A -> colp A j <= k < colp A (j + 1) -> rowi A k <= j.

  (** No row index occurs twice in a column. *)
  Definition nodup_rows (A : csc K) : Prop :=
    forall j k k', 0 <= j < cn A -> colp A j <= k < colp A (j + 1) -> colp A j <= k' < colp A (j + 1) ->
      rowi A k = rowi A k' -> k = k'.

  (** A well-formed triplet list: [cp] holds the columns, [ci] the rows, [cnz] the number of triplets. *)
  Record wf_triplet (T : csc K) : Prop := {
    wt_m : 0 <= cm T; wt_n : 0 <= cn T; wt_nz : 0 <= cnz T;
    wt_plen : cnz T <= zlen (cp T); wt_ilen : cnz T <= zlen (ci T); wt_xlen : cnz T <= zlen (cx T);
    wt_cols : forall k, 0 <= k < cnz T -> 0 <= znth 0 (cp T) k < cn T;
    wt_rows : forall k, 0 <= k < cnz T -> 0 <= znth 0 (ci T) k < cm T
  }.
End S.

(** Value of stored entry k, vector component i (over the reals). *)
Definition valx (A : csc Rops) (k : Z) : R := znth 0%R (cx A) k.
Definition rnth (v : list R) (i : Z) : R := znth 0%R v i.

(** Entry (i, j) of the dense matrix: the sum of the stored entries of column j in row i. *)
Definition dns (A : csc Rops) (i j : Z) : R :=
  zsum (colp A j) (colp A (j + 1)) (fun k => if rowi A k =? i then valx A k else 0%R).

(** Entry (i, j) of the symmetric matrix of which A stores the upper triangle. *)
Definition sdns (A : csc Rops) (i j : Z) : R := if i <=? j then dns A i j else dns A j i.

(** e is the largest absolute value in the set S (0 if S is empty). *)
Definition is_maxabs (S : R -> Prop) (e : R) : Prop :=
  (0 <= e)%R /\ (forall v, S v -> Rabs v <= e)%R /\ (e = 0%R \/ exists v, S v /\ e = Rabs v).

(** A row is selected when its flag is nonzero; [rank] is its position among the selected rows. *)
Definition selb (rows : list Z) (i : Z) : bool := negb (znth 0 rows i =? 0).
Definition rank (rows : list Z) (i : Z) : Z := zlen (filter (selb rows) (zseq 0 i)).

(** A permutation given by an array; NULL is the identity. *)
Definition pm (pinv : option (list Z)) (i : Z) : Z := match pinv with None => i | Some p => znth 0 p i end.
(** [pinv] is NULL or a permutation of 0..n-1. *)
Definition perm_ok (pinv : option (list Z)) (n : Z) : Prop :=
  (forall p, pinv = Some p -> n <= zlen p) /\
  (forall i, 0 <= i < n -> 0 <= pm pinv i < n) /\
  (forall i j, 0 <= i < n -> 0 <= j < n -> pm pinv i = pm pinv j -> i = j).
