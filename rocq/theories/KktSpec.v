(** The matrix the linear system solver is meant to factor. *)
From Coq Require Import ZArith Reals.
Open Scope Z_scope.

(** Entry (i, j) of  [ P + sigma I,  A' ; A,  -diag(d) ]  for a symmetric n x n matrix P and an
    m x n matrix A, given entry by entry. *)
Definition kktS (n : Z) (P A : Z -> Z -> R) (sigma : R) (d : Z -> R) (i j : Z) : R :=
  if i <? n then
    if j <? n then (P i j + (if (i =? j)%Z then sigma else 0))%R else A (j - n) i
  else
    if j <? n then A (i - n) j else if i =? j then (- d (i - n)%Z)%R else 0%R.
