(** Matrix constructors of the public API. *)
From Coq Require Import ZArith List Bool.
From Verif Require Import Num Arr Csc.
Import ListNotations.
Open Scope Z_scope.
Local Open Scope opt_scope.

Section CscApi.
  Context {K : NumOps}.

  (** src/osqp_api.c:56-102 with a successful allocator; [jz], [jx] are the contents of malloc'ed
      cells.  The flag [owned] (who frees the arrays) is not represented. *)
  Definition OSQPCscMatrix_diag_scalar (jz : Z) (jx : K) (m n : Z) (scalar : K) : option (csc K) :=
    let min_elem := if m <? n then m else n in
    let p := zrep (n + 1) 0 in
    p <- (if m <? n then for_ 0 n (fun i p => if i <? m then zset p i i else zset p i m) p
          else for_ 0 n (fun i p => zset p i i) p) ;;
    r <- for_ 0 min_elem (fun i (s : list Z * list K) =>
           let '(mi, mx) := s in
           mi <- zset mi i i ;; mx <- zset mx i scalar ;; Some (mi, mx))
         (zrep min_elem jz, zrep min_elem jx) ;;
    p <- zset p n min_elem ;;
    Some (mkcsc m n p (fst r) (snd r) min_elem (-1)).

  (** src/osqp_api.c:52-54 *)
  Definition OSQPCscMatrix_identity (jz : Z) (jx : K) (m : Z) : option (csc K) :=
    OSQPCscMatrix_diag_scalar jz jx m m n1.

  (** src/osqp_api.c:104-120 *)
  Definition OSQPCscMatrix_diag_vec (jz : Z) (jx : K) (m n : Z) (vec : list K) : option (csc K) :=
    let min_elem := if m <? n then m else n in
    mat <- OSQPCscMatrix_diag_scalar jz jx m n n1 ;;
    x <- for_ 0 min_elem (fun i x => v <- zget vec i ;; zset x i v) (cx mat) ;;
    Some (set_x mat x).

  (** src/osqp_api.c:122-144; the NULL arrays are empty *)
  Definition OSQPCscMatrix_zeros (m n : Z) : csc K :=
    mkcsc m n (zrep (n + 1) 0) [] [] 0 (-1).

  (** src/osqp_api.c:37-50, 160-177: the arrays are the caller's *)
  Definition OSQPCscMatrix_new (m n nzmax : Z) (x : list K) (i p : list Z) : csc K :=
    mkcsc m n p i x nzmax (-1).
End CscApi.
