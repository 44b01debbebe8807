(** Sparse matrices in compressed-column form and their kernels. *)
From Coq Require Import ZArith List Bool.
From Verif Require Import Num Arr.
Import ListNotations.
Open Scope Z_scope.
Local Open Scope opt_scope.

(** include/public/osqp_api_types.h: OSQPCscMatrix.
    A NULL value array [x] is the empty list: a matrix without values can only be used when it has
    no stored entries, and then the two behave alike; with entries, both lead to undefined behaviour. *)
Record csc (K : NumOps) := mkcsc {
  cm : Z;           (* number of rows *)
  cn : Z;           (* number of columns *)
  cp : list Z;      (* column pointers (column indices for triplet form) *)
  ci : list Z;      (* row indices *)
  cx : list K;      (* values *)
  cnzmax : Z;
  cnz : Z           (* number of entries for triplet form, -1 for compressed-column form *)
}.
Arguments mkcsc {K}. Arguments cm {K}. Arguments cn {K}. Arguments cp {K}. Arguments ci {K}.
Arguments cx {K}. Arguments cnzmax {K}. Arguments cnz {K}.

Section Csc.
  Context {K : NumOps}.
  Local Open Scope num_scope.

  Definition set_x (A : csc K) (x : list K) : csc K :=
    mkcsc (cm A) (cn A) (cp A) (ci A) x (cnzmax A) (cnz A).

  (** *** algebra/_common/csc_math.c *)

  (** csc_math.c:7-10 *)
  Definition vec_set_scalar (v : list K) (val : K) (n : Z) : option (list K) :=
    for_ 0 n (fun i v => zset v i val) v.
  (** csc_math.c:12-15 *)
  Definition vec_mult_scalar (v : list K) (val : K) (n : Z) : option (list K) :=
    for_ 0 n (fun i v => vi <- zget v i ;; zset v i (vi * val)) v.
  (** csc_math.c:17-20 *)
  Definition vec_negate (v : list K) (n : Z) : option (list K) :=
    for_ 0 n (fun i v => vi <- zget v i ;; zset v i (- vi)) v.

  (** csc_math.c:27-45 *)
  Definition csc_update_values (M : csc K) (Mx_new : list K) (Mx_new_idx : option (list Z))
             (M_new_n : Z) : option (csc K) :=
    match Mx_new_idx with
    | Some idx =>
        x <- for_ 0 M_new_n (fun i x =>
               k <- zget idx i ;; v <- zget Mx_new i ;; zset x k v) (cx M) ;;
        Some (set_x M x)
    | None =>
        x <- for_ 0 M_new_n (fun i x => v <- zget Mx_new i ;; zset x i v) (cx M) ;;
        Some (set_x M x)
    end.

  (** csc_math.c:50-56 *)
  Definition csc_scale (A : csc K) (sc : K) : option (csc K) :=
    nnzA <- zget (cp A) (cn A) ;;
    x <- for_ 0 nnzA (fun i x => xi <- zget x i ;; zset x i (xi * sc)) (cx A) ;;
    Some (set_x A x).

  (** The nested loop  for j in [0,n): for ptr in [Ap[j], Ap[j+1]): body(j, ptr). *)
  Definition for_cols {S} (n : Z) (Ap : list Z) (body : Z -> Z -> S -> option S) (s : S) : option S :=
    for_ 0 n (fun j s =>
      lo <- zget Ap j ;; hi <- zget Ap (j + 1)%Z ;;
      for_ lo hi (fun ptr s => body j ptr s) s) s.

  (** csc_math.c:60-74 *)
  Definition csc_lmult_diag (A : csc K) (d : list K) : option (csc K) :=
    x <- for_cols (cn A) (cp A) (fun j i x =>
           xi <- zget x i ;; r <- zget (ci A) i ;; dr <- zget d r ;;
           zset x i (xi * dr)) (cx A) ;;
    Some (set_x A x).

  (** csc_math.c:78-91 *)
  Definition csc_rmult_diag (A : csc K) (d : list K) : option (csc K) :=
    x <- for_cols (cn A) (cp A) (fun j i x =>
           xi <- zget x i ;; dj <- zget d j ;;
           zset x i (xi * dj)) (cx A) ;;
    Some (set_x A x).

  (** csc_math.c:94-111 *)
  Definition csc_AtDA_extract_diag (A : csc K) (D d : list K) : option (list K) :=
    for_ 0 (cn A) (fun j d =>
      d <- zset d j n0 ;;
      lo <- zget (cp A) j ;; hi <- zget (cp A) (j + 1)%Z ;;
      for_ lo hi (fun i d =>
        xi <- zget (cx A) i ;; r <- zget (ci A) i ;; Dr <- zget D r ;; dj <- zget d j ;;
        zset d j (dj + xi * xi * Dr)) d) d.

  (** The  beta*y  part shared by the products: csc_math.c:128-131, 183-186, 228-231 *)
  Definition beta_part (y : list K) (beta : K) (n : Z) : option (list K) :=
    if beta =? n0 then vec_set_scalar y n0 n
    else if beta =? n1 then Some y
    else if beta =? (- n1) then vec_negate y n
    else vec_mult_scalar y beta n.

  (** csc_math.c:114-166 *)
  Definition csc_Axpy_sym_triu (A : csc K) (x y : list K) (alpha beta : K) : option (list K) :=
    y <- beta_part y beta (cm A) ;;
    nnz <- zget (cp A) (cn A) ;;
    if (nnz =? 0)%Z || (alpha =? n0) then Some y
    else if alpha =? (- n1) then
      for_cols (cn A) (cp A) (fun j i y =>
        r <- zget (ci A) i ;; v <- zget (cx A) i ;; xj <- zget x j ;;
        yr <- zget y r ;; y <- zset y r (yr - v * xj) ;;
        if (r =? j)%Z then Some y
        else xr <- zget x r ;; yj <- zget y j ;; zset y j (yj - v * xr)) y
    else if alpha =? n1 then
      for_cols (cn A) (cp A) (fun j i y =>
        r <- zget (ci A) i ;; v <- zget (cx A) i ;; xj <- zget x j ;;
        yr <- zget y r ;; y <- zset y r (yr + v * xj) ;;
        if (r =? j)%Z then Some y
        else xr <- zget x r ;; yj <- zget y j ;; zset y j (yj + v * xr)) y
    else
      for_cols (cn A) (cp A) (fun j i y =>
        r <- zget (ci A) i ;; v <- zget (cx A) i ;; xj <- zget x j ;;
        yr <- zget y r ;; y <- zset y r (yr + alpha * v * xj) ;;
        if (r =? j)%Z then Some y
        else xr <- zget x r ;; yj <- zget y j ;; zset y j (yj + alpha * v * xr)) y.

  (** csc_math.c:169-212 *)
  Definition csc_Axpy (A : csc K) (x y : list K) (alpha beta : K) : option (list K) :=
    y <- beta_part y beta (cm A) ;;
    nnz <- zget (cp A) (cn A) ;;
    if (nnz =? 0)%Z || (alpha =? n0) then Some y
    else if alpha =? (- n1) then
      for_cols (cn A) (cp A) (fun j i y =>
        r <- zget (ci A) i ;; v <- zget (cx A) i ;; xj <- zget x j ;;
        yr <- zget y r ;; zset y r (yr - v * xj)) y
    else if alpha =? n1 then
      for_cols (cn A) (cp A) (fun j i y =>
        r <- zget (ci A) i ;; v <- zget (cx A) i ;; xj <- zget x j ;;
        yr <- zget y r ;; zset y r (yr + v * xj)) y
    else
      for_cols (cn A) (cp A) (fun j i y =>
        r <- zget (ci A) i ;; v <- zget (cx A) i ;; xj <- zget x j ;;
        yr <- zget y r ;; zset y r (yr + alpha * v * xj)) y.

  (** csc_math.c:216-255 *)
  Definition csc_Atxpy (A : csc K) (x y : list K) (alpha beta : K) : option (list K) :=
    y <- beta_part y beta (cn A) ;;
    nnz <- zget (cp A) (cn A) ;;
    if (nnz =? 0)%Z || (alpha =? n0) then Some y
    else if alpha =? (- n1) then
      for_cols (cn A) (cp A) (fun j k y =>
        r <- zget (ci A) k ;; v <- zget (cx A) k ;; xr <- zget x r ;;
        yj <- zget y j ;; zset y j (yj - v * xr)) y
    else if alpha =? n1 then
      for_cols (cn A) (cp A) (fun j k y =>
        r <- zget (ci A) k ;; v <- zget (cx A) k ;; xr <- zget x r ;;
        yj <- zget y j ;; zset y j (yj + v * xr)) y
    else
      for_cols (cn A) (cp A) (fun j k y =>
        r <- zget (ci A) k ;; v <- zget (cx A) k ;; xr <- zget x r ;;
        yj <- zget y j ;; zset y j (yj + alpha * v * xr)) y.

  (** csc_math.c:292-308 *)
  Definition csc_col_norm_inf (M : csc K) (E : list K) : option (list K) :=
    E <- vec_set_scalar E n0 (cn M) ;;
    for_cols (cn M) (cp M) (fun j ptr E =>
      v <- zget (cx M) ptr ;; Ej <- zget E j ;; zset E j (c_max (c_absval v) Ej)) E.

  (** csc_math.c:312-331 *)
  Definition csc_row_norm_inf (M : csc K) (E : list K) : option (list K) :=
    E <- vec_set_scalar E n0 (cm M) ;;
    for_cols (cn M) (cp M) (fun j ptr E =>
      i <- zget (ci M) ptr ;; v <- zget (cx M) ptr ;; Ei <- zget E i ;;
      zset E i (c_max (c_absval v) Ei)) E.

  (** csc_math.c:335-363 *)
  Definition csc_row_norm_inf_sym_triu (M : csc K) (E : list K) : option (list K) :=
    E <- vec_set_scalar E n0 (cm M) ;;
    for_cols (cn M) (cp M) (fun j ptr E =>
      i <- zget (ci M) ptr ;; v <- zget (cx M) ptr ;;
      let abs_x := c_absval v in
      Ej <- zget E j ;; E <- zset E j (c_max abs_x Ej) ;;
      if (i =? j)%Z then Some E
      else Ei <- zget E i ;; zset E i (c_max abs_x Ei)) E.

  (** *** algebra/_common/csc_utils.c *)

  (** csc_utils.c:6-31 (early return 0 = [Some false]); the number of rows is not compared,
      as in the code. *)
  Definition csc_is_eq (A B : csc K) (tol : K) : option bool :=
    if negb (cn A =? cn B)%Z then Some false else
    for_ 0 (cn A) (fun j (acc : bool) =>
      if negb acc then Some false else
      a1 <- zget (cp A) (j + 1)%Z ;; b1 <- zget (cp B) (j + 1)%Z ;;
      if negb (a1 =? b1)%Z then Some false else
      a0 <- zget (cp A) j ;;
      for_ a0 a1 (fun i (acc : bool) =>
        if negb acc then Some false else
        ai <- zget (ci A) i ;; bi <- zget (ci B) i ;;
        if negb (ai =? bi)%Z then Some false else
        ax <- zget (cx A) i ;; bx <- zget (cx B) i ;;
        if c_absval (ax - bx) >? tol then Some false else Some true) true) true.

  (** csc_utils.c:68-81: returns (p, c, nz) *)
  Definition csc_cumsum (p c : list Z) (n : Z) : option (list Z * list Z * Z) :=
    r <- for_ 0 n (fun i (s : list Z * list Z * Z) =>
           let '(p, c, nz) := s in
           p <- zset p i nz ;;
           ci <- zget c i ;;
           let nz' := (nz + ci)%Z in
           pi <- zget p i ;;
           c <- zset c i pi ;;
           Some (p, c, nz')) (p, c, 0%Z) ;;
    let '(p, c, nz) := r in
    p <- zset p n nz ;;
    Some (p, c, nz).

  (** csc_utils.c:103-123 with a successful allocator and values = 1: uninitialised arrays hold
      arbitrary contents [jz], [jx]. *)
  Definition csc_spalloc (jz : Z) (jx : K) (m n nzmax : Z) (triplet : bool) : csc K :=
    let nzmax := Z.max nzmax 0 in
    mkcsc m n (zrep (if triplet then nzmax else n + 1)%Z jz) (zrep nzmax jz) (zrep nzmax jx)
          nzmax (if triplet then 0 else -1)%Z.

  (** csc_utils.c:134-203 *)
  Definition csc_submatrix_byrows (jz : Z) (jx : K) (A : csc K) (rows : list Z) : option (csc K) :=
    (* lines 158-161: row renumbering *)
    r <- for_ 0 (cm A) (fun j (s : list Z * Z) =>
           let '(rridx, Rm) := s in
           f <- zget rows j ;;
           if (f =? 0)%Z then Some (rridx, Rm)
           else rridx <- zset rridx j Rm ;; Some (rridx, (Rm + 1)%Z))
         (zrep (cm A) jz, 0%Z) ;;
    let '(rridx, Rm) := r in
    (* lines 164-166: count *)
    nnz <- zget (cp A) (cn A) ;;
    nzR <- for_ 0 nnz (fun j nzR =>
             i <- zget (ci A) j ;; f <- zget rows i ;;
             Some (if (f =? 0)%Z then nzR else (nzR + 1)%Z)) 0%Z ;;
    let R := csc_spalloc jz jx Rm (cn A) nzR false in
    if (Rm =? 0)%Z then
      (* lines 177-179 *)
      p <- for_ 0 (cn A + 1)%Z (fun i p => zset p i 0%Z) (cp R) ;;
      Some (mkcsc (cm R) (cn R) p (ci R) (cx R) (cnzmax R) (cnz R))
    else
      (* lines 181-198 *)
      r <- for_ 0 (cn A) (fun j (s : list Z * list Z * list K * Z) =>
             let '(Rp, Ri, Rx, nzR) := s in
             Rp <- zset Rp j nzR ;;
             lo <- zget (cp A) j ;; hi <- zget (cp A) (j + 1)%Z ;;
             r <- for_ lo hi (fun ptr (s : list Z * list K * Z) =>
                    let '(Ri, Rx, nzR) := s in
                    i <- zget (ci A) ptr ;; f <- zget rows i ;;
                    if (f =? 0)%Z then Some (Ri, Rx, nzR) else
                    ri <- zget rridx i ;; v <- zget (cx A) ptr ;;
                    Ri <- zset Ri nzR ri ;; Rx <- zset Rx nzR v ;;
                    Some (Ri, Rx, (nzR + 1)%Z)) (Ri, Rx, nzR) ;;
             let '(Ri, Rx, nzR) := r in
             Some (Rp, Ri, Rx, nzR)) (cp R, ci R, cx R, 0%Z) ;;
      let '(Rp, Ri, Rx, nzR) := r in
      Rp <- zset Rp (cn A) nzR ;;
      Some (mkcsc (cm R) (cn R) Rp Ri Rx (cnzmax R) (cnz R)).

  (** csc_utils.c:205-245.  [TtoC] is the optional output map. *)
  Definition triplet_to_csc (jz : Z) (jx : K) (T : csc K) (TtoC : option (list Z))
    : option (csc K * option (list Z)) :=
    let C := csc_spalloc jz jx (cm T) (cn T) (cnz T) false in
    w <- for_ 0 (cnz T) (fun k w =>
           j <- zget (cp T) k ;; wj <- zget w j ;; zset w j (wj + 1)%Z) (zrep (cn T) 0%Z) ;;
    r <- csc_cumsum (cp C) w (cn T) ;;
    let '(Cp, w, _) := r in
    r <- for_ 0 (cnz T) (fun k (s : list Z * list Z * list K * option (list Z)) =>
           let '(w, Ci, Cx, TtoC) := s in
           j <- zget (cp T) k ;; p <- zget w j ;; w <- zset w j (p + 1)%Z ;;
           i <- zget (ci T) k ;; Ci <- zset Ci p i ;;
           v <- zget (cx T) k ;; Cx <- zset Cx p v ;;
           match TtoC with
           | None => Some (w, Ci, Cx, None)
           | Some t => t <- zset t k p ;; Some (w, Ci, Cx, Some t)
           end) (w, ci C, cx C, TtoC) ;;
    let '(_, Ci, Cx, TtoC) := r in
    Some (mkcsc (cm C) (cn C) Cp Ci Cx (cnzmax C) (cnz C), TtoC).

  (** csc_utils.c:247-286.  As in the code, the pointer array of the result has n+1 cells although
      m+1 are used. *)
  Definition triplet_to_csr (jz : Z) (jx : K) (T : csc K) (TtoC : option (list Z))
    : option (csc K * option (list Z)) :=
    let C := csc_spalloc jz jx (cm T) (cn T) (cnz T) false in
    w <- for_ 0 (cnz T) (fun k w =>
           i <- zget (ci T) k ;; wi <- zget w i ;; zset w i (wi + 1)%Z) (zrep (cm T) 0%Z) ;;
    r <- csc_cumsum (cp C) w (cm T) ;;
    let '(Cp, w, _) := r in
    r <- for_ 0 (cnz T) (fun k (s : list Z * list Z * list K * option (list Z)) =>
           let '(w, Cj, Cx, TtoC) := s in
           i <- zget (ci T) k ;; p <- zget w i ;; w <- zset w i (p + 1)%Z ;;
           j <- zget (cp T) k ;; Cj <- zset Cj p j ;;
           v <- zget (cx T) k ;; Cx <- zset Cx p v ;;
           match TtoC with
           | None => Some (w, Cj, Cx, None)
           | Some t => t <- zset t k p ;; Some (w, Cj, Cx, Some t)
           end) (w, ci C, cx C, TtoC) ;;
    let '(_, Cj, Cx, TtoC) := r in
    Some (mkcsc (cm C) (cn C) Cp Cj Cx (cnzmax C) (cnz C), TtoC).

  (** csc_utils.c:290-308 *)
  Definition csc_extract_diag (A : csc K) (d : list K) : option (list K) :=
    d <- for_ 0 (cn A) (fun i d => zset d i n0) d ;;
    for_cols (cn A) (cp A) (fun i ptr d =>
      r <- zget (ci A) ptr ;;
      if (r =? i)%Z then v <- zget (cx A) ptr ;; zset d i v else Some d) d.

  (** csc_utils.c:312-324 with a successful allocator; [None] for p is the NULL pointer (identity). *)
  Definition csc_pinv (jz : Z) (p : option (list Z)) (n : Z) : option (option (list Z)) :=
    match p with
    | None => Some None
    | Some p =>
        r <- for_ 0 n (fun k pinv => pk <- zget p k ;; zset pinv pk k) (zrep n jz) ;;
        Some (Some r)
    end.

  (** pinv ? pinv[j] : j *)
  Definition perm_at (pinv : option (list Z)) (j : Z) : option Z :=
    match pinv with None => Some j | Some p => zget p j end.

  (** csc_utils.c:326-388 with values = 1 *)
  Definition csc_symperm (jz : Z) (jx : K) (A : csc K) (pinv : option (list Z))
             (AtoC : option (list Z)) : option (csc K * option (list Z)) :=
    let n := cn A in
    nnz <- zget (cp A) n ;;
    let C := csc_spalloc jz jx n n nnz false in
    w <- for_ 0 n (fun j w =>
           j2 <- perm_at pinv j ;;
           lo <- zget (cp A) j ;; hi <- zget (cp A) (j + 1)%Z ;;
           for_ lo hi (fun p w =>
             i <- zget (ci A) p ;;
             if (j <? i)%Z then Some w else
             i2 <- perm_at pinv i ;;
             c <- zget w (Z.max i2 j2) ;; zset w (Z.max i2 j2) (c + 1)%Z) w) (zrep n 0%Z) ;;
    r <- csc_cumsum (cp C) w n ;;
    let '(Cp, w, _) := r in
    r <- for_ 0 n (fun j (s : list Z * list Z * list K * option (list Z)) =>
           j2 <- perm_at pinv j ;;
           lo <- zget (cp A) j ;; hi <- zget (cp A) (j + 1)%Z ;;
           for_ lo hi (fun p s =>
             let '(w, Ci, Cx, AtoC) := s in
             i <- zget (ci A) p ;;
             if (j <? i)%Z then Some s else
             i2 <- perm_at pinv i ;;
             q <- zget w (Z.max i2 j2) ;; w <- zset w (Z.max i2 j2) (q + 1)%Z ;;
             Ci <- zset Ci q (Z.min i2 j2) ;;
             v <- zget (cx A) p ;; Cx <- zset Cx q v ;;
             match AtoC with
             | None => Some (w, Ci, Cx, None)
             | Some t => t <- zset t p q ;; Some (w, Ci, Cx, Some t)
             end) s) (w, ci C, cx C, AtoC) ;;
    let '(_, Ci, Cx, AtoC) := r in
    Some (mkcsc (cm C) (cn C) Cp Ci Cx (cnzmax C) (cnz C), AtoC).

  (** csc_utils.c:390-400 with a successful allocator; lines 48-56 are the copies *)
  Definition csc_copy (jz : Z) (jx : K) (A : csc K) : option (csc K) :=
    nnz <- zget (cp A) (cn A) ;;
    let B := csc_spalloc jz jx (cm A) (cn A) nnz false in
    p <- for_ 0 (cn A + 1)%Z (fun i b => a <- zget (cp A) i ;; zset b i a) (cp B) ;;
    i <- for_ 0 nnz (fun i b => a <- zget (ci A) i ;; zset b i a) (ci B) ;;
    x <- for_ 0 nnz (fun i b => a <- zget (cx A) i ;; zset b i a) (cx B) ;;
    Some (mkcsc (cm B) (cn B) p i x (cnzmax B) (cnz B)).

  (** csc_utils.c:532-578 with a successful allocator.  [Some None] is the error return. *)
  Definition triu_to_csc (jz : Z) (jx : K) (M : csc K) : option (option (csc K)) :=
    if negb (cm M =? cn M)%Z then Some None else
    let n := cn M in
    nnz <- zget (cp M) n ;;
    let T := csc_spalloc jz jx n n (2 * nnz)%Z true in
    r <- for_cols n (cp M) (fun j ptr (s : list Z * list Z * list K * Z) =>
           let '(Ti, Tp, Tx, z) := s in
           i <- zget (ci M) ptr ;; v <- zget (cx M) ptr ;;
           Ti <- zset Ti z i ;; Tp <- zset Tp z j ;; Tx <- zset Tx z v ;;
           let z := (z + 1)%Z in
           if (i <? j)%Z then
             Ti <- zset Ti z j ;; Tp <- zset Tp z i ;; Tx <- zset Tx z v ;;
             Some (Ti, Tp, Tx, (z + 1)%Z)
           else Some (Ti, Tp, Tx, z)) (ci T, cp T, cx T, 0%Z) ;;
    let '(Ti, Tp, Tx, z) := r in
    C <- triplet_to_csc jz jx (mkcsc n n Tp Ti Tx (cnzmax T) z) None ;;
    let C := fst C in
    Some (Some (mkcsc (cm C) (cn C) (cp C) (ci C) (cx C) z (cnz C))).

  (** csc_utils.c:580-629 with a successful allocator *)
  Definition vstack (jz : Z) (jx : K) (A B : csc K) : option (option (csc K)) :=
    if negb (cn A =? cn B)%Z then Some None else
    let n := cn A in
    let T := csc_spalloc jz jx (cm A + cm B)%Z n (cnzmax A + cnzmax B)%Z true in
    r <- for_cols n (cp A) (fun j ptr (s : list Z * list Z * list K * Z) =>
           let '(Ti, Tp, Tx, z) := s in
           i <- zget (ci A) ptr ;; v <- zget (cx A) ptr ;;
           Ti <- zset Ti z i ;; Tp <- zset Tp z j ;; Tx <- zset Tx z v ;;
           Some (Ti, Tp, Tx, (z + 1)%Z)) (ci T, cp T, cx T, 0%Z) ;;
    r <- for_cols n (cp B) (fun j ptr (s : list Z * list Z * list K * Z) =>
           let '(Ti, Tp, Tx, z) := s in
           i0 <- zget (ci B) ptr ;; v <- zget (cx B) ptr ;;
           let i := (i0 + cm A)%Z in
           Ti <- zset Ti z i ;; Tp <- zset Tp z j ;; Tx <- zset Tx z v ;;
           Some (Ti, Tp, Tx, (z + 1)%Z)) r ;;
    let '(Ti, Tp, Tx, z) := r in
    C <- triplet_to_csc jz jx (mkcsc (cm A + cm B)%Z n Tp Ti Tx (cnzmax T) z) None ;;
    let C := fst C in
    Some (Some (mkcsc (cm C) (cn C) (cp C) (ci C) (cx C) z (cnz C))).

End Csc.
