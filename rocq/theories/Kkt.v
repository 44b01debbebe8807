(** Assembly and incremental update of the KKT matrix: algebra/_common/kkt.c. *)
From Coq Require Import ZArith List Bool.
From Verif Require Import Num Arr Csc.
Import ListNotations.
Open Scope Z_scope.
Local Open Scope opt_scope.

Section Kkt.
  Context {K : NumOps}.
  Local Open Scope num_scope.

  (** Stored entries of a matrix under construction: pointers, row indices, values. *)
  Definition kst : Type := list Z * list Z * list K.

  (** [csr] is true for format = 1 (CSR), false for format = 0 (CSC). *)
  Definition kofs (csr : bool) : Z := if csr then 0%Z else 1%Z.

  (** kkt.c:8-16: KKT->x, given KKT->p *)
  Definition kkt_shifts_param1 (p : list Z) (x : list K) (param1 : K) (n : Z) (csr : bool) : option (list K) :=
    for_ 0 n (fun i x =>
      pi <- zget p (i + kofs csr)%Z ;;
      v <- zget x (pi - kofs csr)%Z ;;
      zset x (pi - kofs csr)%Z (v + param1)) x.

  (** kkt.c:22-37; [param2 = None] is the NULL pointer *)
  Definition kkt_shifts_param2 (p : list Z) (x : list K) (param2 : option (list K)) (param2_sc : K)
             (startcol blockwidth : Z) (csr : bool) : option (list K) :=
    for_ 0 blockwidth (fun i x =>
      pi <- zget p (i + startcol + kofs csr)%Z ;;
      v <- zget x (pi - kofs csr)%Z ;;
      d <- match param2 with Some w => zget w i | None => Some param2_sc end ;;
      zset x (pi - kofs csr)%Z (v - d)) x.

  (** kkt.c:47-56 *)
  Definition kkt_colcount_diag (p : list Z) (initcol blockcols : Z) : option (list Z) :=
    for_ initcol (initcol + blockcols)%Z (fun j p => v <- zget p j ;; zset p j (v + 1)%Z) p.

  (** kkt.c:67, 161-162: the column is empty or its last entry is not on the diagonal *)
  Definition missing_diag (M : csc K) (j : Z) : option bool :=
    a <- zget (cp M) j ;; b <- zget (cp M) (j + 1)%Z ;;
    if (a =? b)%Z then Some true
    else r <- zget (ci M) (b - 1)%Z ;; Some (negb (r =? j)%Z).

  (** kkt.c:61-73 *)
  Definition kkt_colcount_missing_diag (p : list Z) (M : csc K) (initcol : Z) : option (list Z) :=
    for_ 0 (cn M) (fun j p =>
      md <- missing_diag M j ;;
      if (md : bool) then v <- zget p (j + initcol)%Z ;; zset p (j + initcol)%Z (v + 1)%Z
      else Some p) p.

  (** kkt.c:76-96 *)
  Definition kkt_colcount_block (p : list Z) (M : csc K) (initcol : Z) (istranspose : bool) : option (list Z) :=
    if istranspose then
      nnzM <- zget (cp M) (cn M) ;;
      for_ 0 nnzM (fun j p =>
        r <- zget (ci M) j ;; v <- zget p (r + initcol)%Z ;; zset p (r + initcol)%Z (v + 1)%Z) p
    else
      for_ 0 (cn M) (fun j p =>
        a <- zget (cp M) j ;; b <- zget (cp M) (j + 1)%Z ;;
        v <- zget p (j + initcol)%Z ;; zset p (j + initcol)%Z (v + (b - a))%Z) p.

  (** MtoKKT[jj] = dest, unless MtoKKT is NULL *)
  Definition store_map (m : option (list Z)) (j dest : Z) : option (option (list Z)) :=
    match m with None => Some None | Some t => t <- zset t j dest ;; Some (Some t) end.

  (** kkt.c:101-126 *)
  Definition kkt_fill_block (s : kst) (M : csc K) (MtoKKT : option (list Z)) (initrow initcol : Z)
             (istranspose : bool) : option (kst * option (list Z)) :=
    for_cols (cn M) (cp M) (fun ii jj (st : kst * option (list Z)) =>
      let '((p, i, x), mp) := st in
      r <- zget (ci M) jj ;;
      let col := (if istranspose then r + initcol else ii + initcol)%Z in
      let row := (if istranspose then ii + initrow else r + initrow)%Z in
      dest <- zget p col ;;
      p <- zset p col (dest + 1)%Z ;;
      i <- zset i dest row ;;
      v <- zget (cx M) jj ;;
      x <- zset x dest v ;;
      mp <- store_map mp jj dest ;;
      Some ((p, i, x), mp)) (s, MtoKKT).

  (** kkt.c:133-148 *)
  Definition kkt_fill_diag_zeros (s : kst) (rhotoKKT : option (list Z)) (offset blockdim : Z)
    : option (kst * option (list Z)) :=
    for_ 0 blockdim (fun j (st : kst * option (list Z)) =>
      let '((p, i, x), mp) := st in
      let col := (j + offset)%Z in
      dest <- zget p col ;;
      i <- zset i dest col ;;
      x <- zset x dest n0 ;;
      p <- zset p col (dest + 1)%Z ;;
      mp <- store_map mp j dest ;;
      Some ((p, i, x), mp)) (s, rhotoKKT).

  (** kkt.c:153-171 (line 167 increments p[j], not p[j + offset]; all callers pass offset = 0) *)
  Definition kkt_fill_missing_diag_zeros (s : kst) (M : csc K) (offset : Z) : option kst :=
    for_ 0 (cn M) (fun j (st : kst) =>
      let '(p, i, x) := st in
      md <- missing_diag M j ;;
      if (md : bool) then
        dest <- zget p (j + offset)%Z ;;
        i <- zset i dest (j + offset)%Z ;;
        x <- zset x dest n0 ;;
        v <- zget p j ;; p <- zset p j (v + 1)%Z ;;
        Some (p, i, x)
      else Some st) s.

  (** kkt.c:173-184; n is K->n *)
  Definition kkt_colcount_to_colptr (p : list Z) (n : Z) : option (list Z) :=
    r <- for_ 0 (n + 1)%Z (fun j (s : list Z * Z) =>
           let '(p, cur) := s in
           c <- zget p j ;; p <- zset p j cur ;; Some (p, (cur + c)%Z)) (p, 0%Z) ;;
    Some (fst r).

  (** kkt.c:186-195: the loop runs downwards, j = n - t *)
  Definition kkt_backshift_colptrs (p : list Z) (n : Z) : option (list Z) :=
    p <- for_ 0 n (fun t p => v <- zget p (n - t - 1)%Z ;; zset p (n - t)%Z v) p ;;
    zset p 0 0.

  (** kkt.c:197-211 *)
  Definition count_diagonal_entries (P : csc K) : option Z :=
    for_ 0 (cn P) (fun j c => md <- missing_diag P j ;; Some (if (md : bool) then c else (c + 1)%Z)) 0%Z.

  (** kkt.c:214-252 and 254-290.  Results: K and the three maps. *)
  Definition kkt_assemble (s : kst) (P A : csc K) (mP mA mR : option (list Z)) (csr : bool)
    : option (kst * option (list Z) * option (list Z) * option (list Z)) :=
    let m := cm A in
    let n := cn P in
    let '(p, i, x) := s in
    p <- for_ 0 (m + n + 1)%Z (fun j p => zset p j 0%Z) p ;;
    if csr then
      p <- kkt_colcount_missing_diag p P 0 ;;
      p <- kkt_colcount_block p P 0 true ;;
      p <- kkt_colcount_block p A 0 false ;;
      p <- kkt_colcount_diag p n m ;;
      p <- kkt_colcount_to_colptr p (m + n)%Z ;;
      s <- kkt_fill_missing_diag_zeros (p, i, x) P 0 ;;
      r <- kkt_fill_block s P mP 0 0 true ;; let '(s, mP) := r in
      r <- kkt_fill_block s A mA n 0 false ;; let '(s, mA) := r in
      r <- kkt_fill_diag_zeros s mR n m ;; let '((p, i, x), mR) := r in
      p <- kkt_backshift_colptrs p (m + n)%Z ;;
      Some ((p, i, x), mP, mA, mR)
    else
      p <- kkt_colcount_block p P 0 false ;;
      p <- kkt_colcount_missing_diag p P 0 ;;
      p <- kkt_colcount_block p A n true ;;
      p <- kkt_colcount_diag p n m ;;
      p <- kkt_colcount_to_colptr p (m + n)%Z ;;
      r <- kkt_fill_block (p, i, x) P mP 0 0 false ;; let '(s, mP) := r in
      s <- kkt_fill_missing_diag_zeros s P 0 ;;
      r <- kkt_fill_block s A mA 0 n true ;; let '(s, mA) := r in
      r <- kkt_fill_diag_zeros s mR n m ;; let '((p, i, x), mR) := r in
      p <- kkt_backshift_colptrs p (m + n)%Z ;;
      Some ((p, i, x), mP, mA, mR).

  (** kkt.c:293-342 with a successful allocator *)
  Definition form_KKT (jz : Z) (jx : K) (P A : csc K) (csr : bool) (param1 : K)
             (param2 : option (list K)) (param2_sc : K) (mP mA mR : option (list Z))
    : option (csc K * option (list Z) * option (list Z) * option (list Z)) :=
    let m := cm A in
    let n := cn P in
    let nKKT := (m + n)%Z in
    ndiagP <- count_diagonal_entries P ;;
    nP <- zget (cp P) n ;;
    nA <- zget (cp A) n ;;
    let nnzKKT := (nP + n - ndiagP + nA + m)%Z in
    let C := csc_spalloc jz jx nKKT nKKT nnzKKT false in
    r <- kkt_assemble (cp C, ci C, cx C) P A mP mA mR csr ;;
    let '((p, i, x), mP, mA, mR) := r in
    x <- kkt_shifts_param1 p x param1 n csr ;;
    x <- kkt_shifts_param2 p x param2 param2_sc n m csr ;;
    Some (mkcsc nKKT nKKT p i x (cnzmax C) (cnz C), mP, mA, mR).

  (** kkt.c:349-378: the new KKT->x *)
  Definition update_KKT_P (Kx : list K) (P : csc K) (idx : option (list Z)) (P_new_n : Z)
             (PtoKKT : list Z) (param1 : K) (csr : bool) : option (list K) :=
    if (P_new_n <=? 0)%Z then Some Kx else
    for_ 0 P_new_n (fun j Kx =>
      Pidx <- match idx with None => Some j | Some d => zget d j end ;;
      Kidx <- zget PtoKKT Pidx ;;
      v <- zget (cx P) Pidx ;;
      Kx <- zset Kx Kidx v ;;
      row <- zget (ci P) Pidx ;;
      a <- zget (cp P) row ;; b <- zget (cp P) (row + 1)%Z ;;
      if (a <? b)%Z && (((if csr then a else b) - kofs csr) =? Pidx)%Z then
        w <- zget Kx Kidx ;; zset Kx Kidx (w + param1)
      else Some Kx) Kx.

  (** kkt.c:380-401 *)
  Definition update_KKT_A (Kx : list K) (A : csc K) (idx : option (list Z)) (A_new_n : Z)
             (AtoKKT : list Z) : option (list K) :=
    if (A_new_n <=? 0)%Z then Some Kx else
    for_ 0 A_new_n (fun j Kx =>
      Aidx <- match idx with None => Some j | Some d => zget d j end ;;
      Kidx <- zget AtoKKT Aidx ;;
      v <- zget (cx A) Aidx ;;
      zset Kx Kidx v) Kx.

  (** kkt.c:404-422 *)
  Definition update_KKT_param2 (Kx : list K) (param2 : option (list K)) (param2_sc : K)
             (mR : list Z) (m : Z) : option (list K) :=
    for_ 0 m (fun i Kx =>
      k <- zget mR i ;;
      d <- match param2 with Some w => zget w i | None => Some param2_sc end ;;
      zset Kx k (- d)) Kx.
End Kkt.
