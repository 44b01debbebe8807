(** Derivatives of the solution: src/derivative.c, the adjoint linear system of
    algebra/_common/lin_sys/qdldl/qdldl_interface.c:532-891, and the wrappers of src/osqp_api.c:1583-1634.
    Memory allocation succeeds throughout this file (see Alloc.v for the other case). *)
From Coq Require Import ZArith List Bool.
From Verif Require Import Num Arr Csc Vec Types Validate Kkt Linsys Auxil.
Import ListNotations.
Open Scope Z_scope.
Local Open Scope opt_scope.

(** include/private/types.h:83-93, OSQPDerivativeData *)
Record deriv (K : NumOps) := mkderiv {
  dv_n_ineq_l : Z; dv_n_ineq_u : Z; dv_n_eq : Z;
  dv_y_l : list K; dv_y_u : list K; dv_ryl : list K; dv_ryu : list K;
  dv_rhs : list K
}.
Arguments mkderiv {K}. Arguments dv_n_ineq_l {K}. Arguments dv_n_ineq_u {K}. Arguments dv_n_eq {K}.
Arguments dv_y_l {K}. Arguments dv_y_u {K}. Arguments dv_ryl {K}. Arguments dv_ryu {K}. Arguments dv_rhs {K}.

(** The local arrays and counters of derivative.c:129-147: which rows have a finite lower bound, a finite
    upper bound, or equal bounds; the row numbers of each kind; the signs of the multipliers of the equalities. *)
Record rowsets := mkrows {
  rs_l : list Z; rs_u : list Z; rs_e : list Z;
  rs_li : list Z; rs_ui : list Z; rs_ei : list Z; rs_sg : list Z;
  rs_nl : Z; rs_nu : Z; rs_ne : Z
}.

Section Deriv.
  Context {K : NumOps}.
  Variable E : Env K.
  Local Open Scope num_scope.
  Let jz := env_jz E.
  Let jx := env_jx E.

  (** src/osqp_api.c:606-618 (c_calloc, then OSQPVectorf_malloc five times) *)
  Definition deriv_init (n m : Z) : deriv K :=
    mkderiv 0%Z 0%Z 0%Z (zrep m jx) (zrep m jx) (zrep m jx) (zrep m jx) (zrep (2 * (n + 2 * m))%Z jx).

  (** derivative.c:7-19 *)
  Definition unscale_PA (sc : scaling K) (P A : csc K) : option (csc K * csc K) :=
    P <- csc_scale P (sc_cinv sc) ;;
    P <- csc_lmult_diag P (sc_Dinv sc) ;;
    P <- csc_rmult_diag P (sc_Dinv sc) ;;
    A <- csc_lmult_diag A (sc_Einv sc) ;;
    A <- csc_rmult_diag A (sc_Dinv sc) ;;
    Some (P, A).

  (** derivative.c:21-29 *)
  Definition unscale_lu (sc : scaling K) (l u : list K) : option (list K * list K) :=
    l <- vf_ew_prod l l (sc_Einv sc) ;;
    u <- vf_ew_prod u u (sc_Einv sc) ;;
    Some (l, u).

  (** derivative.c:150-181, one row *)
  Definition classify_row (l u y : list K) (j : Z) (r : rowsets) : option rowsets :=
    let inf := OSQP_INFTY K * OSQP_MIN_SCALING K in
    lj <- zget l j ;; uj <- zget u j ;;
    if lj <? uj then
      re <- zset (rs_e r) j 0%Z ;;
      a <- (if - inf <? lj then
              li <- zset (rs_li r) (rs_nl r) j ;; rl <- zset (rs_l r) j 1%Z ;; Some (li, rl, (rs_nl r + 1)%Z)
            else rl <- zset (rs_l r) j 0%Z ;; Some (rs_li r, rl, rs_nl r)) ;;
      let '(li, rl, nl) := a in
      b <- (if uj <? inf then
              ui <- zset (rs_ui r) (rs_nu r) j ;; ru <- zset (rs_u r) j 1%Z ;; Some (ui, ru, (rs_nu r + 1)%Z)
            else ru <- zset (rs_u r) j 0%Z ;; Some (rs_ui r, ru, rs_nu r)) ;;
      let '(ui, ru, nu) := b in
      Some (mkrows rl ru re li ui (rs_ei r) (rs_sg r) nl nu (rs_ne r))
    else
      ei <- zset (rs_ei r) (rs_ne r) j ;;
      re <- zset (rs_e r) j 1%Z ;;
      rl <- zset (rs_l r) j 0%Z ;;
      ru <- zset (rs_u r) j 0%Z ;;
      yj <- zget y j ;;
      sg <- zset (rs_sg r) (rs_ne r) (if n0 <=? yj then 1%Z else (-1)%Z) ;;
      Some (mkrows rl ru re (rs_li r) (rs_ui r) ei sg (rs_nl r) (rs_nu r) (rs_ne r + 1)%Z).

  (** derivative.c:129-181 *)
  Definition classify (l u y : list K) (m : Z) : option rowsets :=
    let z := zrep m jz in
    for_ 0 m (classify_row l u y) (mkrows z z z z z z z 0%Z 0%Z 0%Z).

  (** *** qdldl_interface.c *)

  (** qdldl_interface.c:536-544, the loop of kkt.c:47-56 *)
  Definition adj_colcount_diag (p : list Z) (initcol blockcols : Z) : option (list Z) := kkt_colcount_diag p initcol blockcols.
  (** qdldl_interface.c:547-566, the loop of kkt.c:76-96 *)
  Definition adj_colcount_block (p : list Z) (M : csc K) (initcol : Z) (istranspose : bool) : option (list Z) := kkt_colcount_block p M initcol istranspose.
  (** qdldl_interface.c:568-577, the loop of kkt.c:173-184 *)
  Definition adj_colcount_to_colptr (p : list Z) (n : Z) : option (list Z) := kkt_colcount_to_colptr p n.
  (** qdldl_interface.c:582-607 with index_mapping = NULL, the loop of kkt.c:101-126 *)
  Definition adj_fill_block (s : kst) (M : csc K) (initrow initcol : Z) (istranspose : bool) : option kst :=
    r <- kkt_fill_block s M None initrow initcol istranspose ;; Some (fst r).
  (** qdldl_interface.c:609-631 with index_mapping = NULL; [values = None] is the NULL pointer *)
  Definition adj_fill_diag_values (s : kst) (initrow initcol : Z) (values : option (list K)) (value_scalar : K) (n : Z) : option kst :=
    for_ 0 n (fun j (s : kst) =>
      let '(p, i, x) := s in
      let row := (j + initrow)%Z in
      let col := (j + initcol)%Z in
      dest <- zget p col ;;
      i <- zset i dest row ;;
      v <- match values with Some l => zget l j | None => Some value_scalar end ;;
      x <- zset x dest v ;;
      p <- zset p col (dest + 1)%Z ;;
      Some (p, i, x)) s.
  (** qdldl_interface.c:633-640, the loop of kkt.c:186-195 *)
  Definition adj_backshift_colptrs (p : list Z) (n : Z) : option (list Z) := kkt_backshift_colptrs p n.

  (** qdldl_interface.c:642-655: D->x, given D->p; [dim] is D->m *)
  Definition adj_perturb (p : list Z) (x : list K) (dim : Z) (eps : K) : option (list K) :=
    x <- for_ 0 (dim / 2)%Z (fun j x => e <- zget p (j + 1)%Z ;; v <- zget x (e - 1)%Z ;; zset x (e - 1)%Z (v + eps)) x ;;
    for_ (dim / 2)%Z dim (fun j x => e <- zget p (j + 1)%Z ;; v <- zget x (e - 1)%Z ;; zset x (e - 1)%Z (v - eps)) x.

  (** qdldl_interface.c:657-695 *)
  Definition adj_assemble_csc (s : kst) (P_full G A_eq GDiagLambda : csc K) (slacks : list K) : option kst :=
    let n := cm P_full in
    let x := cm G in
    let y := cm A_eq in
    let N := (n + x + y)%Z in
    let '(p, i, v) := s in
    p <- for_ 0 (2 * N + 1)%Z (fun j p => zset p j 0%Z) p ;;
    p <- adj_colcount_diag p 0 N ;;
    p <- adj_colcount_block p P_full N false ;;
    p <- adj_colcount_block p G N false ;;
    p <- adj_colcount_block p A_eq N false ;;
    p <- adj_colcount_block p GDiagLambda (N + n)%Z true ;;
    p <- adj_colcount_diag p (N + n)%Z x ;;
    p <- adj_colcount_block p A_eq (N + n + x)%Z true ;;
    p <- adj_colcount_diag p N N ;;
    p <- adj_colcount_to_colptr p (2 * N)%Z ;;
    s <- adj_fill_diag_values (p, i, v) 0 0 None n1 N ;;
    s <- adj_fill_block s P_full 0 N false ;;
    s <- adj_fill_block s G n N false ;;
    s <- adj_fill_block s A_eq (n + x)%Z N false ;;
    s <- adj_fill_block s GDiagLambda 0 (N + n)%Z true ;;
    s <- adj_fill_diag_values s n (N + n)%Z (Some slacks) n0 x ;;
    s <- adj_fill_block s A_eq 0 (N + n + x)%Z true ;;
    s <- adj_fill_diag_values s N N None n0 N ;;
    let '(p, i, v) := s in
    p <- adj_backshift_colptrs p (2 * N)%Z ;;
    Some (p, i, v).

  (** qdldl_interface.c:827-829 and 845-847: permute, QDLDL_solve, permute back.  The status of QDLDL_factor is not
      looked at (816), so nothing is known about the answer when the factorisation failed. *)
  Definition adj_solve (C : csc K) (perm : list Z) (dim : Z) (x b : list K) : option (list K) :=
    w <- for_ 0 dim (fun i w => q <- zget perm i ;; v <- zget b q ;; zset w i v) (zrep dim jx) ;;
    let w := env_ldlsolve E C w in
    for_ 0 dim (fun i x => q <- zget perm i ;; v <- zget w i ;; zset x q v) x.

  (** qdldl_interface.c:840-850, the remaining [k] passes; 1e-12 is line 843 *)
  Fixpoint adj_refine (k : nat) (M C : csc K) (perm : list Z) (dim : Z) (rhs sol : list K) : option (list K) :=
    match k with
    | O => Some sol
    | S k =>
        r <- vf_from_raw (zrep dim jx) rhs ;;
        r <- csc_Axpy_sym_triu M sol r n1 (- n1) ;;
        if vf_norm_2 r <? nlit 1 (-12) then Some sol else
        r <- adj_solve C perm dim r r ;;
        sol <- vf_minus sol sol r ;;
        adj_refine k M C perm dim rhs sol
    end.

  (** qdldl_interface.c:697-891 (through algebra/builtin/algebra_libs.c:80-92): the status and the new content of rhs.
      When amd_order fails the status is its own, -1 or -2; here always -1 (the caller ignores it, derivative.c:280). *)
  Definition adjoint_derivative_qdldl (P_full G A_eq GDiagLambda : csc K) (slacks rhs : list K) : option (Z * list K) :=
    let n := cm P_full in
    let n_ineq := cm G in
    let n_eq := cm A_eq in
    nP <- zget (cp P_full) (cn P_full) ;;
    nG <- zget (cp G) (cn G) ;;
    nA <- zget (cp A_eq) (cn A_eq) ;;
    let nnzKKT := (n + n_ineq + n_eq + nP + nG + nA + nG + n_ineq + nA + n + n_ineq + n_eq)%Z in
    let dim := (2 * (n + n_ineq + n_eq))%Z in
    let adj := csc_spalloc jz jx dim dim nnzKKT false in
    s <- adj_assemble_csc (cp adj, ci adj, cx adj) P_full G A_eq GDiagLambda slacks ;;
    let '(p, i, x) := s in
    let adj := mkcsc dim dim p i x (cnzmax adj) (cnz adj) in
    adj_matrix <- csc_copy jz jx adj ;;
    x <- adj_perturb p x dim (nlit 1 (-6)) ;;
    let adj := set_x adj x in
    match env_amd E dim p i with
    | None => Some ((-1)%Z, rhs)
    | Some perm =>
        pinv <- csc_pinv jz (Some perm) dim ;;
        C <- csc_symperm jz jx adj pinv None ;;
        let C := fst C in
        sol <- adj_solve C perm dim (zrep dim jx) rhs ;;
        sol <- adj_refine 200 adj_matrix C perm dim rhs sol ;;
        rhs <- vf_subvector_assign rhs sol 0 dim n1 ;;
        Some (0%Z, rhs)
    end.

  (** *** derivative.c *)

  (** derivative.c:263-270: the part of the right-hand side that belongs to the equalities *)
  Definition nu_weights (r : rowsets) (dy_l dy_u : list K) : option (list K) :=
    for_ 0 (rs_ne r) (fun j d =>
      s <- zget (rs_sg r) j ;;
      if (s =? 1)%Z then i <- zget (rs_ei r) j ;; v <- zget dy_u i ;; zset d j v
      else if (s =? -1)%Z then i <- zget (rs_ei r) j ;; v <- zget dy_l i ;; zset d j (- v)
      else Some d) (zrep (rs_ne r) jx).

  (** derivative.c:245-275: the right-hand side *)
  Definition build_rhs (r : rowsets) (n : Z) (dx dy_l dy_u rhs : list K) : option (list K) :=
    dy_l_ineq <- vf_subvector_byrows dy_l (rs_l r) ;;
    dy_u_ineq <- vf_subvector_byrows dy_u (rs_u r) ;;
    rhs <- vf_subvector_assign rhs dx 0 n (- n1) ;;
    rhs <- vf_subvector_assign rhs dy_l_ineq n (rs_nl r) (- n1) ;;
    rhs <- vf_subvector_assign rhs dy_u_ineq (n + rs_nl r)%Z (rs_nu r) (- n1) ;;
    d_nu <- nu_weights r dy_l dy_u ;;
    rhs <- vf_subvector_assign rhs d_nu (n + rs_nl r + rs_nu r)%Z (rs_ne r) (- n1) ;;
    vf_subvector_assign_scalar rhs n0 (n + rs_nl r + rs_nu r + rs_ne r)%Z (n + rs_nl r + rs_nu r + rs_ne r)%Z.

  (** derivative.c:288-317: r_yl and r_yu *)
  Definition split_rhs (r : rowsets) (n m : Z) (rhs y : list K) : option (list K * list K) :=
    let pos := (n + rs_nl r + rs_nu r + rs_ne r + n)%Z in
    ryl <- for_ 0 (rs_nl r) (fun j ryl => i <- zget (rs_li r) j ;; v <- zget rhs (pos + j)%Z ;; zset ryl i (- v)) (zrep m n0) ;;
    let pos := (pos + rs_nl r)%Z in
    ryu <- for_ 0 (rs_nu r) (fun j ryu => i <- zget (rs_ui r) j ;; v <- zget rhs (pos + j)%Z ;; zset ryu i v) (zrep m n0) ;;
    let pos := (pos + rs_nu r)%Z in
    for_ 0 (rs_ne r) (fun j (s : list K * list K) =>
      let '(ryl, ryu) := s in
      sg <- zget (rs_sg r) j ;; i <- zget (rs_ei r) j ;; v <- zget rhs (pos + j)%Z ;; yi <- zget y i ;;
      if (sg =? 1)%Z then
        ryl <- zset ryl i n0 ;; ryu <- zset ryu i (v / yi) ;; Some (ryl, ryu)
      else
        ryl <- zset ryl i (- v / yi) ;; ryu <- zset ryu i n0 ;; Some (ryl, ryu)) (ryl, ryu).

  (** derivative.c:101-331.  A solver without solution structure (settings.allocate_solution = 0) dereferences NULL
      at 118.  The status of the linear system (280) is not looked at. *)
  Definition adjoint_derivative_compute (s : solver K) (dd : deriv K) (dx dy_l dy_u : list K) : option (Z * deriv K) :=
    let w := sv_work s in
    let m := d_m (w_data w) in
    let n := d_n (w_data w) in
    P <- csc_copy jz jx (d_P (w_data w)) ;;
    A <- csc_copy jz jx (d_A (w_data w)) ;;
    sol <- sv_solution s ;;
    x <- view (so_x sol) 0 n ;;
    y <- view (so_y sol) 0 m ;;
    PAlu <- (if tr (st_scaling (sv_settings s)) then
               sc <- w_scaling w ;;
               PA <- unscale_PA sc P A ;;
               lu <- unscale_lu sc (d_l (w_data w)) (d_u (w_data w)) ;;
               Some (PA, lu)
             else Some ((P, A), (d_l (w_data w), d_u (w_data w)))) ;;
    let '((P, A), (l, u)) := PAlu in
    dyl <- view dy_l 0 m ;;
    dyu <- view dy_u 0 m ;;
    r <- classify l u y m ;;
    A_l <- csc_submatrix_byrows jz jx A (rs_l r) ;;
    A_l <- csc_scale A_l (- n1) ;;
    A_u <- csc_submatrix_byrows jz jx A (rs_u r) ;;
    G <- vstack jz jx A_l A_u ;;
    G <- G ;;
    A_eq <- csc_submatrix_byrows jz jx A (rs_e r) ;;
    y_u <- vf_ew_max_vec (dv_y_u dd) y (zrep m n0) ;;
    y_l <- vf_ew_min_vec (dv_y_l dd) y (zrep m n0) ;;
    let y_l := vf_mult_scalar y_l (- n1) in
    y_l_ineq <- vf_subvector_byrows y_l (rs_l r) ;;
    y_u_ineq <- vf_subvector_byrows y_u (rs_u r) ;;
    let lambda := vf_concat y_l_ineq y_u_ineq in
    l_ineq <- vf_subvector_byrows l (rs_l r) ;;
    let l_ineq := vf_mult_scalar l_ineq (- n1) in
    u_ineq <- vf_subvector_byrows u (rs_u r) ;;
    let h := vf_concat l_ineq u_ineq in
    slacks <- csc_Axpy G x h n1 (- n1) ;;
    GDiagLambda <- csc_copy jz jx G ;;
    GDiagLambda <- csc_lmult_diag GDiagLambda lambda ;;
    rhs <- build_rhs r n dx dyl dyu (dv_rhs dd) ;;
    P_full <- triu_to_csc jz jx P ;;
    P_full <- P_full ;;
    a <- adjoint_derivative_qdldl P_full G A_eq GDiagLambda slacks rhs ;;
    let rhs := snd a in
    ry <- split_rhs r n m rhs y ;;
    ryl <- vf_from_raw (dv_ryl dd) (fst ry) ;;
    ryl <- vf_ew_prod ryl ryl y_l ;;
    let ryl := vf_mult_scalar ryl (- n1) in
    ryu <- vf_from_raw (dv_ryu dd) (snd ry) ;;
    ryu <- vf_ew_prod ryu ryu y_u ;;
    Some (0%Z, mkderiv (rs_nl r) (rs_nu r) (rs_ne r) y_l y_u ryl ryu rhs).

  (** derivative.c:49-50, 86-87: the view rx *)
  Definition rx_view (dd : deriv K) (n : Z) : option (list K) :=
    view (dv_rhs dd) (n + dv_n_ineq_l dd + dv_n_ineq_u dd + dv_n_eq dd)%Z n.

  (** derivative.c:31-70: the new contents of dP->x and dA->x *)
  Definition adjoint_derivative_get_mat (s : solver K) (dd : deriv K) (dP dA : csc K) : option (list K * list K) :=
    let n := d_n (w_data (sv_work s)) in
    sol <- sv_solution s ;;
    x <- view (so_x sol) 0 n ;;
    rx <- rx_view dd n ;;
    for_ 0 n (fun col (st : list K * list K) =>
      let '(Px, Ax) := st in
      lo <- zget (cp dP) col ;; hi <- zget (cp dP) (col + 1)%Z ;;
      Px <- for_ lo hi (fun p Px =>
              i <- zget (ci dP) p ;; ri <- zget rx i ;; xc <- zget x col ;; rc <- zget rx col ;; xi <- zget x i ;;
              zset Px p (nlit 5 (-1) * (ri * xc + rc * xi))) Px ;;
      lo <- zget (cp dA) col ;; hi <- zget (cp dA) (col + 1)%Z ;;
      Ax <- for_ lo hi (fun p Ax =>
              i <- zget (ci dA) p ;; yu <- zget (dv_y_u dd) i ;; yl <- zget (dv_y_l dd) i ;;
              ru <- zget (dv_ryu dd) i ;; rl <- zget (dv_ryl dd) i ;; rc <- zget rx col ;; xc <- zget x col ;;
              zset Ax p ((yu - yl) * rc + (ru - rl) * xc)) Ax ;;
      Some (Px, Ax)) (cx dP, cx dA).

  (** derivative.c:72-99: the new contents of dq, dl, du *)
  Definition adjoint_derivative_get_vec (s : solver K) (dd : deriv K) (dq dl du : list K) : option (list K * list K * list K) :=
    rx <- rx_view dd (d_n (w_data (sv_work s))) ;;
    dq <- vf_to_raw dq rx ;;
    dl <- vf_to_raw dl (dv_ryl dd) ;;
    du <- vf_to_raw du (dv_ryu dd) ;;
    du <- for_ 0 (zlen (dv_ryu dd)) (fun i du => v <- zget du i ;; zset du i (- v)) du ;;
    Some (dq, dl, du).

  (** src/osqp_api.c:1583-1598 and derivative.c:107-108; [None] for the solver is the NULL pointer *)
  Definition osqp_adjoint_derivative_compute (s : option (solver K * deriv K)) (dx dy : list K) : option (Z * option (deriv K)) :=
    match s with
    | None => Some (OSQP_WORKSPACE_NOT_INIT_ERROR, None)
    | Some (s, dd) => r <- adjoint_derivative_compute s dd dx dy dy ;; Some (fst r, Some (snd r))
    end.
  (** src/osqp_api.c:1600-1615 and derivative.c:36-37 *)
  Definition osqp_adjoint_derivative_get_mat (s : option (solver K * deriv K)) (dP dA : csc K) : option (Z * (csc K * csc K)) :=
    match s with
    | None => Some (OSQP_WORKSPACE_NOT_INIT_ERROR, (dP, dA))
    | Some (s, dd) => r <- adjoint_derivative_get_mat s dd dP dA ;; Some (0%Z, (set_x dP (fst r), set_x dA (snd r)))
    end.
  (** src/osqp_api.c:1617-1634 and derivative.c:80-81 *)
  Definition osqp_adjoint_derivative_get_vec (s : option (solver K * deriv K)) (dq dl du : list K) : option (Z * (list K * list K * list K)) :=
    match s with
    | None => Some (OSQP_WORKSPACE_NOT_INIT_ERROR, (dq, dl, du))
    | Some (s, dd) => r <- adjoint_derivative_get_vec s dd dq dl du ;; Some (0%Z, r)
    end.
End Deriv.
