(** The reduced KKT system (algebra/_common/reduced_kkt.c) and the conjugate-gradient interface that uses it
    (algebra/mkl/lin_sys/indirect/mkl-cg_interface.c).  The vector and matrix kernels are those of algebra/builtin; the MKL build has
    kernels of its own behind the same names. *)
From Coq Require Import ZArith List Bool.
From Verif Require Import Num Arr Csc Vec.
Import ListNotations.
Open Scope Z_scope.
Local Open Scope opt_scope.

Section Reduced.
  Context {K : NumOps}.
  Local Open Scope num_scope.

  (** reduced_kkt.c:9-24: the new v and work.  P is stored as an upper triangle (OSQPMatrix_Axpy, matrix.c:156-171). *)
  Definition reduced_kkt_mv_times (P A : csc K) (rho_vec : list K) (sigma : K) (x v work : list K) : option (list K * list K) :=
    work <- csc_Axpy A x work n1 n0 ;;
    work <- vf_ew_prod work work rho_vec ;;
    v <- vf_copy v x ;;
    v <- csc_Axpy_sym_triu P x v n1 sigma ;;
    v <- csc_Atxpy A work v n1 n1 ;;
    Some (v, work).

  (** reduced_kkt.c:31-51: the new diag and diag_inv *)
  Definition reduced_kkt_diagonal (P A : csc K) (rho_vec : list K) (sigma : K) (diag diag_inv : list K) : option (list K * list K) :=
    let diag := vf_set_scalar diag sigma in
    diag_inv <- csc_extract_diag P diag_inv ;;
    diag <- vf_plus diag diag diag_inv ;;
    diag_inv <- csc_AtDA_extract_diag A rho_vec diag_inv ;;
    diag <- vf_plus diag diag diag_inv ;;
    diag_inv <- vf_ew_reciprocal diag_inv diag ;;
    Some (diag, diag_inv).

  (** reduced_kkt.c:54-65: the new b1 and work *)
  Definition reduced_kkt_compute_rhs (A : csc K) (rho_vec b1 b2 work : list K) : option (list K * list K) :=
    work <- vf_ew_prod work b2 rho_vec ;;
    b1 <- csc_Atxpy A work b1 n1 n1 ;;
    Some (b1, work).

  (** osqp_api_constants.h:215-216 *)
  Definition OSQP_CG_TOL_MIN : K := nlit 1 (-7).
  Definition OSQP_CG_POLISH_TOL : K := nlit 1 (-5).

  (** mkl-cg_interface.h: the fields the functions below use.  P and A are pointers to the matrices of the workspace: the model passes
      the current matrices to every function instead.  iparm[10] (preconditioner on) is [cg_precond_type <> 0]. *)
  Record mklcg := mkcg {
    cg_polish : bool; cg_m : Z; cg_n : Z; cg_sigma : K; cg_rho : list K; cg_x : list K; cg_ywork : list K;
    cg_precond_type : Z; cg_precond : list K; cg_precond_inv : list K; cg_max_iter : Z;
    cg_reduction_interval : Z; cg_tol_fraction : K; cg_reduction_factor : K; cg_zero_iters : Z; cg_eps_prev : K }.

  (** mkl-cg_interface.c:10-35: the tolerance and the new eps_prev *)
  Definition cg_compute_tolerance (admm_iter : Z) (rhs_norm prim_res dual_res factor eps_prev : K) : K * K :=
    if (admm_iter =? 1)%Z then
      let e := if rhs_norm <? OSQP_CG_TOL_MIN then n1 else rhs_norm * factor in (e, e)
    else
      let e := factor * nsqrt (prim_res * dual_res) in
      let e := c_max (c_min e eps_prev) OSQP_CG_TOL_MIN in (e, e).

  (** mkl-cg_interface.c:67-80: type 0 is OSQP_NO_PRECONDITIONER, type 1 OSQP_DIAGONAL_PRECONDITIONER *)
  Definition cg_update_precond (P A : csc K) (s : mklcg) : option mklcg :=
    if (cg_precond_type s =? 0)%Z then
      Some (mkcg (cg_polish s) (cg_m s) (cg_n s) (cg_sigma s) (cg_rho s) (cg_x s) (cg_ywork s) (cg_precond_type s) (vf_set_scalar (cg_precond s) n1) (cg_precond_inv s)
        (cg_max_iter s) (cg_reduction_interval s) (cg_tol_fraction s) (cg_reduction_factor s) (cg_zero_iters s) (cg_eps_prev s))
    else if (cg_precond_type s =? 1)%Z then
      r <- reduced_kkt_diagonal P A (cg_rho s) (cg_sigma s) (cg_precond s) (cg_precond_inv s) ;;
      Some (mkcg (cg_polish s) (cg_m s) (cg_n s) (cg_sigma s) (cg_rho s) (cg_x s) (cg_ywork s) (cg_precond_type s) (fst r) (snd r)
        (cg_max_iter s) (cg_reduction_interval s) (cg_tol_fraction s) (cg_reduction_factor s) (cg_zero_iters s) (cg_eps_prev s))
    else Some s.

  (** mkl-cg_interface.c:82-187: [jx] is the content of fresh memory; MKL's own initialisation (dcg_init, dcg_check) is not modelled *)
  Definition init_linsys_mklcg (jx : K) (P A : csc K) (rho_vec : list K) (sigma : K) (precond max_iter reduction : Z) (fraction : K) (polish : bool) : option mklcg :=
    let m := cm A in let n := cn P in
    let r := zrep m jx in
    r <- (if negb polish then vf_copy r rho_vec else Some (vf_set_scalar r (n1 / sigma))) ;;
    cg_update_precond P A (mkcg polish m n sigma r (zrep n n0) (zrep m jx) precond (zrep n jx) (zrep n jx) max_iter reduction fraction fraction 0%Z jx).

  (** mkl-cg_interface.c:359-372 *)
  Definition update_matrices_linsys_mklcg (P A : csc K) (s : mklcg) : option mklcg := cg_update_precond P A s.
  (** mkl-cg_interface.c:375-384 *)
  Definition update_rho_linsys_mklcg (P A : csc K) (s : mklcg) (rho_vec : list K) : option mklcg :=
    r <- vf_copy (cg_rho s) rho_vec ;;
    cg_update_precond P A (mkcg (cg_polish s) (cg_m s) (cg_n s) (cg_sigma s) r (cg_x s) (cg_ywork s) (cg_precond_type s) (cg_precond s) (cg_precond_inv s)
      (cg_max_iter s) (cg_reduction_interval s) (cg_tol_fraction s) (cg_reduction_factor s) (cg_zero_iters s) (cg_eps_prev s)).
  (** mkl-cg_interface.c:300-329 *)
  Definition update_settings_linsys_solver_mklcg (P A : csc K) (s : mklcg) (precond max_iter reduction : Z) (fraction : K) : option mklcg :=
    let upd pt s0 := mkcg (cg_polish s0) (cg_m s0) (cg_n s0) (cg_sigma s0) (cg_rho s0) (cg_x s0) (cg_ywork s0) pt (cg_precond s0) (cg_precond_inv s0)
      max_iter reduction fraction (cg_reduction_factor s0) (cg_zero_iters s0) (cg_eps_prev s0) in
    if negb (cg_precond_type s =? precond)%Z then cg_update_precond P A (upd precond s) else Some (upd (cg_precond_type s) s).

  (** One call of MKL's dcg: from the number of the call, the right-hand side, the iterate and the four columns of the work array
      (vector to multiply, its product, vector to precondition, its image) to the request, the new iterate, the first and the third column
      and the iteration count iparm[3].  It stands for the library and may answer anything. *)
  Definition dcg_oracle := nat -> list K -> list K -> list K * list K * list K * list K -> Z * list K * (list K * list K) * Z.

  (** mkl-cg_interface.c:246-274, [fuel] calls at most ([None]: the loop has not ended by then, or undefined behaviour): the last request, the
      iterate, the work array and the iteration count *)
  Fixpoint cg_loop (dcg : dcg_oracle) (P A : csc K) (s : mklcg) (eps : K) (b : list K) (fuel k : nat) (x yw : list K) (tmp : list K * list K * list K * list K)
    : option (Z * list K * list K * Z) :=
    match fuel with
    | O => None
    | S fuel =>
      let '(req, x, (mpre, ppre), it) := dcg k b x tmp in
      let '(_, mpost, _, ppost) := tmp in
      if negb ((zlen x =? cg_n s) && (zlen mpre =? cg_n s) && (zlen ppre =? cg_n s))%Z then None else
      if (req =? 1)%Z then
        r <- reduced_kkt_mv_times P A (cg_rho s) (cg_sigma s) mpre mpost yw ;;
        cg_loop dcg P A s eps b fuel (S k) x (snd r) (mpre, fst r, ppre, ppost)
      else if (req =? 2)%Z then
        if vf_norm_inf ppre <? eps then Some (req, x, yw, it) else cg_loop dcg P A s eps b fuel (S k) x yw (mpre, mpost, ppre, ppost)
      else if (req =? 3)%Z then
        ppost <- vf_ew_prod ppost (cg_precond_inv s) ppre ;;
        cg_loop dcg P A s eps b fuel (S k) x yw (mpre, mpost, ppre, ppost)
      else Some (req, x, yw, it)
    end.

  (** mkl-cg_interface.c:200-297: the returned code, the overwritten right-hand side and the new state.  [tmp] is what the work array holds
      when the loop starts. *)
  Definition solve_linsys_mklcg (dcg : dcg_oracle) (fuel : nat) (P A : csc K) (s : mklcg) (prim_res dual_res : K) (tmp : list K * list K * list K * list K) (b : list K) (admm_iter : Z)
    : option (Z * list K * mklcg) :=
    r1 <- view b 0 (cg_n s) ;;
    r2 <- view b (cg_n s) (cg_m s) ;;
    r <- reduced_kkt_compute_rhs A (cg_rho s) r1 r2 (cg_ywork s) ;;
    let r1 := fst r in let yw := snd r in
    let rhs_norm := vf_norm_inf r1 in
    let '(eps, prev, factor, zero) :=
      if cg_polish s then (c_max (rhs_norm * OSQP_CG_POLISH_TOL) OSQP_CG_TOL_MIN, cg_eps_prev s, cg_reduction_factor s, cg_zero_iters s)
      else
        let '(factor, zero) := if (admm_iter =? 1)%Z then (cg_tol_fraction s, cg_zero_iters s)
          else if (cg_reduction_interval s <=? cg_zero_iters s)%Z then (cg_reduction_factor s / nofZ 2, 0%Z) else (cg_reduction_factor s, cg_zero_iters s) in
        let '(e, prev) := cg_compute_tolerance admm_iter rhs_norm prim_res dual_res factor (cg_eps_prev s) in (e, prev, factor, zero) in
    out <- cg_loop dcg P A s eps r1 fuel 0 (cg_x s) yw tmp ;;
    let '(req, x, yw, it) := out in
    let back x yw zero := mkcg (cg_polish s) (cg_m s) (cg_n s) (cg_sigma s) (cg_rho s) x yw (cg_precond_type s) (cg_precond s) (cg_precond_inv s)
      (cg_max_iter s) (cg_reduction_interval s) (cg_tol_fraction s) factor zero prev in
    if ((req =? 0) || (req =? 2))%Z then
      r1 <- vf_copy r1 x ;;
      r2 <- (if negb (cg_polish s) then csc_Axpy A x r2 n1 n0
             else r2 <- csc_Axpy A x r2 n1 (nopp n1) ;; vf_ew_prod r2 r2 (cg_rho s)) ;;
      b <- view_write b 0 (cg_n s) r1 ;;
      b <- view_write b (cg_n s) (cg_m s) r2 ;;
      Some (req, b, back x yw (if (it =? 0)%Z then zero + 1 else 0)%Z)
    else
      b <- view_write b 0 (cg_n s) r1 ;;
      Some (req, b, back x yw zero).
End Reduced.
