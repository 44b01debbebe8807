(** Data and settings validation (src/auxil.c:948-1223), default settings and the copy of settings. *)
From Coq Require Import ZArith List Bool.
From Verif Require Import Num Arr Csc Types.
Import ListNotations.
Open Scope Z_scope.
Local Open Scope opt_scope.

(** include/public/osqp_api_constants.h:52-61 *)
Definition OSQP_DIRECT_SOLVER : Z := 1.
Definition OSQP_INDIRECT_SOLVER : Z := 2.
(** include/public/osqp_api_constants.h:125-155 *)
Definition ADAPTIVE_RHO_DISABLED : Z := 0.
Definition ADAPTIVE_RHO_ITERATIONS : Z := 1.
Definition ADAPTIVE_RHO_TIME : Z := 2.
Definition ADAPTIVE_RHO_KKT_ERROR : Z := 3.
Definition ADAPTIVE_RHO_LAST_VALUE : Z := 4.
Definition OSQP_ADAPTIVE_RHO_MULTIPLE_TERMINATION : Z := 4.
Definition OSQP_ADAPTIVE_RHO_FIXED : Z := 100.
Definition OSQP_CHECK_TERMINATION : Z := 25.
Definition OSQP_PRINT_INTERVAL : Z := 200.

(** C's truth value of an integer, and the integer value of a test *)
Definition tr (z : Z) : bool := negb (z =? 0).
Definition b2z (b : bool) : Z := if b then 1 else 0.

Section Validate.
  Context {K : NumOps}.
  Local Open Scope num_scope.

  (** A read through a pointer that may be NULL *)
  Definition pget (o : option (list K)) (j : Z) : option K :=
    match o with None => None | Some v => zget v j end.

  (** auxil.c:986-993; stops at the first entry below the diagonal *)
  Definition below_diag (P : csc K) (n : Z) : option bool :=
    for_ 0 n (fun j (bad : bool) =>
      if bad then Some true else
      lo <- zget (cp P) j ;; hi <- zget (cp P) (j + 1)%Z ;;
      for_ lo hi (fun ptr (bad : bool) =>
        if bad then Some true else
        r <- zget (ci P) ptr ;; Some (j <? r)%Z) bad) false.

  (** auxil.c:1002-1008; stops at the first crossed pair *)
  Definition crossed_bounds (l u : option (list K)) (m : Z) : option bool :=
    for_ 0 m (fun j (bad : bool) =>
      if bad then Some true else
      a <- pget l j ;; b <- pget u j ;; Some (a >? b)) false.

  (** auxil.c:950-1013; true: invalid *)
  Definition validate_data (P : option (csc K)) (q : option (list K)) (A : option (csc K))
             (l u : option (list K)) (m n : Z) : option bool :=
    match P, A, q with
    | None, _, _ => Some true
    | Some _, None, _ => Some true
    | Some _, Some _, None => Some true
    | Some P, Some A, Some _ =>
        if (n <=? 0)%Z || (m <? 0)%Z then Some true else
        if negb (cm P =? n)%Z then Some true else
        if negb (cm P =? cn P)%Z then Some true else
        bad <- below_diag P n ;;
        if (bad : bool) then Some true else
        if negb (cm A =? m)%Z || negb (cn A =? n)%Z then Some true else
        crossed_bounds l u m
    end.

  (** auxil.c:1020-1037 with the capabilities of the built-in algebra
      (algebra/builtin/algebra_libs.c:8-12: only the direct solver) *)
  Definition validate_linsys_solver (v : Z) : bool :=
    if (v =? OSQP_INDIRECT_SOLVER)%Z && false then false
    else if (v =? OSQP_DIRECT_SOLVER)%Z && true then false
    else true.

  (** auxil.c:1040-1223; true: invalid.  Line 1122 is (from_setup && adaptive_rho < 0) || adaptive_rho >= 4. *)
  Definition validate_settings (st : option (settings K)) (from_setup : bool) : bool :=
    match st with
    | None => true
    | Some s =>
        if from_setup && validate_linsys_solver (st_linsys_solver s) then true else
        if from_setup && negb (st_allocate_solution s =? 0)%Z && negb (st_allocate_solution s =? 1)%Z then true else
        if negb (st_verbose s =? 0)%Z && negb (st_verbose s =? 1)%Z then true else
        if negb (st_profiler_level s =? 0)%Z && negb (st_profiler_level s =? 1)%Z
           && negb (st_profiler_level s =? 2)%Z then true else
        if negb (st_warm_starting s =? 0)%Z && negb (st_warm_starting s =? 1)%Z then true else
        if from_setup && (st_scaling s <? 0)%Z then true else
        if negb (st_polishing s =? 0)%Z && negb (st_polishing s =? 1)%Z then true else
        if from_setup && (st_rho s <=? n0) then true else
        if from_setup && negb (st_rho_is_vec s =? 0)%Z && negb (st_rho_is_vec s =? 1)%Z then true else
        if from_setup && (st_sigma s <=? n0) then true else
        if (st_alpha s <=? n0) || (st_alpha s >=? nofZ 2) then true else
        if (st_cg_max_iter s <=? 0)%Z then true else
        if (st_cg_tol_reduction s <=? 0)%Z then true else
        if (st_cg_tol_fraction s <=? n0) || (st_cg_tol_fraction s >=? n1) then true else
        if (from_setup && (st_adaptive_rho s <? 0)%Z) || (ADAPTIVE_RHO_LAST_VALUE <=? st_adaptive_rho s)%Z then true else
        if from_setup && (st_adaptive_rho_interval s <? 0)%Z then true else
        if from_setup && (st_adaptive_rho_fraction s <=? n0) then true else
        if from_setup && (st_adaptive_rho_tolerance s <? n1) then true else
        if (st_max_iter s <=? 0)%Z then true else
        if st_eps_abs s <? n0 then true else
        if st_eps_rel s <? n0 then true else
        if (st_eps_rel s =? n0) && (st_eps_abs s =? n0) then true else
        if st_eps_prim_inf s <=? n0 then true else
        if st_eps_dual_inf s <=? n0 then true else
        if negb (st_scaled_termination s =? 0)%Z && negb (st_scaled_termination s =? 1)%Z then true else
        if (st_check_termination s <? 0)%Z then true else
        if negb (st_check_dualgap s =? 0)%Z && negb (st_check_dualgap s =? 1)%Z then true else
        if st_time_limit s <=? n0 then true else
        if st_delta s <=? n0 then true else
        if (st_polish_refine_iter s <? 0)%Z then true else
        false
    end.

  (** osqp_api.c:283-327 with the constants of osqp_api_constants.h:96-185 *)
  Definition default_settings : settings K := mksettings
    0 OSQP_DIRECT_SOLVER 1 1 0 1 10 0
    (OSQP_RHO K) 1 (OSQP_SIGMA K) (OSQP_ALPHA K)
    20 10 (nlit 15 (-2)) 1
    1 50 (nlit 4 (-1)) (nofZ 5)
    4000 (nlit 1 (-3)) (nlit 1 (-3)) (nlit 1 (-4)) (nlit 1 (-4))
    0 OSQP_CHECK_TERMINATION 1 (nlit 1 10)
    (nlit 1 (-6)) 3.

  (** util.c:304-352 with a successful allocator: every field is copied *)
  Definition copy_settings (s : settings K) : settings K := mksettings
    (st_device s) (st_linsys_solver s) (st_allocate_solution s) (st_verbose s) (st_profiler_level s)
    (st_warm_starting s) (st_scaling s) (st_polishing s)
    (st_rho s) (st_rho_is_vec s) (st_sigma s) (st_alpha s)
    (st_cg_max_iter s) (st_cg_tol_reduction s) (st_cg_tol_fraction s) (st_cg_precond s)
    (st_adaptive_rho s) (st_adaptive_rho_interval s) (st_adaptive_rho_fraction s) (st_adaptive_rho_tolerance s)
    (st_max_iter s) (st_eps_abs s) (st_eps_rel s) (st_eps_prim_inf s) (st_eps_dual_inf s)
    (st_scaled_termination s) (st_check_termination s) (st_check_dualgap s) (st_time_limit s)
    (st_delta s) (st_polish_refine_iter s).
End Validate.
