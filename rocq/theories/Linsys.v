(** The direct linear system solver: algebra/_common/lin_sys/qdldl/qdldl_interface.c.
    Memory allocation succeeds throughout this file. *)
From Coq Require Import ZArith List Bool.
From Verif Require Import Num Arr Csc Vec Types Kkt.
Import ListNotations.
Open Scope Z_scope.
Local Open Scope opt_scope.

(** What the library gets from outside (no assumption is made about any of it here):
    the ordering computed by amd_order for a matrix of the given size and pattern ([None]: failure),
    the status of QDLDL_etree/QDLDL_factor (negative: failure, otherwise the number of positive
    pivots), QDLDL_solve with the factors of a matrix, the t-th reading of the timer
    (src/timing_linux.c, osqp_toc), the t-th value of osqp_is_interrupted (src/interrupt_unix.c:31),
    and the content of fresh memory from malloc. *)
Record Env (K : NumOps) := mkEnv {
  env_amd : Z -> list Z -> list Z -> option (list Z);
  env_fac : csc K -> Z;
  env_ldlsolve : csc K -> list K -> list K;
  env_clock : nat -> K;
  env_int : nat -> bool;
  env_jz : Z;
  env_jx : K
}.
Arguments env_amd {K}. Arguments env_fac {K}. Arguments env_ldlsolve {K}.
Arguments env_clock {K}. Arguments env_int {K}. Arguments env_jz {K}. Arguments env_jx {K}.

(** include/public/osqp_api_constants.h, enum osqp_error_type *)
Definition OSQP_NO_ERROR : Z := 0.
Definition OSQP_DATA_VALIDATION_ERROR : Z := 1.
Definition OSQP_SETTINGS_VALIDATION_ERROR : Z := 2.
Definition OSQP_LINSYS_SOLVER_INIT_ERROR : Z := 3.
Definition OSQP_NONCVX_ERROR : Z := 4.
Definition OSQP_MEM_ALLOC_ERROR : Z := 5.
Definition OSQP_WORKSPACE_NOT_INIT_ERROR : Z := 6.

Section Linsys.
  Context {K : NumOps}.
  Variable E : Env K.
  Local Open Scope num_scope.

  (** qdldl_interface.c:85-134 *)
  Definition LDL_factor (A : csc K) (nvar : Z) : Z :=
    let st := env_fac E A in
    if (st <? 0)%Z then st else if (st <? nvar)%Z then (-2)%Z else 0%Z.

  (** qdldl_interface.c:180-194: the loop  map[i] = KtoPKPt[map[i]] *)
  Definition compose_map (KtoPKPt mp : list Z) (len : Z) : option (list Z) :=
    for_ 0 len (fun i mp => k <- zget mp i ;; q <- zget KtoPKPt k ;; zset mp i q) mp.

  (** qdldl_interface.c:137-212.  [perm] is the array p->P on entry; the result contains it on exit.
      When amd_order fails everything is left as it was. *)
  Definition permute_KKT (M : csc K) (perm : list Z) (Pnz Anz m : Z) (maps : option (list Z * list Z * list Z))
    : option (csc K * list Z * option (list Z * list Z * list Z)) :=
    match env_amd E (cn M) (cp M) (ci M) with
    | None => Some (M, perm, maps)
    | Some perm =>
        pinv <- csc_pinv (env_jz E) (Some perm) (cn M) ;;
        match maps with
        | None =>
            r <- csc_symperm (env_jz E) (env_jx E) M pinv None ;;
            Some (fst r, perm, None)
        | Some (mP, mA, mR) =>
            nz <- zget (cp M) (cn M) ;;
            r <- csc_symperm (env_jz E) (env_jx E) M pinv (Some (zrep nz (env_jz E))) ;;
            match snd r with
            | None => None
            | Some t =>
                mP <- compose_map t mP Pnz ;;
                mA <- compose_map t mA Anz ;;
                mR <- compose_map t mR m ;;
                Some (fst r, perm, Some (mP, mA, mR))
            end
        end
    end.

  (** qdldl_interface.c:216-382 (called through algebra/builtin/algebra_libs.c:46-70).
      Result: the exit flag and the new solver ([None]: the pointer is NULL). *)
  Definition init_linsys_solver (P A : csc K) (rho_vec : option (list K)) (st : settings K) (polishing : bool)
    : option (Z * option (linsys K)) :=
    let n := cn P in
    let m := cm A in
    let sigma := st_sigma st in
    let rho_inv := n1 / st_rho st in
    let perm0 := zrep (n + m)%Z (env_jz E) in
    rhov <- match rho_vec with
            | None => Some None
            | Some rv => if polishing then Some (Some (zrep m (env_jx E)))
                         else x <- for_ 0 m (fun i x => r <- zget rv i ;; zset x i (n1 / r)) (zrep m (env_jx E)) ;;
                              Some (Some x)
            end ;;
    if polishing then
      r <- form_KKT (env_jz E) (env_jx E) P A false sigma rhov sigma None None None ;;
      let '(M, _, _, _) := r in
      r <- permute_KKT M perm0 0 0 0 None ;;
      let '(M, perm, _) := r in
      if (LDL_factor M n <? 0)%Z then Some (OSQP_NONCVX_ERROR, None)
      else Some (OSQP_NO_ERROR, Some (mklinsys n m sigma rho_inv rhov true perm None [] [] [] M))
    else
      Pnz <- zget (cp P) n ;;
      Anz <- zget (cp A) n ;;
      r <- form_KKT (env_jz E) (env_jx E) P A false sigma rhov rho_inv
             (Some (zrep Pnz (env_jz E))) (Some (zrep Anz (env_jz E))) (Some (zrep m (env_jz E))) ;;
      match r with
      | (M, Some mP, Some mA, Some mR) =>
          r <- permute_KKT M perm0 Pnz Anz m (Some (mP, mA, mR)) ;;
          match r with
          | (M, perm, Some (mP, mA, mR)) =>
              if (LDL_factor M n <? 0)%Z then Some (OSQP_NONCVX_ERROR, None)
              else Some (OSQP_NO_ERROR, Some (mklinsys n m sigma rho_inv rhov false perm (Some M) mP mA mR M))
          | _ => None
          end
      | _ => None
      end.

  (** qdldl_interface.c:394-415; the scratch vector bp and the destination x are overwritten in full *)
  Definition LDLSolve (ls : linsys K) (x b : list K) : option (list K) :=
    let N := (ls_n ls + ls_m ls)%Z in
    bp <- for_ 0 N (fun j bp => q <- zget (ls_perm ls) j ;; v <- zget b q ;; zset bp j v) (zrep N (env_jx E)) ;;
    let bp := env_ldlsolve E (ls_fac ls) bp in
    for_ 0 N (fun j x => q <- zget (ls_perm ls) j ;; v <- zget bp j ;; zset x q v) x.

  (** qdldl_interface.c:418-462: the new content of b *)
  Definition solve_linsys (ls : linsys K) (b : list K) : option (list K) :=
    if ls_polishing ls then LDLSolve ls b b
    else
      let n := ls_n ls in
      let m := ls_m ls in
      sol <- LDLSolve ls (zrep (n + m)%Z (env_jx E)) b ;;
      b <- for_ 0 n (fun j b => v <- zget sol j ;; zset b j v) b ;;
      for_ 0 m (fun j b =>
        v <- zget b (j + n)%Z ;; s <- zget sol (j + n)%Z ;;
        r <- match ls_rho_inv_vec ls with Some rv => zget rv j | None => Some (ls_rho_inv ls) end ;;
        zset b (j + n)%Z (v + r * s)) b.

  (** qdldl_interface.c:468-493 *)
  Definition update_linsys_matrices (ls : linsys K) (P : csc K) (Pidx : option (list Z)) (Pn : Z)
             (A : csc K) (Aidx : option (list Z)) (An : Z) : option (Z * linsys K) :=
    M <- ls_KKT ls ;;
    x <- update_KKT_P (cx M) P Pidx Pn (ls_PtoKKT ls) (ls_sigma ls) false ;;
    x <- update_KKT_A x A Aidx An (ls_AtoKKT ls) ;;
    let M := set_x M x in
    let ls := set_ls_fac M (set_ls_KKT (Some M) ls) in
    Some (if (env_fac E M =? cn P)%Z then 0%Z else 1%Z, ls).

  (** qdldl_interface.c:496-526 *)
  Definition update_linsys_rho_vec (ls : linsys K) (rho_vec : option (list K)) (rho_sc : K)
    : option (Z * linsys K) :=
    let m := ls_m ls in
    ls <- match ls_rho_inv_vec ls with
          | Some x =>
              rv <- rho_vec ;;
              x <- for_ 0 m (fun i x => r <- zget rv i ;; zset x i (n1 / r)) x ;;
              Some (set_ls_rho_inv_vec (Some x) ls)
          | None => Some (set_ls_rho_inv (n1 / rho_sc) ls)
          end ;;
    M <- ls_KKT ls ;;
    x <- update_KKT_param2 (cx M) (ls_rho_inv_vec ls) (ls_rho_inv ls) (ls_rhotoKKT ls) m ;;
    let M := set_x M x in
    let ls := set_ls_fac M (set_ls_KKT (Some M) ls) in
    Some (if (env_fac E M <? 0)%Z then 1%Z else 0%Z, ls).
End Linsys.
