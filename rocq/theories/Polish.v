(** src/polish.c.  Memory allocation succeeds. *)
From Coq Require Import ZArith List Bool.
From Verif Require Import Num Arr Csc Vec Types Linsys Scaling Validate Auxil.
Import ListNotations.
Open Scope Z_scope.
Local Open Scope opt_scope.

Section Polish.
  Context {K : NumOps}.
  Variable E : Env K.
  Local Open Scope num_scope.

  (** polish.c:64-80: the flag of one constraint *)
  Definition active_flag (z l u y : K) : Z :=
    if (z - l <? - y) || (l =? u) then (-1)%Z
    else if u - z <? y then 1%Z
    else 0%Z.

  (** polish.c:19-101: the new polishing structure and Ared *)
  Definition form_Ared (w : work K) : option (pol K * csc K) :=
    let d := w_data w in
    r <- for_ 0 (d_m d) (fun j (s : list Z * Z) =>
           let '(fl, c) := s in
           z <- zget (w_z w) j ;; l <- zget (d_l d) j ;; u <- zget (d_u d) j ;; y <- zget (w_y w) j ;;
           let f := active_flag z l u y in
           fl <- zset fl j f ;;
           Some (fl, if (f =? 0)%Z then c else (c + 1)%Z)) (p_active_flags (w_pol w), 0%Z) ;;
    let '(fl, n_active) := r in
    A <- csc_submatrix_byrows (env_jz E) (env_jx E) (d_A d) fl ;;
    Some (set_p_active_flags fl (set_p_n_active n_active (w_pol w)), A).

  (** polish.c:109-174 *)
  Definition form_rhs_red (w : work K) (rhs : list K) : option (list K) :=
    let d := w_data w in
    let fl := p_active_flags (w_pol w) in
    rhs <- for_ 0 (d_n d) (fun j r => q <- zget (d_q d) j ;; zset r j (- q)) rhs ;;
    r <- for_ 0 (d_m d) (fun j (s : list K * Z) =>
           let '(r, c) := s in
           f <- zget fl j ;;
           if (f =? -1)%Z then
             l <- zget (d_l d) j ;; r <- zset r (d_n d + c)%Z l ;; Some (r, (c + 1)%Z)
           else if (f =? 1)%Z then
             u <- zget (d_u d) j ;; r <- zset r (d_n d + c)%Z u ;; Some (r, (c + 1)%Z)
           else Some (r, c)) (rhs, 0%Z) ;;
    Some (fst r).

  (** polish.c:187-244: the refined z.  The views rhs1, rhs2, z1, z2 are slices. *)
  Definition iterative_refinement (st : settings K) (w : work K) (Ared : csc K) (p : linsys K)
             (z b : list K) : option (list K) :=
    if (st_polish_refine_iter st <=? 0)%Z then Some z else
    let n := d_n (w_data w) in
    let mred := cm Ared in
    r <- for_ 0 (st_polish_refine_iter st) (fun _ (s : list K * list K) =>
           let '(z, rhs) := s in
           rhs <- vf_copy rhs b ;;
           z1 <- view z 0 n ;;
           z2 <- view z n mred ;;
           rhs1 <- view rhs 0 n ;;
           rhs1 <- csc_Axpy_sym_triu (d_P (w_data w)) z1 rhs1 (- n1) n1 ;;
           rhs1 <- csc_Atxpy Ared z2 rhs1 (- n1) n1 ;;
           rhs2 <- view rhs n mred ;;
           rhs2 <- csc_Axpy Ared z1 rhs2 (- n1) n1 ;;
           rhs <- view_write rhs 0 n rhs1 ;;
           rhs <- view_write rhs n mred rhs2 ;;
           rhs <- solve_linsys E p rhs ;;
           z <- vf_plus z z rhs ;;
           Some (z, rhs)) (z, zrep (n + mred)%Z (env_jx E)) ;;
    Some (fst r).

  (** polish.c:252-315: the new work->pol->y *)
  Definition get_ypol_from_yred (w : work K) (yred : list K) : option (list K) :=
    let pl := w_pol w in
    if (p_n_active pl =? 0)%Z then Some (vf_set_scalar (p_y pl) n0) else
    y <- vf_from_raw (w_y w) (w_y w) ;;
    r <- for_ 0 (d_m (w_data w)) (fun j (s : list K * Z) =>
           let '(y, c) := s in
           f <- zget (p_active_flags pl) j ;;
           if (f =? 0)%Z then y <- zset y j n0 ;; Some (y, c)
           else v <- zget yred c ;; y <- zset y j v ;; Some (y, (c + 1)%Z)) (y, 0%Z) ;;
    vf_from_raw (p_y pl) (fst r).

  (** The literal 1e-10 of polish.c:472-480 *)
  Definition tiny : K := nlit 1 (-10).

  (** polish.c:464-480 *)
  Definition polish_successful (pl : pol K) (i : info K) : bool :=
    ((p_prim_res pl <? i_prim_res i) && (p_dual_res pl <? i_dual_res i)) ||
    ((p_prim_res pl <? i_prim_res i) && (i_dual_res i <? tiny)) ||
    ((p_dual_res pl <? i_dual_res i) && (i_prim_res i <? tiny)).

  (** polish.c:317-515: the exit flag and the solver *)
  Definition polish (s : solver K) : option (Z * solver K) :=
    r <- form_Ared (sv_work s) ;;
    let '(pl, Ared) := r in
    let s := set_sv_work (set_w_pol pl (sv_work s)) s in
    let n := d_n (w_data (sv_work s)) in
    if (p_n_active pl =? 0)%Z then
      Some (OSQP_NO_ERROR, set_sv_info (set_i_status_polish OSQP_POLISH_NO_ACTIVE_SET_FOUND (sv_info s)) s)
    else
    r <- init_linsys_solver E (d_P (w_data (sv_work s))) Ared None (sv_settings s) true ;;
    match r with
    | (flag, None) =>
        Some (flag, set_sv_info (set_i_status_polish OSQP_POLISH_LINSYS_ERROR (sv_info s)) s)
    | (_, Some plsh) =>
        rhs_red <- form_rhs_red (sv_work s) (zrep (n + p_n_active pl)%Z (env_jx E)) ;;
        pol_sol <- solve_linsys E plsh rhs_red ;;
        pol_sol <- iterative_refinement (sv_settings s) (sv_work s) Ared plsh pol_sol rhs_red ;;
        xv <- view pol_sol 0 n ;;
        yv <- view pol_sol n (p_n_active pl) ;;
        x <- vf_copy (p_x pl) xv ;;
        z <- csc_Axpy (d_A (w_data (sv_work s))) x (p_z pl) n1 n0 ;;
        y <- get_ypol_from_yred (sv_work s) yv ;;
        y <- vf_plus y y z ;;
        z <- vf_ew_bound_vec z y (d_l (w_data (sv_work s))) (d_u (w_data (sv_work s))) ;;
        y <- vf_minus y y z ;;
        let pl := set_p_x x (set_p_z z (set_p_y y pl)) in
        let s := set_sv_work (set_w_pol pl (sv_work s)) s in
        s <- update_info_polish E s ;;
        let w := sv_work s in
        let pl := w_pol w in
        let i := sv_info s in
        if polish_successful pl i then
          let i := set_i_obj_val (p_obj_val pl) (set_i_dual_obj_val (p_dual_obj_val pl)
                     (set_i_duality_gap (p_duality_gap pl) (set_i_prim_res (p_prim_res pl)
                     (set_i_dual_res (p_dual_res pl) (set_i_status_polish OSQP_POLISH_SUCCESS i))))) in
          x <- vf_copy (w_x w) (p_x pl) ;;
          z <- vf_copy (w_z w) (p_z pl) ;;
          y <- vf_copy (w_y w) (p_y pl) ;;
          Some (OSQP_NO_ERROR, set_sv_info i (set_sv_work (set_w_x x (set_w_z z (set_w_y y w))) s))
        else
          Some (OSQP_NO_ERROR, set_sv_info (set_i_status_polish OSQP_POLISH_FAILED i) s)
    end.
End Polish.
