(** The ADMM iteration, residuals, termination tests and solver information: src/auxil.c, and
    osqp_update_rho, osqp_cold_start (src/osqp_api.c) which it calls. *)
From Coq Require Import ZArith List Bool String.
From Verif Require Import Num Arr Csc Vec Types Linsys Scaling Validate.
Import ListNotations.
Open Scope Z_scope.
Local Open Scope opt_scope.

(** include/public/osqp_api_constants.h:20-50 *)
Definition OSQP_SOLVED : Z := 1.
Definition OSQP_SOLVED_INACCURATE : Z := 2.
Definition OSQP_PRIMAL_INFEASIBLE : Z := 3.
Definition OSQP_PRIMAL_INFEASIBLE_INACCURATE : Z := 4.
Definition OSQP_DUAL_INFEASIBLE : Z := 5.
Definition OSQP_DUAL_INFEASIBLE_INACCURATE : Z := 6.
Definition OSQP_MAX_ITER_REACHED : Z := 7.
Definition OSQP_TIME_LIMIT_REACHED : Z := 8.
Definition OSQP_NON_CVX : Z := 9.
Definition OSQP_SIGINT : Z := 10.
Definition OSQP_UNSOLVED : Z := 11.
Definition OSQP_POLISH_LINSYS_ERROR : Z := -2.
Definition OSQP_POLISH_FAILED : Z := -1.
Definition OSQP_POLISH_NOT_PERFORMED : Z := 0.
Definition OSQP_POLISH_SUCCESS : Z := 1.
Definition OSQP_POLISH_NO_ACTIVE_SET_FOUND : Z := 2.

(** auxil.c:784-797 *)
Definition OSQP_STATUS_MESSAGE : list string := [
  ""%string; "solved"%string; "solved inaccurate"%string; "primal infeasible"%string;
  "primal infeasible inaccurate"%string; "dual infeasible"%string; "dual infeasible inaccurate"%string;
  "maximum iterations reached"%string; "run time limit reached"%string; "problem non convex"%string;
  "interrupted"%string; "unsolved"%string ].

Section Auxil.
  Context {K : NumOps}.
  Variable E : Env K.
  Local Open Scope num_scope.

  (** The expression OSQP_INFTY * OSQP_MIN_SCALING *)
  Definition infval : K := OSQP_INFTY K * OSQP_MIN_SCALING K.

  (** settings->scaling && !settings->scaled_termination *)
  Definition unscaled_termination (st : settings K) : bool := tr (st_scaling st) && negb (tr (st_scaled_termination st)).

  (** osqp_toc (src/timing_linux.c:48-55): the next reading of the clock *)
  Definition toc (s : solver K) : K * solver K :=
    let g := sv_world s in
    (env_clock E (g_tocs g), set_sv_world (set_g_tocs (S (g_tocs g)) g) s).

  (** auxil.c:799-806 *)
  Definition update_status (i : info K) (v : Z) : option (info K) :=
    msg <- zget OSQP_STATUS_MESSAGE v ;;
    Some (set_i_status msg (set_i_status_val v i)).

  (** auxil.c:14-47 *)
  Definition compute_rho_estimate (st : settings K) (w : work K) : K :=
    let prim_res_norm := c_max (vf_norm_inf (w_z w)) (vf_norm_inf (w_Ax w)) in
    let prim_res := w_scaled_prim_res w / (prim_res_norm + OSQP_DIVISION_TOL K) in
    let dual_res_norm := c_max (vf_norm_inf (d_q (w_data w))) (vf_norm_inf (w_Aty w)) in
    let dual_res_norm := c_max dual_res_norm (vf_norm_inf (w_Px w)) in
    let dual_res := w_scaled_dual_res w / (dual_res_norm + OSQP_DIVISION_TOL K) in
    let rho_estimate := st_rho st * nsqrt (prim_res / dual_res) in
    c_min (c_max rho_estimate (OSQP_RHO_MIN K)) (OSQP_RHO_MAX K).

  (** osqp_api.c:1439-1450, auxil.c:95-102: rho_vec and rho_inv_vec from the constraint types *)
  Definition refresh_rho_vec (rho : K) (w : work K) : option (work K) :=
    rv <- w_rho_vec w ;; ri <- w_rho_inv_vec w ;; ct <- w_constr_type w ;;
    rv <- vf_set_scalar_conditional rv ct (OSQP_RHO_MIN K) rho (OSQP_RHO_EQ_OVER_RHO_INEQ K * rho) ;;
    ri <- vf_ew_reciprocal ri rv ;;
    Some (set_w_rho_vec (Some rv) (set_w_rho_inv_vec (Some ri) w)).

  (** auxil.c:76-105 *)
  Definition set_rho_vec (s : solver K) : option (bool * solver K) :=
    let st := sv_settings s in
    let rho := c_min (c_max (st_rho st) (OSQP_RHO_MIN K)) (OSQP_RHO_MAX K) in
    let s := set_sv_settings (set_st_rho rho st) s in
    let w := sv_work s in
    ct <- w_constr_type w ;;
    r <- vf_ew_bounds_type ct (d_l (w_data w)) (d_u (w_data w)) (OSQP_RHO_TOL K) infval ;;
    let w := set_w_constr_type (Some (fst r)) w in
    w <- refresh_rho_vec rho w ;;
    Some (snd r, set_sv_work w s).

  (** auxil.c:107-122 *)
  Definition update_rho_vec (s : solver K) : option (Z * solver K) :=
    r <- set_rho_vec s ;;
    let '(changed, s) := r in
    if (changed : bool) then
      ls <- w_linsys (sv_work s) ;;
      r <- update_linsys_rho_vec E ls (w_rho_vec (sv_work s)) (st_rho (sv_settings s)) ;;
      Some (fst r, set_sv_work (set_w_linsys (Some (snd r)) (sv_work s)) s)
    else Some (0%Z, s).

  (** osqp_api.c:1412-1464 for an initialised solver *)
  Definition update_rho (s : solver K) (rho_new : K) : option (Z * solver K) :=
    if rho_new <=? n0 then Some (1%Z, s) else
    let s := if (w_rho_update_from_solve (sv_work s) =? 0)%Z && (w_clear_update_time (sv_work s) =? 1)%Z
             then set_sv_info (set_i_update_time n0 (sv_info s))
                    (set_sv_work (set_w_clear_update_time 0%Z (sv_work s)) s)
             else s in
    let rho := c_min (c_max rho_new (OSQP_RHO_MIN K)) (OSQP_RHO_MAX K) in
    let s := set_sv_settings (set_st_rho rho (sv_settings s)) s in
    w <- (if tr (st_rho_is_vec (sv_settings s)) then refresh_rho_vec rho (sv_work s)
          else Some (set_w_rho_inv (n1 / rho) (sv_work s))) ;;
    ls <- w_linsys w ;;
    r <- update_linsys_rho_vec E ls (w_rho_vec w) rho ;;
    let s := set_sv_work (set_w_linsys (Some (snd r)) w) s in
    let s := if (w_rho_update_from_solve (sv_work s) =? 0)%Z
             then let '(t, s) := toc s in
                  set_sv_info (set_i_update_time (i_update_time (sv_info s) + t) (sv_info s)) s
             else s in
    Some (fst r, s).

  (** auxil.c:49-74 *)
  Definition adapt_rho (s : solver K) : option (Z * solver K) :=
    let rho_new := compute_rho_estimate (sv_settings s) (sv_work s) in
    let s := set_sv_info (set_i_rho_estimate rho_new (sv_info s)) s in
    let st := sv_settings s in
    if (rho_new >? st_rho st * st_adaptive_rho_tolerance st) || (rho_new <? st_rho st / st_adaptive_rho_tolerance st)
    then
      r <- update_rho s rho_new ;;
      let '(flag, s) := r in
      let s := set_sv_info (set_i_rho_updates (i_rho_updates (sv_info s) + 1)%Z (sv_info s)) s in
      Some (flag, set_sv_work (set_w_rho_updated 1%Z (sv_work s)) s)
    else Some (0%Z, s).

  (** auxil.c:127-134 applied to x, x_prev and z, z_prev (osqp_api.c:704-705) *)
  Definition swap_iterates (w : work K) : work K :=
    set_w_x (w_x_prev w) (set_w_x_prev (w_x w) (set_w_z (w_z_prev w) (set_w_z_prev (w_z w) w))).

  (** The vectors behind work->xtilde_view and work->ztilde_view (osqp_api.c:412-413) *)
  Definition xtilde (w : work K) : option (list K) := view (w_xz_tilde w) 0 (d_n (w_data w)).
  Definition ztilde (w : work K) : option (list K) := view (w_xz_tilde w) (d_n (w_data w)) (d_m (w_data w)).
  (** The same vectors written through the views *)
  Definition write_xtilde (v : list K) (w : work K) : option (work K) :=
    t <- view_write (w_xz_tilde w) 0 (d_n (w_data w)) v ;; Some (set_w_xz_tilde t w).
  Definition write_ztilde (v : list K) (w : work K) : option (work K) :=
    t <- view_write (w_xz_tilde w) (d_n (w_data w)) (d_m (w_data w)) v ;; Some (set_w_xz_tilde t w).

  (** auxil.c:136-158 *)
  Definition compute_rhs (st : settings K) (w : work K) : option (work K) :=
    xt <- xtilde w ;;
    v <- vf_add_scaled false xt (st_sigma st) (w_x_prev w) (- n1) (d_q (w_data w)) ;;
    w <- write_xtilde v w ;;
    zt <- ztilde w ;;
    if tr (st_rho_is_vec st) then
      ri <- w_rho_inv_vec w ;;
      v <- vf_ew_prod zt ri (w_y w) ;;
      v <- vf_add_scaled true v (- n1) v n1 (w_z_prev w) ;;
      write_ztilde v w
    else
      v <- vf_add_scaled false zt n1 (w_z_prev w) (- w_rho_inv w) (w_y w) ;;
      write_ztilde v w.

  (** auxil.c:160-170 *)
  Definition update_xz_tilde (st : settings K) (w : work K) : option (work K) :=
    w <- compute_rhs st w ;;
    ls <- w_linsys w ;;
    b <- solve_linsys E ls (w_xz_tilde w) ;;
    Some (set_w_xz_tilde b w).

  (** auxil.c:172-184 *)
  Definition update_x (st : settings K) (w : work K) : option (work K) :=
    xt <- xtilde w ;;
    x <- vf_add_scaled false (w_x w) (st_alpha st) xt (n1 - st_alpha st) (w_x_prev w) ;;
    let w := set_w_x x w in
    dx <- vf_minus (w_delta_x w) (w_x w) (w_x_prev w) ;;
    Some (set_w_delta_x dx w).

  (** auxil.c:186-208 *)
  Definition update_z (st : settings K) (w : work K) : option (work K) :=
    zt <- ztilde w ;;
    z <- (if tr (st_rho_is_vec st) then
            ri <- w_rho_inv_vec w ;;
            z <- vf_ew_prod (w_z w) ri (w_y w) ;;
            vf_add_scaled3 true z n1 z (st_alpha st) zt (n1 - st_alpha st) (w_z_prev w)
          else
            vf_add_scaled3 false (w_z w) (st_alpha st) zt (n1 - st_alpha st) (w_z_prev w) (w_rho_inv w) (w_y w)) ;;
    z <- vf_ew_bound_vec z z (d_l (w_data w)) (d_u (w_data w)) ;;
    Some (set_w_z z w).

  (** auxil.c:210-229 *)
  Definition update_y (st : settings K) (w : work K) : option (work K) :=
    zt <- ztilde w ;;
    dy <- vf_add_scaled3 false (w_delta_y w) (st_alpha st) zt (n1 - st_alpha st) (w_z_prev w) (- n1) (w_z w) ;;
    dy <- (if tr (st_rho_is_vec st) then rv <- w_rho_vec w ;; vf_ew_prod dy dy rv
           else Some (vf_mult_scalar dy (st_rho st))) ;;
    let w := set_w_delta_y dy w in
    y <- vf_plus (w_y w) (w_y w) (w_delta_y w) ;;
    Some (set_w_y y w).

  (** auxil.c:231-285: prim_obj_val, dual_obj_val, duality_gap and the workspace *)
  Definition compute_obj_val_dual_gap (st : settings K) (w : work K) (x y : list K)
    : option (K * K * K * work K) :=
    let d := w_data w in
    quad_term <- vf_dot_prod (w_Px w) x ;;
    lin_term <- vf_dot_prod (d_q d) x ;;
    zp <- vf_copy (w_z_prev w) y ;;
    zp <- vf_project_polar_reccone zp (d_l d) (d_u d) infval ;;
    let zp := vf_round_to_zero zp (OSQP_ZERO_DEADZONE K) in
    let w := set_w_z_prev zp w in
    su <- vf_dot_prod_signed (d_u d) zp 1 ;;
    sl <- vf_dot_prod_signed (d_l d) zp (-1) ;;
    let sup_term := su + sl in
    let p := nlit 5 (-1) * quad_term + lin_term in
    let dv := - nlit 5 (-1) * quad_term - sup_term in
    let gap := quad_term + lin_term + sup_term in
    let w := set_w_scaled_dual_gap gap w in
    r <- (if tr (st_scaling st) then
            sc <- w_scaling w ;;
            Some (p * sc_cinv sc, dv * sc_cinv sc, sc_cinv sc * gap)
          else Some (p, dv, gap)) ;;
    let '(p, dv, g) := r in
    Some (p, dv, g, set_w_xtPx quad_term (set_w_qtx lin_term (set_w_SC sup_term w))).

  (** auxil.c:287-306 *)
  Definition compute_duality_gap_tol (st : settings K) (w : work K) (eps_abs eps_rel : K) : option K :=
    let m := c_absval (w_xtPx w) in
    let m := c_max m (c_absval (w_qtx w)) in
    let m := c_max m (c_absval (w_SC w)) in
    m <- (if unscaled_termination st then sc <- w_scaling w ;; Some (sc_cinv sc * m) else Some m) ;;
    Some (eps_abs + eps_rel * m).

  (** auxil.c:308-332 *)
  Definition compute_prim_res (st : settings K) (w : work K) (x z : list K) : option (K * work K) :=
    Ax <- csc_Axpy (d_A (w_data w)) x (w_Ax w) n1 n0 ;;
    let w := set_w_Ax Ax w in
    zp <- vf_minus (w_z_prev w) Ax z ;;
    let w := set_w_z_prev zp w in
    let w := set_w_scaled_prim_res (vf_norm_inf zp) w in
    if unscaled_termination st then
      sc <- w_scaling w ;;
      r <- vf_scaled_norm_inf (sc_Einv sc) zp ;;
      Some (r, w)
    else Some (w_scaled_prim_res w, w).

  (** auxil.c:334-369 *)
  Definition compute_prim_tol (st : settings K) (w : work K) (eps_abs eps_rel : K) : option K :=
    m <- (if unscaled_termination st then
            sc <- w_scaling w ;;
            a <- vf_scaled_norm_inf (sc_Einv sc) (w_z w) ;;
            b <- vf_scaled_norm_inf (sc_Einv sc) (w_Ax w) ;;
            Some (c_max a b)
          else Some (c_max (vf_norm_inf (w_z w)) (vf_norm_inf (w_Ax w)))) ;;
    Some (eps_abs + eps_rel * m).

  (** auxil.c:371-410 *)
  Definition compute_dual_res (st : settings K) (w : work K) (x y : list K) : option (K * work K) :=
    let d := w_data w in
    r <- vf_copy (w_x_prev w) (d_q d) ;;
    Px <- csc_Axpy_sym_triu (d_P d) x (w_Px w) n1 n0 ;;
    let w := set_w_Px Px w in
    r <- vf_plus r r Px ;;
    rw <- (if tr (d_m d) then
             Aty <- csc_Atxpy (d_A d) y (w_Aty w) n1 n0 ;;
             r <- vf_plus r r Aty ;;
             Some (r, set_w_Aty Aty w)
           else Some (r, w)) ;;
    let '(r, w) := rw in
    let w := set_w_x_prev r w in
    let w := set_w_scaled_dual_res (vf_norm_inf r) w in
    if unscaled_termination st then
      sc <- w_scaling w ;;
      t <- vf_scaled_norm_inf (sc_Dinv sc) r ;;
      Some (sc_cinv sc * t, w)
    else Some (w_scaled_dual_res w, w).

  (** auxil.c:412-458 *)
  Definition compute_dual_tol (st : settings K) (w : work K) (eps_abs eps_rel : K) : option K :=
    let q := d_q (w_data w) in
    m <- (if unscaled_termination st then
            sc <- w_scaling w ;;
            a <- vf_scaled_norm_inf (sc_Dinv sc) q ;;
            b <- vf_scaled_norm_inf (sc_Dinv sc) (w_Aty w) ;;
            let a := c_max a b in
            b <- vf_scaled_norm_inf (sc_Dinv sc) (w_Px w) ;;
            Some (c_max a b * sc_cinv sc)
          else
            Some (c_max (c_max (vf_norm_inf q) (vf_norm_inf (w_Aty w))) (vf_norm_inf (w_Px w)))) ;;
    Some (eps_abs + eps_rel * m).

  (** auxil.c:460-512 *)
  Definition is_primal_infeasible (st : settings K) (w : work K) (eps_prim_inf : K) : option (bool * work K) :=
    let d := w_data w in
    dy <- vf_project_polar_reccone (w_delta_y w) (d_l d) (d_u d) infval ;;
    let w := set_w_delta_y dy w in
    r <- (if unscaled_termination st then
            sc <- w_scaling w ;;
            t <- vf_ew_prod (w_Adelta_x w) (sc_E sc) dy ;;
            Some (vf_norm_inf t, set_w_Adelta_x t w)
          else Some (vf_norm_inf dy, w)) ;;
    let '(norm_delta_y, w) := r in
    if norm_delta_y >? OSQP_DIVISION_TOL K then
      a <- vf_dot_prod_signed (d_u d) dy 1 ;;
      b <- vf_dot_prod_signed (d_l d) dy (-1) ;;
      if a + b <? n0 then
        t <- csc_Atxpy (d_A d) dy (w_Atdelta_y w) n1 n0 ;;
        t <- (if unscaled_termination st then sc <- w_scaling w ;; vf_ew_prod t t (sc_Dinv sc) else Some t) ;;
        Some (vf_norm_inf t <? eps_prim_inf * norm_delta_y, set_w_Atdelta_y t w)
      else Some (false, w)
    else Some (false, w).

  (** auxil.c:514-588 *)
  Definition is_dual_infeasible (st : settings K) (w : work K) (eps_dual_inf : K) : option (bool * work K) :=
    let d := w_data w in
    r <- (if unscaled_termination st then
            sc <- w_scaling w ;;
            t <- vf_scaled_norm_inf (sc_D sc) (w_delta_x w) ;;
            Some (t, sc_c sc)
          else Some (vf_norm_inf (w_delta_x w), n1)) ;;
    let '(norm_delta_x, cost_scaling) := r in
    if norm_delta_x >? OSQP_DIVISION_TOL K then
      a <- vf_dot_prod (d_q d) (w_delta_x w) ;;
      if a <? n0 then
        t <- csc_Axpy_sym_triu (d_P d) (w_delta_x w) (w_Pdelta_x w) n1 n0 ;;
        t <- (if unscaled_termination st then sc <- w_scaling w ;; vf_ew_prod t t (sc_Dinv sc) else Some t) ;;
        let w := set_w_Pdelta_x t w in
        if vf_norm_inf t <? cost_scaling * eps_dual_inf * norm_delta_x then
          t <- csc_Axpy (d_A d) (w_delta_x w) (w_Adelta_x w) n1 n0 ;;
          t <- (if unscaled_termination st then sc <- w_scaling w ;; vf_ew_prod t t (sc_Einv sc) else Some t) ;;
          let w := set_w_Adelta_x t w in
          b <- vf_in_reccone t (d_l d) (d_u d) infval (eps_dual_inf * norm_delta_x) ;;
          Some (b, w)
        else Some (false, w)
      else Some (false, w)
    else Some (false, w).

  (** auxil.c:590-596 *)
  Definition has_solution (i : info K) : bool :=
    negb (i_status_val i =? OSQP_PRIMAL_INFEASIBLE)%Z &&
    negb (i_status_val i =? OSQP_PRIMAL_INFEASIBLE_INACCURATE)%Z &&
    negb (i_status_val i =? OSQP_DUAL_INFEASIBLE)%Z &&
    negb (i_status_val i =? OSQP_DUAL_INFEASIBLE_INACCURATE)%Z &&
    negb (i_status_val i =? OSQP_NON_CVX)%Z.

  (** osqp_api.c:1296-1304; [None] when the linear system solver is NULL (its warm_start does nothing,
      qdldl_interface.c:31-37) *)
  Definition cold_start (w : work K) : option (work K) :=
    w_linsys w ;;;
    Some (set_w_x (vf_set_scalar (w_x w) n0) (set_w_z (vf_set_scalar (w_z w) n0)
            (set_w_y (vf_set_scalar (w_y w) n0) w))).

  (** auxil.c:598-674: the solver and the solution structure *)
  Definition store_solution (s : solver K) (sol : option (solution K)) : option (solver K * option (solution K)) :=
    match sol with
    | None => Some (s, None)
    | Some sol =>
        let i := sv_info s in
        let w := sv_work s in
        if has_solution i then
          r <- (if tr (st_scaling (sv_settings s)) then
                  sc <- w_scaling w ;;
                  xy <- unscale_solution (w_x_prev w) (w_z_prev w) (w_x w) (w_y w) sc ;;
                  let w := set_w_x_prev (fst xy) (set_w_z_prev (snd xy) w) in
                  x <- vf_to_raw (so_x sol) (w_x_prev w) ;;
                  y <- vf_to_raw (so_y sol) (w_z_prev w) ;;
                  Some (x, y, w)
                else
                  x <- vf_to_raw (so_x sol) (w_x w) ;;
                  y <- vf_to_raw (so_y sol) (w_y w) ;;
                  Some (x, y, w)) ;;
          let '(x, y, w) := r in
          let w := set_w_delta_y (vf_set_scalar (w_delta_y w) (OSQP_NAN K)) w in
          let w := set_w_delta_x (vf_set_scalar (w_delta_x w) (OSQP_NAN K)) w in
          pc <- vf_to_raw (so_prim_inf_cert sol) (w_delta_y w) ;;
          dc <- vf_to_raw (so_dual_inf_cert sol) (w_delta_x w) ;;
          Some (set_sv_work w s, Some (mksolution x y pc dc))
        else
          let w := set_w_x (vf_set_scalar (w_x w) (OSQP_NAN K)) w in
          let w := set_w_y (vf_set_scalar (w_y w) (OSQP_NAN K)) w in
          x <- vf_to_raw (so_x sol) (w_x w) ;;
          y <- vf_to_raw (so_y sol) (w_y w) ;;
          let sol := set_so_x x (set_so_y y sol) in
          w <- cold_start w ;;
          r <- (if (i_status_val i =? OSQP_PRIMAL_INFEASIBLE)%Z || (i_status_val i =? OSQP_PRIMAL_INFEASIBLE_INACCURATE)%Z then
                  let w := set_w_delta_y (vf_mult_scalar (w_delta_y w) (n1 / vf_norm_inf (w_delta_y w))) w in
                  pc <- vf_to_raw (so_prim_inf_cert sol) (w_delta_y w) ;;
                  let w := set_w_delta_x (vf_set_scalar (w_delta_x w) (OSQP_NAN K)) w in
                  dc <- vf_to_raw (so_dual_inf_cert sol) (w_delta_x w) ;;
                  Some (w, set_so_prim_inf_cert pc (set_so_dual_inf_cert dc sol))
                else Some (w, sol)) ;;
          let '(w, sol) := r in
          r <- (if (i_status_val i =? OSQP_DUAL_INFEASIBLE)%Z || (i_status_val i =? OSQP_DUAL_INFEASIBLE_INACCURATE)%Z then
                  let w := set_w_delta_x (vf_mult_scalar (w_delta_x w) (n1 / vf_norm_inf (w_delta_x w))) w in
                  dc <- vf_to_raw (so_dual_inf_cert sol) (w_delta_x w) ;;
                  let w := set_w_delta_y (vf_set_scalar (w_delta_y w) (OSQP_NAN K)) w in
                  pc <- vf_to_raw (so_prim_inf_cert sol) (w_delta_y w) ;;
                  Some (w, set_so_prim_inf_cert pc (set_so_dual_inf_cert dc sol))
                else Some (w, sol)) ;;
          let '(w, sol) := r in
          Some (set_sv_work w s, Some sol)
    end.

  (** auxil.c:725-732 (prim_res, dual_res, objectives and gap of the iterate x, y, z) *)
  Definition residuals (st : settings K) (w : work K) (x y z : list K) : option (K * K * K * K * K * work K) :=
    r <- (if (d_m (w_data w) =? 0)%Z then Some (n0, w) else compute_prim_res st w x z) ;;
    let '(pr, w) := r in
    r <- compute_dual_res st w x y ;;
    let '(dr, w) := r in
    r <- compute_obj_val_dual_gap st w x y ;;
    let '(p, dv, g, w) := r in
    Some (pr, dr, p, dv, g, w).

  (** auxil.c:676-762 with polishing = 0 *)
  Definition update_info (s : solver K) (iter : Z) : option (solver K) :=
    let s := set_sv_info (set_i_iter iter (sv_info s)) s in
    let w := sv_work s in
    r <- residuals (sv_settings s) w (w_x w) (w_y w) (w_z w) ;;
    let '(pr, dr, p, dv, g, w) := r in
    let s := set_sv_work w s in
    let i := sv_info s in
    let i := set_i_prim_res pr (set_i_dual_res dr (set_i_obj_val p (set_i_dual_obj_val dv (set_i_duality_gap g i)))) in
    let i := set_i_primdual_int (i_primdual_int i + c_absval g) i in
    let '(t, s) := toc s in
    let i := set_i_solve_time t i in
    let i := set_i_rel_kkt_error (c_max (c_max dr pr) g) i in
    Some (set_sv_info i (set_sv_work (set_w_summary_printed 0%Z (sv_work s)) s)).

  (** auxil.c:676-762 with polishing = 1 *)
  Definition update_info_polish (s : solver K) : option (solver K) :=
    let w := sv_work s in
    let pl := w_pol w in
    r <- residuals (sv_settings s) w (p_x pl) (p_y pl) (p_z pl) ;;
    let '(pr, dr, p, dv, g, w) := r in
    let pl := set_p_prim_res pr (set_p_dual_res dr (set_p_obj_val p (set_p_dual_obj_val dv (set_p_duality_gap g (w_pol w))))) in
    let s := set_sv_work (set_w_pol pl w) s in
    let '(t, s) := toc s in
    let i := set_i_polish_time t (sv_info s) in
    let i := set_i_rel_kkt_error (c_max (c_max dr pr) g) i in
    Some (set_sv_info i (set_sv_work (set_w_summary_printed 0%Z (sv_work s)) s)).

  (** auxil.c:765-782 *)
  Definition reset_info (i : info K) : option (info K) :=
    i <- update_status (set_i_polish_time n0 (set_i_solve_time n0 i)) OSQP_UNSOLVED ;;
    Some (set_i_rho_updates 0%Z i).

  (** auxil.c:808-945 *)
  Definition check_termination (s : solver K) (approximate : bool) : option (bool * solver K) :=
    let st := sv_settings s in
    let i := sv_info s in
    if (i_prim_res i >? OSQP_INFTY K) || (i_dual_res i >? OSQP_INFTY K) then
      i <- update_status i OSQP_NON_CVX ;;
      Some (true, set_sv_info (set_i_obj_val (OSQP_NAN K) i) s)
    else
      let k := nofZ 10 in
      let eps_abs := if approximate then st_eps_abs st * k else st_eps_abs st in
      let eps_rel := if approximate then st_eps_rel st * k else st_eps_rel st in
      let eps_prim_inf := if approximate then st_eps_prim_inf st * k else st_eps_prim_inf st in
      let eps_dual_inf := if approximate then st_eps_dual_inf st * k else st_eps_dual_inf st in
      let w := sv_work s in
      r <- (if (d_m (w_data w) =? 0)%Z then Some (true, false, w)
            else
              eps_prim <- compute_prim_tol st w eps_abs eps_rel ;;
              if i_prim_res i <? eps_prim then Some (true, false, w)
              else r <- is_primal_infeasible st w eps_prim_inf ;; Some (false, fst r, snd r)) ;;
      let '(prim_res_check, prim_inf_check, w) := r in
      eps_dual <- compute_dual_tol st w eps_abs eps_rel ;;
      r <- (if i_dual_res i <? eps_dual then Some (true, false, w)
            else r <- is_dual_infeasible st w eps_dual_inf ;; Some (false, fst r, snd r)) ;;
      let '(dual_res_check, dual_inf_check, w) := r in
      duality_gap_check <- (if tr (st_check_dualgap st) then
                              eps_gap <- compute_duality_gap_tol st w eps_abs eps_rel ;;
                              Some (c_absval (if unscaled_termination st then i_duality_gap i else w_scaled_dual_gap w) <? eps_gap)
                            else Some true) ;;
      let s := set_sv_work w s in
      if prim_res_check && dual_res_check && duality_gap_check then
        i <- update_status i (if approximate then OSQP_SOLVED_INACCURATE else OSQP_SOLVED) ;;
        Some (true, set_sv_info i s)
      else if (prim_inf_check : bool) then
        i <- update_status i (if approximate then OSQP_PRIMAL_INFEASIBLE_INACCURATE else OSQP_PRIMAL_INFEASIBLE) ;;
        dy <- (if unscaled_termination st then sc <- w_scaling w ;; vf_ew_prod (w_delta_y w) (w_delta_y w) (sc_E sc)
               else Some (w_delta_y w)) ;;
        Some (true, set_sv_info (set_i_obj_val (OSQP_INFTY K) i) (set_sv_work (set_w_delta_y dy w) s))
      else if (dual_inf_check : bool) then
        i <- update_status i (if approximate then OSQP_DUAL_INFEASIBLE_INACCURATE else OSQP_DUAL_INFEASIBLE) ;;
        dx <- (if unscaled_termination st then sc <- w_scaling w ;; vf_ew_prod (w_delta_x w) (w_delta_x w) (sc_D sc)
               else Some (w_delta_x w)) ;;
        Some (true, set_sv_info (set_i_obj_val (- OSQP_INFTY K) i) (set_sv_work (set_w_delta_x dx w) s))
      else Some (false, s).
End Auxil.
