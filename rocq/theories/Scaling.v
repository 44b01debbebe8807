(** src/scaling.c *)
From Coq Require Import ZArith List Bool.
From Verif Require Import Num Arr Csc Vec Types.
Import ListNotations.
Open Scope Z_scope.
Local Open Scope opt_scope.

Section Scaling.
  Context {K : NumOps}.
  Local Open Scope num_scope.

  (** scaling.c:8-12 *)
  Definition limit_scaling_scalar (v : K) : K :=
    let v := if v <? OSQP_MIN_SCALING K then n1 else v in
    if v >? OSQP_MAX_SCALING K then OSQP_MAX_SCALING K else v.

  (** scaling.c:14-17 *)
  Definition limit_scaling_vector (v : list K) : option (list K) :=
    v <- vf_set_scalar_if_lt v v (OSQP_MIN_SCALING K) n1 ;;
    vf_set_scalar_if_gt v v (OSQP_MAX_SCALING K) (OSQP_MAX_SCALING K).

  (** scaling.c:30-46: the new D, D_temp_A and E.  OSQPMatrix_col_norm_inf (matrix.c:188-191) looks
      at the stored triangle of P only. *)
  Definition compute_inf_norm_cols_KKT (P A : csc K) (D D_temp_A E : list K)
    : option (list K * list K * list K) :=
    D <- csc_col_norm_inf P D ;;
    D_temp_A <- csc_col_norm_inf A D_temp_A ;;
    D <- vf_ew_max_vec D D_temp_A D ;;
    E <- csc_row_norm_inf A E ;;
    Some (D, D_temp_A, E).

  (** scaling.c:78-150: one pass of the loop, on the workspace and the scaling structure *)
  Definition scale_pass (w : work K) (s : scaling K) : option (work K * scaling K) :=
    let d := w_data w in
    r <- compute_inf_norm_cols_KKT (d_P d) (d_A d) (w_D_temp w) (w_D_temp_A w) (w_E_temp w) ;;
    let '(Dt, DtA, Et) := r in
    Dt <- limit_scaling_vector Dt ;;
    Et <- limit_scaling_vector Et ;;
    let Dt := vf_ew_sqrt Dt in
    let Et := vf_ew_sqrt Et in
    Dt <- vf_ew_reciprocal Dt Dt ;;
    Et <- vf_ew_reciprocal Et Et ;;
    P <- csc_lmult_diag (d_P d) Dt ;;
    P <- csc_rmult_diag P Dt ;;
    A <- csc_lmult_diag (d_A d) Et ;;
    A <- csc_rmult_diag A Dt ;;
    q <- vf_ew_prod (d_q d) (d_q d) Dt ;;
    D <- vf_ew_prod (sc_D s) (sc_D s) Dt ;;
    E <- vf_ew_prod (sc_E s) (sc_E s) Et ;;
    Dt <- csc_col_norm_inf P Dt ;;
    let c_temp := vf_norm_1 Dt / nofZ (d_n d) in
    let inf_norm_q := limit_scaling_scalar (vf_norm_inf q) in
    let c_temp := limit_scaling_scalar (c_max c_temp inf_norm_q) in
    let c_temp := n1 / c_temp in
    P <- csc_scale P c_temp ;;
    let q := vf_mult_scalar q c_temp in
    let s := set_sc_c (sc_c s * c_temp) (set_sc_D D (set_sc_E E s)) in
    let d := set_d_P P (set_d_A A (set_d_q q d)) in
    Some (set_w_data d (set_w_D_temp Dt (set_w_D_temp_A DtA (set_w_E_temp Et w))), s).

  (** scaling.c:48-164 *)
  Definition scale_data (st : settings K) (w : work K) : option (work K) :=
    s <- w_scaling w ;;
    let s := set_sc_c n1 s in
    let s := set_sc_D (vf_set_scalar (sc_D s) n1) s in
    let s := set_sc_Dinv (vf_set_scalar (sc_Dinv s) n1) s in
    let s := set_sc_E (vf_set_scalar (sc_E s) n1) s in
    let s := set_sc_Einv (vf_set_scalar (sc_Einv s) n1) s in
    r <- for_ 0 (st_scaling st) (fun _ (r : work K * scaling K) => scale_pass (fst r) (snd r)) (w, s) ;;
    let '(w, s) := r in
    let s := set_sc_cinv (n1 / sc_c s) s in
    Dinv <- vf_ew_reciprocal (sc_Dinv s) (sc_D s) ;;
    Einv <- vf_ew_reciprocal (sc_Einv s) (sc_E s) ;;
    let s := set_sc_Dinv Dinv (set_sc_Einv Einv s) in
    let d := w_data w in
    l <- vf_ew_prod (d_l d) (d_l d) (sc_E s) ;;
    u <- vf_ew_prod (d_u d) (d_u d) (sc_E s) ;;
    Some (set_w_data (set_d_l l (set_d_u u d)) (set_w_scaling (Some s) w)).

  (** scaling.c:169-192 *)
  Definition unscale_data (w : work K) : option (work K) :=
    s <- w_scaling w ;;
    let d := w_data w in
    P <- csc_scale (d_P d) (sc_cinv s) ;;
    P <- csc_lmult_diag P (sc_Dinv s) ;;
    P <- csc_rmult_diag P (sc_Dinv s) ;;
    let q := vf_mult_scalar (d_q d) (sc_cinv s) in
    q <- vf_ew_prod q q (sc_Dinv s) ;;
    A <- csc_lmult_diag (d_A d) (sc_Einv s) ;;
    A <- csc_rmult_diag A (sc_Dinv s) ;;
    l <- vf_ew_prod (d_l d) (d_l d) (sc_Einv s) ;;
    u <- vf_ew_prod (d_u d) (d_u d) (sc_Einv s) ;;
    Some (set_w_data (set_d_P P (set_d_A A (set_d_q q (set_d_l l (set_d_u u d))))) w).

  (** scaling.c:194-208: the new usolx and usoly *)
  Definition unscale_solution (usolx usoly solx soly : list K) (s : scaling K) : option (list K * list K) :=
    x <- vf_ew_prod usolx solx (sc_D s) ;;
    y <- vf_ew_prod usoly soly (sc_E s) ;;
    Some (x, vf_mult_scalar y (sc_cinv s)).
End Scaling.
