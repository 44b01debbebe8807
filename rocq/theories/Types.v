(** The solver's data structures. *)
From Coq Require Import ZArith List String.
From Verif Require Import Num Arr Csc.
Open Scope Z_scope.

(** include/private/profilers.h:13-35, the sections pushed by osqp_api.c *)
Inductive sec := SEC_SETUP | SEC_SCALE | SEC_OPT_SOLVE | SEC_ADMM_ITER | SEC_ADMM_KKT_SOLVE
               | SEC_ADMM_UPDATE | SEC_ADMM_PROJ | SEC_POLISH.

(** include/public/osqp_api_types.h:51-117, OSQPSettings *)
Record settings (K : NumOps) : Type := mksettings {
  st_device : Z;
  st_linsys_solver : Z;
  st_allocate_solution : Z;
  st_verbose : Z;
  st_profiler_level : Z;
  st_warm_starting : Z;
  st_scaling : Z;
  st_polishing : Z;
  st_rho : K;
  st_rho_is_vec : Z;
  st_sigma : K;
  st_alpha : K;
  st_cg_max_iter : Z;
  st_cg_tol_reduction : Z;
  st_cg_tol_fraction : K;
  st_cg_precond : Z;
  st_adaptive_rho : Z;
  st_adaptive_rho_interval : Z;
  st_adaptive_rho_fraction : K;
  st_adaptive_rho_tolerance : K;
  st_max_iter : Z;
  st_eps_abs : K;
  st_eps_rel : K;
  st_eps_prim_inf : K;
  st_eps_dual_inf : K;
  st_scaled_termination : Z;
  st_check_termination : Z;
  st_check_dualgap : Z;
  st_time_limit : K;
  st_delta : K;
  st_polish_refine_iter : Z
}.
Arguments mksettings {K}. Arguments st_device {K}. Arguments st_linsys_solver {K}. Arguments st_allocate_solution {K}. Arguments st_verbose {K}. Arguments st_profiler_level {K}. Arguments st_warm_starting {K}. Arguments st_scaling {K}. Arguments st_polishing {K}. Arguments st_rho {K}. Arguments st_rho_is_vec {K}. Arguments st_sigma {K}. Arguments st_alpha {K}. Arguments st_cg_max_iter {K}. Arguments st_cg_tol_reduction {K}. Arguments st_cg_tol_fraction {K}. Arguments st_cg_precond {K}. Arguments st_adaptive_rho {K}. Arguments st_adaptive_rho_interval {K}. Arguments st_adaptive_rho_fraction {K}. Arguments st_adaptive_rho_tolerance {K}. Arguments st_max_iter {K}. Arguments st_eps_abs {K}. Arguments st_eps_rel {K}. Arguments st_eps_prim_inf {K}. Arguments st_eps_dual_inf {K}. Arguments st_scaled_termination {K}. Arguments st_check_termination {K}. Arguments st_check_dualgap {K}. Arguments st_time_limit {K}. Arguments st_delta {K}. Arguments st_polish_refine_iter {K}.

(** Assignments to the fields of settings. *)
Definition set_st_device {K : NumOps} (v : Z) (r : settings K) : settings K :=
  mksettings v (st_linsys_solver r) (st_allocate_solution r) (st_verbose r) (st_profiler_level r) (st_warm_starting r) (st_scaling r) (st_polishing r) (st_rho r) (st_rho_is_vec r) (st_sigma r) (st_alpha r) (st_cg_max_iter r) (st_cg_tol_reduction r) (st_cg_tol_fraction r) (st_cg_precond r) (st_adaptive_rho r) (st_adaptive_rho_interval r) (st_adaptive_rho_fraction r) (st_adaptive_rho_tolerance r) (st_max_iter r) (st_eps_abs r) (st_eps_rel r) (st_eps_prim_inf r) (st_eps_dual_inf r) (st_scaled_termination r) (st_check_termination r) (st_check_dualgap r) (st_time_limit r) (st_delta r) (st_polish_refine_iter r).
Definition set_st_linsys_solver {K : NumOps} (v : Z) (r : settings K) : settings K :=
  mksettings (st_device r) v (st_allocate_solution r) (st_verbose r) (st_profiler_level r) (st_warm_starting r) (st_scaling r) (st_polishing r) (st_rho r) (st_rho_is_vec r) (st_sigma r) (st_alpha r) (st_cg_max_iter r) (st_cg_tol_reduction r) (st_cg_tol_fraction r) (st_cg_precond r) (st_adaptive_rho r) (st_adaptive_rho_interval r) (st_adaptive_rho_fraction r) (st_adaptive_rho_tolerance r) (st_max_iter r) (st_eps_abs r) (st_eps_rel r) (st_eps_prim_inf r) (st_eps_dual_inf r) (st_scaled_termination r) (st_check_termination r) (st_check_dualgap r) (st_time_limit r) (st_delta r) (st_polish_refine_iter r).
Definition set_st_allocate_solution {K : NumOps} (v : Z) (r : settings K) : settings K :=
  mksettings (st_device r) (st_linsys_solver r) v (st_verbose r) (st_profiler_level r) (st_warm_starting r) (st_scaling r) (st_polishing r) (st_rho r) (st_rho_is_vec r) (st_sigma r) (st_alpha r) (st_cg_max_iter r) (st_cg_tol_reduction r) (st_cg_tol_fraction r) (st_cg_precond r) (st_adaptive_rho r) (st_adaptive_rho_interval r) (st_adaptive_rho_fraction r) (st_adaptive_rho_tolerance r) (st_max_iter r) (st_eps_abs r) (st_eps_rel r) (st_eps_prim_inf r) (st_eps_dual_inf r) (st_scaled_termination r) (st_check_termination r) (st_check_dualgap r) (st_time_limit r) (st_delta r) (st_polish_refine_iter r).
Definition set_st_verbose {K : NumOps} (v : Z) (r : settings K) : settings K :=
  mksettings (st_device r) (st_linsys_solver r) (st_allocate_solution r) v (st_profiler_level r) (st_warm_starting r) (st_scaling r) (st_polishing r) (st_rho r) (st_rho_is_vec r) (st_sigma r) (st_alpha r) (st_cg_max_iter r) (st_cg_tol_reduction r) (st_cg_tol_fraction r) (st_cg_precond r) (st_adaptive_rho r) (st_adaptive_rho_interval r) (st_adaptive_rho_fraction r) (st_adaptive_rho_tolerance r) (st_max_iter r) (st_eps_abs r) (st_eps_rel r) (st_eps_prim_inf r) (st_eps_dual_inf r) (st_scaled_termination r) (st_check_termination r) (st_check_dualgap r) (st_time_limit r) (st_delta r) (st_polish_refine_iter r).
Definition set_st_profiler_level {K : NumOps} (v : Z) (r : settings K) : settings K :=
  mksettings (st_device r) (st_linsys_solver r) (st_allocate_solution r) (st_verbose r) v (st_warm_starting r) (st_scaling r) (st_polishing r) (st_rho r) (st_rho_is_vec r) (st_sigma r) (st_alpha r) (st_cg_max_iter r) (st_cg_tol_reduction r) (st_cg_tol_fraction r) (st_cg_precond r) (st_adaptive_rho r) (st_adaptive_rho_interval r) (st_adaptive_rho_fraction r) (st_adaptive_rho_tolerance r) (st_max_iter r) (st_eps_abs r) (st_eps_rel r) (st_eps_prim_inf r) (st_eps_dual_inf r) (st_scaled_termination r) (st_check_termination r) (st_check_dualgap r) (st_time_limit r) (st_delta r) (st_polish_refine_iter r).
Definition set_st_warm_starting {K : NumOps} (v : Z) (r : settings K) : settings K :=
  mksettings (st_device r) (st_linsys_solver r) (st_allocate_solution r) (st_verbose r) (st_profiler_level r) v (st_scaling r) (st_polishing r) (st_rho r) (st_rho_is_vec r) (st_sigma r) (st_alpha r) (st_cg_max_iter r) (st_cg_tol_reduction r) (st_cg_tol_fraction r) (st_cg_precond r) (st_adaptive_rho r) (st_adaptive_rho_interval r) (st_adaptive_rho_fraction r) (st_adaptive_rho_tolerance r) (st_max_iter r) (st_eps_abs r) (st_eps_rel r) (st_eps_prim_inf r) (st_eps_dual_inf r) (st_scaled_termination r) (st_check_termination r) (st_check_dualgap r) (st_time_limit r) (st_delta r) (st_polish_refine_iter r).
Definition set_st_scaling {K : NumOps} (v : Z) (r : settings K) : settings K :=
  mksettings (st_device r) (st_linsys_solver r) (st_allocate_solution r) (st_verbose r) (st_profiler_level r) (st_warm_starting r) v (st_polishing r) (st_rho r) (st_rho_is_vec r) (st_sigma r) (st_alpha r) (st_cg_max_iter r) (st_cg_tol_reduction r) (st_cg_tol_fraction r) (st_cg_precond r) (st_adaptive_rho r) (st_adaptive_rho_interval r) (st_adaptive_rho_fraction r) (st_adaptive_rho_tolerance r) (st_max_iter r) (st_eps_abs r) (st_eps_rel r) (st_eps_prim_inf r) (st_eps_dual_inf r) (st_scaled_termination r) (st_check_termination r) (st_check_dualgap r) (st_time_limit r) (st_delta r) (st_polish_refine_iter r).
Definition set_st_polishing {K : NumOps} (v : Z) (r : settings K) : settings K :=
  mksettings (st_device r) (st_linsys_solver r) (st_allocate_solution r) (st_verbose r) (st_profiler_level r) (st_warm_starting r) (st_scaling r) v (st_rho r) (st_rho_is_vec r) (st_sigma r) (st_alpha r) (st_cg_max_iter r) (st_cg_tol_reduction r) (st_cg_tol_fraction r) (st_cg_precond r) (st_adaptive_rho r) (st_adaptive_rho_interval r) (st_adaptive_rho_fraction r) (st_adaptive_rho_tolerance r) (st_max_iter r) (st_eps_abs r) (st_eps_rel r) (st_eps_prim_inf r) (st_eps_dual_inf r) (st_scaled_termination r) (st_check_termination r) (st_check_dualgap r) (st_time_limit r) (st_delta r) (st_polish_refine_iter r).
Definition set_st_rho {K : NumOps} (v : K) (r : settings K) : settings K :=
  mksettings (st_device r) (st_linsys_solver r) (st_allocate_solution r) (st_verbose r) (st_profiler_level r) (st_warm_starting r) (st_scaling r) (st_polishing r) v (st_rho_is_vec r) (st_sigma r) (st_alpha r) (st_cg_max_iter r) (st_cg_tol_reduction r) (st_cg_tol_fraction r) (st_cg_precond r) (st_adaptive_rho r) (st_adaptive_rho_interval r) (st_adaptive_rho_fraction r) (st_adaptive_rho_tolerance r) (st_max_iter r) (st_eps_abs r) (st_eps_rel r) (st_eps_prim_inf r) (st_eps_dual_inf r) (st_scaled_termination r) (st_check_termination r) (st_check_dualgap r) (st_time_limit r) (st_delta r) (st_polish_refine_iter r).
Definition set_st_rho_is_vec {K : NumOps} (v : Z) (r : settings K) : settings K :=
  mksettings (st_device r) (st_linsys_solver r) (st_allocate_solution r) (st_verbose r) (st_profiler_level r) (st_warm_starting r) (st_scaling r) (st_polishing r) (st_rho r) v (st_sigma r) (st_alpha r) (st_cg_max_iter r) (st_cg_tol_reduction r) (st_cg_tol_fraction r) (st_cg_precond r) (st_adaptive_rho r) (st_adaptive_rho_interval r) (st_adaptive_rho_fraction r) (st_adaptive_rho_tolerance r) (st_max_iter r) (st_eps_abs r) (st_eps_rel r) (st_eps_prim_inf r) (st_eps_dual_inf r) (st_scaled_termination r) (st_check_termination r) (st_check_dualgap r) (st_time_limit r) (st_delta r) (st_polish_refine_iter r).
Definition set_st_sigma {K : NumOps} (v : K) (r : settings K) : settings K :=
  mksettings (st_device r) (st_linsys_solver r) (st_allocate_solution r) (st_verbose r) (st_profiler_level r) (st_warm_starting r) (st_scaling r) (st_polishing r) (st_rho r) (st_rho_is_vec r) v (st_alpha r) (st_cg_max_iter r) (st_cg_tol_reduction r) (st_cg_tol_fraction r) (st_cg_precond r) (st_adaptive_rho r) (st_adaptive_rho_interval r) (st_adaptive_rho_fraction r) (st_adaptive_rho_tolerance r) (st_max_iter r) (st_eps_abs r) (st_eps_rel r) (st_eps_prim_inf r) (st_eps_dual_inf r) (st_scaled_termination r) (st_check_termination r) (st_check_dualgap r) (st_time_limit r) (st_delta r) (st_polish_refine_iter r).
Definition set_st_alpha {K : NumOps} (v : K) (r : settings K) : settings K :=
  mksettings (st_device r) (st_linsys_solver r) (st_allocate_solution r) (st_verbose r) (st_profiler_level r) (st_warm_starting r) (st_scaling r) (st_polishing r) (st_rho r) (st_rho_is_vec r) (st_sigma r) v (st_cg_max_iter r) (st_cg_tol_reduction r) (st_cg_tol_fraction r) (st_cg_precond r) (st_adaptive_rho r) (st_adaptive_rho_interval r) (st_adaptive_rho_fraction r) (st_adaptive_rho_tolerance r) (st_max_iter r) (st_eps_abs r) (st_eps_rel r) (st_eps_prim_inf r) (st_eps_dual_inf r) (st_scaled_termination r) (st_check_termination r) (st_check_dualgap r) (st_time_limit r) (st_delta r) (st_polish_refine_iter r).
Definition set_st_cg_max_iter {K : NumOps} (v : Z) (r : settings K) : settings K :=
  mksettings (st_device r) (st_linsys_solver r) (st_allocate_solution r) (st_verbose r) (st_profiler_level r) (st_warm_starting r) (st_scaling r) (st_polishing r) (st_rho r) (st_rho_is_vec r) (st_sigma r) (st_alpha r) v (st_cg_tol_reduction r) (st_cg_tol_fraction r) (st_cg_precond r) (st_adaptive_rho r) (st_adaptive_rho_interval r) (st_adaptive_rho_fraction r) (st_adaptive_rho_tolerance r) (st_max_iter r) (st_eps_abs r) (st_eps_rel r) (st_eps_prim_inf r) (st_eps_dual_inf r) (st_scaled_termination r) (st_check_termination r) (st_check_dualgap r) (st_time_limit r) (st_delta r) (st_polish_refine_iter r).
Definition set_st_cg_tol_reduction {K : NumOps} (v : Z) (r : settings K) : settings K :=
  mksettings (st_device r) (st_linsys_solver r) (st_allocate_solution r) (st_verbose r) (st_profiler_level r) (st_warm_starting r) (st_scaling r) (st_polishing r) (st_rho r) (st_rho_is_vec r) (st_sigma r) (st_alpha r) (st_cg_max_iter r) v (st_cg_tol_fraction r) (st_cg_precond r) (st_adaptive_rho r) (st_adaptive_rho_interval r) (st_adaptive_rho_fraction r) (st_adaptive_rho_tolerance r) (st_max_iter r) (st_eps_abs r) (st_eps_rel r) (st_eps_prim_inf r) (st_eps_dual_inf r) (st_scaled_termination r) (st_check_termination r) (st_check_dualgap r) (st_time_limit r) (st_delta r) (st_polish_refine_iter r).
Definition set_st_cg_tol_fraction {K : NumOps} (v : K) (r : settings K) : settings K :=
  mksettings (st_device r) (st_linsys_solver r) (st_allocate_solution r) (st_verbose r) (st_profiler_level r) (st_warm_starting r) (st_scaling r) (st_polishing r) (st_rho r) (st_rho_is_vec r) (st_sigma r) (st_alpha r) (st_cg_max_iter r) (st_cg_tol_reduction r) v (st_cg_precond r) (st_adaptive_rho r) (st_adaptive_rho_interval r) (st_adaptive_rho_fraction r) (st_adaptive_rho_tolerance r) (st_max_iter r) (st_eps_abs r) (st_eps_rel r) (st_eps_prim_inf r) (st_eps_dual_inf r) (st_scaled_termination r) (st_check_termination r) (st_check_dualgap r) (st_time_limit r) (st_delta r) (st_polish_refine_iter r).
Definition set_st_cg_precond {K : NumOps} (v : Z) (r : settings K) : settings K :=
  mksettings (st_device r) (st_linsys_solver r) (st_allocate_solution r) (st_verbose r) (st_profiler_level r) (st_warm_starting r) (st_scaling r) (st_polishing r) (st_rho r) (st_rho_is_vec r) (st_sigma r) (st_alpha r) (st_cg_max_iter r) (st_cg_tol_reduction r) (st_cg_tol_fraction r) v (st_adaptive_rho r) (st_adaptive_rho_interval r) (st_adaptive_rho_fraction r) (st_adaptive_rho_tolerance r) (st_max_iter r) (st_eps_abs r) (st_eps_rel r) (st_eps_prim_inf r) (st_eps_dual_inf r) (st_scaled_termination r) (st_check_termination r) (st_check_dualgap r) (st_time_limit r) (st_delta r) (st_polish_refine_iter r).
Definition set_st_adaptive_rho {K : NumOps} (v : Z) (r : settings K) : settings K :=
  mksettings (st_device r) (st_linsys_solver r) (st_allocate_solution r) (st_verbose r) (st_profiler_level r) (st_warm_starting r) (st_scaling r) (st_polishing r) (st_rho r) (st_rho_is_vec r) (st_sigma r) (st_alpha r) (st_cg_max_iter r) (st_cg_tol_reduction r) (st_cg_tol_fraction r) (st_cg_precond r) v (st_adaptive_rho_interval r) (st_adaptive_rho_fraction r) (st_adaptive_rho_tolerance r) (st_max_iter r) (st_eps_abs r) (st_eps_rel r) (st_eps_prim_inf r) (st_eps_dual_inf r) (st_scaled_termination r) (st_check_termination r) (st_check_dualgap r) (st_time_limit r) (st_delta r) (st_polish_refine_iter r).
Definition set_st_adaptive_rho_interval {K : NumOps} (v : Z) (r : settings K) : settings K :=
  mksettings (st_device r) (st_linsys_solver r) (st_allocate_solution r) (st_verbose r) (st_profiler_level r) (st_warm_starting r) (st_scaling r) (st_polishing r) (st_rho r) (st_rho_is_vec r) (st_sigma r) (st_alpha r) (st_cg_max_iter r) (st_cg_tol_reduction r) (st_cg_tol_fraction r) (st_cg_precond r) (st_adaptive_rho r) v (st_adaptive_rho_fraction r) (st_adaptive_rho_tolerance r) (st_max_iter r) (st_eps_abs r) (st_eps_rel r) (st_eps_prim_inf r) (st_eps_dual_inf r) (st_scaled_termination r) (st_check_termination r) (st_check_dualgap r) (st_time_limit r) (st_delta r) (st_polish_refine_iter r).
Definition set_st_adaptive_rho_fraction {K : NumOps} (v : K) (r : settings K) : settings K :=
  mksettings (st_device r) (st_linsys_solver r) (st_allocate_solution r) (st_verbose r) (st_profiler_level r) (st_warm_starting r) (st_scaling r) (st_polishing r) (st_rho r) (st_rho_is_vec r) (st_sigma r) (st_alpha r) (st_cg_max_iter r) (st_cg_tol_reduction r) (st_cg_tol_fraction r) (st_cg_precond r) (st_adaptive_rho r) (st_adaptive_rho_interval r) v (st_adaptive_rho_tolerance r) (st_max_iter r) (st_eps_abs r) (st_eps_rel r) (st_eps_prim_inf r) (st_eps_dual_inf r) (st_scaled_termination r) (st_check_termination r) (st_check_dualgap r) (st_time_limit r) (st_delta r) (st_polish_refine_iter r).
Definition set_st_adaptive_rho_tolerance {K : NumOps} (v : K) (r : settings K) : settings K :=
  mksettings (st_device r) (st_linsys_solver r) (st_allocate_solution r) (st_verbose r) (st_profiler_level r) (st_warm_starting r) (st_scaling r) (st_polishing r) (st_rho r) (st_rho_is_vec r) (st_sigma r) (st_alpha r) (st_cg_max_iter r) (st_cg_tol_reduction r) (st_cg_tol_fraction r) (st_cg_precond r) (st_adaptive_rho r) (st_adaptive_rho_interval r) (st_adaptive_rho_fraction r) v (st_max_iter r) (st_eps_abs r) (st_eps_rel r) (st_eps_prim_inf r) (st_eps_dual_inf r) (st_scaled_termination r) (st_check_termination r) (st_check_dualgap r) (st_time_limit r) (st_delta r) (st_polish_refine_iter r).
Definition set_st_max_iter {K : NumOps} (v : Z) (r : settings K) : settings K :=
  mksettings (st_device r) (st_linsys_solver r) (st_allocate_solution r) (st_verbose r) (st_profiler_level r) (st_warm_starting r) (st_scaling r) (st_polishing r) (st_rho r) (st_rho_is_vec r) (st_sigma r) (st_alpha r) (st_cg_max_iter r) (st_cg_tol_reduction r) (st_cg_tol_fraction r) (st_cg_precond r) (st_adaptive_rho r) (st_adaptive_rho_interval r) (st_adaptive_rho_fraction r) (st_adaptive_rho_tolerance r) v (st_eps_abs r) (st_eps_rel r) (st_eps_prim_inf r) (st_eps_dual_inf r) (st_scaled_termination r) (st_check_termination r) (st_check_dualgap r) (st_time_limit r) (st_delta r) (st_polish_refine_iter r).
Definition set_st_eps_abs {K : NumOps} (v : K) (r : settings K) : settings K :=
  mksettings (st_device r) (st_linsys_solver r) (st_allocate_solution r) (st_verbose r) (st_profiler_level r) (st_warm_starting r) (st_scaling r) (st_polishing r) (st_rho r) (st_rho_is_vec r) (st_sigma r) (st_alpha r) (st_cg_max_iter r) (st_cg_tol_reduction r) (st_cg_tol_fraction r) (st_cg_precond r) (st_adaptive_rho r) (st_adaptive_rho_interval r) (st_adaptive_rho_fraction r) (st_adaptive_rho_tolerance r) (st_max_iter r) v (st_eps_rel r) (st_eps_prim_inf r) (st_eps_dual_inf r) (st_scaled_termination r) (st_check_termination r) (st_check_dualgap r) (st_time_limit r) (st_delta r) (st_polish_refine_iter r).
Definition set_st_eps_rel {K : NumOps} (v : K) (r : settings K) : settings K :=
  mksettings (st_device r) (st_linsys_solver r) (st_allocate_solution r) (st_verbose r) (st_profiler_level r) (st_warm_starting r) (st_scaling r) (st_polishing r) (st_rho r) (st_rho_is_vec r) (st_sigma r) (st_alpha r) (st_cg_max_iter r) (st_cg_tol_reduction r) (st_cg_tol_fraction r) (st_cg_precond r) (st_adaptive_rho r) (st_adaptive_rho_interval r) (st_adaptive_rho_fraction r) (st_adaptive_rho_tolerance r) (st_max_iter r) (st_eps_abs r) v (st_eps_prim_inf r) (st_eps_dual_inf r) (st_scaled_termination r) (st_check_termination r) (st_check_dualgap r) (st_time_limit r) (st_delta r) (st_polish_refine_iter r).
Definition set_st_eps_prim_inf {K : NumOps} (v : K) (r : settings K) : settings K :=
  mksettings (st_device r) (st_linsys_solver r) (st_allocate_solution r) (st_verbose r) (st_profiler_level r) (st_warm_starting r) (st_scaling r) (st_polishing r) (st_rho r) (st_rho_is_vec r) (st_sigma r) (st_alpha r) (st_cg_max_iter r) (st_cg_tol_reduction r) (st_cg_tol_fraction r) (st_cg_precond r) (st_adaptive_rho r) (st_adaptive_rho_interval r) (st_adaptive_rho_fraction r) (st_adaptive_rho_tolerance r) (st_max_iter r) (st_eps_abs r) (st_eps_rel r) v (st_eps_dual_inf r) (st_scaled_termination r) (st_check_termination r) (st_check_dualgap r) (st_time_limit r) (st_delta r) (st_polish_refine_iter r).
Definition set_st_eps_dual_inf {K : NumOps} (v : K) (r : settings K) : settings K :=
  mksettings (st_device r) (st_linsys_solver r) (st_allocate_solution r) (st_verbose r) (st_profiler_level r) (st_warm_starting r) (st_scaling r) (st_polishing r) (st_rho r) (st_rho_is_vec r) (st_sigma r) (st_alpha r) (st_cg_max_iter r) (st_cg_tol_reduction r) (st_cg_tol_fraction r) (st_cg_precond r) (st_adaptive_rho r) (st_adaptive_rho_interval r) (st_adaptive_rho_fraction r) (st_adaptive_rho_tolerance r) (st_max_iter r) (st_eps_abs r) (st_eps_rel r) (st_eps_prim_inf r) v (st_scaled_termination r) (st_check_termination r) (st_check_dualgap r) (st_time_limit r) (st_delta r) (st_polish_refine_iter r).
Definition set_st_scaled_termination {K : NumOps} (v : Z) (r : settings K) : settings K :=
  mksettings (st_device r) (st_linsys_solver r) (st_allocate_solution r) (st_verbose r) (st_profiler_level r) (st_warm_starting r) (st_scaling r) (st_polishing r) (st_rho r) (st_rho_is_vec r) (st_sigma r) (st_alpha r) (st_cg_max_iter r) (st_cg_tol_reduction r) (st_cg_tol_fraction r) (st_cg_precond r) (st_adaptive_rho r) (st_adaptive_rho_interval r) (st_adaptive_rho_fraction r) (st_adaptive_rho_tolerance r) (st_max_iter r) (st_eps_abs r) (st_eps_rel r) (st_eps_prim_inf r) (st_eps_dual_inf r) v (st_check_termination r) (st_check_dualgap r) (st_time_limit r) (st_delta r) (st_polish_refine_iter r).
Definition set_st_check_termination {K : NumOps} (v : Z) (r : settings K) : settings K :=
  mksettings (st_device r) (st_linsys_solver r) (st_allocate_solution r) (st_verbose r) (st_profiler_level r) (st_warm_starting r) (st_scaling r) (st_polishing r) (st_rho r) (st_rho_is_vec r) (st_sigma r) (st_alpha r) (st_cg_max_iter r) (st_cg_tol_reduction r) (st_cg_tol_fraction r) (st_cg_precond r) (st_adaptive_rho r) (st_adaptive_rho_interval r) (st_adaptive_rho_fraction r) (st_adaptive_rho_tolerance r) (st_max_iter r) (st_eps_abs r) (st_eps_rel r) (st_eps_prim_inf r) (st_eps_dual_inf r) (st_scaled_termination r) v (st_check_dualgap r) (st_time_limit r) (st_delta r) (st_polish_refine_iter r).
Definition set_st_check_dualgap {K : NumOps} (v : Z) (r : settings K) : settings K :=
  mksettings (st_device r) (st_linsys_solver r) (st_allocate_solution r) (st_verbose r) (st_profiler_level r) (st_warm_starting r) (st_scaling r) (st_polishing r) (st_rho r) (st_rho_is_vec r) (st_sigma r) (st_alpha r) (st_cg_max_iter r) (st_cg_tol_reduction r) (st_cg_tol_fraction r) (st_cg_precond r) (st_adaptive_rho r) (st_adaptive_rho_interval r) (st_adaptive_rho_fraction r) (st_adaptive_rho_tolerance r) (st_max_iter r) (st_eps_abs r) (st_eps_rel r) (st_eps_prim_inf r) (st_eps_dual_inf r) (st_scaled_termination r) (st_check_termination r) v (st_time_limit r) (st_delta r) (st_polish_refine_iter r).
Definition set_st_time_limit {K : NumOps} (v : K) (r : settings K) : settings K :=
  mksettings (st_device r) (st_linsys_solver r) (st_allocate_solution r) (st_verbose r) (st_profiler_level r) (st_warm_starting r) (st_scaling r) (st_polishing r) (st_rho r) (st_rho_is_vec r) (st_sigma r) (st_alpha r) (st_cg_max_iter r) (st_cg_tol_reduction r) (st_cg_tol_fraction r) (st_cg_precond r) (st_adaptive_rho r) (st_adaptive_rho_interval r) (st_adaptive_rho_fraction r) (st_adaptive_rho_tolerance r) (st_max_iter r) (st_eps_abs r) (st_eps_rel r) (st_eps_prim_inf r) (st_eps_dual_inf r) (st_scaled_termination r) (st_check_termination r) (st_check_dualgap r) v (st_delta r) (st_polish_refine_iter r).
Definition set_st_delta {K : NumOps} (v : K) (r : settings K) : settings K :=
  mksettings (st_device r) (st_linsys_solver r) (st_allocate_solution r) (st_verbose r) (st_profiler_level r) (st_warm_starting r) (st_scaling r) (st_polishing r) (st_rho r) (st_rho_is_vec r) (st_sigma r) (st_alpha r) (st_cg_max_iter r) (st_cg_tol_reduction r) (st_cg_tol_fraction r) (st_cg_precond r) (st_adaptive_rho r) (st_adaptive_rho_interval r) (st_adaptive_rho_fraction r) (st_adaptive_rho_tolerance r) (st_max_iter r) (st_eps_abs r) (st_eps_rel r) (st_eps_prim_inf r) (st_eps_dual_inf r) (st_scaled_termination r) (st_check_termination r) (st_check_dualgap r) (st_time_limit r) v (st_polish_refine_iter r).
Definition set_st_polish_refine_iter {K : NumOps} (v : Z) (r : settings K) : settings K :=
  mksettings (st_device r) (st_linsys_solver r) (st_allocate_solution r) (st_verbose r) (st_profiler_level r) (st_warm_starting r) (st_scaling r) (st_polishing r) (st_rho r) (st_rho_is_vec r) (st_sigma r) (st_alpha r) (st_cg_max_iter r) (st_cg_tol_reduction r) (st_cg_tol_fraction r) (st_cg_precond r) (st_adaptive_rho r) (st_adaptive_rho_interval r) (st_adaptive_rho_fraction r) (st_adaptive_rho_tolerance r) (st_max_iter r) (st_eps_abs r) (st_eps_rel r) (st_eps_prim_inf r) (st_eps_dual_inf r) (st_scaled_termination r) (st_check_termination r) (st_check_dualgap r) (st_time_limit r) (st_delta r) v.

(** include/public/osqp_api_types.h:123-155, OSQPInfo *)
Record info (K : NumOps) : Type := mkinfo {
  i_status : string;
  i_status_val : Z;
  i_status_polish : Z;
  i_obj_val : K;
  i_dual_obj_val : K;
  i_prim_res : K;
  i_dual_res : K;
  i_duality_gap : K;
  i_iter : Z;
  i_rho_updates : Z;
  i_rho_estimate : K;
  i_setup_time : K;
  i_solve_time : K;
  i_update_time : K;
  i_polish_time : K;
  i_run_time : K;
  i_primdual_int : K;
  i_rel_kkt_error : K
}.
Arguments mkinfo {K}. Arguments i_status {K}. Arguments i_status_val {K}. Arguments i_status_polish {K}. Arguments i_obj_val {K}. Arguments i_dual_obj_val {K}. Arguments i_prim_res {K}. Arguments i_dual_res {K}. Arguments i_duality_gap {K}. Arguments i_iter {K}. Arguments i_rho_updates {K}. Arguments i_rho_estimate {K}. Arguments i_setup_time {K}. Arguments i_solve_time {K}. Arguments i_update_time {K}. Arguments i_polish_time {K}. Arguments i_run_time {K}. Arguments i_primdual_int {K}. Arguments i_rel_kkt_error {K}.

(** Assignments to the fields of info. *)
Definition set_i_status {K : NumOps} (v : string) (r : info K) : info K :=
  mkinfo v (i_status_val r) (i_status_polish r) (i_obj_val r) (i_dual_obj_val r) (i_prim_res r) (i_dual_res r) (i_duality_gap r) (i_iter r) (i_rho_updates r) (i_rho_estimate r) (i_setup_time r) (i_solve_time r) (i_update_time r) (i_polish_time r) (i_run_time r) (i_primdual_int r) (i_rel_kkt_error r).
Definition set_i_status_val {K : NumOps} (v : Z) (r : info K) : info K :=
  mkinfo (i_status r) v (i_status_polish r) (i_obj_val r) (i_dual_obj_val r) (i_prim_res r) (i_dual_res r) (i_duality_gap r) (i_iter r) (i_rho_updates r) (i_rho_estimate r) (i_setup_time r) (i_solve_time r) (i_update_time r) (i_polish_time r) (i_run_time r) (i_primdual_int r) (i_rel_kkt_error r).
Definition set_i_status_polish {K : NumOps} (v : Z) (r : info K) : info K :=
  mkinfo (i_status r) (i_status_val r) v (i_obj_val r) (i_dual_obj_val r) (i_prim_res r) (i_dual_res r) (i_duality_gap r) (i_iter r) (i_rho_updates r) (i_rho_estimate r) (i_setup_time r) (i_solve_time r) (i_update_time r) (i_polish_time r) (i_run_time r) (i_primdual_int r) (i_rel_kkt_error r).
Definition set_i_obj_val {K : NumOps} (v : K) (r : info K) : info K :=
  mkinfo (i_status r) (i_status_val r) (i_status_polish r) v (i_dual_obj_val r) (i_prim_res r) (i_dual_res r) (i_duality_gap r) (i_iter r) (i_rho_updates r) (i_rho_estimate r) (i_setup_time r) (i_solve_time r) (i_update_time r) (i_polish_time r) (i_run_time r) (i_primdual_int r) (i_rel_kkt_error r).
Definition set_i_dual_obj_val {K : NumOps} (v : K) (r : info K) : info K :=
  mkinfo (i_status r) (i_status_val r) (i_status_polish r) (i_obj_val r) v (i_prim_res r) (i_dual_res r) (i_duality_gap r) (i_iter r) (i_rho_updates r) (i_rho_estimate r) (i_setup_time r) (i_solve_time r) (i_update_time r) (i_polish_time r) (i_run_time r) (i_primdual_int r) (i_rel_kkt_error r).
Definition set_i_prim_res {K : NumOps} (v : K) (r : info K) : info K :=
  mkinfo (i_status r) (i_status_val r) (i_status_polish r) (i_obj_val r) (i_dual_obj_val r) v (i_dual_res r) (i_duality_gap r) (i_iter r) (i_rho_updates r) (i_rho_estimate r) (i_setup_time r) (i_solve_time r) (i_update_time r) (i_polish_time r) (i_run_time r) (i_primdual_int r) (i_rel_kkt_error r).
Definition set_i_dual_res {K : NumOps} (v : K) (r : info K) : info K :=
  mkinfo (i_status r) (i_status_val r) (i_status_polish r) (i_obj_val r) (i_dual_obj_val r) (i_prim_res r) v (i_duality_gap r) (i_iter r) (i_rho_updates r) (i_rho_estimate r) (i_setup_time r) (i_solve_time r) (i_update_time r) (i_polish_time r) (i_run_time r) (i_primdual_int r) (i_rel_kkt_error r).
Definition set_i_duality_gap {K : NumOps} (v : K) (r : info K) : info K :=
  mkinfo (i_status r) (i_status_val r) (i_status_polish r) (i_obj_val r) (i_dual_obj_val r) (i_prim_res r) (i_dual_res r) v (i_iter r) (i_rho_updates r) (i_rho_estimate r) (i_setup_time r) (i_solve_time r) (i_update_time r) (i_polish_time r) (i_run_time r) (i_primdual_int r) (i_rel_kkt_error r).
Definition set_i_iter {K : NumOps} (v : Z) (r : info K) : info K :=
  mkinfo (i_status r) (i_status_val r) (i_status_polish r) (i_obj_val r) (i_dual_obj_val r) (i_prim_res r) (i_dual_res r) (i_duality_gap r) v (i_rho_updates r) (i_rho_estimate r) (i_setup_time r) (i_solve_time r) (i_update_time r) (i_polish_time r) (i_run_time r) (i_primdual_int r) (i_rel_kkt_error r).
Definition set_i_rho_updates {K : NumOps} (v : Z) (r : info K) : info K :=
  mkinfo (i_status r) (i_status_val r) (i_status_polish r) (i_obj_val r) (i_dual_obj_val r) (i_prim_res r) (i_dual_res r) (i_duality_gap r) (i_iter r) v (i_rho_estimate r) (i_setup_time r) (i_solve_time r) (i_update_time r) (i_polish_time r) (i_run_time r) (i_primdual_int r) (i_rel_kkt_error r).
Definition set_i_rho_estimate {K : NumOps} (v : K) (r : info K) : info K :=
  mkinfo (i_status r) (i_status_val r) (i_status_polish r) (i_obj_val r) (i_dual_obj_val r) (i_prim_res r) (i_dual_res r) (i_duality_gap r) (i_iter r) (i_rho_updates r) v (i_setup_time r) (i_solve_time r) (i_update_time r) (i_polish_time r) (i_run_time r) (i_primdual_int r) (i_rel_kkt_error r).
Definition set_i_setup_time {K : NumOps} (v : K) (r : info K) : info K :=
  mkinfo (i_status r) (i_status_val r) (i_status_polish r) (i_obj_val r) (i_dual_obj_val r) (i_prim_res r) (i_dual_res r) (i_duality_gap r) (i_iter r) (i_rho_updates r) (i_rho_estimate r) v (i_solve_time r) (i_update_time r) (i_polish_time r) (i_run_time r) (i_primdual_int r) (i_rel_kkt_error r).
Definition set_i_solve_time {K : NumOps} (v : K) (r : info K) : info K :=
  mkinfo (i_status r) (i_status_val r) (i_status_polish r) (i_obj_val r) (i_dual_obj_val r) (i_prim_res r) (i_dual_res r) (i_duality_gap r) (i_iter r) (i_rho_updates r) (i_rho_estimate r) (i_setup_time r) v (i_update_time r) (i_polish_time r) (i_run_time r) (i_primdual_int r) (i_rel_kkt_error r).
Definition set_i_update_time {K : NumOps} (v : K) (r : info K) : info K :=
  mkinfo (i_status r) (i_status_val r) (i_status_polish r) (i_obj_val r) (i_dual_obj_val r) (i_prim_res r) (i_dual_res r) (i_duality_gap r) (i_iter r) (i_rho_updates r) (i_rho_estimate r) (i_setup_time r) (i_solve_time r) v (i_polish_time r) (i_run_time r) (i_primdual_int r) (i_rel_kkt_error r).
Definition set_i_polish_time {K : NumOps} (v : K) (r : info K) : info K :=
  mkinfo (i_status r) (i_status_val r) (i_status_polish r) (i_obj_val r) (i_dual_obj_val r) (i_prim_res r) (i_dual_res r) (i_duality_gap r) (i_iter r) (i_rho_updates r) (i_rho_estimate r) (i_setup_time r) (i_solve_time r) (i_update_time r) v (i_run_time r) (i_primdual_int r) (i_rel_kkt_error r).
Definition set_i_run_time {K : NumOps} (v : K) (r : info K) : info K :=
  mkinfo (i_status r) (i_status_val r) (i_status_polish r) (i_obj_val r) (i_dual_obj_val r) (i_prim_res r) (i_dual_res r) (i_duality_gap r) (i_iter r) (i_rho_updates r) (i_rho_estimate r) (i_setup_time r) (i_solve_time r) (i_update_time r) (i_polish_time r) v (i_primdual_int r) (i_rel_kkt_error r).
Definition set_i_primdual_int {K : NumOps} (v : K) (r : info K) : info K :=
  mkinfo (i_status r) (i_status_val r) (i_status_polish r) (i_obj_val r) (i_dual_obj_val r) (i_prim_res r) (i_dual_res r) (i_duality_gap r) (i_iter r) (i_rho_updates r) (i_rho_estimate r) (i_setup_time r) (i_solve_time r) (i_update_time r) (i_polish_time r) (i_run_time r) v (i_rel_kkt_error r).
Definition set_i_rel_kkt_error {K : NumOps} (v : K) (r : info K) : info K :=
  mkinfo (i_status r) (i_status_val r) (i_status_polish r) (i_obj_val r) (i_dual_obj_val r) (i_prim_res r) (i_dual_res r) (i_duality_gap r) (i_iter r) (i_rho_updates r) (i_rho_estimate r) (i_setup_time r) (i_solve_time r) (i_update_time r) (i_polish_time r) (i_run_time r) (i_primdual_int r) v.

(** include/public/osqp_api_types.h:162-167, OSQPSolution *)
Record solution (K : NumOps) : Type := mksolution {
  so_x : list K;
  so_y : list K;
  so_prim_inf_cert : list K;
  so_dual_inf_cert : list K
}.
Arguments mksolution {K}. Arguments so_x {K}. Arguments so_y {K}. Arguments so_prim_inf_cert {K}. Arguments so_dual_inf_cert {K}.

(** Assignments to the fields of solution. *)
Definition set_so_x {K : NumOps} (v : list K) (r : solution K) : solution K :=
  mksolution v (so_y r) (so_prim_inf_cert r) (so_dual_inf_cert r).
Definition set_so_y {K : NumOps} (v : list K) (r : solution K) : solution K :=
  mksolution (so_x r) v (so_prim_inf_cert r) (so_dual_inf_cert r).
Definition set_so_prim_inf_cert {K : NumOps} (v : list K) (r : solution K) : solution K :=
  mksolution (so_x r) (so_y r) v (so_dual_inf_cert r).
Definition set_so_dual_inf_cert {K : NumOps} (v : list K) (r : solution K) : solution K :=
  mksolution (so_x r) (so_y r) (so_prim_inf_cert r) v.

(** include/private/types.h:73-81, OSQPData. P is stored with symmetry TRIU and A with NONE (osqp_api.c:385,390); the flag is implicit in the field *)
Record data (K : NumOps) : Type := mkdata {
  d_n : Z;
  d_m : Z;
  d_P : csc K;
  d_A : csc K;
  d_q : list K;
  d_l : list K;
  d_u : list K
}.
Arguments mkdata {K}. Arguments d_n {K}. Arguments d_m {K}. Arguments d_P {K}. Arguments d_A {K}. Arguments d_q {K}. Arguments d_l {K}. Arguments d_u {K}.

(** Assignments to the fields of data. *)
Definition set_d_n {K : NumOps} (v : Z) (r : data K) : data K :=
  mkdata v (d_m r) (d_P r) (d_A r) (d_q r) (d_l r) (d_u r).
Definition set_d_m {K : NumOps} (v : Z) (r : data K) : data K :=
  mkdata (d_n r) v (d_P r) (d_A r) (d_q r) (d_l r) (d_u r).
Definition set_d_P {K : NumOps} (v : csc K) (r : data K) : data K :=
  mkdata (d_n r) (d_m r) v (d_A r) (d_q r) (d_l r) (d_u r).
Definition set_d_A {K : NumOps} (v : csc K) (r : data K) : data K :=
  mkdata (d_n r) (d_m r) (d_P r) v (d_q r) (d_l r) (d_u r).
Definition set_d_q {K : NumOps} (v : list K) (r : data K) : data K :=
  mkdata (d_n r) (d_m r) (d_P r) (d_A r) v (d_l r) (d_u r).
Definition set_d_l {K : NumOps} (v : list K) (r : data K) : data K :=
  mkdata (d_n r) (d_m r) (d_P r) (d_A r) (d_q r) v (d_u r).
Definition set_d_u {K : NumOps} (v : list K) (r : data K) : data K :=
  mkdata (d_n r) (d_m r) (d_P r) (d_A r) (d_q r) (d_l r) v.

(** include/private/types.h:33-40, OSQPScaling *)
Record scaling (K : NumOps) : Type := mkscaling {
  sc_c : K;
  sc_D : list K;
  sc_E : list K;
  sc_cinv : K;
  sc_Dinv : list K;
  sc_Einv : list K
}.
Arguments mkscaling {K}. Arguments sc_c {K}. Arguments sc_D {K}. Arguments sc_E {K}. Arguments sc_cinv {K}. Arguments sc_Dinv {K}. Arguments sc_Einv {K}.

(** Assignments to the fields of scaling. *)
Definition set_sc_c {K : NumOps} (v : K) (r : scaling K) : scaling K :=
  mkscaling v (sc_D r) (sc_E r) (sc_cinv r) (sc_Dinv r) (sc_Einv r).
Definition set_sc_D {K : NumOps} (v : list K) (r : scaling K) : scaling K :=
  mkscaling (sc_c r) v (sc_E r) (sc_cinv r) (sc_Dinv r) (sc_Einv r).
Definition set_sc_E {K : NumOps} (v : list K) (r : scaling K) : scaling K :=
  mkscaling (sc_c r) (sc_D r) v (sc_cinv r) (sc_Dinv r) (sc_Einv r).
Definition set_sc_cinv {K : NumOps} (v : K) (r : scaling K) : scaling K :=
  mkscaling (sc_c r) (sc_D r) (sc_E r) v (sc_Dinv r) (sc_Einv r).
Definition set_sc_Dinv {K : NumOps} (v : list K) (r : scaling K) : scaling K :=
  mkscaling (sc_c r) (sc_D r) (sc_E r) (sc_cinv r) v (sc_Einv r).
Definition set_sc_Einv {K : NumOps} (v : list K) (r : scaling K) : scaling K :=
  mkscaling (sc_c r) (sc_D r) (sc_E r) (sc_cinv r) (sc_Dinv r) v.

(** algebra/_common/lin_sys/qdldl/qdldl_interface.h, qdldl_solver. The factors L, D and the elimination tree are represented by [ls_fac], the matrix that was last handed to QDLDL_factor; the scratch vectors bp, sol (overwritten in full before every use) and QDLDL's workspace are left out *)
Record linsys (K : NumOps) : Type := mklinsys {
  ls_n : Z;
  ls_m : Z;
  ls_sigma : K;
  ls_rho_inv : K;
  ls_rho_inv_vec : option (list K);
  ls_polishing : bool;
  ls_perm : list Z;
  ls_KKT : option (csc K);
  ls_PtoKKT : list Z;
  ls_AtoKKT : list Z;
  ls_rhotoKKT : list Z;
  ls_fac : csc K
}.
Arguments mklinsys {K}. Arguments ls_n {K}. Arguments ls_m {K}. Arguments ls_sigma {K}. Arguments ls_rho_inv {K}. Arguments ls_rho_inv_vec {K}. Arguments ls_polishing {K}. Arguments ls_perm {K}. Arguments ls_KKT {K}. Arguments ls_PtoKKT {K}. Arguments ls_AtoKKT {K}. Arguments ls_rhotoKKT {K}. Arguments ls_fac {K}.

(** Assignments to the fields of linsys. *)
Definition set_ls_n {K : NumOps} (v : Z) (r : linsys K) : linsys K :=
  mklinsys v (ls_m r) (ls_sigma r) (ls_rho_inv r) (ls_rho_inv_vec r) (ls_polishing r) (ls_perm r) (ls_KKT r) (ls_PtoKKT r) (ls_AtoKKT r) (ls_rhotoKKT r) (ls_fac r).
Definition set_ls_m {K : NumOps} (v : Z) (r : linsys K) : linsys K :=
  mklinsys (ls_n r) v (ls_sigma r) (ls_rho_inv r) (ls_rho_inv_vec r) (ls_polishing r) (ls_perm r) (ls_KKT r) (ls_PtoKKT r) (ls_AtoKKT r) (ls_rhotoKKT r) (ls_fac r).
Definition set_ls_sigma {K : NumOps} (v : K) (r : linsys K) : linsys K :=
  mklinsys (ls_n r) (ls_m r) v (ls_rho_inv r) (ls_rho_inv_vec r) (ls_polishing r) (ls_perm r) (ls_KKT r) (ls_PtoKKT r) (ls_AtoKKT r) (ls_rhotoKKT r) (ls_fac r).
Definition set_ls_rho_inv {K : NumOps} (v : K) (r : linsys K) : linsys K :=
  mklinsys (ls_n r) (ls_m r) (ls_sigma r) v (ls_rho_inv_vec r) (ls_polishing r) (ls_perm r) (ls_KKT r) (ls_PtoKKT r) (ls_AtoKKT r) (ls_rhotoKKT r) (ls_fac r).
Definition set_ls_rho_inv_vec {K : NumOps} (v : option (list K)) (r : linsys K) : linsys K :=
  mklinsys (ls_n r) (ls_m r) (ls_sigma r) (ls_rho_inv r) v (ls_polishing r) (ls_perm r) (ls_KKT r) (ls_PtoKKT r) (ls_AtoKKT r) (ls_rhotoKKT r) (ls_fac r).
Definition set_ls_polishing {K : NumOps} (v : bool) (r : linsys K) : linsys K :=
  mklinsys (ls_n r) (ls_m r) (ls_sigma r) (ls_rho_inv r) (ls_rho_inv_vec r) v (ls_perm r) (ls_KKT r) (ls_PtoKKT r) (ls_AtoKKT r) (ls_rhotoKKT r) (ls_fac r).
Definition set_ls_perm {K : NumOps} (v : list Z) (r : linsys K) : linsys K :=
  mklinsys (ls_n r) (ls_m r) (ls_sigma r) (ls_rho_inv r) (ls_rho_inv_vec r) (ls_polishing r) v (ls_KKT r) (ls_PtoKKT r) (ls_AtoKKT r) (ls_rhotoKKT r) (ls_fac r).
Definition set_ls_KKT {K : NumOps} (v : option (csc K)) (r : linsys K) : linsys K :=
  mklinsys (ls_n r) (ls_m r) (ls_sigma r) (ls_rho_inv r) (ls_rho_inv_vec r) (ls_polishing r) (ls_perm r) v (ls_PtoKKT r) (ls_AtoKKT r) (ls_rhotoKKT r) (ls_fac r).
Definition set_ls_PtoKKT {K : NumOps} (v : list Z) (r : linsys K) : linsys K :=
  mklinsys (ls_n r) (ls_m r) (ls_sigma r) (ls_rho_inv r) (ls_rho_inv_vec r) (ls_polishing r) (ls_perm r) (ls_KKT r) v (ls_AtoKKT r) (ls_rhotoKKT r) (ls_fac r).
Definition set_ls_AtoKKT {K : NumOps} (v : list Z) (r : linsys K) : linsys K :=
  mklinsys (ls_n r) (ls_m r) (ls_sigma r) (ls_rho_inv r) (ls_rho_inv_vec r) (ls_polishing r) (ls_perm r) (ls_KKT r) (ls_PtoKKT r) v (ls_rhotoKKT r) (ls_fac r).
Definition set_ls_rhotoKKT {K : NumOps} (v : list Z) (r : linsys K) : linsys K :=
  mklinsys (ls_n r) (ls_m r) (ls_sigma r) (ls_rho_inv r) (ls_rho_inv_vec r) (ls_polishing r) (ls_perm r) (ls_KKT r) (ls_PtoKKT r) (ls_AtoKKT r) v (ls_fac r).
Definition set_ls_fac {K : NumOps} (v : csc K) (r : linsys K) : linsys K :=
  mklinsys (ls_n r) (ls_m r) (ls_sigma r) (ls_rho_inv r) (ls_rho_inv_vec r) (ls_polishing r) (ls_perm r) (ls_KKT r) (ls_PtoKKT r) (ls_AtoKKT r) (ls_rhotoKKT r) v.

(** include/private/types.h:51-63, OSQPPolish (Ared is local to one call of polish and freed before it returns) *)
Record pol (K : NumOps) : Type := mkpol {
  p_n_active : Z;
  p_active_flags : list Z;
  p_x : list K;
  p_z : list K;
  p_y : list K;
  p_obj_val : K;
  p_dual_obj_val : K;
  p_duality_gap : K;
  p_prim_res : K;
  p_dual_res : K
}.
Arguments mkpol {K}. Arguments p_n_active {K}. Arguments p_active_flags {K}. Arguments p_x {K}. Arguments p_z {K}. Arguments p_y {K}. Arguments p_obj_val {K}. Arguments p_dual_obj_val {K}. Arguments p_duality_gap {K}. Arguments p_prim_res {K}. Arguments p_dual_res {K}.

(** Assignments to the fields of pol. *)
Definition set_p_n_active {K : NumOps} (v : Z) (r : pol K) : pol K :=
  mkpol v (p_active_flags r) (p_x r) (p_z r) (p_y r) (p_obj_val r) (p_dual_obj_val r) (p_duality_gap r) (p_prim_res r) (p_dual_res r).
Definition set_p_active_flags {K : NumOps} (v : list Z) (r : pol K) : pol K :=
  mkpol (p_n_active r) v (p_x r) (p_z r) (p_y r) (p_obj_val r) (p_dual_obj_val r) (p_duality_gap r) (p_prim_res r) (p_dual_res r).
Definition set_p_x {K : NumOps} (v : list K) (r : pol K) : pol K :=
  mkpol (p_n_active r) (p_active_flags r) v (p_z r) (p_y r) (p_obj_val r) (p_dual_obj_val r) (p_duality_gap r) (p_prim_res r) (p_dual_res r).
Definition set_p_z {K : NumOps} (v : list K) (r : pol K) : pol K :=
  mkpol (p_n_active r) (p_active_flags r) (p_x r) v (p_y r) (p_obj_val r) (p_dual_obj_val r) (p_duality_gap r) (p_prim_res r) (p_dual_res r).
Definition set_p_y {K : NumOps} (v : list K) (r : pol K) : pol K :=
  mkpol (p_n_active r) (p_active_flags r) (p_x r) (p_z r) v (p_obj_val r) (p_dual_obj_val r) (p_duality_gap r) (p_prim_res r) (p_dual_res r).
Definition set_p_obj_val {K : NumOps} (v : K) (r : pol K) : pol K :=
  mkpol (p_n_active r) (p_active_flags r) (p_x r) (p_z r) (p_y r) v (p_dual_obj_val r) (p_duality_gap r) (p_prim_res r) (p_dual_res r).
Definition set_p_dual_obj_val {K : NumOps} (v : K) (r : pol K) : pol K :=
  mkpol (p_n_active r) (p_active_flags r) (p_x r) (p_z r) (p_y r) (p_obj_val r) v (p_duality_gap r) (p_prim_res r) (p_dual_res r).
Definition set_p_duality_gap {K : NumOps} (v : K) (r : pol K) : pol K :=
  mkpol (p_n_active r) (p_active_flags r) (p_x r) (p_z r) (p_y r) (p_obj_val r) (p_dual_obj_val r) v (p_prim_res r) (p_dual_res r).
Definition set_p_prim_res {K : NumOps} (v : K) (r : pol K) : pol K :=
  mkpol (p_n_active r) (p_active_flags r) (p_x r) (p_z r) (p_y r) (p_obj_val r) (p_dual_obj_val r) (p_duality_gap r) v (p_dual_res r).
Definition set_p_dual_res {K : NumOps} (v : K) (r : pol K) : pol K :=
  mkpol (p_n_active r) (p_active_flags r) (p_x r) (p_z r) (p_y r) (p_obj_val r) (p_dual_obj_val r) (p_duality_gap r) (p_prim_res r) v.

(** include/private/types.h:100-230, OSQPWorkspace. The views xtilde_view and ztilde_view are slices of xz_tilde; [None] is a NULL pointer *)
Record work (K : NumOps) : Type := mkwork {
  w_data : data K;
  w_linsys : option (linsys K);
  w_pol : pol K;
  w_rho_vec : option (list K);
  w_rho_inv_vec : option (list K);
  w_constr_type : option (list Z);
  w_x : list K;
  w_y : list K;
  w_z : list K;
  w_xz_tilde : list K;
  w_x_prev : list K;
  w_z_prev : list K;
  w_Ax : list K;
  w_Px : list K;
  w_Aty : list K;
  w_xtPx : K;
  w_qtx : K;
  w_SC : K;
  w_scaled_dual_gap : K;
  w_delta_y : list K;
  w_Atdelta_y : list K;
  w_delta_x : list K;
  w_Pdelta_x : list K;
  w_Adelta_x : list K;
  w_D_temp : list K;
  w_D_temp_A : list K;
  w_E_temp : list K;
  w_scaling : option (scaling K);
  w_scaled_prim_res : K;
  w_scaled_dual_res : K;
  w_rho_inv : K;
  w_first_run : Z;
  w_clear_update_time : Z;
  w_rho_update_from_solve : Z;
  w_summary_printed : Z;
  w_rho_updated : Z;
  w_last_rel_kkt : K
}.
Arguments mkwork {K}. Arguments w_data {K}. Arguments w_linsys {K}. Arguments w_pol {K}. Arguments w_rho_vec {K}. Arguments w_rho_inv_vec {K}. Arguments w_constr_type {K}. Arguments w_x {K}. Arguments w_y {K}. Arguments w_z {K}. Arguments w_xz_tilde {K}. Arguments w_x_prev {K}. Arguments w_z_prev {K}. Arguments w_Ax {K}. Arguments w_Px {K}. Arguments w_Aty {K}. Arguments w_xtPx {K}. Arguments w_qtx {K}. Arguments w_SC {K}. Arguments w_scaled_dual_gap {K}. Arguments w_delta_y {K}. Arguments w_Atdelta_y {K}. Arguments w_delta_x {K}. Arguments w_Pdelta_x {K}. Arguments w_Adelta_x {K}. Arguments w_D_temp {K}. Arguments w_D_temp_A {K}. Arguments w_E_temp {K}. Arguments w_scaling {K}. Arguments w_scaled_prim_res {K}. Arguments w_scaled_dual_res {K}. Arguments w_rho_inv {K}. Arguments w_first_run {K}. Arguments w_clear_update_time {K}. Arguments w_rho_update_from_solve {K}. Arguments w_summary_printed {K}. Arguments w_rho_updated {K}. Arguments w_last_rel_kkt {K}.

(** Assignments to the fields of work. *)
Definition set_w_data {K : NumOps} (v : data K) (r : work K) : work K :=
  mkwork v (w_linsys r) (w_pol r) (w_rho_vec r) (w_rho_inv_vec r) (w_constr_type r) (w_x r) (w_y r) (w_z r) (w_xz_tilde r) (w_x_prev r) (w_z_prev r) (w_Ax r) (w_Px r) (w_Aty r) (w_xtPx r) (w_qtx r) (w_SC r) (w_scaled_dual_gap r) (w_delta_y r) (w_Atdelta_y r) (w_delta_x r) (w_Pdelta_x r) (w_Adelta_x r) (w_D_temp r) (w_D_temp_A r) (w_E_temp r) (w_scaling r) (w_scaled_prim_res r) (w_scaled_dual_res r) (w_rho_inv r) (w_first_run r) (w_clear_update_time r) (w_rho_update_from_solve r) (w_summary_printed r) (w_rho_updated r) (w_last_rel_kkt r).
Definition set_w_linsys {K : NumOps} (v : option (linsys K)) (r : work K) : work K :=
  mkwork (w_data r) v (w_pol r) (w_rho_vec r) (w_rho_inv_vec r) (w_constr_type r) (w_x r) (w_y r) (w_z r) (w_xz_tilde r) (w_x_prev r) (w_z_prev r) (w_Ax r) (w_Px r) (w_Aty r) (w_xtPx r) (w_qtx r) (w_SC r) (w_scaled_dual_gap r) (w_delta_y r) (w_Atdelta_y r) (w_delta_x r) (w_Pdelta_x r) (w_Adelta_x r) (w_D_temp r) (w_D_temp_A r) (w_E_temp r) (w_scaling r) (w_scaled_prim_res r) (w_scaled_dual_res r) (w_rho_inv r) (w_first_run r) (w_clear_update_time r) (w_rho_update_from_solve r) (w_summary_printed r) (w_rho_updated r) (w_last_rel_kkt r).
Definition set_w_pol {K : NumOps} (v : pol K) (r : work K) : work K :=
  mkwork (w_data r) (w_linsys r) v (w_rho_vec r) (w_rho_inv_vec r) (w_constr_type r) (w_x r) (w_y r) (w_z r) (w_xz_tilde r) (w_x_prev r) (w_z_prev r) (w_Ax r) (w_Px r) (w_Aty r) (w_xtPx r) (w_qtx r) (w_SC r) (w_scaled_dual_gap r) (w_delta_y r) (w_Atdelta_y r) (w_delta_x r) (w_Pdelta_x r) (w_Adelta_x r) (w_D_temp r) (w_D_temp_A r) (w_E_temp r) (w_scaling r) (w_scaled_prim_res r) (w_scaled_dual_res r) (w_rho_inv r) (w_first_run r) (w_clear_update_time r) (w_rho_update_from_solve r) (w_summary_printed r) (w_rho_updated r) (w_last_rel_kkt r).
Definition set_w_rho_vec {K : NumOps} (v : option (list K)) (r : work K) : work K :=
  mkwork (w_data r) (w_linsys r) (w_pol r) v (w_rho_inv_vec r) (w_constr_type r) (w_x r) (w_y r) (w_z r) (w_xz_tilde r) (w_x_prev r) (w_z_prev r) (w_Ax r) (w_Px r) (w_Aty r) (w_xtPx r) (w_qtx r) (w_SC r) (w_scaled_dual_gap r) (w_delta_y r) (w_Atdelta_y r) (w_delta_x r) (w_Pdelta_x r) (w_Adelta_x r) (w_D_temp r) (w_D_temp_A r) (w_E_temp r) (w_scaling r) (w_scaled_prim_res r) (w_scaled_dual_res r) (w_rho_inv r) (w_first_run r) (w_clear_update_time r) (w_rho_update_from_solve r) (w_summary_printed r) (w_rho_updated r) (w_last_rel_kkt r).
Definition set_w_rho_inv_vec {K : NumOps} (v : option (list K)) (r : work K) : work K :=
  mkwork (w_data r) (w_linsys r) (w_pol r) (w_rho_vec r) v (w_constr_type r) (w_x r) (w_y r) (w_z r) (w_xz_tilde r) (w_x_prev r) (w_z_prev r) (w_Ax r) (w_Px r) (w_Aty r) (w_xtPx r) (w_qtx r) (w_SC r) (w_scaled_dual_gap r) (w_delta_y r) (w_Atdelta_y r) (w_delta_x r) (w_Pdelta_x r) (w_Adelta_x r) (w_D_temp r) (w_D_temp_A r) (w_E_temp r) (w_scaling r) (w_scaled_prim_res r) (w_scaled_dual_res r) (w_rho_inv r) (w_first_run r) (w_clear_update_time r) (w_rho_update_from_solve r) (w_summary_printed r) (w_rho_updated r) (w_last_rel_kkt r).
Definition set_w_constr_type {K : NumOps} (v : option (list Z)) (r : work K) : work K :=
  mkwork (w_data r) (w_linsys r) (w_pol r) (w_rho_vec r) (w_rho_inv_vec r) v (w_x r) (w_y r) (w_z r) (w_xz_tilde r) (w_x_prev r) (w_z_prev r) (w_Ax r) (w_Px r) (w_Aty r) (w_xtPx r) (w_qtx r) (w_SC r) (w_scaled_dual_gap r) (w_delta_y r) (w_Atdelta_y r) (w_delta_x r) (w_Pdelta_x r) (w_Adelta_x r) (w_D_temp r) (w_D_temp_A r) (w_E_temp r) (w_scaling r) (w_scaled_prim_res r) (w_scaled_dual_res r) (w_rho_inv r) (w_first_run r) (w_clear_update_time r) (w_rho_update_from_solve r) (w_summary_printed r) (w_rho_updated r) (w_last_rel_kkt r).
Definition set_w_x {K : NumOps} (v : list K) (r : work K) : work K :=
  mkwork (w_data r) (w_linsys r) (w_pol r) (w_rho_vec r) (w_rho_inv_vec r) (w_constr_type r) v (w_y r) (w_z r) (w_xz_tilde r) (w_x_prev r) (w_z_prev r) (w_Ax r) (w_Px r) (w_Aty r) (w_xtPx r) (w_qtx r) (w_SC r) (w_scaled_dual_gap r) (w_delta_y r) (w_Atdelta_y r) (w_delta_x r) (w_Pdelta_x r) (w_Adelta_x r) (w_D_temp r) (w_D_temp_A r) (w_E_temp r) (w_scaling r) (w_scaled_prim_res r) (w_scaled_dual_res r) (w_rho_inv r) (w_first_run r) (w_clear_update_time r) (w_rho_update_from_solve r) (w_summary_printed r) (w_rho_updated r) (w_last_rel_kkt r).
Definition set_w_y {K : NumOps} (v : list K) (r : work K) : work K :=
  mkwork (w_data r) (w_linsys r) (w_pol r) (w_rho_vec r) (w_rho_inv_vec r) (w_constr_type r) (w_x r) v (w_z r) (w_xz_tilde r) (w_x_prev r) (w_z_prev r) (w_Ax r) (w_Px r) (w_Aty r) (w_xtPx r) (w_qtx r) (w_SC r) (w_scaled_dual_gap r) (w_delta_y r) (w_Atdelta_y r) (w_delta_x r) (w_Pdelta_x r) (w_Adelta_x r) (w_D_temp r) (w_D_temp_A r) (w_E_temp r) (w_scaling r) (w_scaled_prim_res r) (w_scaled_dual_res r) (w_rho_inv r) (w_first_run r) (w_clear_update_time r) (w_rho_update_from_solve r) (w_summary_printed r) (w_rho_updated r) (w_last_rel_kkt r).
Definition set_w_z {K : NumOps} (v : list K) (r : work K) : work K :=
  mkwork (w_data r) (w_linsys r) (w_pol r) (w_rho_vec r) (w_rho_inv_vec r) (w_constr_type r) (w_x r) (w_y r) v (w_xz_tilde r) (w_x_prev r) (w_z_prev r) (w_Ax r) (w_Px r) (w_Aty r) (w_xtPx r) (w_qtx r) (w_SC r) (w_scaled_dual_gap r) (w_delta_y r) (w_Atdelta_y r) (w_delta_x r) (w_Pdelta_x r) (w_Adelta_x r) (w_D_temp r) (w_D_temp_A r) (w_E_temp r) (w_scaling r) (w_scaled_prim_res r) (w_scaled_dual_res r) (w_rho_inv r) (w_first_run r) (w_clear_update_time r) (w_rho_update_from_solve r) (w_summary_printed r) (w_rho_updated r) (w_last_rel_kkt r).
Definition set_w_xz_tilde {K : NumOps} (v : list K) (r : work K) : work K :=
  mkwork (w_data r) (w_linsys r) (w_pol r) (w_rho_vec r) (w_rho_inv_vec r) (w_constr_type r) (w_x r) (w_y r) (w_z r) v (w_x_prev r) (w_z_prev r) (w_Ax r) (w_Px r) (w_Aty r) (w_xtPx r) (w_qtx r) (w_SC r) (w_scaled_dual_gap r) (w_delta_y r) (w_Atdelta_y r) (w_delta_x r) (w_Pdelta_x r) (w_Adelta_x r) (w_D_temp r) (w_D_temp_A r) (w_E_temp r) (w_scaling r) (w_scaled_prim_res r) (w_scaled_dual_res r) (w_rho_inv r) (w_first_run r) (w_clear_update_time r) (w_rho_update_from_solve r) (w_summary_printed r) (w_rho_updated r) (w_last_rel_kkt r).
Definition set_w_x_prev {K : NumOps} (v : list K) (r : work K) : work K :=
  mkwork (w_data r) (w_linsys r) (w_pol r) (w_rho_vec r) (w_rho_inv_vec r) (w_constr_type r) (w_x r) (w_y r) (w_z r) (w_xz_tilde r) v (w_z_prev r) (w_Ax r) (w_Px r) (w_Aty r) (w_xtPx r) (w_qtx r) (w_SC r) (w_scaled_dual_gap r) (w_delta_y r) (w_Atdelta_y r) (w_delta_x r) (w_Pdelta_x r) (w_Adelta_x r) (w_D_temp r) (w_D_temp_A r) (w_E_temp r) (w_scaling r) (w_scaled_prim_res r) (w_scaled_dual_res r) (w_rho_inv r) (w_first_run r) (w_clear_update_time r) (w_rho_update_from_solve r) (w_summary_printed r) (w_rho_updated r) (w_last_rel_kkt r).
Definition set_w_z_prev {K : NumOps} (v : list K) (r : work K) : work K :=
  mkwork (w_data r) (w_linsys r) (w_pol r) (w_rho_vec r) (w_rho_inv_vec r) (w_constr_type r) (w_x r) (w_y r) (w_z r) (w_xz_tilde r) (w_x_prev r) v (w_Ax r) (w_Px r) (w_Aty r) (w_xtPx r) (w_qtx r) (w_SC r) (w_scaled_dual_gap r) (w_delta_y r) (w_Atdelta_y r) (w_delta_x r) (w_Pdelta_x r) (w_Adelta_x r) (w_D_temp r) (w_D_temp_A r) (w_E_temp r) (w_scaling r) (w_scaled_prim_res r) (w_scaled_dual_res r) (w_rho_inv r) (w_first_run r) (w_clear_update_time r) (w_rho_update_from_solve r) (w_summary_printed r) (w_rho_updated r) (w_last_rel_kkt r).
Definition set_w_Ax {K : NumOps} (v : list K) (r : work K) : work K :=
  mkwork (w_data r) (w_linsys r) (w_pol r) (w_rho_vec r) (w_rho_inv_vec r) (w_constr_type r) (w_x r) (w_y r) (w_z r) (w_xz_tilde r) (w_x_prev r) (w_z_prev r) v (w_Px r) (w_Aty r) (w_xtPx r) (w_qtx r) (w_SC r) (w_scaled_dual_gap r) (w_delta_y r) (w_Atdelta_y r) (w_delta_x r) (w_Pdelta_x r) (w_Adelta_x r) (w_D_temp r) (w_D_temp_A r) (w_E_temp r) (w_scaling r) (w_scaled_prim_res r) (w_scaled_dual_res r) (w_rho_inv r) (w_first_run r) (w_clear_update_time r) (w_rho_update_from_solve r) (w_summary_printed r) (w_rho_updated r) (w_last_rel_kkt r).
Definition set_w_Px {K : NumOps} (v : list K) (r : work K) : work K :=
  mkwork (w_data r) (w_linsys r) (w_pol r) (w_rho_vec r) (w_rho_inv_vec r) (w_constr_type r) (w_x r) (w_y r) (w_z r) (w_xz_tilde r) (w_x_prev r) (w_z_prev r) (w_Ax r) v (w_Aty r) (w_xtPx r) (w_qtx r) (w_SC r) (w_scaled_dual_gap r) (w_delta_y r) (w_Atdelta_y r) (w_delta_x r) (w_Pdelta_x r) (w_Adelta_x r) (w_D_temp r) (w_D_temp_A r) (w_E_temp r) (w_scaling r) (w_scaled_prim_res r) (w_scaled_dual_res r) (w_rho_inv r) (w_first_run r) (w_clear_update_time r) (w_rho_update_from_solve r) (w_summary_printed r) (w_rho_updated r) (w_last_rel_kkt r).
Definition set_w_Aty {K : NumOps} (v : list K) (r : work K) : work K :=
  mkwork (w_data r) (w_linsys r) (w_pol r) (w_rho_vec r) (w_rho_inv_vec r) (w_constr_type r) (w_x r) (w_y r) (w_z r) (w_xz_tilde r) (w_x_prev r) (w_z_prev r) (w_Ax r) (w_Px r) v (w_xtPx r) (w_qtx r) (w_SC r) (w_scaled_dual_gap r) (w_delta_y r) (w_Atdelta_y r) (w_delta_x r) (w_Pdelta_x r) (w_Adelta_x r) (w_D_temp r) (w_D_temp_A r) (w_E_temp r) (w_scaling r) (w_scaled_prim_res r) (w_scaled_dual_res r) (w_rho_inv r) (w_first_run r) (w_clear_update_time r) (w_rho_update_from_solve r) (w_summary_printed r) (w_rho_updated r) (w_last_rel_kkt r).
Definition set_w_xtPx {K : NumOps} (v : K) (r : work K) : work K :=
  mkwork (w_data r) (w_linsys r) (w_pol r) (w_rho_vec r) (w_rho_inv_vec r) (w_constr_type r) (w_x r) (w_y r) (w_z r) (w_xz_tilde r) (w_x_prev r) (w_z_prev r) (w_Ax r) (w_Px r) (w_Aty r) v (w_qtx r) (w_SC r) (w_scaled_dual_gap r) (w_delta_y r) (w_Atdelta_y r) (w_delta_x r) (w_Pdelta_x r) (w_Adelta_x r) (w_D_temp r) (w_D_temp_A r) (w_E_temp r) (w_scaling r) (w_scaled_prim_res r) (w_scaled_dual_res r) (w_rho_inv r) (w_first_run r) (w_clear_update_time r) (w_rho_update_from_solve r) (w_summary_printed r) (w_rho_updated r) (w_last_rel_kkt r).
Definition set_w_qtx {K : NumOps} (v : K) (r : work K) : work K :=
  mkwork (w_data r) (w_linsys r) (w_pol r) (w_rho_vec r) (w_rho_inv_vec r) (w_constr_type r) (w_x r) (w_y r) (w_z r) (w_xz_tilde r) (w_x_prev r) (w_z_prev r) (w_Ax r) (w_Px r) (w_Aty r) (w_xtPx r) v (w_SC r) (w_scaled_dual_gap r) (w_delta_y r) (w_Atdelta_y r) (w_delta_x r) (w_Pdelta_x r) (w_Adelta_x r) (w_D_temp r) (w_D_temp_A r) (w_E_temp r) (w_scaling r) (w_scaled_prim_res r) (w_scaled_dual_res r) (w_rho_inv r) (w_first_run r) (w_clear_update_time r) (w_rho_update_from_solve r) (w_summary_printed r) (w_rho_updated r) (w_last_rel_kkt r).
Definition set_w_SC {K : NumOps} (v : K) (r : work K) : work K :=
  mkwork (w_data r) (w_linsys r) (w_pol r) (w_rho_vec r) (w_rho_inv_vec r) (w_constr_type r) (w_x r) (w_y r) (w_z r) (w_xz_tilde r) (w_x_prev r) (w_z_prev r) (w_Ax r) (w_Px r) (w_Aty r) (w_xtPx r) (w_qtx r) v (w_scaled_dual_gap r) (w_delta_y r) (w_Atdelta_y r) (w_delta_x r) (w_Pdelta_x r) (w_Adelta_x r) (w_D_temp r) (w_D_temp_A r) (w_E_temp r) (w_scaling r) (w_scaled_prim_res r) (w_scaled_dual_res r) (w_rho_inv r) (w_first_run r) (w_clear_update_time r) (w_rho_update_from_solve r) (w_summary_printed r) (w_rho_updated r) (w_last_rel_kkt r).
Definition set_w_scaled_dual_gap {K : NumOps} (v : K) (r : work K) : work K :=
  mkwork (w_data r) (w_linsys r) (w_pol r) (w_rho_vec r) (w_rho_inv_vec r) (w_constr_type r) (w_x r) (w_y r) (w_z r) (w_xz_tilde r) (w_x_prev r) (w_z_prev r) (w_Ax r) (w_Px r) (w_Aty r) (w_xtPx r) (w_qtx r) (w_SC r) v (w_delta_y r) (w_Atdelta_y r) (w_delta_x r) (w_Pdelta_x r) (w_Adelta_x r) (w_D_temp r) (w_D_temp_A r) (w_E_temp r) (w_scaling r) (w_scaled_prim_res r) (w_scaled_dual_res r) (w_rho_inv r) (w_first_run r) (w_clear_update_time r) (w_rho_update_from_solve r) (w_summary_printed r) (w_rho_updated r) (w_last_rel_kkt r).
Definition set_w_delta_y {K : NumOps} (v : list K) (r : work K) : work K :=
  mkwork (w_data r) (w_linsys r) (w_pol r) (w_rho_vec r) (w_rho_inv_vec r) (w_constr_type r) (w_x r) (w_y r) (w_z r) (w_xz_tilde r) (w_x_prev r) (w_z_prev r) (w_Ax r) (w_Px r) (w_Aty r) (w_xtPx r) (w_qtx r) (w_SC r) (w_scaled_dual_gap r) v (w_Atdelta_y r) (w_delta_x r) (w_Pdelta_x r) (w_Adelta_x r) (w_D_temp r) (w_D_temp_A r) (w_E_temp r) (w_scaling r) (w_scaled_prim_res r) (w_scaled_dual_res r) (w_rho_inv r) (w_first_run r) (w_clear_update_time r) (w_rho_update_from_solve r) (w_summary_printed r) (w_rho_updated r) (w_last_rel_kkt r).
Definition set_w_Atdelta_y {K : NumOps} (v : list K) (r : work K) : work K :=
  mkwork (w_data r) (w_linsys r) (w_pol r) (w_rho_vec r) (w_rho_inv_vec r) (w_constr_type r) (w_x r) (w_y r) (w_z r) (w_xz_tilde r) (w_x_prev r) (w_z_prev r) (w_Ax r) (w_Px r) (w_Aty r) (w_xtPx r) (w_qtx r) (w_SC r) (w_scaled_dual_gap r) (w_delta_y r) v (w_delta_x r) (w_Pdelta_x r) (w_Adelta_x r) (w_D_temp r) (w_D_temp_A r) (w_E_temp r) (w_scaling r) (w_scaled_prim_res r) (w_scaled_dual_res r) (w_rho_inv r) (w_first_run r) (w_clear_update_time r) (w_rho_update_from_solve r) (w_summary_printed r) (w_rho_updated r) (w_last_rel_kkt r).
Definition set_w_delta_x {K : NumOps} (v : list K) (r : work K) : work K :=
  mkwork (w_data r) (w_linsys r) (w_pol r) (w_rho_vec r) (w_rho_inv_vec r) (w_constr_type r) (w_x r) (w_y r) (w_z r) (w_xz_tilde r) (w_x_prev r) (w_z_prev r) (w_Ax r) (w_Px r) (w_Aty r) (w_xtPx r) (w_qtx r) (w_SC r) (w_scaled_dual_gap r) (w_delta_y r) (w_Atdelta_y r) v (w_Pdelta_x r) (w_Adelta_x r) (w_D_temp r) (w_D_temp_A r) (w_E_temp r) (w_scaling r) (w_scaled_prim_res r) (w_scaled_dual_res r) (w_rho_inv r) (w_first_run r) (w_clear_update_time r) (w_rho_update_from_solve r) (w_summary_printed r) (w_rho_updated r) (w_last_rel_kkt r).
Definition set_w_Pdelta_x {K : NumOps} (v : list K) (r : work K) : work K :=
  mkwork (w_data r) (w_linsys r) (w_pol r) (w_rho_vec r) (w_rho_inv_vec r) (w_constr_type r) (w_x r) (w_y r) (w_z r) (w_xz_tilde r) (w_x_prev r) (w_z_prev r) (w_Ax r) (w_Px r) (w_Aty r) (w_xtPx r) (w_qtx r) (w_SC r) (w_scaled_dual_gap r) (w_delta_y r) (w_Atdelta_y r) (w_delta_x r) v (w_Adelta_x r) (w_D_temp r) (w_D_temp_A r) (w_E_temp r) (w_scaling r) (w_scaled_prim_res r) (w_scaled_dual_res r) (w_rho_inv r) (w_first_run r) (w_clear_update_time r) (w_rho_update_from_solve r) (w_summary_printed r) (w_rho_updated r) (w_last_rel_kkt r).
Definition set_w_Adelta_x {K : NumOps} (v : list K) (r : work K) : work K :=
  mkwork (w_data r) (w_linsys r) (w_pol r) (w_rho_vec r) (w_rho_inv_vec r) (w_constr_type r) (w_x r) (w_y r) (w_z r) (w_xz_tilde r) (w_x_prev r) (w_z_prev r) (w_Ax r) (w_Px r) (w_Aty r) (w_xtPx r) (w_qtx r) (w_SC r) (w_scaled_dual_gap r) (w_delta_y r) (w_Atdelta_y r) (w_delta_x r) (w_Pdelta_x r) v (w_D_temp r) (w_D_temp_A r) (w_E_temp r) (w_scaling r) (w_scaled_prim_res r) (w_scaled_dual_res r) (w_rho_inv r) (w_first_run r) (w_clear_update_time r) (w_rho_update_from_solve r) (w_summary_printed r) (w_rho_updated r) (w_last_rel_kkt r).
Definition set_w_D_temp {K : NumOps} (v : list K) (r : work K) : work K :=
  mkwork (w_data r) (w_linsys r) (w_pol r) (w_rho_vec r) (w_rho_inv_vec r) (w_constr_type r) (w_x r) (w_y r) (w_z r) (w_xz_tilde r) (w_x_prev r) (w_z_prev r) (w_Ax r) (w_Px r) (w_Aty r) (w_xtPx r) (w_qtx r) (w_SC r) (w_scaled_dual_gap r) (w_delta_y r) (w_Atdelta_y r) (w_delta_x r) (w_Pdelta_x r) (w_Adelta_x r) v (w_D_temp_A r) (w_E_temp r) (w_scaling r) (w_scaled_prim_res r) (w_scaled_dual_res r) (w_rho_inv r) (w_first_run r) (w_clear_update_time r) (w_rho_update_from_solve r) (w_summary_printed r) (w_rho_updated r) (w_last_rel_kkt r).
Definition set_w_D_temp_A {K : NumOps} (v : list K) (r : work K) : work K :=
  mkwork (w_data r) (w_linsys r) (w_pol r) (w_rho_vec r) (w_rho_inv_vec r) (w_constr_type r) (w_x r) (w_y r) (w_z r) (w_xz_tilde r) (w_x_prev r) (w_z_prev r) (w_Ax r) (w_Px r) (w_Aty r) (w_xtPx r) (w_qtx r) (w_SC r) (w_scaled_dual_gap r) (w_delta_y r) (w_Atdelta_y r) (w_delta_x r) (w_Pdelta_x r) (w_Adelta_x r) (w_D_temp r) v (w_E_temp r) (w_scaling r) (w_scaled_prim_res r) (w_scaled_dual_res r) (w_rho_inv r) (w_first_run r) (w_clear_update_time r) (w_rho_update_from_solve r) (w_summary_printed r) (w_rho_updated r) (w_last_rel_kkt r).
Definition set_w_E_temp {K : NumOps} (v : list K) (r : work K) : work K :=
  mkwork (w_data r) (w_linsys r) (w_pol r) (w_rho_vec r) (w_rho_inv_vec r) (w_constr_type r) (w_x r) (w_y r) (w_z r) (w_xz_tilde r) (w_x_prev r) (w_z_prev r) (w_Ax r) (w_Px r) (w_Aty r) (w_xtPx r) (w_qtx r) (w_SC r) (w_scaled_dual_gap r) (w_delta_y r) (w_Atdelta_y r) (w_delta_x r) (w_Pdelta_x r) (w_Adelta_x r) (w_D_temp r) (w_D_temp_A r) v (w_scaling r) (w_scaled_prim_res r) (w_scaled_dual_res r) (w_rho_inv r) (w_first_run r) (w_clear_update_time r) (w_rho_update_from_solve r) (w_summary_printed r) (w_rho_updated r) (w_last_rel_kkt r).
Definition set_w_scaling {K : NumOps} (v : option (scaling K)) (r : work K) : work K :=
  mkwork (w_data r) (w_linsys r) (w_pol r) (w_rho_vec r) (w_rho_inv_vec r) (w_constr_type r) (w_x r) (w_y r) (w_z r) (w_xz_tilde r) (w_x_prev r) (w_z_prev r) (w_Ax r) (w_Px r) (w_Aty r) (w_xtPx r) (w_qtx r) (w_SC r) (w_scaled_dual_gap r) (w_delta_y r) (w_Atdelta_y r) (w_delta_x r) (w_Pdelta_x r) (w_Adelta_x r) (w_D_temp r) (w_D_temp_A r) (w_E_temp r) v (w_scaled_prim_res r) (w_scaled_dual_res r) (w_rho_inv r) (w_first_run r) (w_clear_update_time r) (w_rho_update_from_solve r) (w_summary_printed r) (w_rho_updated r) (w_last_rel_kkt r).
Definition set_w_scaled_prim_res {K : NumOps} (v : K) (r : work K) : work K :=
  mkwork (w_data r) (w_linsys r) (w_pol r) (w_rho_vec r) (w_rho_inv_vec r) (w_constr_type r) (w_x r) (w_y r) (w_z r) (w_xz_tilde r) (w_x_prev r) (w_z_prev r) (w_Ax r) (w_Px r) (w_Aty r) (w_xtPx r) (w_qtx r) (w_SC r) (w_scaled_dual_gap r) (w_delta_y r) (w_Atdelta_y r) (w_delta_x r) (w_Pdelta_x r) (w_Adelta_x r) (w_D_temp r) (w_D_temp_A r) (w_E_temp r) (w_scaling r) v (w_scaled_dual_res r) (w_rho_inv r) (w_first_run r) (w_clear_update_time r) (w_rho_update_from_solve r) (w_summary_printed r) (w_rho_updated r) (w_last_rel_kkt r).
Definition set_w_scaled_dual_res {K : NumOps} (v : K) (r : work K) : work K :=
  mkwork (w_data r) (w_linsys r) (w_pol r) (w_rho_vec r) (w_rho_inv_vec r) (w_constr_type r) (w_x r) (w_y r) (w_z r) (w_xz_tilde r) (w_x_prev r) (w_z_prev r) (w_Ax r) (w_Px r) (w_Aty r) (w_xtPx r) (w_qtx r) (w_SC r) (w_scaled_dual_gap r) (w_delta_y r) (w_Atdelta_y r) (w_delta_x r) (w_Pdelta_x r) (w_Adelta_x r) (w_D_temp r) (w_D_temp_A r) (w_E_temp r) (w_scaling r) (w_scaled_prim_res r) v (w_rho_inv r) (w_first_run r) (w_clear_update_time r) (w_rho_update_from_solve r) (w_summary_printed r) (w_rho_updated r) (w_last_rel_kkt r).
Definition set_w_rho_inv {K : NumOps} (v : K) (r : work K) : work K :=
  mkwork (w_data r) (w_linsys r) (w_pol r) (w_rho_vec r) (w_rho_inv_vec r) (w_constr_type r) (w_x r) (w_y r) (w_z r) (w_xz_tilde r) (w_x_prev r) (w_z_prev r) (w_Ax r) (w_Px r) (w_Aty r) (w_xtPx r) (w_qtx r) (w_SC r) (w_scaled_dual_gap r) (w_delta_y r) (w_Atdelta_y r) (w_delta_x r) (w_Pdelta_x r) (w_Adelta_x r) (w_D_temp r) (w_D_temp_A r) (w_E_temp r) (w_scaling r) (w_scaled_prim_res r) (w_scaled_dual_res r) v (w_first_run r) (w_clear_update_time r) (w_rho_update_from_solve r) (w_summary_printed r) (w_rho_updated r) (w_last_rel_kkt r).
Definition set_w_first_run {K : NumOps} (v : Z) (r : work K) : work K :=
  mkwork (w_data r) (w_linsys r) (w_pol r) (w_rho_vec r) (w_rho_inv_vec r) (w_constr_type r) (w_x r) (w_y r) (w_z r) (w_xz_tilde r) (w_x_prev r) (w_z_prev r) (w_Ax r) (w_Px r) (w_Aty r) (w_xtPx r) (w_qtx r) (w_SC r) (w_scaled_dual_gap r) (w_delta_y r) (w_Atdelta_y r) (w_delta_x r) (w_Pdelta_x r) (w_Adelta_x r) (w_D_temp r) (w_D_temp_A r) (w_E_temp r) (w_scaling r) (w_scaled_prim_res r) (w_scaled_dual_res r) (w_rho_inv r) v (w_clear_update_time r) (w_rho_update_from_solve r) (w_summary_printed r) (w_rho_updated r) (w_last_rel_kkt r).
Definition set_w_clear_update_time {K : NumOps} (v : Z) (r : work K) : work K :=
  mkwork (w_data r) (w_linsys r) (w_pol r) (w_rho_vec r) (w_rho_inv_vec r) (w_constr_type r) (w_x r) (w_y r) (w_z r) (w_xz_tilde r) (w_x_prev r) (w_z_prev r) (w_Ax r) (w_Px r) (w_Aty r) (w_xtPx r) (w_qtx r) (w_SC r) (w_scaled_dual_gap r) (w_delta_y r) (w_Atdelta_y r) (w_delta_x r) (w_Pdelta_x r) (w_Adelta_x r) (w_D_temp r) (w_D_temp_A r) (w_E_temp r) (w_scaling r) (w_scaled_prim_res r) (w_scaled_dual_res r) (w_rho_inv r) (w_first_run r) v (w_rho_update_from_solve r) (w_summary_printed r) (w_rho_updated r) (w_last_rel_kkt r).
Definition set_w_rho_update_from_solve {K : NumOps} (v : Z) (r : work K) : work K :=
  mkwork (w_data r) (w_linsys r) (w_pol r) (w_rho_vec r) (w_rho_inv_vec r) (w_constr_type r) (w_x r) (w_y r) (w_z r) (w_xz_tilde r) (w_x_prev r) (w_z_prev r) (w_Ax r) (w_Px r) (w_Aty r) (w_xtPx r) (w_qtx r) (w_SC r) (w_scaled_dual_gap r) (w_delta_y r) (w_Atdelta_y r) (w_delta_x r) (w_Pdelta_x r) (w_Adelta_x r) (w_D_temp r) (w_D_temp_A r) (w_E_temp r) (w_scaling r) (w_scaled_prim_res r) (w_scaled_dual_res r) (w_rho_inv r) (w_first_run r) (w_clear_update_time r) v (w_summary_printed r) (w_rho_updated r) (w_last_rel_kkt r).
Definition set_w_summary_printed {K : NumOps} (v : Z) (r : work K) : work K :=
  mkwork (w_data r) (w_linsys r) (w_pol r) (w_rho_vec r) (w_rho_inv_vec r) (w_constr_type r) (w_x r) (w_y r) (w_z r) (w_xz_tilde r) (w_x_prev r) (w_z_prev r) (w_Ax r) (w_Px r) (w_Aty r) (w_xtPx r) (w_qtx r) (w_SC r) (w_scaled_dual_gap r) (w_delta_y r) (w_Atdelta_y r) (w_delta_x r) (w_Pdelta_x r) (w_Adelta_x r) (w_D_temp r) (w_D_temp_A r) (w_E_temp r) (w_scaling r) (w_scaled_prim_res r) (w_scaled_dual_res r) (w_rho_inv r) (w_first_run r) (w_clear_update_time r) (w_rho_update_from_solve r) v (w_rho_updated r) (w_last_rel_kkt r).
Definition set_w_rho_updated {K : NumOps} (v : Z) (r : work K) : work K :=
  mkwork (w_data r) (w_linsys r) (w_pol r) (w_rho_vec r) (w_rho_inv_vec r) (w_constr_type r) (w_x r) (w_y r) (w_z r) (w_xz_tilde r) (w_x_prev r) (w_z_prev r) (w_Ax r) (w_Px r) (w_Aty r) (w_xtPx r) (w_qtx r) (w_SC r) (w_scaled_dual_gap r) (w_delta_y r) (w_Atdelta_y r) (w_delta_x r) (w_Pdelta_x r) (w_Adelta_x r) (w_D_temp r) (w_D_temp_A r) (w_E_temp r) (w_scaling r) (w_scaled_prim_res r) (w_scaled_dual_res r) (w_rho_inv r) (w_first_run r) (w_clear_update_time r) (w_rho_update_from_solve r) (w_summary_printed r) v (w_last_rel_kkt r).
Definition set_w_last_rel_kkt {K : NumOps} (v : K) (r : work K) : work K :=
  mkwork (w_data r) (w_linsys r) (w_pol r) (w_rho_vec r) (w_rho_inv_vec r) (w_constr_type r) (w_x r) (w_y r) (w_z r) (w_xz_tilde r) (w_x_prev r) (w_z_prev r) (w_Ax r) (w_Px r) (w_Aty r) (w_xtPx r) (w_qtx r) (w_SC r) (w_scaled_dual_gap r) (w_delta_y r) (w_Atdelta_y r) (w_delta_x r) (w_Pdelta_x r) (w_Adelta_x r) (w_D_temp r) (w_D_temp_A r) (w_E_temp r) (w_scaling r) (w_scaled_prim_res r) (w_scaled_dual_res r) (w_rho_inv r) (w_first_run r) (w_clear_update_time r) (w_rho_update_from_solve r) (w_summary_printed r) (w_rho_updated r) v.

(** What the library shares with its surroundings: how often the clock (osqp_toc) and the interrupt flag (osqp_is_interrupted) have been read, the handler installed for SIGINT and the one saved by osqp_start_interrupt_listener (src/interrupt_unix.c:8-29) and the stack of open profiler sections (include/private/profilers.h) *)
Record world : Type := mkworld {
  g_tocs : nat;
  g_polls : nat;
  g_handler : Z;
  g_oact : Z;
  g_sections : list sec
}.

(** Assignments to the fields of world. *)
Definition set_g_tocs (v : nat) (r : world) : world :=
  mkworld v (g_polls r) (g_handler r) (g_oact r) (g_sections r).
Definition set_g_polls (v : nat) (r : world) : world :=
  mkworld (g_tocs r) v (g_handler r) (g_oact r) (g_sections r).
Definition set_g_handler (v : Z) (r : world) : world :=
  mkworld (g_tocs r) (g_polls r) v (g_oact r) (g_sections r).
Definition set_g_oact (v : Z) (r : world) : world :=
  mkworld (g_tocs r) (g_polls r) (g_handler r) v (g_sections r).
Definition set_g_sections (v : list sec) (r : world) : world :=
  mkworld (g_tocs r) (g_polls r) (g_handler r) (g_oact r) v.

(** include/public/osqp_api_types.h:177-183, OSQPSolver, together with the shared state *)
Record solver (K : NumOps) : Type := mksolver {
  sv_settings : settings K;
  sv_solution : option (solution K);
  sv_info : info K;
  sv_work : work K;
  sv_world : world
}.
Arguments mksolver {K}. Arguments sv_settings {K}. Arguments sv_solution {K}. Arguments sv_info {K}. Arguments sv_work {K}. Arguments sv_world {K}.

(** Assignments to the fields of solver. *)
Definition set_sv_settings {K : NumOps} (v : settings K) (r : solver K) : solver K :=
  mksolver v (sv_solution r) (sv_info r) (sv_work r) (sv_world r).
Definition set_sv_solution {K : NumOps} (v : option (solution K)) (r : solver K) : solver K :=
  mksolver (sv_settings r) v (sv_info r) (sv_work r) (sv_world r).
Definition set_sv_info {K : NumOps} (v : info K) (r : solver K) : solver K :=
  mksolver (sv_settings r) (sv_solution r) v (sv_work r) (sv_world r).
Definition set_sv_work {K : NumOps} (v : work K) (r : solver K) : solver K :=
  mksolver (sv_settings r) (sv_solution r) (sv_info r) v (sv_world r).
Definition set_sv_world {K : NumOps} (v : world) (r : solver K) : solver K :=
  mksolver (sv_settings r) (sv_solution r) (sv_info r) (sv_work r) v.

