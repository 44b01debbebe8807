(** The public functions of src/osqp_api.c (default build: profiling, printing and interrupts enabled,
    not embedded, no derivatives).  Memory allocation succeeds; the allocation failures of osqp_setup
    are not part of this file. *)
From Coq Require Import ZArith List Bool String.
From Verif Require Import Num Arr Csc Vec Types Linsys Scaling Validate Auxil Polish.
Import ListNotations.
Open Scope Z_scope.
Local Open Scope opt_scope.

(** src/error.c:6-22 *)
Definition OSQP_ERROR_MESSAGE : list string := [
  "Problem data validation."%string; "Solver settings validation."%string;
  "Linear system solver initialization."%string;
  "KKT matrix factorization.
The problem seems to be non-convex."%string;
  "Memory allocation."%string; "Solver workspace not initialized."%string;
  "Algebra libraries not loaded."%string; "Unable to open file for writing."%string;
  "Invalid defines for codegen"%string; "Vector/matrix not initialized."%string;
  "Function not implemented."%string; "Unknown error code."%string ].

(** include/public/osqp_api_constants.h:87 *)
Definition OSQP_LAST_ERROR_PLACE : Z := 12.

(** osqp_api.c:241-248 *)
Definition osqp_error_message (code : Z) : option string :=
  if code >=? OSQP_LAST_ERROR_PLACE then zget OSQP_ERROR_MESSAGE (OSQP_LAST_ERROR_PLACE - 1)
  else zget OSQP_ERROR_MESSAGE (code - 1).

(** src/interrupt_unix.c:11: the handler installed by the library *)
Definition handle_ctrlc : Z := 1.

(** A solver pointer: NULL, a structure without workspace, or a solver with its workspace. *)
Inductive handle (K : NumOps) := HNull | HNoWork | HSolver (s : solver K).
Arguments HNull {K}. Arguments HNoWork {K}. Arguments HSolver {K}.

(** glob_opts.h:49 for integers x >= 0, N > 0: x + N/2 - fmod(x + N/2, N), exact in binary64 *)
Definition c_roundmultiple (x N : Z) : Z := N * ((2 * x + N) / (2 * N)).

Section Api.
  Context {K : NumOps}.
  Variable E : Env K.
  Local Open Scope num_scope.

  (** osqp_profiler_sec_push / osqp_profiler_sec_pop (include/private/profilers.h) *)
  Definition push_sec (c : sec) (s : solver K) : solver K :=
    set_sv_world (set_g_sections (c :: g_sections (sv_world s)) (sv_world s)) s.
  Definition pop_sec (s : solver K) : option (solver K) :=
    match g_sections (sv_world s) with
    | [] => None
    | _ :: t => Some (set_sv_world (set_g_sections t (sv_world s)) s)
    end.

  (** interrupt_unix.c:14-22, 24-28 *)
  Definition start_interrupt_listener (s : solver K) : solver K :=
    let g := sv_world s in
    set_sv_world (set_g_oact (g_handler g) (set_g_handler handle_ctrlc g)) s.
  Definition end_interrupt_listener (s : solver K) : solver K :=
    let g := sv_world s in
    set_sv_world (set_g_handler (g_oact g) g) s.
  (** interrupt_unix.c:30-32: the next poll *)
  Definition is_interrupted (s : solver K) : bool * solver K :=
    let g := sv_world s in
    (env_int E (g_polls g), set_sv_world (set_g_polls (S (g_polls g)) g) s).

  (** algebra/builtin/vector.c:104-118: OSQPVectorf_new from a raw pointer; NULL may only be read 0 times *)
  Definition vf_new (a : option (list K)) (n : Z) : option (list K) :=
    match a with
    | Some a => view a 0 n
    | None => if (n =? 0)%Z then Some [] else None
    end.

  (** osqp_api.c:571-602: the adaptive rho interval chosen at setup *)
  Definition setup_adaptive_rho (st : settings K) : settings K :=
    if (st_adaptive_rho st =? ADAPTIVE_RHO_ITERATIONS)%Z then
      if (st_adaptive_rho_interval st =? 0)%Z then
        if tr (st_check_termination st)
        then set_st_adaptive_rho_interval (OSQP_ADAPTIVE_RHO_MULTIPLE_TERMINATION * st_check_termination st)%Z st
        else set_st_adaptive_rho_interval OSQP_ADAPTIVE_RHO_FIXED st
      else st
    else if (st_adaptive_rho st =? ADAPTIVE_RHO_KKT_ERROR)%Z then
      if (st_adaptive_rho_interval st =? 0)%Z then set_st_adaptive_rho_interval 1%Z st else st
    else st.

  (** c_calloc'ed OSQPInfo *)
  Definition zero_info : info K :=
    mkinfo ""%string 0 0 n0 n0 n0 n0 n0 0 0 n0 n0 n0 n0 n0 n0 n0 n0.

  (** osqp_api.c:366-464: the workspace before scaling.  The polishing structure, allocated at
      osqp_api.c:513-523, is present from the start with arbitrary contents. *)
  Definition initial_work (P : csc K) (q : list K) (A : csc K) (l u : list K) (m n : Z) (st : settings K) : work K :=
    let jx := env_jx E in
    let vec := tr (st_rho_is_vec st) in
    let sc := tr (st_scaling st) in
    let zn := zrep n n0 in
    let zm := zrep m n0 in
    mkwork (mkdata n m P A q l u) None
      (mkpol (env_jz E) (zrep m (env_jz E)) (zrep n jx) (zrep m jx) (zrep m jx) jx jx jx jx jx)
      (if vec then Some (zrep m jx) else None) (if vec then Some (zrep m jx) else None)
      (if vec then Some (zrep m 0%Z) else None)
      zn zm zm (zrep (n + m)%Z n0) zn zm zm zn zn
      n0 n0 n0 n0
      zm zn zn zn zm
      (if sc then zn else []) (if sc then zn else []) (if sc then zm else [])
      (if sc then Some (mkscaling jx zn zm jx zn zm) else None)
      n0 n0 n0 0 0 0 0 0 n0.

  (** osqp_api.c:332-631.  Result: the exit flag, what is stored in *solverp ([None]: the pointer is
      left alone) and the shared state. *)
  Definition osqp_setup (g : world) (P : option (csc K)) (q : option (list K)) (A : option (csc K))
             (l u : option (list K)) (m n : Z) (st : option (settings K))
    : option (Z * option (solver K) * world) :=
    bad <- validate_data P q A l u m n ;;
    if (bad : bool) then Some (OSQP_DATA_VALIDATION_ERROR, None, g) else
    if validate_settings st true then Some (OSQP_SETTINGS_VALIDATION_ERROR, None, g) else
    ust <- st ;;
    P <- P ;; A <- A ;;
    P <- csc_copy (env_jz E) (env_jx E) P ;;
    q <- vf_new q n ;;
    A <- csc_copy (env_jz E) (env_jx E) A ;;
    l <- vf_new l m ;;
    u <- vf_new u m ;;
    let s := mksolver (copy_settings ust) None zero_info (initial_work P q A l u m n ust) g in
    let s := push_sec SEC_SETUP s in
    s <- (if tr (st_scaling ust) then
            let s := push_sec SEC_SCALE s in
            w <- scale_data (sv_settings s) (sv_work s) ;;
            pop_sec (set_sv_work w s)
          else Some s) ;;
    s <- (if tr (st_rho_is_vec ust) then r <- set_rho_vec s ;; Some (snd r)
          else
            let s := set_sv_settings (set_st_rho (c_min (c_max (st_rho ust) (OSQP_RHO_MIN K)) (OSQP_RHO_MAX K))
                                        (sv_settings s)) s in
            Some (set_sv_work (set_w_rho_inv (n1 / st_rho ust) (sv_work s)) s)) ;;
    r <- init_linsys_solver E (d_P (w_data (sv_work s))) (d_A (w_data (sv_work s))) (w_rho_vec (sv_work s))
           (sv_settings s) false ;;
    match r with
    | (flag, None) =>
        i <- (if (flag =? OSQP_NONCVX_ERROR)%Z then update_status (sv_info s) OSQP_NON_CVX else Some (sv_info s)) ;;
        let s := set_sv_info i s in
        Some (flag, Some s, sv_world s)
    | (_, Some ls) =>
        let s := set_sv_work (set_w_linsys (Some ls) (sv_work s)) s in
        w <- cold_start (sv_work s) ;;
        let s := set_sv_work w s in
        let s := if tr (st_allocate_solution ust)
                 then set_sv_solution (Some (mksolution (zrep n n0) (zrep m n0) (zrep m n0) (zrep n n0))) s
                 else s in
        i <- update_status (set_i_status_polish OSQP_POLISH_NOT_PERFORMED (sv_info s)) OSQP_UNSOLVED ;;
        let i := set_i_solve_time n0 (set_i_update_time n0 (set_i_polish_time n0 (set_i_run_time n0 i))) in
        let '(t, s) := toc E s in
        let i := set_i_setup_time t i in
        let w := set_w_first_run 1%Z (set_w_clear_update_time 0%Z (set_w_rho_update_from_solve 0%Z (sv_work s))) in
        let i := set_i_rho_updates 0%Z (set_i_rho_estimate (st_rho (sv_settings s)) i) in
        let i := set_i_obj_val (OSQP_INFTY K) (set_i_prim_res (OSQP_INFTY K) (set_i_dual_res (OSQP_INFTY K)
                   (set_i_rel_kkt_error (OSQP_INFTY K) i))) in
        let w := set_w_rho_updated 0%Z (set_w_last_rel_kkt (OSQP_INFTY K) w) in
        let s := set_sv_settings (setup_adaptive_rho (sv_settings s)) (set_sv_info i (set_sv_work w s)) in
        s <- pop_sec s ;;
        let s := set_sv_work (set_w_summary_printed 0%Z (sv_work s)) s in
        Some (OSQP_NO_ERROR, Some s, sv_world s)
    end.

  (** The loop variables can_check_termination, can_print, can_adapt_rho *)
  Definition flags : Type := bool * bool * bool.

  (** How one pass of the main loop ends: next pass, break, or goto exit with an exit flag *)
  Inductive outcome := Continue (s : solver K) (f : flags) | Break (s : solver K) (f : flags)
                     | Exit (s : solver K) (flag : Z).

  (** osqp_api.c:701-731: the ADMM step of one iteration *)
  Definition admm_step (s : solver K) : option (solver K) :=
    let s := push_sec SEC_ADMM_ITER s in
    let w := swap_iterates (sv_work s) in
    let s := push_sec SEC_ADMM_KKT_SOLVE s in
    w <- update_xz_tilde E (sv_settings s) w ;;
    s <- pop_sec s ;;
    let s := push_sec SEC_ADMM_UPDATE s in
    w <- update_x (sv_settings s) w ;;
    let s := push_sec SEC_ADMM_PROJ s in
    w <- update_z (sv_settings s) w ;;
    s <- pop_sec s ;;
    w <- update_y (sv_settings s) w ;;
    s <- pop_sec s ;;
    s <- pop_sec s ;;
    Some (set_sv_work w s).

  (** osqp_api.c:748-753: the run time compared with the limit *)
  Definition temp_run_time (s : solver K) : K * solver K :=
    let '(t, s) := toc E s in
    if tr (w_first_run (sv_work s)) then (i_setup_time (sv_info s) + t, s)
    else (i_update_time (sv_info s) + t, s).

  (** osqp_api.c:839-845 *)
  Definition interval_hit (st : settings K) (iter : Z) : bool :=
    tr (st_adaptive_rho_interval st) && (Z.rem iter (st_adaptive_rho_interval st) =? 0)%Z.

  (** osqp_api.c:780-846: the switch deciding whether rho may be adapted; [old] is the value of
      can_adapt_rho from the previous iteration, kept when no case applies *)
  Definition decide_adapt (s : solver K) (iter : Z) (old : bool) : bool * solver K :=
    let st := sv_settings s in
    if (st_adaptive_rho st =? ADAPTIVE_RHO_DISABLED)%Z then (false, s)
    else if (st_adaptive_rho st =? ADAPTIVE_RHO_TIME)%Z then
      if (st_adaptive_rho_interval st =? 0)%Z then
        let '(t, s) := toc E s in
        if t >? st_adaptive_rho_fraction st * i_setup_time (sv_info s) then
          let r := if tr (st_check_termination st) then c_roundmultiple iter (st_check_termination st)
                   else c_roundmultiple iter OSQP_CHECK_TERMINATION in
          let r := Z.min 1 (Z.max r (st_check_termination st)) in
          let st := set_st_adaptive_rho_interval r st in
          (interval_hit st iter, set_sv_settings st s)
        else (false, s)
      else (interval_hit st iter, s)
    else if (st_adaptive_rho st =? ADAPTIVE_RHO_KKT_ERROR)%Z || (st_adaptive_rho st =? ADAPTIVE_RHO_ITERATIONS)%Z
    then (interval_hit st iter, s)
    else (old, s).

  (** src/util.c:180-228, as far as the solver state is concerned *)
  Definition print_summary (s : solver K) : solver K :=
    set_sv_work (set_w_summary_printed 1%Z (sv_work s)) s.

  (** osqp_api.c:700-909: one pass of the main loop *)
  Definition admm_pass (s : solver K) (iter : Z) (f : flags) : option outcome :=
    let '(can_check, can_print, can_adapt) := f in
    s <- admm_step s ;;
    let '(intr, s) := is_interrupted s in
    if (intr : bool) then
      i <- update_status (sv_info s) OSQP_SIGINT ;;
      Some (Exit (set_sv_info i s) 1)
    else
    let '(run, s) := temp_run_time s in
    let st := sv_settings s in
    if ntruth (st_time_limit st) && (run >=? st_time_limit st) then
      i <- update_status (sv_info s) OSQP_TIME_LIMIT_REACHED ;;
      Some (Break (set_sv_info i s) (can_check, false, can_adapt))
    else
    let can_check := tr (st_check_termination st) && (Z.rem iter (st_check_termination st) =? 0)%Z in
    let can_print := tr (st_verbose st) && ((Z.rem iter OSQP_PRINT_INTERVAL =? 0)%Z || (iter =? 1)%Z) in
    let '(can_adapt, s) := decide_adapt s iter can_adapt in
    s <- (if can_check || can_print || can_adapt || (iter =? 1)%Z then update_info E s iter else Some s) ;;
    r <- (if can_check then check_termination s false else Some (false, s)) ;;
    let '(stop, s) := r in
    if (stop : bool) then Some (Break s (can_check, can_print, can_adapt)) else
    let s := set_sv_work (set_w_rho_updated 0%Z (sv_work s)) s in
    let can_adapt := if can_adapt && (st_adaptive_rho (sv_settings s) =? ADAPTIVE_RHO_KKT_ERROR)%Z
                     then i_rel_kkt_error (sv_info s) <=? st_adaptive_rho_fraction (sv_settings s) * w_last_rel_kkt (sv_work s)
                     else can_adapt in
    r <- (if can_adapt then adapt_rho E s else Some (0%Z, s)) ;;
    let '(flag, s) := r in
    if tr flag then Some (Exit s 1) else
    let s := if tr (w_rho_updated (sv_work s))
             then set_sv_work (set_w_last_rel_kkt (i_rel_kkt_error (sv_info s)) (sv_work s)) s else s in
    let s := if can_print || (tr (st_verbose (sv_settings s)) && tr (w_rho_updated (sv_work s)))
             then print_summary s else s in
    Some (Continue s (can_check, can_print, can_adapt)).

  (** osqp_api.c:699-910: the main loop from iteration [iter] on, with [k] passes left.  On a normal end
      the result carries iter = max_iter + 1, after a break the iteration that broke. *)
  Fixpoint admm_loop (k : nat) (iter : Z) (f : flags) (s : solver K) : option (outcome * Z) :=
    match k with
    | O => Some (Break s f, iter)
    | S k' =>
        o <- admm_pass s iter f ;;
        match o with
        | Continue s f => admm_loop k' (iter + 1)%Z f s
        | o => Some (o, iter)
        end
    end.

  (** osqp_api.c:1029-1038: the label exit *)
  Definition solve_exit (s : solver K) (flag : Z) : option (Z * solver K) :=
    s <- pop_sec (end_interrupt_listener s) ;; Some (flag, s).

  (** osqp_api.c:913-935: information and termination test after the loop *)
  Definition final_check (s : solver K) (iter : Z) (f : flags) : option (solver K) :=
    let '(can_check, can_print, _) := f in
    if (can_check : bool) then Some s else
    s <- (if (can_print : bool) then Some s else update_info E s (iter - 1)%Z) ;;
    let s := if tr (st_verbose (sv_settings s)) && negb (tr (w_summary_printed (sv_work s)))
             then print_summary s else s in
    r <- check_termination s false ;; Some (snd r).

  (** osqp_api.c:937-944 *)
  Definition final_objective (s : solver K) : option (solver K) :=
    if has_solution (sv_info s) then
      r <- compute_obj_val_dual_gap (sv_settings s) (sv_work s) (w_x (sv_work s)) (w_y (sv_work s)) ;;
      let '(p, dv, g, w) := r in
      Some (set_sv_info (set_i_obj_val p (set_i_dual_obj_val dv (set_i_duality_gap g (sv_info s)))) (set_sv_work w s))
    else Some s.

  (** osqp_api.c:952-969 *)
  Definition final_status (s : solver K) : option (solver K) :=
    s <- (if (i_status_val (sv_info s) =? OSQP_UNSOLVED)%Z then
            r <- check_termination s true ;;
            if fst r : bool then Some (snd r)
            else i <- update_status (sv_info (snd r)) OSQP_MAX_ITER_REACHED ;; Some (set_sv_info i (snd r))
          else Some s) ;;
    if (i_status_val (sv_info s) =? OSQP_TIME_LIMIT_REACHED)%Z then
      r <- check_termination s true ;;
      if fst r : bool then Some (snd r)
      else i <- update_status (sv_info (snd r)) OSQP_TIME_LIMIT_REACHED ;; Some (set_sv_info i (snd r))
    else Some s.

  (** osqp_api.c:998-1020: run time and the flags kept for the next solve *)
  Definition finish_times (s : solver K) : solver K :=
    let i := sv_info s in
    let w := sv_work s in
    let first := if tr (w_first_run w) then i_setup_time i else i_update_time i in
    let i := set_i_run_time (first + i_solve_time i + i_polish_time i) i in
    let w := if tr (w_first_run w) then set_w_first_run 0%Z w else w in
    let w := set_w_rho_update_from_solve 0%Z (set_w_clear_update_time 1%Z w) in
    set_sv_info i (set_sv_work w s).

  (** osqp_api.c:913-1028: everything between the loop and the label exit; the boolean tells whether
      the solution was stored *)
  Definition finish_solve (s : solver K) (iter : Z) (f : flags) : option (Z * solver K) :=
    s <- final_check s iter f ;;
    s <- final_objective s ;;
    let s := if tr (st_verbose (sv_settings s)) && negb (tr (w_summary_printed (sv_work s)))
             then print_summary s else s in
    s <- final_status s ;;
    let s := set_sv_info (set_i_rho_estimate (compute_rho_estimate (sv_settings s) (sv_work s)) (sv_info s)) s in
    let '(t, s) := toc E s in
    let s := set_sv_info (set_i_solve_time t (sv_info s)) s in
    r <- (if tr (st_polishing (sv_settings s)) && (i_status_val (sv_info s) =? OSQP_SOLVED)%Z then
            let s := push_sec SEC_POLISH s in
            r <- polish E s ;;
            s <- pop_sec (snd r) ;; Some (fst r, s)
          else Some (0%Z, s)) ;;
    let '(flag, s) := r in
    if (0 <? flag)%Z then solve_exit s flag else
    let s := finish_times s in
    r <- store_solution s (sv_solution s) ;;
    solve_exit (set_sv_solution (snd r) (fst r)) flag.

  (** osqp_api.c:659-697: what happens before the main loop *)
  Definition begin_solve (s : solver K) : option (solver K) :=
    let w := sv_work s in
    let s := if (w_clear_update_time w =? 1)%Z then set_sv_info (set_i_update_time n0 (sv_info s)) s else s in
    let s := set_sv_work (set_w_rho_update_from_solve 1%Z w) s in
    let s := start_interrupt_listener (push_sec SEC_OPT_SOLVE s) in
    if tr (st_warm_starting (sv_settings s)) then Some s
    else w <- cold_start (sv_work s) ;; Some (set_sv_work w s).

  (** osqp_api.c:636-1038 for a solver with a workspace *)
  Definition solve (s : solver K) : option (Z * solver K) :=
    s <- begin_solve s ;;
    let st := sv_settings s in
    r <- admm_loop (Z.to_nat (st_max_iter st)) 1 (false, tr (st_verbose st), false) s ;;
    match r with
    | (Continue s f, iter) | (Break s f, iter) => finish_solve s iter f
    | (Exit s flag, _) => solve_exit s flag
    end.

  (** A function of the interface that first checks its solver pointer *)
  Definition on_solver (h : handle K) (f : solver K -> option (Z * solver K)) : option (Z * handle K) :=
    match h with
    | HNull | HNoWork => Some (OSQP_WORKSPACE_NOT_INIT_ERROR, h)
    | HSolver s => r <- f s ;; Some (fst r, HSolver (snd r))
    end.

  Definition osqp_solve (h : handle K) : option (Z * handle K) := on_solver h solve.

  (** osqp_api.c:1041-1052; the user's solution structure is an argument ([None]: NULL) *)
  Definition osqp_get_solution (h : handle K) (sol : option (solution K)) : option (Z * handle K * option (solution K)) :=
    match h with
    | HNull | HNoWork => Some (OSQP_WORKSPACE_NOT_INIT_ERROR, h, sol)
    | HSolver s =>
        match sol with
        | None => Some (OSQP_WORKSPACE_NOT_INIT_ERROR, h, None)
        | Some _ => r <- store_solution s sol ;; Some (OSQP_NO_ERROR, HSolver (fst r), snd r)
        end
    end.

  (** osqp_api.c:252-265: n and m, or the sentinels *)
  Definition osqp_get_dimensions (h : handle K) : Z * Z :=
    match h with
    | HSolver s => (d_n (w_data (sv_work s)), d_m (w_data (sv_work s)))
    | _ => (-1, -1)%Z
    end.

  (** osqp_api.c:1199-1206, 1328-1335: the update timer is restarted after a solve *)
  Definition begin_update (s : solver K) : solver K :=
    if (w_clear_update_time (sv_work s) =? 1)%Z
    then set_sv_info (set_i_update_time n0 (sv_info s)) (set_sv_work (set_w_clear_update_time 0%Z (sv_work s)) s)
    else s.

  (** osqp_api.c:1250-1254, 1396-1405 *)
  Definition end_update (s : solver K) : option (solver K) :=
    i <- reset_info (sv_info s) ;;
    let s := set_sv_info i s in
    let '(t, s) := toc E s in
    Some (set_sv_info (set_i_update_time (i_update_time (sv_info s) + t) (sv_info s)) s).

  (** osqp_api.c:1213-1220: one bound copied into a scratch vector and scaled *)
  Definition load_bound (s : solver K) (tmp : list K) (new : option (list K)) : option (list K) :=
    match new with
    | None => Some tmp
    | Some a =>
        t <- vf_from_raw tmp a ;;
        if tr (st_scaling (sv_settings s)) then sc <- w_scaling (sv_work s) ;; vf_ew_prod t t (sc_E sc) else Some t
    end.

  (** osqp_api.c:1184-1257 for an initialised solver *)
  Definition update_data_vec (s : solver K) (q_new l_new u_new : option (list K)) : option (Z * solver K) :=
    let s := begin_update s in
    r <- match l_new, u_new with
         | None, None => Some (0%Z, s, false)
         | _, _ =>
             l_tmp <- load_bound s (w_z_prev (sv_work s)) l_new ;;
             u_tmp <- load_bound s (w_delta_y (sv_work s)) u_new ;;
             let w := set_w_z_prev l_tmp (set_w_delta_y u_tmp (sv_work s)) in
             let d := w_data w in
             ok <- match l_new, u_new with
                   | Some _, Some _ => vf_all_leq l_tmp u_tmp
                   | Some _, None => vf_all_leq l_tmp (d_u d)
                   | None, _ => vf_all_leq (d_l d) u_tmp
                   end ;;
             if negb ok then Some (OSQP_DATA_VALIDATION_ERROR, set_sv_work w s, true) else
             let w := match l_new with
                      | Some _ => set_w_z_prev (d_l (w_data w)) (set_w_data (set_d_l (w_z_prev w) (w_data w)) w)
                      | None => w
                      end in
             let w := match u_new with
                      | Some _ => set_w_delta_y (d_u (w_data w)) (set_w_data (set_d_u (w_delta_y w) (w_data w)) w)
                      | None => w
                      end in
             let s := set_sv_work w s in
             if tr (st_rho_is_vec (sv_settings s)) then r <- update_rho_vec E s ;; Some (r, false)
             else Some (0%Z, s, false)
         end ;;
    let '(flag, s, failed) := r in
    if (failed : bool) then Some (flag, s) else
    s <- match q_new with
         | None => Some s
         | Some a =>
             let w := sv_work s in
             q <- vf_from_raw (d_q (w_data w)) a ;;
             q <- (if tr (st_scaling (sv_settings s)) then
                     sc <- w_scaling w ;;
                     q <- vf_ew_prod q q (sc_D sc) ;; Some (vf_mult_scalar q (sc_c sc))
                   else Some q) ;;
             Some (set_sv_work (set_w_data (set_d_q q (w_data w)) w) s)
         end ;;
    s <- end_update s ;;
    Some (flag, s).

  Definition osqp_update_data_vec (h : handle K) (q_new l_new u_new : option (list K)) : option (Z * handle K) :=
    on_solver h (fun s => update_data_vec s q_new l_new u_new).

  (** osqp_api.c:1260-1293 for an initialised solver *)
  Definition warm_start (s : solver K) (x y : option (list K)) : option (Z * solver K) :=
    let s := if negb (tr (st_warm_starting (sv_settings s)))
             then set_sv_settings (set_st_warm_starting 1%Z (sv_settings s)) s else s in
    let scaled := tr (st_scaling (sv_settings s)) in
    let w := sv_work s in
    w <- match x with
         | None => Some w
         | Some a =>
             v <- vf_from_raw (w_x w) a ;;
             v <- (if scaled then sc <- w_scaling w ;; vf_ew_prod v v (sc_Dinv sc) else Some v) ;;
             Some (set_w_x v w)
         end ;;
    w <- match y with
         | None => Some w
         | Some a =>
             v <- vf_from_raw (w_y w) a ;;
             v <- (if scaled then
                     sc <- w_scaling w ;;
                     v <- vf_ew_prod v v (sc_Einv sc) ;; Some (vf_mult_scalar v (sc_c sc))
                   else Some v) ;;
             Some (set_w_y v w)
         end ;;
    w <- match x with
         | None => Some w
         | Some _ => z <- csc_Axpy (d_A (w_data w)) (w_x w) (w_z w) n1 n0 ;; Some (set_w_z z w)
         end ;;
    w_linsys w ;;;
    Some (0%Z, set_sv_work w s).

  Definition osqp_warm_start (h : handle K) (x y : option (list K)) : option (Z * handle K) :=
    on_solver h (fun s => warm_start s x y).

  (** osqp_api.c:1296-1304: the pointer is not checked *)
  Definition osqp_cold_start (h : handle K) : option (handle K) :=
    match h with
    | HNull | HNoWork => None
    | HSolver s => w <- cold_start (sv_work s) ;; Some (HSolver (set_sv_work w s))
    end.

  (** osqp_api.c:1309-1409 for an initialised solver.  Px, Ax: the new values ([None]: NULL);
      Pidx, Aidx: the index arrays ([None]: NULL). *)
  Definition update_data_mat (s : solver K) (Px : option (list K)) (Pidx : option (list Z)) (Pn : Z)
             (Ax : option (list K)) (Aidx : option (list Z)) (An : Z) : option (Z * solver K) :=
    let s := begin_update s in
    let d := w_data (sv_work s) in
    nnzP <- zget (cp (d_P d)) (cn (d_P d)) ;;
    nnzA <- zget (cp (d_A d)) (cn (d_A d)) ;;
    let isnull (o : option (list Z)) := match o with None => true | Some _ => false end in
    if (nnzP <? Pn)%Z || (Pn <? 0)%Z then Some (1%Z, s) else
    if isnull Pidx && negb (Pn =? 0)%Z && negb (Pn =? nnzP)%Z then Some (1%Z, s) else
    let Pn := if (Pn =? 0)%Z then nnzP else Pn in
    if (nnzA <? An)%Z || (An <? 0)%Z then Some (2%Z, s) else
    if isnull Aidx && negb (An =? 0)%Z && negb (An =? nnzA)%Z then Some (2%Z, s) else
    let An := if (An =? 0)%Z then nnzA else An in
    let scaled := tr (st_scaling (sv_settings s)) in
    w <- (if scaled then unscale_data (sv_work s) else Some (sv_work s)) ;;
    w <- match Px with
         | None => Some w
         | Some v => P <- csc_update_values (d_P (w_data w)) v Pidx Pn ;; Some (set_w_data (set_d_P P (w_data w)) w)
         end ;;
    w <- match Ax with
         | None => Some w
         | Some v => A <- csc_update_values (d_A (w_data w)) v Aidx An ;; Some (set_w_data (set_d_A A (w_data w)) w)
         end ;;
    w <- (if scaled then scale_data (sv_settings s) w else Some w) ;;
    ls <- w_linsys w ;;
    r <- (if scaled then update_linsys_matrices E ls (d_P (w_data w)) None nnzP (d_A (w_data w)) None nnzA
          else update_linsys_matrices E ls (d_P (w_data w)) Pidx Pn (d_A (w_data w)) Aidx An) ;;
    s <- end_update (set_sv_work (set_w_linsys (Some (snd r)) w) s) ;;
    Some (fst r, s).

  Definition osqp_update_data_mat (h : handle K) (Px : option (list K)) (Pidx : option (list Z)) (Pn : Z)
             (Ax : option (list K)) (Aidx : option (list Z)) (An : Z) : option (Z * handle K) :=
    on_solver h (fun s => update_data_mat s Px Pidx Pn Ax Aidx An).

  (** osqp_api.c:1412-1464 *)
  Definition osqp_update_rho (h : handle K) (rho_new : K) : option (Z * handle K) :=
    on_solver h (fun s => update_rho E s rho_new).

  (** osqp_api.c:1489-1524: the fields of the settings that are replaced *)
  Definition replace_settings (s n : settings K) : settings K := mksettings
    (st_device s) (st_linsys_solver s) (st_allocate_solution s) (st_verbose n) (st_profiler_level n)
    (st_warm_starting n) (st_scaling s) (st_polishing n)
    (st_rho s) (st_rho_is_vec s) (st_sigma s) (st_alpha n)
    (st_cg_max_iter n) (st_cg_tol_reduction n) (st_cg_tol_fraction n) (st_cg_precond n)
    (st_adaptive_rho s) (st_adaptive_rho_interval s) (st_adaptive_rho_fraction s) (st_adaptive_rho_tolerance s)
    (st_max_iter n) (st_eps_abs n) (st_eps_rel n) (st_eps_prim_inf n) (st_eps_dual_inf n)
    (st_scaled_termination n) (st_check_termination n) (st_check_dualgap n) (st_time_limit n)
    (st_delta n) (st_polish_refine_iter n).

  (** osqp_api.c:1474-1530: solver->settings is read before the pointer is checked (line 1477) *)
  Definition osqp_update_settings (h : handle K) (new : option (settings K)) : option (Z * handle K) :=
    match h with
    | HNull => None
    | HNoWork => Some (OSQP_WORKSPACE_NOT_INIT_ERROR, h)
    | HSolver s =>
        if validate_settings new false then Some (OSQP_SETTINGS_VALIDATION_ERROR, h) else
        n <- new ;;
        w_linsys (sv_work s) ;;;
        Some (0%Z, HSolver (set_sv_settings (replace_settings (sv_settings s) n) s))
    end.
End Api.
