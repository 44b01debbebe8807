(** Code generation (src/codegen.c): the C definitions it writes, and the meaning of static initialisers in C.

    A file is the list of its definitions.  Every name is printed with the user's prefix in front; the model works with the part behind the
    prefix ([prefix_eqb] in CodegenFacts.v: two names are equal exactly when those parts are).  A floating-point number is printed by
    "%.20f": its text is represented by an integer code, [fmt x]; [rd] is the number the compiler makes of the text (Decimal.v says which). *)
From Coq Require Import ZArith String List Bool.
From Verif Require Import Num Arr Csc Vec Types Linsys Auxil.
Import ListNotations.
Open Scope Z_scope.
Local Open Scope opt_scope.

(** One initialiser: an integer, a floating-point text, (OSQPFloat)0.0, the name of an array plus an offset, the address of a structure, OSQP_NULL,
    the address of a function, a string. *)
Inductive init := IInt (z : Z) | IFlt (t : Z) | IZero | IRef (n : string) (off : Z) | IAddr (n : string) | INull | IFun (n : string) | IStr (s : string).
(** One definition: an array of floating-point numbers or of integers, a macro for OSQP_NULL, an array without initialiser, a structure. *)
Inductive body := BFlt (ts : list Z) | BInt (zs : list Z) | BMac | BBuf (len : Z) | BStr (ty : string) (is : list init).
Definition prog := list (string * body).

(** What a writing function does: undefined behaviour ([None]), or an exit flag and the definitions written so far. *)
Definition wr := option (Z * prog).
Definition emit (d : prog) : wr := Some (0, d).
(** codegen.c:21-27, PROPAGATE_ERROR and GENERATE_ERROR (the message is not modelled) *)
Definition wseq (a b : wr) : wr :=
  r <- a ;; if fst r =? 0 then (r' <- b ;; Some (fst r', (snd r ++ snd r')%list)) else Some r.
Notation "a +++ b" := (wseq a b) (at level 60, right associativity).

(** include/public/osqp_api_constants.h:57-61, 74-88 *)
Definition OSQP_CODEGEN_DEFINES_ERROR : Z := 9.
Definition OSQP_DATA_NOT_INITIALIZED : Z := 10.
Definition G_DIRECT_SOLVER : Z := 1.

Section Write.
  Context {K : NumOps}.
  Variable fmt : K -> Z.
  Local Open Scope string_scope. Local Open Scope Z_scope.

  (** codegen.c:33-51; [None] for vecf is NULL, reading beyond the array is undefined *)
  Definition write_vecf (v : option (list K)) (n : Z) (name : string) : wr :=
    match v with
    | Some v => if n =? 0 then emit [(name, BMac)] else (v <- view v 0 n ;; emit [(name, BFlt (map fmt v))])
    | None => emit [(name, BMac)]
    end.
  (** codegen.c:53-71 *)
  Definition write_veci (v : option (list Z)) (n : Z) (name : string) : wr :=
    match v with
    | Some v => if n =? 0 then emit [(name, BMac)] else (v <- view v 0 n ;; emit [(name, BInt v)])
    | None => emit [(name, BMac)]
    end.
  (** codegen.c:73-86 *)
  Definition write_OSQPVectorf (v : option (list K)) (name : string) : wr :=
    match v with
    | None => Some (OSQP_DATA_NOT_INITIALIZED, [])
    | Some v => write_vecf (Some v) (zlen v) (name ++ "_val") +++ emit [(name, BStr "OSQPVectorf" [IRef (name ++ "_val") 0; IInt (zlen v)])]
    end.
  (** codegen.c:88-101 *)
  Definition write_OSQPVectori (v : option (list Z)) (name : string) : wr :=
    match v with
    | None => Some (OSQP_DATA_NOT_INITIALIZED, [])
    | Some v => write_veci (Some v) (zlen v) (name ++ "_val") +++ emit [(name, BStr "OSQPVectori" [IRef (name ++ "_val") 0; IInt (zlen v)])]
    end.
  (** codegen.c:108-135 *)
  Definition write_csc (M : option (csc K)) (name : string) : wr :=
    match M with
    | None => Some (OSQP_DATA_NOT_INITIALIZED, [])
    | Some M =>
      write_veci (Some (cp M)) (cn M + 1) (name ++ "_p") +++
      write_veci (Some (ci M)) (cnzmax M) (name ++ "_i") +++
      write_vecf (Some (cx M)) (cnzmax M) (name ++ "_x") +++
      emit [(name, BStr "OSQPCscMatrix" [IInt (cm M); IInt (cn M); IRef (name ++ "_p") 0; IRef (name ++ "_i") 0; IRef (name ++ "_x") 0; IInt (cnzmax M); IInt (cnz M)])]
    end.
  (** codegen.c:137-154; symmetry NONE = 0, TRIU = 1 (algebra_impl.h:36) *)
  Definition write_OSQPMatrix (M : csc K) (symmetry : Z) (name : string) : wr :=
    write_csc (Some M) (name ++ "_csc") +++ emit [(name, BStr "OSQPMatrix" [IAddr (name ++ "_csc"); IInt symmetry])].

  (** codegen.c:161-207 *)
  Definition write_settings (s : settings K) : wr := emit [("settings", BStr "OSQPSettings"
    [IInt 0; IInt G_DIRECT_SOLVER; IInt 1; IInt 0; IInt 0; IInt (st_warm_starting s); IInt (st_scaling s); IInt 0; IFlt (fmt (st_rho s)); IInt (st_rho_is_vec s);
     IFlt (fmt (st_sigma s)); IFlt (fmt (st_alpha s)); IInt (st_cg_max_iter s); IInt (st_cg_tol_reduction s); IFlt (fmt (st_cg_tol_fraction s)); IInt (st_cg_precond s);
     IInt (st_adaptive_rho s); IInt (st_adaptive_rho_interval s); IFlt (fmt (st_adaptive_rho_fraction s)); IFlt (fmt (st_adaptive_rho_tolerance s));
     IInt (st_max_iter s); IFlt (fmt (st_eps_abs s)); IFlt (fmt (st_eps_rel s)); IFlt (fmt (st_eps_prim_inf s)); IFlt (fmt (st_eps_dual_inf s));
     IInt (st_scaled_termination s); IInt (st_check_termination s); IInt (st_check_dualgap s); IFlt (fmt (st_time_limit s)); IFlt (fmt (st_delta s)); IInt (st_polish_refine_iter s)])].

  (** codegen.c:214-245; the message of OSQP_UNSOLVED is "unsolved" *)
  Definition write_info (i : info K) : wr :=
    let inf := IFlt (fmt (OSQP_INFTY K)) in
    emit [("info", BStr "OSQPInfo" [IStr "unsolved"; IInt OSQP_UNSOLVED; IInt 0; inf; inf; inf; inf; inf; IInt 0; IInt 0; IFlt (fmt (i_rho_estimate i));
      IZero; IZero; IZero; IZero; IZero; IZero; IZero])].

  (** codegen.c:252-274 *)
  Definition write_solution (n m : Z) : wr :=
    emit [("sol_x", BBuf n)] +++ emit [("sol_y", if 0 <? m then BBuf m else BMac)] +++ emit [("sol_prim_inf_cert", if 0 <? m then BBuf m else BMac)] +++ emit [("sol_dual_inf_cert", BBuf n)] +++
    emit [("sol", BStr "OSQPSolution" [IRef "sol_x" 0; IRef "sol_y" 0; IRef "sol_prim_inf_cert" 0; IRef "sol_dual_inf_cert" 0])].

  (** codegen.c:281-310 *)
  Definition write_scaling (sc : option (scaling K)) : wr :=
    match sc with
    | None => Some (OSQP_WORKSPACE_NOT_INIT_ERROR, [])
    | Some sc =>
      write_OSQPVectorf (Some (sc_D sc)) "scaling_D" +++ write_OSQPVectorf (Some (sc_E sc)) "scaling_E" +++
      write_OSQPVectorf (Some (sc_Dinv sc)) "scaling_Dinv" +++ write_OSQPVectorf (Some (sc_Einv sc)) "scaling_Einv" +++
      emit [("scaling", BStr "OSQPScaling" [IFlt (fmt (sc_c sc)); IAddr "scaling_D"; IAddr "scaling_E"; IFlt (fmt (sc_cinv sc)); IAddr "scaling_Dinv"; IAddr "scaling_Einv"])]
    end.

  (** codegen.c:317-349 *)
  Definition write_data (d : data K) : wr :=
    write_OSQPMatrix (d_P d) 1 "data_P" +++ write_OSQPMatrix (d_A d) 0 "data_A" +++
    write_OSQPVectorf (Some (d_q d)) "data_q" +++ write_OSQPVectorf (Some (d_l d)) "data_l" +++ write_OSQPVectorf (Some (d_u d)) "data_u" +++
    emit [("data", BStr "OSQPData" [IInt (d_n d); IInt (d_m d); IAddr "data_P"; IAddr "data_A"; IAddr "data_q"; IAddr "data_l"; IAddr "data_u"])].

  (** The factors L, D, 1/D, the elimination tree and the column counts of a factorised matrix (made by QDLDL, which is not modelled). *)
  Record factors := mkfactors { f_L : csc K; f_Dinv : list K; f_D : list K; f_etree : list Z; f_Lnz : list Z }.
  Variable fac : csc K -> factors.

  (** codegen.c:356-445; type is OSQP_DIRECT_SOLVER and nthreads is 1 for every qdldl_solver (qdldl_interface.c:200-258) *)
  Definition write_linsys (ls : option (linsys K)) (d : data K) (embedded : Z) : wr :=
    match ls with
    | None => Some (OSQP_WORKSPACE_NOT_INIT_ERROR, [])
    | Some ls =>
      let n := ls_n ls in let m := ls_m ls in let F := fac (ls_fac ls) in
      let two := 1 <? embedded in
      write_csc (Some (f_L F)) "linsys_L" +++ write_vecf (Some (f_Dinv F)) (n + m) "linsys_Dinv" +++ write_veci (Some (ls_perm ls)) (n + m) "linsys_P" +++
      emit [("linsys_bp", BBuf (n + m))] +++ emit [("linsys_sol", BBuf (n + m))] +++
      (match ls_rho_inv_vec ls with Some v => write_vecf (Some v) m "linsys_rho_inv_vec" | None => emit [] end) +++
      (if two then
        write_csc (ls_KKT ls) "linsys_KKT" +++
        match zget (cp (d_P d)) n, zget (cp (d_A d)) n with
        | Some nP, Some nA => write_veci (Some (ls_PtoKKT ls)) nP "linsys_PtoKKT" +++ write_veci (Some (ls_AtoKKT ls)) nA "linsys_AtoKKT"
        | _, _ => None
        end +++
        write_veci (Some (ls_rhotoKKT ls)) m "linsys_rhotoKKT" +++ write_vecf (Some (f_D F)) (n + m) "linsys_D" +++
        write_veci (Some (f_etree F)) (n + m) "linsys_etree" +++ write_veci (Some (f_Lnz F)) (n + m) "linsys_Lnz" +++
        emit [("linsys_iwork", BBuf (3 * (n + m)))] +++ emit [("linsys_bwork", BBuf (n + m))] +++ emit [("linsys_fwork", BBuf (n + m))]
      else emit []) +++
      emit [("linsys", BStr "qdldl_solver"
        ([IInt G_DIRECT_SOLVER; IFun "name_qdldl"; IFun "solve_linsys_qdldl"; IFun "update_settings_linsys_solver_qdldl"; IFun "warm_start_linsys_solver_qdldl"] ++
         (if two then [IFun "update_linsys_solver_matrices_qdldl"; IFun "update_linsys_solver_rho_vec_qdldl"] else []) ++
         [IInt 1; IAddr "linsys_L"; IRef "linsys_Dinv" 0; IRef "linsys_P" 0; IRef "linsys_bp" 0; IRef "linsys_sol" 0;
          match ls_rho_inv_vec ls with Some _ => IRef "linsys_rho_inv_vec" 0 | None => INull end; IFlt (fmt (ls_sigma ls)); IFlt (fmt (ls_rho_inv ls)); IInt n; IInt m] ++
         (if two then [IAddr "linsys_KKT"; IRef "linsys_PtoKKT" 0; IRef "linsys_AtoKKT" 0; IRef "linsys_rhotoKKT" 0; IRef "linsys_D" 0; IRef "linsys_etree" 0; IRef "linsys_Lnz" 0;
            IRef "linsys_iwork" 0; IRef "linsys_bwork" 0; IRef "linsys_fwork" 0] else []))%list)]
    end.

  (** a vector without initial values *)
  Definition buf (name : string) (len : Z) : wr := emit [(name ++ "_val", BBuf len)] +++ emit [(name, BStr "OSQPVectorf" [IRef (name ++ "_val") 0; IInt len])].
  (** the same when the length may be 0 *)
  Definition buf0 (name : string) (len : Z) : wr := if 0 <? len then buf name len else emit [(name, BStr "OSQPVectorf" [INull; IInt 0])].

  (** codegen.c:451-612 *)
  Definition write_workspace (s : settings K) (w : work K) (n m embedded : Z) : wr :=
    let two := 1 <? embedded in let vec := negb (st_rho_is_vec s =? 0) in let scal := negb (st_scaling s =? 0) in
    write_data (w_data w) +++ write_linsys (w_linsys w) (w_data w) embedded +++
    (if vec then write_OSQPVectorf (w_rho_vec w) "work_rho_vec" +++ write_OSQPVectorf (w_rho_inv_vec w) "work_rho_inv_vec" +++
       (if two then write_OSQPVectori (w_constr_type w) "work_constr_type" else emit []) else emit []) +++
    write_OSQPVectorf (Some (w_x w)) "work_x" +++ write_OSQPVectorf (Some (w_y w)) "work_y" +++ write_OSQPVectorf (Some (w_z w)) "work_z" +++
    emit [("work_xz_tilde_val", BBuf (n + m))] +++ emit [("work_xz_tilde", BStr "OSQPVectorf" [IRef "work_xz_tilde_val" 0; IInt (n + m)])] +++
    emit [("work_xtilde_view", BStr "OSQPVectorf" [IRef "work_xz_tilde_val" 0; IInt n])] +++ emit [("work_ztilde_view", BStr "OSQPVectorf" [IRef "work_xz_tilde_val" n; IInt m])] +++
    buf "work_x_prev" n +++ buf0 "work_z_prev" m +++ buf0 "work_Ax" m +++ buf "work_Px" n +++ buf "work_Aty" n +++ buf0 "work_delta_y" m +++
    buf "work_Atdelta_y" n +++ buf "work_delta_x" n +++ buf "work_Pdelta_x" n +++ buf0 "work_Adelta_x" m +++
    (if two then buf "work_D_temp" n +++ buf "work_D_temp_A" n +++ buf0 "work_E_temp" m else emit []) +++
    (if scal then write_scaling (w_scaling w) else emit []) +++
    emit [("work", BStr "OSQPWorkspace"
      ([IAddr "data"; IAddr "linsys"] ++
       (if vec then [IAddr "work_rho_vec"; IAddr "work_rho_inv_vec"] ++ (if two then [IAddr "work_constr_type"] else []) else [INull; INull] ++ (if two then [INull] else [])) ++
       [IAddr "work_x"; IAddr "work_y"; IAddr "work_z"; IAddr "work_xz_tilde"; IAddr "work_xtilde_view"; IAddr "work_ztilde_view"; IAddr "work_x_prev"; IAddr "work_z_prev";
        IAddr "work_Ax"; IAddr "work_Px"; IAddr "work_Aty"; IZero; IZero; IZero; IZero; IAddr "work_delta_y"; IAddr "work_Atdelta_y"; IAddr "work_delta_x"; IAddr "work_Pdelta_x"; IAddr "work_Adelta_x"] ++
       (if two then (if scal then [IAddr "work_D_temp"; IAddr "work_D_temp_A"; IAddr "work_E_temp"] else [INull; INull; INull]) else []) ++
       [if scal then IAddr "scaling" else INull; IZero; IZero; IFlt (fmt (w_rho_inv w)); IInt (w_rho_updated w); IFlt (fmt (w_last_rel_kkt w))])%list)].

  (** codegen.c:619-645 *)
  Definition write_solver (s : solver K) (embedded : Z) : wr :=
    let n := d_n (w_data (sv_work s)) in let m := d_m (w_data (sv_work s)) in
    write_settings (sv_settings s) +++ write_solution n m +++ write_info (sv_info s) +++ write_workspace (sv_settings s) (sv_work s) n m embedded +++
    emit [("solver", BStr "OSQPSolver" [IAddr "settings"; IAddr "sol"; IAddr "info"; IAddr "work"])].

  (** src/osqp_api.c:1537-1578, up to the point where the files are written: the exit flag and the workspace file.  [defines] is NULL or the
      six options in the order of osqp_api_types.h:194-201. *)
  Definition osqp_codegen (s : solver K) (defines : option (Z * Z * Z * Z * Z * Z)) : wr :=
    if (i_status_val (sv_info s) =? OSQP_NON_CVX)%Z then Some (OSQP_NONCVX_ERROR, []) else
    match w_linsys (sv_work s) with
    | None => Some (OSQP_WORKSPACE_NOT_INIT_ERROR, [])
    | Some _ =>
      match defines with
      | None => Some (OSQP_CODEGEN_DEFINES_ERROR, [])
      | Some (e, f, p, t, i, a) =>
        if (negb ((e =? 1) || (e =? 2)) || negb ((f =? 0) || (f =? 1)) || negb ((p =? 0) || (p =? 1)) || negb ((t =? 0) || (t =? 1)) || negb ((i =? 0) || (i =? 1)) || negb ((a =? 0) || (a =? 1)))%Z%bool
        then Some (OSQP_CODEGEN_DEFINES_ERROR, []) else write_solver s e
      end
    end.
End Write.
Arguments mkfactors {K}. Arguments f_L {K}. Arguments f_Dinv {K}. Arguments f_D {K}. Arguments f_etree {K}. Arguments f_Lnz {K}.

(** ** The structures of the generated code *)
(** osqp_configure.h as written by codegen_defines (codegen.c:745-810) *)
Record cfg := mkcfg { c_embedded : Z; c_profiling : bool; c_printing : bool; c_derivatives : bool }.

Section Layout.
  Local Open Scope string_scope. Local Open Scope Z_scope.
  (** The members of the structures, in order, in a build of the generated code: osqp_api_types.h:37-46, 51-128, 131-159, 166-171, 181-187;
      types.h:33-40, 73-81, 100-230; algebra_impl.h:15-23, 38-41; qdldl_interface.h:18-105 *)
  Definition layout (c : cfg) (ty : string) : list string :=
    if String.eqb ty "OSQPCscMatrix" then ["m"; "n"; "p"; "i"; "x"; "nzmax"; "nz"; "owned"]
    else if String.eqb ty "OSQPVectorf" then ["values"; "length"]
    else if String.eqb ty "OSQPVectori" then ["values"; "length"]
    else if String.eqb ty "OSQPMatrix" then ["csc"; "symmetry"]
    else if String.eqb ty "OSQPSettings" then ["device"; "linsys_solver"; "allocate_solution"; "verbose"; "profiler_level"; "warm_starting"; "scaling"; "polishing"; "rho"; "rho_is_vec"; "sigma"; "alpha";
      "cg_max_iter"; "cg_tol_reduction"; "cg_tol_fraction"; "cg_precond"; "adaptive_rho"; "adaptive_rho_interval"; "adaptive_rho_fraction"; "adaptive_rho_tolerance"; "max_iter"; "eps_abs"; "eps_rel";
      "eps_prim_inf"; "eps_dual_inf"; "scaled_termination"; "check_termination"; "check_dualgap"; "time_limit"; "delta"; "polish_refine_iter"]
    else if String.eqb ty "OSQPInfo" then ["status"; "status_val"; "status_polish"; "obj_val"; "dual_obj_val"; "prim_res"; "dual_res"; "duality_gap"; "iter"; "rho_updates"; "rho_estimate";
      "setup_time"; "solve_time"; "update_time"; "polish_time"; "run_time"; "primdual_int"; "rel_kkt_error"]
    else if String.eqb ty "OSQPSolution" then ["x"; "y"; "prim_inf_cert"; "dual_inf_cert"]
    else if String.eqb ty "OSQPSolver" then ["settings"; "solution"; "info"; "work"]
    else if String.eqb ty "OSQPScaling" then ["c"; "D"; "E"; "cinv"; "Dinv"; "Einv"]
    else if String.eqb ty "OSQPData" then ["n"; "m"; "P"; "A"; "q"; "l"; "u"]
    else if String.eqb ty "qdldl_solver" then (["type"; "name"; "solve"; "update_settings"; "warm_start"] ++ (if (c_embedded c =? 1)%Z then [] else ["update_matrices"; "update_rho_vec"]) ++
      ["nthreads"; "L"; "Dinv"; "P"; "bp"; "sol"; "rho_inv_vec"; "sigma"; "rho_inv"; "n"; "m"] ++
      (if (c_embedded c =? 1)%Z then [] else ["KKT"; "PtoKKT"; "AtoKKT"; "rhotoKKT"; "D"; "etree"; "Lnz"; "iwork"; "bwork"; "fwork"; "adj"]))%list
    else if String.eqb ty "OSQPWorkspace" then (["data"; "linsys_solver"; "rho_vec"; "rho_inv_vec"] ++ (if (c_embedded c =? 1)%Z then [] else ["constr_type"]) ++
      ["x"; "y"; "z"; "xz_tilde"; "xtilde_view"; "ztilde_view"; "x_prev"; "z_prev"; "Ax"; "Px"; "Aty"; "xtPx"; "qtx"; "SC"; "scaled_dual_gap"; "delta_y"; "Atdelta_y"; "delta_x"; "Pdelta_x"; "Adelta_x"] ++
      (if (c_embedded c =? 1)%Z then [] else ["D_temp"; "D_temp_A"; "E_temp"]) ++ ["scaling"; "scaled_prim_res"; "scaled_dual_res"; "rho_inv"] ++
      (if c_profiling c then ["timer"; "first_run"; "clear_update_time"; "rho_update_from_solve"] else []) ++ (if c_printing c then ["summary_printed"] else []) ++
      (if c_derivatives c then ["derivative_data"] else []) ++ ["rho_updated"; "last_rel_kkt"])%list
    else [].

  (** The definition of a name: the first one (CodegenFacts.v: names are not repeated). *)
  Fixpoint lookup (p : prog) (n : string) : option body := match p with [] => None | (n', b) :: p => if String.eqb n n' then Some b else lookup p n end.
  (** The position of a member. *)
  Fixpoint index (l : list string) (f : string) : option nat := match l with [] => None | g :: l => if String.eqb f g then Some O else (k <- index l f ;; Some (S k)) end.
  (** The initialiser of member f of the structure called n: by position, 0 when the list is too short; more initialisers than members are an
      error of the compiler ([None]). *)
  Definition field (c : cfg) (p : prog) (n f : string) : option init :=
    match lookup p n with
    | Some (BStr ty is) => if (length (layout c ty) <? length is)%nat then None else (k <- index (layout c ty) f ;; Some (nth k is (IInt 0)))
    | _ => None
    end.
End Layout.

Section Load.
  Context {K : NumOps}.
  Variable rd : Z -> K.
  Variables (c : cfg) (p : prog).
  Local Open Scope string_scope. Local Open Scope Z_scope.

  (** The value of a member of type OSQPInt, OSQPFloat, char[]; a pointer stored in a number (or a floating-point number stored in an OSQPInt)
      is not given a meaning here *)
  Definition as_int (i : option init) : option Z := match i with Some (IInt z) => Some z | _ => None end.
  Definition as_flt (i : option init) : option K := match i with Some (IFlt t) => Some (rd t) | Some IZero => Some n0 | Some (IInt z) => Some (nofZ z) | _ => None end.
  Definition as_str (i : option init) : option string := match i with Some (IStr s) => Some s | _ => None end.
  (** The structure a pointer member points to; [None]: no structure, [Some None]: NULL *)
  Definition as_addr (i : option init) : option (option string) := match i with Some (IAddr n) => Some (Some n) | Some INull => Some None | Some (IInt 0) => Some None | _ => None end.
  (** The first [len] numbers a pointer member points to; an array without initialiser holds zeros, and a NULL pointer can stand for 0 numbers *)
  Definition arrf (i : option init) (len : Z) : option (list K) :=
    match i with
    | Some (IRef n off) => match lookup p n with
      | Some (BFlt ts) => view (map rd ts) off len
      | Some (BBuf k) => view (zrep k n0) off len
      | Some BMac => if (len =? 0)%Z then Some [] else None
      | _ => None end
    | Some INull => if (len =? 0)%Z then Some [] else None
    | _ => None
    end.
  Definition arri (i : option init) (len : Z) : option (list Z) :=
    match i with
    | Some (IRef n off) => match lookup p n with
      | Some (BInt zs) => view zs off len
      | Some (BBuf k) => view (zrep k 0%Z) off len
      | Some BMac => if (len =? 0)%Z then Some [] else None
      | _ => None end
    | Some INull => if (len =? 0)%Z then Some [] else None
    | _ => None
    end.
  Definition vecf (i : option init) : option (list K) := match i with Some (IAddr n) => (l <- as_int (field c p n "length") ;; arrf (field c p n "values") l) | _ => None end.
  Definition veci (i : option init) : option (list Z) := match i with Some (IAddr n) => (l <- as_int (field c p n "length") ;; arri (field c p n "values") l) | _ => None end.
  (** a pointer that may be NULL *)
  Definition opt {A} (f : option init -> option A) (i : option init) : option (option A) := match i with Some INull => Some None | _ => (v <- f i ;; Some (Some v)) end.
  Definition cscm (i : option init) : option (csc K) :=
    match i with
    | Some (IAddr n) =>
      m <- as_int (field c p n "m") ;; k <- as_int (field c p n "n") ;; nzmax <- as_int (field c p n "nzmax") ;; nz <- as_int (field c p n "nz") ;;
      pp <- arri (field c p n "p") (k + 1) ;; ii <- arri (field c p n "i") nzmax ;; x <- arrf (field c p n "x") nzmax ;; Some (mkcsc m k pp ii x nzmax nz)
    | _ => None
    end.
  Definition mat (i : option init) : option (csc K * Z) := match i with Some (IAddr n) => (M <- cscm (field c p n "csc") ;; s <- as_int (field c p n "symmetry") ;; Some (M, s)) | _ => None end.

  (** What the generated program starts from: the settings, the info structure, the data, the scaling, the linear system solver and the members
      of the workspace.  The members that only exist with embedded_mode = 2 are optional. *)
  Record gls := mkgls { gl_L : csc K; gl_Dinv : list K; gl_P : list Z; gl_bp : list K; gl_sol : list K; gl_rho_inv_vec : option (list K); gl_sigma : K; gl_rho_inv : K; gl_n : Z; gl_m : Z;
    gl_two : option (csc K * list Z * list Z * list Z * (list K * list Z * list Z)) }.
  Record gwork := mkgwork { gw_rho_vec : option (list K); gw_rho_inv_vec : option (list K); gw_constr_type : option (option (list Z)); gw_x : list K; gw_y : list K; gw_z : list K;
    gw_xz_tilde : list K; gw_xtilde : list K; gw_ztilde : list K; gw_x_prev : list K; gw_z_prev : list K; gw_Ax : list K; gw_Px : list K; gw_Aty : list K; gw_delta_y : list K; gw_Atdelta_y : list K;
    gw_delta_x : list K; gw_Pdelta_x : list K; gw_Adelta_x : list K; gw_temps : option (option (list K) * option (list K) * option (list K)); gw_rho_inv : K; gw_rho_updated : Z; gw_last_rel_kkt : K }.
  Record gen := mkgen { g_settings : settings K; g_info : info K; g_sol : solution K; g_data : data K; g_sym : Z * Z; g_scaling : option (scaling K); g_ls : gls; g_work : gwork }.

  Definition load_settings (n : string) : option (settings K) :=
    let fi f := as_int (field c p n f) in let ff f := as_flt (field c p n f) in
    x1 <- fi "device" ;; x2 <- fi "linsys_solver" ;; x3 <- fi "allocate_solution" ;; x4 <- fi "verbose" ;; x5 <- fi "profiler_level" ;; x6 <- fi "warm_starting" ;; x7 <- fi "scaling" ;; x8 <- fi "polishing" ;;
    x9 <- ff "rho" ;; x10 <- fi "rho_is_vec" ;; x11 <- ff "sigma" ;; x12 <- ff "alpha" ;; x13 <- fi "cg_max_iter" ;; x14 <- fi "cg_tol_reduction" ;; x15 <- ff "cg_tol_fraction" ;; x16 <- fi "cg_precond" ;;
    x17 <- fi "adaptive_rho" ;; x18 <- fi "adaptive_rho_interval" ;; x19 <- ff "adaptive_rho_fraction" ;; x20 <- ff "adaptive_rho_tolerance" ;; x21 <- fi "max_iter" ;; x22 <- ff "eps_abs" ;; x23 <- ff "eps_rel" ;;
    x24 <- ff "eps_prim_inf" ;; x25 <- ff "eps_dual_inf" ;; x26 <- fi "scaled_termination" ;; x27 <- fi "check_termination" ;; x28 <- fi "check_dualgap" ;; x29 <- ff "time_limit" ;; x30 <- ff "delta" ;; x31 <- fi "polish_refine_iter" ;;
    Some (mksettings x1 x2 x3 x4 x5 x6 x7 x8 x9 x10 x11 x12 x13 x14 x15 x16 x17 x18 x19 x20 x21 x22 x23 x24 x25 x26 x27 x28 x29 x30 x31).
  Definition load_info (n : string) : option (info K) :=
    let fi f := as_int (field c p n f) in let ff f := as_flt (field c p n f) in
    x1 <- as_str (field c p n "status") ;; x2 <- fi "status_val" ;; x3 <- fi "status_polish" ;; x4 <- ff "obj_val" ;; x5 <- ff "dual_obj_val" ;; x6 <- ff "prim_res" ;; x7 <- ff "dual_res" ;; x8 <- ff "duality_gap" ;;
    x9 <- fi "iter" ;; x10 <- fi "rho_updates" ;; x11 <- ff "rho_estimate" ;; x12 <- ff "setup_time" ;; x13 <- ff "solve_time" ;; x14 <- ff "update_time" ;; x15 <- ff "polish_time" ;; x16 <- ff "run_time" ;;
    x17 <- ff "primdual_int" ;; x18 <- ff "rel_kkt_error" ;; Some (mkinfo x1 x2 x3 x4 x5 x6 x7 x8 x9 x10 x11 x12 x13 x14 x15 x16 x17 x18).
  Definition load_data (n : string) : option (data K * (Z * Z)) :=
    dn <- as_int (field c p n "n") ;; dm <- as_int (field c p n "m") ;; P <- mat (field c p n "P") ;; A <- mat (field c p n "A") ;;
    q <- vecf (field c p n "q") ;; l <- vecf (field c p n "l") ;; u <- vecf (field c p n "u") ;; Some (mkdata dn dm (fst P) (fst A) q l u, (snd P, snd A)).
  Definition load_scaling (n : string) : option (scaling K) :=
    x1 <- as_flt (field c p n "c") ;; x2 <- vecf (field c p n "D") ;; x3 <- vecf (field c p n "E") ;; x4 <- as_flt (field c p n "cinv") ;; x5 <- vecf (field c p n "Dinv") ;; x6 <- vecf (field c p n "Einv") ;;
    Some (mkscaling x1 x2 x3 x4 x5 x6).
  Definition load_linsys (n : string) (nP nA : Z) : option gls :=
    k <- as_int (field c p n "n") ;; m <- as_int (field c p n "m") ;; L <- cscm (field c p n "L") ;; Dinv <- arrf (field c p n "Dinv") (k + m) ;; P <- arri (field c p n "P") (k + m) ;;
    bp <- arrf (field c p n "bp") (k + m) ;; sol <- arrf (field c p n "sol") (k + m) ;; rv <- opt (fun i => arrf i m) (field c p n "rho_inv_vec") ;;
    sg <- as_flt (field c p n "sigma") ;; ri <- as_flt (field c p n "rho_inv") ;;
    two <- (if (c_embedded c =? 1)%Z then Some None else
      KKT <- cscm (field c p n "KKT") ;; a <- arri (field c p n "PtoKKT") nP ;; b <- arri (field c p n "AtoKKT") nA ;; d <- arri (field c p n "rhotoKKT") m ;;
      D <- arrf (field c p n "D") (k + m) ;; et <- arri (field c p n "etree") (k + m) ;; Lnz <- arri (field c p n "Lnz") (k + m) ;;
      iw <- arri (field c p n "iwork") (3 * (k + m)) ;; bw <- arri (field c p n "bwork") (k + m) ;; fw <- arrf (field c p n "fwork") (k + m) ;;
      Some (Some (KKT, a, b, d, (D, et, Lnz)))) ;;
    Some (mkgls L Dinv P bp sol rv sg ri k m two).
  Definition load_work (n : string) : option gwork :=
    let v f := vecf (field c p n f) in
    x1 <- opt vecf (field c p n "rho_vec") ;; x2 <- opt vecf (field c p n "rho_inv_vec") ;;
    x3 <- (if (c_embedded c =? 1)%Z then Some None else t <- opt veci (field c p n "constr_type") ;; Some (Some t)) ;;
    x4 <- v "x" ;; x5 <- v "y" ;; x6 <- v "z" ;; x7 <- v "xz_tilde" ;; x8 <- v "xtilde_view" ;; x9 <- v "ztilde_view" ;; x10 <- v "x_prev" ;; x11 <- v "z_prev" ;; x12 <- v "Ax" ;; x13 <- v "Px" ;; x14 <- v "Aty" ;;
    x15 <- v "delta_y" ;; x16 <- v "Atdelta_y" ;; x17 <- v "delta_x" ;; x18 <- v "Pdelta_x" ;; x19 <- v "Adelta_x" ;;
    x20 <- (if (c_embedded c =? 1)%Z then Some None else a <- opt vecf (field c p n "D_temp") ;; b <- opt vecf (field c p n "D_temp_A") ;; d <- opt vecf (field c p n "E_temp") ;; Some (Some (a, b, d))) ;;
    x21 <- as_flt (field c p n "rho_inv") ;; x22 <- as_int (field c p n "rho_updated") ;; x23 <- as_flt (field c p n "last_rel_kkt") ;;
    Some (mkgwork x1 x2 x3 x4 x5 x6 x7 x8 x9 x10 x11 x12 x13 x14 x15 x16 x17 x18 x19 x20 x21 x22 x23).
  Definition load_solution (n : string) (k m : Z) : option (solution K) :=
    x <- arrf (field c p n "x") k ;; y <- arrf (field c p n "y") m ;; a <- arrf (field c p n "prim_inf_cert") m ;; b <- arrf (field c p n "dual_inf_cert") k ;; Some (mksolution x y a b).
  (** The solver structure the generated program starts from. *)
  Definition load : option gen :=
    match as_addr (field c p "solver" "settings"), as_addr (field c p "solver" "solution"), as_addr (field c p "solver" "info"), as_addr (field c p "solver" "work") with
    | Some (Some ns), Some (Some no), Some (Some ni), Some (Some nw) =>
      match as_addr (field c p nw "data"), as_addr (field c p nw "linsys_solver"), as_addr (field c p nw "scaling") with
      | Some (Some nd), Some (Some nl), Some nsc =>
        st <- load_settings ns ;; i <- load_info ni ;; d <- load_data nd ;;
        so <- load_solution no (d_n (fst d)) (d_m (fst d)) ;;
        sc <- (match nsc with Some n => (s <- load_scaling n ;; Some (Some s)) | None => Some None end) ;;
        nP <- zget (cp (d_P (fst d))) (d_n (fst d)) ;; nA <- zget (cp (d_A (fst d))) (d_n (fst d)) ;;
        l <- load_linsys nl nP nA ;; w <- load_work nw ;;
        Some (mkgen st i so (fst d) (snd d) sc l w)
      | _, _, _ => None
      end
    | _, _, _, _ => None
    end.
End Load.
