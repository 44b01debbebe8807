(** Memory, continued: the adjoint derivative functions as programs over the machine of
    Alloc.v (src/derivative.c, algebra/_common/lin_sys/qdldl/qdldl_interface.c:697-891),
    called through src/osqp_api.c:1583-1629.  Local variables of the C functions carry a
    suffix after @ where another function has a local of the same name. *)
From Coq Require Import ZArith List Bool String.
From Verif Require Import Alloc.
Import ListNotations.
Local Open Scope string_scope.
Local Open Scope list_scope.

(** * Helpers *)

(** Which of the lengths m, n_ineq_l, n_ineq_u, n_ineq_l + n_ineq_u, n_eq is 0 (src/derivative.c:143-186). *)
Inductive size := Sn | Sm | Sl | Su | Slu | Se.
Definition if_zero (z : size) (a b : cmd) : cmd :=
  match z with
  | Sn => b                              (* n > 0, src/auxil.c:975 *)
  | Sm => Flag "m=0" a b
  | Sl => Flag "n_ineq_l=0" a b
  | Su => Flag "n_ineq_u=0" a b
  | Slu => Flag "n_ineq_l=0" (Flag "n_ineq_u=0" a b) b
  | Se => Flag "n_eq=0" a b
  end.

(** OSQPVectorf_malloc, OSQPVectori_malloc, algebra/builtin/vector.c:48-84. *)
Definition vec_z (s : slot) (z : size) : cmd :=
  Alloc false s ["values"] ;;;
  IfNull s Skip
    (if_zero z (SetNull (s ~> "values"))
       (Alloc false (s ~> "values") ["[]"] ;;; IfNull (s ~> "values") (Free s ;;; SetNull s) Skip)).

(** The struct is read, and its values when there are any. *)
Definition vec_use (s : slot) (z : size) : cmd := Use s ;;; if_zero z Skip (Use (s ~> "values")).
(** The arrays of a matrix are read. *)
Definition mat_use (s : slot) : cmd := uses ([s; s ~> "csc"] ++ cscs (s ~> "csc")).

(** OSQPVectorf_new, OSQPVectori_new, vector.c:24-46, [a] the C array copied from; None if it is the
    caller's (dy, dx), which is taken to be valid. *)
Definition vec_from (s : slot) (a : option slot) (z : size) : cmd :=
  vec_z s z ;;;
  IfNull s Skip (match a with Some p => if_zero z Skip (Use p) | None => Skip end).

(** OSQPVectorf_copy_new, vector.c:128-134. *)
Definition vec_copy (s a : slot) (z : size) : cmd :=
  Use a ;;; vec_z s z ;;; IfNull s Skip (if_zero z Skip (Use (a ~> "values"))).

(** OSQPVectorf_subvector_byrows, vector.c:178-198; [rows] has length m. *)
Definition vec_rows (s a rows : slot) (z : size) : cmd :=
  vec_use rows Sm ;;; vec_z s z ;;;
  IfNull s Skip (if_zero z Skip (uses [s ~> "values"; a; a ~> "values"])).

(** OSQPVectorf_concat, vector.c:200-213, of vectors of lengths n_ineq_l and n_ineq_u. *)
Definition vec_concat (s a b : slot) : cmd :=
  uses [a; b] ;;; vec_z s Slu ;;;
  IfNull s Skip (if_zero Sl Skip (uses [s ~> "values"; a ~> "values"]) ;;;
                 if_zero Su Skip (uses [s ~> "values"; b ~> "values"])).

(** OSQPMatrix_copy_new with csc_copy, algebra/builtin/matrix.c:47-62, csc_utils.c:390-400. *)
Definition mat_copy (s a : slot) : cmd :=
  Alloc false s ["csc"] ;;;
  IfNull s Skip
    (uses [a; a ~> "csc"] ;;; spalloc (s ~> "csc") ;;;
     IfNull (s ~> "csc") (Free s ;;; SetNull s) (uses (cscs (s ~> "csc") ++ cscs (a ~> "csc")))).

(** triplet_to_csc of M_trip, algebra/_common/csc_utils.c:206-247, with csc_done 437-447. *)
Definition to_csc : cmd :=
  Use ["M_trip"] ;;;
  spalloc ["C@trip"] ;;; Alloc true ["w@trip"] [] ;;;
  if_any_null [["C@trip"]; ["w@trip"]]
    (Free ["w@trip"] ;;; spfree ["C@trip"] ;;; SetNull ["C@trip"])
    (uses (cscs ["C@trip"] ++ cscs ["M_trip"]) ;;; Use ["w@trip"] ;;; Free ["w@trip"]).

(** OSQPMatrix_vstack with vstack, and OSQPMatrix_triu_to_symm with triu_to_csc:
    algebra/builtin/matrix.c:64-105, csc_utils.c:509-605.  A triplet copy of [from]
    is made and converted; the result of the conversion is followed without a check (550, 601). *)
Definition mat_build (s : slot) (from : list slot) : cmd :=
  uses from ;;;
  Alloc false s ["csc"] ;;;
  IfNull s Skip
    (uses (map (fun t => t ~> "csc") from) ;;;
     spalloc ["M_trip"] ;;;
     IfNull ["M_trip"] (Free s ;;; SetNull s)
       (seq (map mat_use from) ;;; uses (cscs ["M_trip"]) ;;;
        to_csc ;;; Use ["C@trip"] ;;; spfree ["M_trip"] ;;;
        Move (s ~> "csc") ["C@trip"] csck)).

(** OSQPMatrix_submatrix_byrows and csc_submatrix_byrows, matrix.c:214-242, csc_utils.c:134-204:
    [submatrix] of Alloc.v with the arguments followed and names of its own. *)
Definition mat_rows (s a rows : slot) : cmd :=
  uses [a; a ~> "csc"; rows] ;;;
  Alloc false ["rridx@d"] [] ;;;
  IfNull ["rridx@d"] (SetNull s)
    (if_zero Sm Skip (uses [["rridx@d"]; rows ~> "values"]) ;;; uses (cscs (a ~> "csc")) ;;;
     spalloc ["M@d"] ;;;
     IfNull ["M@d"] (Free ["rridx@d"] ;;; SetNull s)
       (uses (cscs ["M@d"]) ;;; Free ["rridx@d"] ;;;
        Alloc false s ["csc"] ;;;
        IfNull s (spfree ["M@d"]) (Move (s ~> "csc") ["M@d"] csck))).

(** * adjoint_derivative_qdldl, qdldl_interface.c:697-891 *)

Definition adj : slot := ["adj@adj"].
Definition adjm : slot := ["adj_matrix@adj"].
Definition adjL : list slot :=
  [["Lp@adj"]; ["D@adj"]; ["Dinv@adj"]; ["P@adj"]; ["etree@adj"]; ["Lnz@adj"]; ["iwork@adj"]; ["bwork@adj"]; ["fwork@adj"]].

(** What is freed from each label on, qdldl_interface.c:854-888. *)
Definition at_adj (z : Z) : cmd := mat_free adjm ;;; spfree adj ;;; Return z.
Definition at_mat (z : Z) : cmd := seq (map Free adjL) ;;; at_adj z.
Definition at_inv (z : Z) : cmd := Free ["Pinv@adj"] ;;; at_mat z.
Definition at_sym (z : Z) : cmd := spfree ["C"] ;;; at_inv z.          (* adj_permuted *)
Definition at_csc (z : Z) : cmd := Free ["Li@adj"] ;;; Free ["Lx@adj"] ;;; at_sym z.
Definition at_x (z : Z) : cmd := Free ["x@adj"] ;;; Free ["x_work@adj"] ;;; at_csc z.
Definition at_vec (z : Z) : cmd := vec_free ["sol@adj"] ;;; vec_free ["residual@adj"] ;;; at_x z.

(** The permuted matrix is csc_symperm's result, left in [C] by [symperm].  QDLDL_etree's and QDLDL_factor's
    return values are not looked at (807, 818): a negative count makes the requests for Li and
    Lx enormous, which the allocator may refuse. *)
Definition adj_qdldl (Pf G Aeq Gd slacks rhs : slot) : cmd :=
  seq (map mat_use [Pf; G; Aeq]) ;;;
  spalloc adj ;;;
  IfNull adj (Return MEM) Skip ;;;
  seq (map mat_use [Pf; G; Aeq; Gd]) ;;; vec_use slacks Slu ;;; uses (cscs adj) ;;;
  mat_new adjm ;;;
  IfNull adjm (at_adj MEM) Skip ;;;
  Alloc false ["Lp@adj"] [] ;;; Alloc false ["D@adj"] [] ;;; Alloc false ["Dinv@adj"] [] ;;;
  Alloc false ["P@adj"] ["[]"] ;;; SetNull ["Pinv@adj"] ;;;
  Alloc false ["etree@adj"] [] ;;; Alloc false ["Lnz@adj"] [] ;;;
  Alloc false ["iwork@adj"] [] ;;; Alloc false ["bwork@adj"] [] ;;; Alloc false ["fwork@adj"] [] ;;;
  SetNull ["x@adj"] ;;; SetNull ["x_work@adj"] ;;;
  if_any_null adjL (at_mat MEM) Skip ;;;
  Call (amd ["P@adj"]) (fun st => if (st <? 0)%Z then at_mat st else
  Read (["P@adj"] ~> "[]") ;;;
  Alloc false ["Pinv@adj"] [] ;;;
  IfNull ["Pinv@adj"] (at_inv MEM) Skip ;;;
  symperm ;;;
  IfNull ["C"] (at_sym MEM) Skip ;;;
  uses (cscs ["C"] ++ [["iwork@adj"]; ["Lnz@adj"]; ["etree@adj"]]) ;;;
  Alloc false ["Li@adj"] [] ;;; Alloc false ["Lx@adj"] [] ;;;
  if_any_null [["Li@adj"]; ["Lx@adj"]] (at_csc MEM) Skip ;;;
  uses (cscs ["C"] ++ adjL ++ [["Li@adj"]; ["Lx@adj"]]) ;;;
  Alloc false ["x@adj"] [] ;;; Alloc false ["x_work@adj"] [] ;;;
  if_any_null [["x@adj"]; ["x_work@adj"]] (at_x MEM) Skip ;;;
  uses [rhs; rhs ~> "values"; ["x@adj"]; ["x_work@adj"]] ;;;
  vec_from ["sol@adj"] (Some ["x@adj"]) Sn ;;; vec_z ["residual@adj"] Sn ;;;
  if_any_null [["sol@adj"]; ["residual@adj"]] (at_vec MEM) Skip ;;;
  mat_use adjm ;;; vec_use ["sol@adj"] Sn ;;; vec_use ["residual@adj"] Sn ;;;
  uses ([rhs; rhs ~> "values"; ["x_work@adj"]; ["P@adj"]]) ;;;
  at_vec 0).

(** * adjoint_derivative_compute, src/derivative.c:101-331 *)

(** The C arrays of length m, src/derivative.c:131-138; written in the loop of 153-186. *)
Definition ints : list slot :=
  [["A_ineq_l_vec"]; ["A_ineq_u_vec"]; ["A_eq_vec"]; ["eq_indices_vec"]; ["l_noninf_indices_vec"]; ["u_noninf_indices_vec"]; ["nu_sign_vec"]].

(** src/derivative.c:112-147.  OSQPVectorf_data follows l, u and y (127-129). *)
Definition comp_copies : cmd := seq
  [ Use dt;
    mat_copy ["P@d"] (dt ~> "P"); mat_copy ["A@d"] (dt ~> "A");
    vec_copy ["l@d"] (dt ~> "l") Sm; vec_copy ["u@d"] (dt ~> "u") Sm;
    Use so; vec_from ["x@d"] (Some (so ~> "x")) Sn; vec_from ["y@d"] (Some (so ~> "y")) Sm;
    Use (sv ~> "settings");
    Flag "scaling" (seq [ Use sc; mat_use ["P@d"]; vec_use (sc ~> "Dinv") Sn; mat_use ["A@d"]; vec_use (sc ~> "Einv") Sm;
                          vec_use ["l@d"] Sm; vec_use ["u@d"] Sm ]) Skip;
    uses [["l@d"]; ["u@d"]; ["y@d"]];
    seq (map (fun s => Alloc false s []) ints);
    vec_from ["dy_l_vec"] None Sm; vec_from ["dy_u_vec"] None Sm;
    (* 153-186: which arrays are written depends on the kinds of constraint there are *)
    if_zero Sm Skip (uses [["l@d"] ~> "values"; ["u@d"] ~> "values"; ["A_eq_vec"]; ["A_ineq_l_vec"]; ["A_ineq_u_vec"]]);
    if_zero Sl Skip (Use ["l_noninf_indices_vec"]); if_zero Su Skip (Use ["u_noninf_indices_vec"]);
    if_zero Se Skip (uses [["eq_indices_vec"]; ["nu_sign_vec"]; ["y@d"] ~> "values"]);
    Use dd ].

(** src/derivative.c:188-214. *)
Definition comp_rows : cmd := seq
  [ vec_from ["A_ineq_l_i"] (Some ["A_ineq_l_vec"]) Sm; Free ["A_ineq_l_vec"];
    mat_rows ["A_ineq_l"] ["A@d"] ["A_ineq_l_i"]; mat_use ["A_ineq_l"];
    vec_from ["A_ineq_u_i"] (Some ["A_ineq_u_vec"]) Sm; Free ["A_ineq_u_vec"];
    mat_rows ["A_ineq_u"] ["A@d"] ["A_ineq_u_i"];
    mat_build ["G"] [["A_ineq_l"]; ["A_ineq_u"]];
    mat_free ["A_ineq_l"]; mat_free ["A_ineq_u"];
    vec_from ["A_eq_i"] (Some ["A_eq_vec"]) Sm; Free ["A_eq_vec"];
    mat_rows ["A_eq"] ["A@d"] ["A_eq_i"]; vec_free ["A_eq_i"]; mat_free ["A@d"] ].

(** src/derivative.c:216-252. *)
Definition comp_slacks : cmd := seq
  [ vec_z ["m_zeros"] Sm; vec_use ["m_zeros"] Sm;
    vec_use (dd ~> "y_u") Sm; vec_use (dd ~> "y_l") Sm; vec_use ["y@d"] Sm;
    vec_free ["m_zeros"];
    vec_rows ["y_l_ineq"] (dd ~> "y_l") ["A_ineq_l_i"] Sl; vec_rows ["y_u_ineq"] (dd ~> "y_u") ["A_ineq_u_i"] Su;
    vec_concat ["lambda"] ["y_l_ineq"] ["y_u_ineq"];
    vec_free ["y_l_ineq"]; vec_free ["y_u_ineq"];
    vec_rows ["l_ineq"] ["l@d"] ["A_ineq_l_i"] Sl; vec_free ["l@d"]; vec_use ["l_ineq"] Sl;
    vec_rows ["u_ineq"] ["u@d"] ["A_ineq_u_i"] Su; vec_free ["u@d"];
    vec_concat ["h"] ["l_ineq"] ["u_ineq"];
    vec_free ["l_ineq"]; vec_free ["u_ineq"];
    vec_copy ["slacks"] ["h"] Slu; vec_free ["h"];
    mat_use ["G"]; vec_use ["x@d"] Sn; vec_use ["slacks"] Slu; vec_free ["x@d"];
    mat_copy ["GDiagLambda"] ["G"]; mat_use ["GDiagLambda"]; vec_use ["lambda"] Slu; vec_free ["lambda"] ].

(** src/derivative.c:254-286. *)
Definition comp_rhs : cmd := seq
  [ vec_rows ["dy_l_ineq"] ["dy_l_vec"] ["A_ineq_l_i"] Sl; vec_free ["dy_l_vec"]; vec_free ["A_ineq_l_i"];
    vec_rows ["dy_u_ineq"] ["dy_u_vec"] ["A_ineq_u_i"] Su; vec_free ["dy_u_vec"]; vec_free ["A_ineq_u_i"];
    vec_use (dd ~> "rhs") Sn;
    vec_use ["dy_l_ineq"] Sl; vec_free ["dy_l_ineq"];
    vec_use ["dy_u_ineq"] Su; vec_free ["dy_u_ineq"];
    Alloc false ["d_nu_vec"] [];
    if_zero Se Skip (uses [["nu_sign_vec"]; ["d_nu_vec"]; ["eq_indices_vec"]]);
    Free ["d_nu_vec"] ].

(** src/derivative.c:288-331.  The value of the linear system's solution is not looked at (290). *)
Definition comp_end : cmd := seq
  [ mat_build ["P_full"] [["P@d"]]; mat_free ["P@d"];
    Call (adj_qdldl ["P_full"] ["G"] ["A_eq"] ["GDiagLambda"] ["slacks"] (dd ~> "rhs")) (fun _ => Skip);
    mat_free ["P_full"]; mat_free ["G"]; mat_free ["A_eq"]; mat_free ["GDiagLambda"]; vec_free ["slacks"];
    vec_use (dd ~> "rhs") Sn;
    Alloc false ["r_yl"] []; Alloc false ["r_yu"] [];
    if_zero Sm Skip (uses [["r_yl"]; ["r_yu"]]);
    if_zero Sl Skip (uses [["l_noninf_indices_vec"]; ["r_yl"]]); Free ["l_noninf_indices_vec"];
    if_zero Su Skip (uses [["u_noninf_indices_vec"]; ["r_yu"]]); Free ["u_noninf_indices_vec"];
    if_zero Se Skip (uses [["nu_sign_vec"]; ["r_yl"]; ["r_yu"]; ["eq_indices_vec"]; ["y@d"] ~> "values"]);
    Free ["nu_sign_vec"]; Free ["eq_indices_vec"];
    vec_use (dd ~> "ryl") Sm; Free ["r_yl"]; vec_use (dd ~> "y_l") Sm;
    vec_use (dd ~> "ryu") Sm; Free ["r_yu"]; vec_use (dd ~> "y_u") Sm;
    vec_free ["y@d"];
    Return 0 ].

(** adjoint_derivative_compute. *)
Definition compute : cmd := seq [ comp_copies; comp_rows; comp_slacks; comp_rhs; comp_end ].

(** adjoint_derivative_get_mat, src/derivative.c:31-67.  The caller's matrices are taken to be valid. *)
Definition get_mat : cmd := seq
  [ uses [dt; dd; so];
    vec_from ["x@g"] (Some (so ~> "x")) Sn; Use ["x@g"];
    vec_use (dd ~> "y_u") Sm; vec_use (dd ~> "y_l") Sm; vec_use (dd ~> "ryu") Sm; vec_use (dd ~> "ryl") Sm;
    view ["rx@g"] (dd ~> "rhs"); uses [["rx@g"]; ["x@g"] ~> "values"; dd ~> "rhs" ~> "values"];
    Free ["rx@g"]; vec_free ["x@g"]; Return 0 ].

(** adjoint_derivative_get_vec, src/derivative.c:69-99. *)
Definition get_vec : cmd := seq
  [ uses [dt; dd];
    view ["rx@v"] (dd ~> "rhs"); uses [["rx@v"]; dd ~> "rhs" ~> "values"];
    vec_use (dd ~> "ryl") Sm; vec_use (dd ~> "ryu") Sm;
    Free ["rx@v"]; Return 0 ].

(** * Sessions *)

(** osqp_solve and the three derivative functions of src/osqp_api.c:636-1038, 1583-1629. *)
Inductive call := Solve | Compute | GetMat | GetVec.
Definition prog (k : call) : cmd :=
  match k with Solve => solve | Compute => compute | GetMat => get_mat | GetVec => get_vec end.
Definition is_solve (k : call) : bool := match k with Solve => true | _ => false end.

(** A call with its own branch decisions and its own answers to the requests it makes. *)
Record event := Event { what : call; answers : nat -> slot -> bool; branches : string -> bool }.

(** Any sequence of calls; an error stops none of them. *)
Fixpoint calls_ (l : list event) (st : hst) : out :=
  match l with
  | [] => Go st
  | e :: r => match exec (answers e) (branches e) (prog (what e)) st with
              | Go st' | Ret _ st' => calls_ r st'
              | Bad s => Bad s
              end
  end.
