(** Memory: what osqp_setup, the polishing step and osqp_cleanup ask of the
    allocator and what they give back.

    The rest of the model works with arrays as values.  This file looks at the
    same functions as programs over owned pointers: every c_malloc/c_calloc may
    be refused, every c_free must be given NULL or a block still allocated, and
    no pointer may be followed that is NULL, uninitialised or freed.

    Simplifications, for the whole file.
    - Only pointers are kept; the numbers in the arrays are in Setup.v, Linsys.v
      and Polish.v.  A branch which depends on them is a [Flag].
    - A pointer is named by its access path, innermost field first, so
      [["p"; "csc"; "P"; "data"; "work"; "solver"]] is solver->work->data->P->csc->p.
      A local variable is a path of length one.  No two of the modelled pointers
      own the same block (the views of vector.c:219 own only their struct), which
      is what makes naming by path adequate.
    - Functions returning a new block are written as assigning it to the path their
      caller stores it in. *)
From Coq Require Import ZArith List Bool String Arith Lia.
Import ListNotations.
Local Open Scope string_scope.
Local Open Scope list_scope.

(** * The machine *)

(** A pointer by its access path.  Modelling device, no counterpart in /repo. *)
Definition slot := list string.

(** path->field.  C syntax, no counterpart in /repo. *)
Notation "p ~> f" := (@cons string f p) (at level 25, left associativity).

(** Equality of access paths.  Modelling device, no counterpart in /repo. *)
Fixpoint slot_eqb (a b : slot) : bool :=
  match a, b with
  | [], [] => true
  | x :: a, y :: b => String.eqb x y && slot_eqb a b
  | _, _ => false
  end.

(** What a pointer can hold: OSQP_NULL (include/public/osqp_api_constants.h:188-189),
    the indeterminate content of memory from malloc or of a variable out of use,
    or the address of a block.  Blocks are numbered by the request that made them. *)
Inductive val := VNull | VWild | VAt (b : nat).

(** The pointers; the blocks allocated and not yet freed; how many requests have
    been made (include/private/glob_opts.h:25-27, c_malloc and c_calloc); whether any
    request was refused so far (a ghost, read by no program). *)
Record hst := HS { mem : slot -> val; live : list nat; req : nat; refused : bool }.

(** Result of a program: it ran to its end, it returned a value, or it did
    something undefined with the pointer named. *)
Inductive out := Go (st : hst) | Ret (z : Z) (st : hst) | Bad (s : slot).

(** Programs.  C control flow, no counterpart in /repo. *)
Inductive cmd :=
| Skip
| Seq (a b : cmd)
| Alloc (zeroed : bool) (s : slot) (kids : list string)
    (* s = c_malloc/c_calloc; kids: the pointer fields of the new struct *)
| SetNull (s : slot)                          (* s = OSQP_NULL *)
| Use (s : slot)                              (* *s is accessed *)
| Read (s : slot)                             (* the value of s is used *)
| Free (s : slot)                             (* c_free(s) *)
| Move (d s : slot) (kids : list string)      (* d = s, s not used again *)
| IfNull (s : slot) (a b : cmd)               (* if (!s) a else b *)
| Flag (f : string) (a b : cmd)               (* a branch not decided here *)
| Return (z : Z)
| Call (a : cmd) (k : Z -> cmd).              (* r = a(); k(r) *)

Notation "a ;;; b" := (Seq a b) (at level 61, right associativity).

(** Store.  Modelling device, no counterpart in /repo. *)
Definition upd (m : slot -> val) (s : slot) (v : val) : slot -> val :=
  fun t => if slot_eqb t s then v else m t.

(** Set the listed fields.  Modelling device, no counterpart in /repo. *)
Fixpoint updk (m : slot -> val) (p : slot) (kids : list string) (v : string -> val) : slot -> val :=
  match kids with
  | [] => m
  | f :: r => updk (upd m (p ~> f) (v f)) p r v
  end.

(** The pointer holds the address of an allocated block. *)
Definition lives (st : hst) (s : slot) : bool :=
  match mem st s with VAt b => existsb (Nat.eqb b) (live st) | _ => false end.

(** Every pointer on the way to the field is to an allocated block: the
    dereferences in the access path are defined (C, 6.5.3.2).  The empty path names nothing. *)
Fixpoint reach (st : hst) (s : slot) : bool :=
  match s with
  | [] => false
  | _ :: p => match p with [] => true | _ => lives st p && reach st p end
  end.

(** The first pointer on the way that is not to an allocated block. *)
Fixpoint blame (st : hst) (s : slot) : slot :=
  match s with
  | [] => []
  | _ :: p => match p with [] => [] | _ => if reach st p then p else blame st p end
  end.

(** Free.  C's free (7.22.3.3), c_free in include/private/glob_opts.h:25-27: NULL does
    nothing, an allocated block goes, anything else is undefined.  The pointer keeps its value. *)
Definition do_free (st : hst) (s : slot) : out :=
  match mem st s with
  | VNull => Go st
  | VWild => Bad s
  | VAt b => if existsb (Nat.eqb b) (live st)
             then Go (HS (mem st) (filter (fun c => negb (Nat.eqb b c)) (live st)) (req st) (refused st))
             else Bad s
  end.

(** Allocation, c_malloc and c_calloc (include/private/glob_opts.h:25-27).  [o k s]
    says whether the k-th request, made for s, is granted: any such function is allowed. *)
Definition do_alloc (o : nat -> slot -> bool) (st : hst) (zeroed : bool) (s : slot) (kids : list string) : out :=
  if o (req st) s
  then Go (HS (updk (upd (mem st) s (VAt (req st))) s kids (fun _ => if zeroed then VNull else VWild))
              (req st :: live st) (S (req st)) (refused st))
  else Go (HS (upd (mem st) s VNull) (live st) (S (req st)) true).

(** Pointer assignment of a block with its fields; s is dead afterwards.
    Modelling device (see the file comment), no counterpart in /repo. *)
Definition do_move (st : hst) (d s : slot) (kids : list string) : out :=
  match mem st s with
  | VWild => Bad s
  | v => let m1 := updk (upd (mem st) d v) d kids (fun f => mem st (s ~> f)) in
         Go (HS (updk (upd m1 s VWild) s kids (fun _ => VWild)) (live st) (req st) (refused st))
  end.

(** Execution.  C's abstract machine restricted to pointers, no counterpart in /repo. *)
Fixpoint exec (o : nat -> slot -> bool) (fl : string -> bool) (c : cmd) (st : hst) : out :=
  let at_ s k := if reach st s then k else Bad (blame st s) in
  match c with
  | Skip => Go st
  | Seq a b => match exec o fl a st with Go st' => exec o fl b st' | r => r end
  | Alloc z s kids => at_ s (do_alloc o st z s kids)
  | SetNull s => at_ s (Go (HS (upd (mem st) s VNull) (live st) (req st) (refused st)))
  | Use s => at_ s (if lives st s then Go st else Bad s)
  | Read s => at_ s (match mem st s with VWild => Bad s | _ => Go st end)
  | Free s => at_ s (do_free st s)
  | Move d s kids => if reach st d then at_ s (do_move st d s kids) else Bad (blame st d)
  | IfNull s a b => at_ s (match mem st s with
                           | VNull => exec o fl a st
                           | VWild => Bad s
                           | VAt _ => if lives st s then exec o fl b st else Bad s
                           end)
  | Flag f a b => if fl f then exec o fl a st else exec o fl b st
  | Return z => Ret z st
  | Call a k => match exec o fl a st with
                | Go st' => exec o fl (k 0%Z) st'
                | Ret z st' => exec o fl (k z) st'
                | Bad s => Bad s
                end
  end.

(** Statement list. *)
Fixpoint seq (l : list cmd) : cmd := match l with [] => Skip | [c] => c | c :: r => Seq c (seq r) end.

(** if (!a || !b || ...) return z. *)
Fixpoint ret_null (l : list slot) (z : Z) : cmd :=
  match l with [] => Skip | s :: r => IfNull s (Return z) (ret_null r z) end.

(** if (!a || !b || ...) c else d. *)
Fixpoint if_any_null (l : list slot) (c d : cmd) : cmd :=
  match l with [] => d | s :: r => IfNull s c (if_any_null r c d) end.

(** Several accesses. *)
Definition uses (l : list slot) : cmd := seq (map Use l).

(** if (s) c_free(s). *)
Definition free_if (s : slot) : cmd := IfNull s Skip (Free s).

(** The codes of osqp_setup, include/public/osqp_api_constants.h:74-87. *)
Definition MEM : Z := 5.
Definition LINSYS_INIT : Z := 3.
Definition NONCVX : Z := 4.

(** * Vectors and matrices *)

(** OSQPVectorf_malloc, OSQPVectorf_calloc, OSQPVectori_malloc and OSQPVectori_calloc,
    algebra/builtin/vector.c:48-126: the struct, then the values unless the length is 0;
    if the values are refused the struct is freed and NULL returned.  [len0] is the flag
    "the length is 0"; None where the length is positive for all validated data. *)
Definition vec (s : slot) (len0 : option string) : cmd :=
  let vals := Alloc false (s ~> "values") ["[]"] ;;;
              IfNull (s ~> "values") (Free s ;;; SetNull s) Skip in
  Alloc false s ["values"] ;;;
  IfNull s Skip
    (match len0 with
     | Some f => Flag f (SetNull (s ~> "values")) vals
     | None => vals
     end).

(** The vectors of length n (n > 0 by validate_data, src/auxil.c:975). *)
Definition vecn (s : slot) := vec s None.
(** The vectors of length m. *)
Definition vecm (s : slot) := vec s (Some "m=0").

(** OSQPVectorf_free, OSQPVectori_free, algebra/builtin/vector.c:143-153. *)
Definition vec_free (s : slot) : cmd :=
  IfNull s Skip (Free (s ~> "values")) ;;; Free s.

(** OSQPVectorf_view, algebra/builtin/vector.c:215-233: the struct, and if it was granted
    the values pointer of the vector viewed is read. *)
Definition view (s of_ : slot) : cmd :=
  Alloc false s [] ;;; IfNull s Skip (Use of_).

(** OSQPVectorf_view_free, algebra/builtin/vector.c:235-237. *)
Definition view_free (s : slot) : cmd := Free s.

(** Pointer fields of OSQPCscMatrix, include/public/osqp_api_types.h:37-46. *)
Definition csck := ["p"; "i"; "x"].
Definition cscs (s : slot) := [s ~> "p"; s ~> "i"; s ~> "x"].

(** csc_spfree, algebra/_common/csc_utils.c:125-132. *)
Definition spfree (s : slot) : cmd :=
  IfNull s Skip (seq (map free_if (cscs s)) ;;; Free s).

(** csc_spalloc with values, algebra/_common/csc_utils.c:103-125. *)
Definition spalloc (s : slot) : cmd :=
  Alloc true s csck ;;;
  IfNull s Skip
    (Alloc false (s ~> "p") [] ;;; Alloc false (s ~> "i") [] ;;; Alloc false (s ~> "x") [] ;;;
     if_any_null (cscs s) (spfree s ;;; SetNull s) Skip).

(** OSQPMatrix_new_from_csc (with csc_copy, csc_utils.c:390-400), algebra/builtin/matrix.c:25-42. *)
Definition mat_new (s : slot) : cmd :=
  Alloc false s ["csc"] ;;;
  IfNull s Skip (spalloc (s ~> "csc") ;;;
                 IfNull (s ~> "csc") (Free s ;;; SetNull s) (uses (cscs (s ~> "csc")))).

(** OSQPMatrix_free, algebra/builtin/matrix.c:209-212. *)
Definition mat_free (s : slot) : cmd :=
  IfNull s Skip (spfree (s ~> "csc")) ;;; Free s.

(** csc_submatrix_byrows and OSQPMatrix_submatrix_byrows, algebra/_common/csc_utils.c:134-204
    and algebra/builtin/matrix.c:214-242: rows selected into the new matrix [s]. *)
Definition submatrix (s : slot) : cmd :=
  Alloc false ["rridx"] [] ;;;
  IfNull ["rridx"] (SetNull s)
    (spalloc ["M"] ;;;
     IfNull ["M"] (Free ["rridx"] ;;; SetNull s)
       (uses (cscs ["M"]) ;;; Free ["rridx"] ;;;
        Alloc false s ["csc"] ;;;
        IfNull s (spfree ["M"]) (Move (s ~> "csc") ["M"] csck))).

(** * The KKT linear system, algebra/_common/lin_sys/qdldl/qdldl_interface.c *)

(** amd_order, algebra/_common/lin_sys/qdldl/amd/src/amd_order.c:21-199: the two work arrays,
    two more if the matrix is not sorted (AMD_valid, amd_valid.c:38-92), then the big
    one; any refusal frees what there is and returns AMD_OUT_OF_MEMORY (-1); a NULL permutation
    array is AMD_INVALID (-2, line 49).  Only AMD_1, at the end, writes the permutation:
    here its content becomes initialised.  The size_t overflow checks are left out. *)
Definition amd (perm : slot) : cmd :=
  IfNull perm (Return (-2))
    (Alloc false ["Len"] [] ;;; Alloc false ["APinv"] [] ;;;
     if_any_null [["Len"]; ["APinv"]]
       (Free ["Len"] ;;; Free ["APinv"] ;;; Return (-1))
       (Flag "jumbled"
          (Alloc false ["Rp"] [] ;;; Alloc false ["Ri"] [] ;;;
           if_any_null [["Rp"]; ["Ri"]]
             (Free ["Rp"] ;;; Free ["Ri"] ;;; Free ["Len"] ;;; Free ["APinv"] ;;; Return (-1)) Skip)
          (SetNull ["Rp"] ;;; SetNull ["Ri"]) ;;;
        Alloc false ["S"] [] ;;;
        IfNull ["S"]
          (Free ["Rp"] ;;; Free ["Ri"] ;;; Free ["Len"] ;;; Free ["APinv"] ;;; Return (-1))
          (SetNull (perm ~> "[]") ;;;
           Free ["Rp"] ;;; Free ["Ri"] ;;; Free ["Len"] ;;; Free ["APinv"] ;;; Free ["S"] ;;;
           Return 0))).

(** csc_symperm into [C], algebra/_common/csc_utils.c:326-388, with csc_done 437-447:
    the result and the work array are both requested before either is checked. *)
Definition symperm : cmd :=
  spalloc ["C"] ;;; Alloc true ["w"] [] ;;;
  if_any_null [["C"]; ["w"]]
    (Free ["w"] ;;; spfree ["C"] ;;; SetNull ["C"])
    (uses (cscs ["C"]) ;;; Use ["w"] ;;; Free ["w"]).

(** permute_KKT, qdldl_interface.c:135-212.  [K] is the matrix, [ls] the solver.  A failed
    ordering returns early; a NULL inverse permutation makes csc_symperm use the identity
    (csc_utils.c:355-361) while the solver goes on using its permutation; the ghost pointer
    [unordered] is set to NULL when that happens.  KtoPKPt is followed only when there is
    an entry to map. *)
Definition permute (K ls : slot) (mapped : bool) : cmd :=
  Alloc false ["info"] [] ;;;
  Call (amd (ls ~> "P"))
    (fun st =>
       if (st <? 0)%Z then Free ["info"] ;;; Return st
       else
         (* csc_pinv, csc_utils.c:312-324 *)
         Alloc false ["Pinv"] [] ;;;
         IfNull ["Pinv"] (SetNull ["unordered"]) Skip ;;;
         (if mapped
          then let body :=
                 Alloc false ["KtoPKPt"] [] ;;;
                 symperm ;;;
                 IfNull (ls ~> "PtoKKT") Skip (Flag "P empty" Skip (Use ["KtoPKPt"])) ;;;
                 IfNull (ls ~> "AtoKKT") Skip (Flag "A empty" Skip (Use ["KtoPKPt"])) ;;;
                 IfNull (ls ~> "rhotoKKT") Skip (Flag "m=0" Skip (Use ["KtoPKPt"])) ;;;
                 Free ["KtoPKPt"] in
               IfNull (ls ~> "PtoKKT")
                 (IfNull (ls ~> "AtoKKT") (IfNull (ls ~> "rhotoKKT") symperm body) body) body
          else symperm) ;;;
         spfree K ;;; Move K ["C"] csck ;;;
         Free ["Pinv"] ;;; Free ["info"] ;;;
         Return 0).

(** LDL_factor, qdldl_interface.c:86-130: the arrays of L are requested and not checked;
    they are written when L has an entry below the diagonal. *)
Definition ldl_factor (ls K : slot) : cmd :=
  uses (cscs K ++ [ls ~> "iwork"; ls ~> "Lnz"; ls ~> "etree"]) ;;;
  Flag "etree fails" (Return (-1))
    (Alloc false (ls ~> "L" ~> "i") [] ;;; Alloc false (ls ~> "L" ~> "x") [] ;;;
     uses [ls ~> "L" ~> "p"; ls ~> "D"; ls ~> "Dinv"; ls ~> "bwork"; ls ~> "fwork"] ;;;
     Flag "L empty" Skip (uses [ls ~> "L" ~> "i"; ls ~> "L" ~> "x"]) ;;;
     Flag "factor fails" (Return (-2)) (Return 0)).

(** Pointer fields of qdldl_solver, qdldl_interface.h:18-105 (function pointers left out:
    they are constants set at once in qdldl_interface.c:253-268). *)
Definition lsk := ["L"; "P"; "Dinv"; "bp"; "sol"; "rho_inv_vec"; "KKT"; "PtoKKT"; "AtoKKT"; "rhotoKKT";
                   "adj"; "D"; "etree"; "Lnz"; "iwork"; "bwork"; "fwork"].

(** free_linsys_solver_qdldl, qdldl_interface.c:42-75. *)
Definition ls_free (s : slot) : cmd :=
  IfNull s Skip
    (IfNull (s ~> "L") Skip (seq (map free_if (cscs (s ~> "L"))) ;;; Free (s ~> "L")) ;;;
     seq (map free_if [s ~> "P"; s ~> "Dinv"; s ~> "bp"; s ~> "sol"; s ~> "rho_inv_vec"]) ;;;
     IfNull (s ~> "KKT") Skip (spfree (s ~> "KKT")) ;;;
     seq (map free_if [s ~> "PtoKKT"; s ~> "AtoKKT"; s ~> "rhotoKKT"; s ~> "adj"; s ~> "D"; s ~> "etree";
                       s ~> "Lnz"; s ~> "iwork"; s ~> "bwork"; s ~> "fwork"]) ;;;
     Free s).

(** init_linsys_solver_qdldl, qdldl_interface.c:217-381 (through osqp_algebra_init_linsys_solver,
    algebra/builtin/algebra_libs.c:53-80).  [s] is the caller's pointer, [P] and [A] the matrices,
    [rho] the rho vector of the ADMM call and None when polishing.  The C code tests KKT_temp once,
    after permute_KKT (350-355); here the branch without a matrix goes there directly. *)
Definition init_linsys (s P A : slot) (rho : option slot) : cmd :=
  let polishing := match rho with None => true | Some _ => false end in
  let leaf f := Alloc false (s ~> f) ["[]"] in
  let fail := ls_free s ;;; SetNull s ;;; Return LINSYS_INIT in
  Alloc true s lsk ;;;
  Use s ;;; Use P ;;; Use A ;;;
  Alloc true (s ~> "L") csck ;;; Use (s ~> "L") ;;;
  Alloc false (s ~> "L" ~> "p") [] ;;;
  leaf "Dinv" ;;; leaf "D" ;;; leaf "P" ;;; leaf "bp" ;;; leaf "sol" ;;;
  (match rho with Some r => IfNull r Skip (leaf "rho_inv_vec") | None => Skip end) ;;;
  leaf "etree" ;;; leaf "Lnz" ;;;
  SetNull (s ~> "L" ~> "i") ;;; SetNull (s ~> "L" ~> "x") ;;;
  leaf "iwork" ;;; leaf "bwork" ;;; leaf "fwork" ;;;
  (match rho with
   | None => Skip
   | Some r => leaf "PtoKKT" ;;; leaf "AtoKKT" ;;; leaf "rhotoKKT" ;;;
               IfNull r Skip (Flag "m=0" Skip (uses [r; r ~> "values"; s ~> "rho_inv_vec"]))
   end) ;;;
  (* form_KKT, algebra/_common/kkt.c:293-343 *)
  spalloc ["KKT_temp"] ;;;
  IfNull ["KKT_temp"] fail
    (uses (cscs ["KKT_temp"] ++ cscs (P ~> "csc") ++ cscs (A ~> "csc")) ;;;
     Call (permute ["KKT_temp"] s (negb polishing)) (fun _ => Skip)) ;;;
  IfNull ["KKT_temp"] fail
    (Call (ldl_factor s ["KKT_temp"])
       (fun r => if (r <? 0)%Z
                 then spfree ["KKT_temp"] ;;; ls_free s ;;; SetNull s ;;; Return NONCVX
                 else (if polishing then spfree ["KKT_temp"]
                       else Move (s ~> "KKT") ["KKT_temp"] csck) ;;; Return 0)).

(** solve_linsys_qdldl, qdldl_interface.c:392-463, the pointers it follows. *)
Definition ls_solve (s : slot) (polishing : bool) : cmd :=
  uses [s; s ~> "L"; s ~> "L" ~> "p"; s ~> "Dinv"; s ~> "P"; s ~> "bp"] ;;;
  Read (s ~> "P" ~> "[]") ;;;
  Flag "L empty" Skip (uses [s ~> "L" ~> "i"; s ~> "L" ~> "x"]) ;;;
  (if polishing then Skip else Use (s ~> "sol")).

(** * osqp_setup, src/osqp_api.c:332-631 *)

Definition sv : slot := ["solver"].                     (* *solverp and the local solver, osqp_api.c:357-359 *)
Definition wk : slot := sv ~> "work".                   (* solver->work and the local work, 362-364 *)
Definition dt : slot := wk ~> "data".
Definition sc : slot := wk ~> "scaling".
Definition po : slot := wk ~> "pol".
Definition so : slot := sv ~> "solution".
Definition dd : slot := wk ~> "derivative_data".
Definition ls : slot := wk ~> "linsys_solver".

(** Pointer fields of OSQPSolver, include/public/osqp_api_types.h:181-187. *)
Definition svk := ["settings"; "solution"; "info"; "work"].
(** Pointer fields of OSQPWorkspace, include/private/types.h:99-231. *)
Definition wkk := ["data"; "linsys_solver"; "pol"; "rho_vec"; "rho_inv_vec"; "constr_type"; "x"; "y"; "z";
                   "xz_tilde"; "xtilde_view"; "ztilde_view"; "x_prev"; "z_prev"; "Ax"; "Px"; "Aty";
                   "delta_y"; "Atdelta_y"; "delta_x"; "Pdelta_x"; "Adelta_x"; "D_temp"; "D_temp_A"; "E_temp";
                   "scaling"; "timer"; "derivative_data"].
(** Pointer fields of OSQPData, include/private/types.h:73-81. *)
Definition dtk := ["P"; "A"; "q"; "l"; "u"].
(** Pointer fields of OSQPScaling, types.h:32-44. *)
Definition sck := ["D"; "E"; "Dinv"; "Einv"].
(** Pointer fields of OSQPPolish, types.h:50-62. *)
Definition pok := ["Ared"; "active_flags"; "x"; "z"; "y"].
(** Pointer fields of OSQPSolution, include/public/osqp_api_types.h:166-171. *)
Definition sok := ["x"; "y"; "prim_inf_cert"; "dual_inf_cert"].
(** Pointer fields of OSQPDerivativeData, types.h:83-93. *)
Definition ddk := ["y_l"; "y_u"; "ryl"; "ryu"; "rhs"].

(** osqp_api.c:355-398: solver, workspace, info, timer, data.  Validation (345-351) is Setup.v's;
    osqp_algebra_init_libs returns 0 for the built-in algebra (algebra_libs.c:17-21). *)
Definition setup_data : cmd := seq
  [ Alloc true sv svk; ret_null [sv] MEM;
    Alloc true wk wkk; ret_null [wk] MEM;
    Alloc true (sv ~> "info") []; ret_null [sv ~> "info"] MEM;
    Alloc false (wk ~> "timer") []; ret_null [wk ~> "timer"] MEM; Use (wk ~> "timer");
    Alloc true dt dtk; ret_null [dt] MEM;
    mat_new (dt ~> "P"); vecn (dt ~> "q"); ret_null [dt ~> "P"; dt ~> "q"] MEM;
    mat_new (dt ~> "A"); ret_null [dt ~> "A"] MEM;
    vecm (dt ~> "l"); vecm (dt ~> "u"); ret_null [dt ~> "l"; dt ~> "u"] MEM ].

(** osqp_api.c:400-414. *)
Definition setup_rho : cmd :=
  Flag "rho_is_vec"
    (seq [ vecm (wk ~> "rho_vec"); vecm (wk ~> "rho_inv_vec");
           ret_null [wk ~> "rho_vec"; wk ~> "rho_inv_vec"] MEM;
           vecm (wk ~> "constr_type"); ret_null [wk ~> "constr_type"] MEM ])
    (seq [ SetNull (wk ~> "rho_vec"); SetNull (wk ~> "rho_inv_vec") ]).

(** osqp_api.c:416-430.  The views read xz_tilde before it is checked. *)
Definition setup_iter : cmd := seq
  [ vecn (wk ~> "x"); vecm (wk ~> "z"); vecn (wk ~> "xz_tilde");
    view (wk ~> "xtilde_view") (wk ~> "xz_tilde"); view (wk ~> "ztilde_view") (wk ~> "xz_tilde");
    vecn (wk ~> "x_prev"); vecm (wk ~> "z_prev"); vecm (wk ~> "y");
    ret_null [wk ~> "x"; wk ~> "z"; wk ~> "xz_tilde"] MEM;
    ret_null [wk ~> "xtilde_view"; wk ~> "ztilde_view"] MEM;
    ret_null [wk ~> "x_prev"; wk ~> "z_prev"; wk ~> "y"] MEM ].

(** osqp_api.c:432-451. *)
Definition setup_res : cmd := seq
  [ vecm (wk ~> "Ax"); vecn (wk ~> "Px"); vecn (wk ~> "Aty");
    vecm (wk ~> "delta_y"); vecn (wk ~> "Atdelta_y");
    vecn (wk ~> "delta_x"); vecn (wk ~> "Pdelta_x"); vecm (wk ~> "Adelta_x");
    ret_null [wk ~> "Ax"; wk ~> "Px"; wk ~> "Aty"] MEM;
    ret_null [wk ~> "delta_y"; wk ~> "Atdelta_y"] MEM;
    ret_null [wk ~> "delta_x"; wk ~> "Pdelta_x"; wk ~> "Adelta_x"] MEM ].

(** osqp_api.c:453-490, with copy_settings (src/util.c:302-349) and the pointers
    scale_data follows (src/scaling.c:49-160). *)
Definition setup_scale : cmd := seq
  [ Alloc false (sv ~> "settings") []; ret_null [sv ~> "settings"] MEM;
    Flag "scaling"
      (seq [ Alloc false sc sck; ret_null [sc] MEM;
             vecn (sc ~> "D"); vecn (sc ~> "Dinv"); vecm (sc ~> "E"); vecm (sc ~> "Einv");
             ret_null [sc ~> "D"; sc ~> "Dinv"; sc ~> "E"; sc ~> "Einv"] MEM;
             vecn (wk ~> "D_temp"); vecn (wk ~> "D_temp_A"); vecm (wk ~> "E_temp");
             ret_null [wk ~> "D_temp"; wk ~> "D_temp_A"; wk ~> "E_temp"] MEM;
             uses [dt ~> "P"; dt ~> "A"; dt ~> "q"; dt ~> "l"; dt ~> "u"; sc ~> "D"; sc ~> "Dinv"; sc ~> "E";
                   sc ~> "Einv"; wk ~> "D_temp"; wk ~> "D_temp_A"; wk ~> "E_temp"] ])
      (seq [ SetNull sc; SetNull (wk ~> "D_temp"); SetNull (wk ~> "D_temp_A"); SetNull (wk ~> "E_temp") ]) ].

(** osqp_api.c:492-513: set_rho_vec (src/auxil.c:76-103), the linear system, osqp_cold_start
    (osqp_api.c:1296-1304).  A nonzero code of the linear system is returned as it is. *)
Definition setup_linsys (k : cmd) : cmd := seq
  [ Use (sv ~> "settings");
    Flag "rho_is_vec" (uses [wk ~> "constr_type"; wk ~> "rho_vec"; wk ~> "rho_inv_vec"; dt ~> "l"; dt ~> "u"]) Skip;
    Call (init_linsys ls (dt ~> "P") (dt ~> "A") (Some (wk ~> "rho_vec")))
      (fun z => if (z =? 0)%Z then uses [wk ~> "x"; wk ~> "z"; wk ~> "y"] ;;; k
                else (if (z =? NONCVX)%Z then Use (sv ~> "info") else Skip) ;;; Return z) ].

(** osqp_api.c:515-526. *)
Definition setup_pol : cmd := seq
  [ Alloc false po pok; ret_null [po] MEM;
    vecm (po ~> "active_flags"); vecn (po ~> "x"); vecm (po ~> "z"); vecm (po ~> "y");
    ret_null [po ~> "x"; po ~> "active_flags"; po ~> "z"; po ~> "y"] MEM ].

(** osqp_api.c:528-547. *)
Definition setup_sol : cmd :=
  Flag "allocate_solution"
    (seq [ Alloc true so sok; ret_null [so] MEM;
           Alloc true (so ~> "x") []; Alloc true (so ~> "y") [];
           Alloc true (so ~> "prim_inf_cert") []; Alloc true (so ~> "dual_inf_cert") [];
           ret_null [so ~> "x"; so ~> "dual_inf_cert"] MEM;
           Flag "m=0" Skip (ret_null [so ~> "y"; so ~> "prim_inf_cert"] MEM) ])
    (SetNull so).

(** osqp_api.c:549-630.  derivative_data->rhs (615) is not checked. *)
Definition setup_end : cmd := seq
  [ uses [sv ~> "info"; wk ~> "timer"; sv ~> "settings"];
    Alloc true dd ddk; ret_null [dd] MEM;
    vecm (dd ~> "y_u"); vecm (dd ~> "y_l"); vecm (dd ~> "ryl"); vecm (dd ~> "ryu"); vecn (dd ~> "rhs");
    ret_null [dd ~> "y_u"; dd ~> "y_l"; dd ~> "ryl"; dd ~> "ryu"] MEM;
    Return 0 ].

(** osqp_setup, src/osqp_api.c:332-631 (validated arguments). *)
Definition setup : cmd := seq
  [ setup_data; setup_rho; setup_iter; setup_res; setup_scale;
    setup_linsys (seq [ setup_pol; setup_sol; setup_end ]) ].

(** * osqp_cleanup, src/osqp_api.c:1057-1174 *)

(** osqp_api.c:1063-1076. *)
Definition clean_data : cmd :=
  IfNull dt Skip (seq [ mat_free (dt ~> "P"); mat_free (dt ~> "A"); vec_free (dt ~> "q");
                        vec_free (dt ~> "l"); vec_free (dt ~> "u"); Free dt ]).

(** osqp_api.c:1078-1099.  linsys_solver->free is set by init_linsys before it can fail
    (qdldl_interface.c:262). *)
Definition clean_scale : cmd := seq
  [ IfNull sc Skip (seq [ vec_free (sc ~> "D"); vec_free (sc ~> "Dinv"); vec_free (sc ~> "E"); vec_free (sc ~> "Einv") ]);
    Free sc;
    vec_free (wk ~> "D_temp"); vec_free (wk ~> "D_temp_A"); vec_free (wk ~> "E_temp");
    IfNull ls Skip (ls_free ls) ].

(** osqp_api.c:1101-1136. *)
Definition clean_vars : cmd := seq
  ([ IfNull po Skip (seq [ vec_free (po ~> "active_flags"); vec_free (po ~> "x"); vec_free (po ~> "z");
                           vec_free (po ~> "y"); Free po ]);
     vec_free (wk ~> "rho_vec"); vec_free (wk ~> "rho_inv_vec"); vec_free (wk ~> "constr_type");
     vec_free (wk ~> "x"); vec_free (wk ~> "z"); vec_free (wk ~> "xz_tilde");
     view_free (wk ~> "xtilde_view"); view_free (wk ~> "ztilde_view") ] ++
   map (fun f => vec_free (wk ~> f))
     ["x_prev"; "z_prev"; "y"; "Ax"; "Px"; "Aty"; "delta_y"; "Atdelta_y"; "delta_x"; "Pdelta_x"; "Adelta_x"]).

(** osqp_api.c:1138-1166. *)
Definition clean_rest : cmd := seq
  [ free_if (sv ~> "settings");
    IfNull so Skip (seq [ Free (so ~> "x"); Free (so ~> "y"); Free (so ~> "prim_inf_cert");
                          Free (so ~> "dual_inf_cert"); Free so ]);
    free_if (sv ~> "info"); free_if (wk ~> "timer");
    IfNull dd Skip
      (seq (map (fun f => IfNull (dd ~> f) Skip (vec_free (dd ~> f))) ["y_l"; "y_u"; "ryl"; "ryu"; "rhs"] ++ [ Free dd ]));
    Free wk ].

(** osqp_cleanup. *)
Definition cleanup : cmd :=
  IfNull sv (Return 0)
    (seq [ IfNull wk Skip (seq [ clean_data; clean_scale; clean_vars; clean_rest ]); Free sv; Return 0 ]).

(** * Polishing, src/polish.c *)

(** form_Ared, polish.c:19-97.  Locals of the three functions below have the same names in C;
    the suffix tells them apart. *)
Definition form_Ared : cmd :=
  let loc := [["active_flags@Ared"]; ["z@Ared"]; ["y@Ared"]; ["l@Ared"]; ["u@Ared"]] in
  let drop := seq (map Free loc) in
  seq (map (fun s => Alloc false s []) loc) ;;;
  if_any_null loc (drop ;;; Return MEM)
    (uses [po; po ~> "active_flags"; wk ~> "z"; wk ~> "y"; dt ~> "l"; dt ~> "u"] ;;;
     submatrix (po ~> "Ared") ;;;
     drop ;;;
     ret_null [po ~> "Ared"] MEM ;;;
     Return 0).

(** form_rhs_red, polish.c:109-173. *)
Definition form_rhs_red (rhs : slot) : cmd :=
  let loc := [["active_flags@rhs"]; ["rhs@rhs"]; ["q@rhs"]; ["l@rhs"]; ["u@rhs"]] in
  let drop := seq (map Free loc) in
  seq (map (fun s => Alloc false s []) loc) ;;;
  if_any_null loc (drop ;;; Return MEM)
    (uses [po ~> "active_flags"; rhs; dt ~> "q"; dt ~> "l"; dt ~> "u"] ;;; drop ;;; Return 0).

(** iterative_refinement, polish.c:187-242: views of rhs are made before it is checked, and a
    refusal returns without freeing the others. *)
Definition refine (plsh z b : slot) : cmd :=
  Flag "polish_refine_iter = 0" (Return 0)
    (vec ["rhs"] None ;;;
     view ["rhs1"] ["rhs"] ;;; view ["rhs2"] ["rhs"] ;;; view ["z1"] z ;;; view ["z2"] z ;;;
     ret_null [["rhs"]; ["rhs1"]; ["rhs2"]; ["z1"]; ["z2"]] MEM ;;;
     uses [["rhs"]; b; ["rhs1"]; ["rhs2"]; ["z1"]; ["z2"]; dt ~> "P"; po ~> "Ared"] ;;; ls_solve plsh true ;;;
     vec_free ["rhs"] ;;; Free ["rhs1"] ;;; Free ["rhs2"] ;;; Free ["z1"] ;;; Free ["z2"] ;;;
     Return 0).

(** get_ypol_from_yred, polish.c:252-315; writes the content of pol->y. *)
Definition get_ypol (yred : slot) : cmd :=
  let loc := [["active_flags@ypol"]; ["y@ypol"]; ["yred@ypol"]] in
  let drop := seq (map Free loc) in
  seq (map (fun s => Alloc false s []) loc) ;;;
  if_any_null loc (drop ;;; Return MEM)
    (uses [po ~> "active_flags"; wk ~> "y"; yred; po ~> "y"] ;;;
     Flag "m=0" Skip (SetNull (po ~> "y" ~> "values" ~> "[]")) ;;; drop ;;; Return 0).

(** polish, polish.c:317-513.  The value of get_ypol_from_yred is not looked at (450).
    The residuals and the acceptance test (452-499) are in Polish.v; they follow the
    pointers in the last [uses] and read pol->y. *)
Definition polish : cmd :=
  let plsh := ["plsh"] in let rr := ["rhs_red"] in let ps := ["pol_sol"] in
  let xv := ["pol_sol_xview"] in let yv := ["pol_sol_yview"] in
  let Ar := po ~> "Ared" in
  Call form_Ared (fun e => if negb (e =? 0)%Z then Return e else
  Flag "no active constraint" (mat_free Ar ;;; Return 0) Skip ;;;
  Call (init_linsys plsh (dt ~> "P") Ar None) (fun e => if negb (e =? 0)%Z then mat_free Ar ;;; Return e else
  vec rr None ;;;
  IfNull rr (mat_free Ar ;;; Return MEM) Skip ;;;
  Call (form_rhs_red rr) (fun e => if negb (e =? 0)%Z then mat_free Ar ;;; Return e else
  vec ps None ;;;
  IfNull ps (mat_free Ar ;;; vec_free rr ;;; Return MEM) Skip ;;;
  view xv ps ;;; view yv ps ;;;
  if_any_null [xv; yv] (mat_free Ar ;;; vec_free rr ;;; vec_free ps ;;; Free xv ;;; Free yv ;;; Return MEM) Skip ;;;
  Use plsh ;;; ls_solve plsh true ;;;
  Call (refine plsh ps rr) (fun e => if negb (e =? 0)%Z
    then mat_free Ar ;;; vec_free rr ;;; vec_free ps ;;; Free xv ;;; Free yv ;;; Return e else
  uses [po ~> "x"; xv; dt ~> "A"; po ~> "z"] ;;;
  Call (get_ypol yv) (fun _ => Skip) ;;;
  Flag "m=0" Skip (Read (po ~> "y" ~> "values" ~> "[]")) ;;;
  uses [po ~> "y"; po ~> "z"; dt ~> "l"; dt ~> "u"; wk ~> "x"; wk ~> "z"; wk ~> "y"] ;;;
  ls_free plsh ;;; mat_free Ar ;;; vec_free rr ;;; vec_free ps ;;; Free xv ;;; Free yv ;;;
  Return 0)))).

(** osqp_solve, src/osqp_api.c:636-1038, as far as memory goes: linear systems are solved and
    a solved problem may be polished (979-990), nothing else is requested or freed. *)
Definition solve : cmd :=
  ls_solve ls false ;;; Flag "polishing and solved" polish (Return 0).

(** * Sessions *)

(** Before the first call: the caller's pointer is NULL, all else is indeterminate.
    tests/ and examples/ declare OSQPSolver *solver = NULL (e.g. examples/osqp_demo.c:53). *)
Definition start : hst :=
  HS (fun s => if slot_eqb s sv then VNull else VWild) [] 0 false.

(** Any number of solves, each with its own branch decisions; an error stops none of them. *)
Fixpoint solves_ (o : nat -> slot -> bool) (calls : list (string -> bool)) (st : hst) : out :=
  match calls with
  | [] => Go st
  | fl :: r => match exec o fl solve st with
               | Go st' | Ret _ st' => solves_ o r st'
               | Bad s => Bad s
               end
  end.
