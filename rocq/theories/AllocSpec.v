(** Statements about memory (C50, C71), over the machine and programs of Alloc.v. *)
From Coq Require Import ZArith List Bool String Arith.
From Verif Require Import Alloc.
Import ListNotations.
Local Open Scope string_scope.
Local Open Scope list_scope.

(** Requests of init_linsys_solver_qdldl and LDL_factor whose result is never looked at
    (qdldl_interface.c:110-111, 232-331). *)
Definition linsys_unchecked (s : slot) : list slot :=
  [ s; s ~> "L"; s ~> "L" ~> "p"; s ~> "L" ~> "i"; s ~> "L" ~> "x"; s ~> "Dinv"; s ~> "D"; s ~> "P"; s ~> "bp"; s ~> "sol";
    s ~> "rho_inv_vec"; s ~> "etree"; s ~> "Lnz"; s ~> "iwork"; s ~> "bwork"; s ~> "fwork";
    s ~> "PtoKKT"; s ~> "AtoKKT"; s ~> "rhotoKKT" ].
(** Those of permute_KKT: its own (qdldl_interface.c:153, 169, 178), and AMD's, whose failure
    amd_order reports (amd_order.c:92-170) but init_linsys_solver_qdldl ignores (324, 351). *)
Definition permute_unchecked : list slot :=
  [ ["info"]; ["Pinv"]; ["KtoPKPt"]; ["Len"]; ["APinv"]; ["Rp"]; ["Ri"]; ["S"] ].
(** Those of osqp_setup: xz_tilde is used (osqp_api.c:420-421) before it is checked (425),
    derivative_data->rhs is never checked (615-618). *)
Definition setup_unchecked : list slot :=
  [ wk ~> "xz_tilde"; wk ~> "xz_tilde" ~> "values"; dd ~> "rhs"; dd ~> "rhs" ~> "values" ]
  ++ linsys_unchecked ls ++ permute_unchecked.

(** The pointers osqp_setup may follow although the request for them was refused. *)
Definition setup_crashes : list slot :=
  [ wk ~> "xz_tilde"; ls; ls ~> "L"; ls ~> "L" ~> "p"; ls ~> "L" ~> "i"; ls ~> "L" ~> "x"; ls ~> "Dinv"; ls ~> "D";
    ls ~> "rho_inv_vec"; ls ~> "etree"; ls ~> "Lnz"; ls ~> "iwork"; ls ~> "bwork"; ls ~> "fwork"; ["KtoPKPt"] ].
(** Requests osqp_setup can be refused and still report success. *)
Definition setup_silent : list slot :=
  [ ls ~> "P"; ls ~> "bp"; ls ~> "sol"; ls ~> "PtoKKT"; ls ~> "AtoKKT"; ls ~> "rhotoKKT"; ["info"]; ["Pinv"];
    ["Len"]; ["APinv"]; ["S"]; dd ~> "rhs"; dd ~> "rhs" ~> "values" ].

(** The allocator grants these. *)
Definition grants (o : nat -> slot -> bool) (l : list slot) : Prop := forall k s, In s l -> o k s = true.
(** It refuses only this one, each time it is asked for. *)
Definition only_refuses (s : slot) : nat -> slot -> bool := fun _ t => negb (slot_eqb t s).
Definition all_granted : nat -> slot -> bool := fun _ _ => true.

(** osqp_cleanup does nothing undefined (in particular no second free) and leaves no block. *)
Definition cleans_up (o : nat -> slot -> bool) (fl : string -> bool) (st : hst) : Prop :=
  exists st', exec o fl cleanup st = Ret 0 st' /\ live st' = [].

(** The factorisation of the KKT matrix fails. *)
Definition not_quasidefinite (fl : string -> bool) : bool := fl "etree fails" || fl "factor fails".

(** Requests of the polishing step after its linear system has been made (polish.c:387-450)
    or inside that (qdldl_interface.c). *)
Definition polish_unchecked : list slot :=
  linsys_unchecked ["plsh"] ++
  [ ["rhs_red"]; ["rhs_red"] ~> "values"; ["active_flags@rhs"]; ["rhs@rhs"]; ["q@rhs"]; ["l@rhs"]; ["u@rhs"];
    ["pol_sol"]; ["pol_sol"] ~> "values"; ["pol_sol_xview"]; ["pol_sol_yview"];
    ["rhs"]; ["rhs"] ~> "values"; ["rhs1"]; ["rhs2"]; ["z1"]; ["z2"];
    ["active_flags@ypol"]; ["y@ypol"]; ["yred@ypol"] ].

(** Refusing one of these, polishing ends without giving back the factorisation it made
    (polish.c:387-446, qdldl_interface.c:42-75 is not called); with each the number of blocks
    nobody frees: the fifteen of a linear system, the two of rhs_red when its contents cannot
    be formed, and the reduced matrix and vectors when the refinement is refused its own. *)
Definition polish_leaks : list (slot * nat) :=
  [ (["rhs_red"], 15); (["rhs_red"] ~> "values", 15); (["active_flags@rhs"], 17); (["rhs@rhs"], 17); (["q@rhs"], 17); (["l@rhs"], 17); (["u@rhs"], 17);
    (["pol_sol"], 15); (["pol_sol"] ~> "values", 15); (["pol_sol_xview"], 15); (["pol_sol_yview"], 15);
    (["rhs1"], 20); (["rhs2"], 20); (["z1"], 20); (["z2"], 20) ].
(** A request and the pointer misused when it is refused: iterative_refinement follows its
    right-hand side before checking it (polish.c:198-206); the failure of get_ypol_from_yred
    is ignored (450) and pol->y is read although nothing was written to it. *)
Definition polish_crashes : list (slot * slot) :=
  [ (["rhs"], ["rhs"]); (["rhs"] ~> "values", ["rhs"]);
    (["active_flags@ypol"], po ~> "y" ~> "values" ~> "[]"); (["y@ypol"], po ~> "y" ~> "values" ~> "[]");
    (["yred@ypol"], po ~> "y" ~> "values" ~> "[]") ].

(** The branches which are fixed by the data and settings given to osqp_setup. *)
Definition config : list string := ["rho_is_vec"; "scaling"; "allocate_solution"; "m=0"].
Definition same_config (fl fl' : string -> bool) : Prop := forall n, In n config -> fl' n = fl n.
