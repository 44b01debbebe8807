(** Statements about the memory of the derivative functions (C76), over the programs of AllocDeriv.v. *)
From Coq Require Import ZArith List Bool String Arith.
From Verif Require Import Alloc AllocSpec AllocDeriv.
Import ListNotations.
Local Open Scope string_scope.
Local Open Scope list_scope.

(** The requests made for a vector, for a matrix in compressed columns and for an OSQPMatrix around one. *)
Definition r_vec (s : slot) : list slot := [s; s ~> "values"].
Definition r_csc (s : slot) : list slot := s :: cscs s.
Definition r_mat (s : slot) : list slot := s :: r_csc (s ~> "csc").

(** Every request of src/derivative.c:31-331 itself: none is checked. *)
Definition deriv_unchecked : list slot :=
  r_mat ["P@d"] ++ r_mat ["A@d"] ++ r_vec ["l@d"] ++ r_vec ["u@d"] ++ r_vec ["x@d"] ++ r_vec ["y@d"] ++ ints ++
  r_vec ["dy_l_vec"] ++ r_vec ["dy_u_vec"] ++ r_vec ["A_ineq_l_i"] ++ r_vec ["A_ineq_u_i"] ++ r_vec ["A_eq_i"] ++
  [["rridx@d"]] ++ r_csc ["M@d"] ++ [["A_ineq_l"]; ["A_ineq_u"]; ["A_eq"]] ++
  [["G"]; ["P_full"]] ++ r_csc ["M_trip"] ++ r_csc ["C@trip"] ++ [["w@trip"]] ++
  r_vec ["m_zeros"] ++ r_vec ["y_l_ineq"] ++ r_vec ["y_u_ineq"] ++ r_vec ["lambda"] ++ r_vec ["l_ineq"] ++ r_vec ["u_ineq"] ++
  r_vec ["h"] ++ r_vec ["slacks"] ++ r_mat ["GDiagLambda"] ++ r_vec ["dy_l_ineq"] ++ r_vec ["dy_u_ineq"] ++
  [["d_nu_vec"]; ["r_yl"]; ["r_yu"]].
(** The requests a call must be granted: those it does not check.  A solve may polish (polish.c, and
    permute_KKT inside it); none of the requests of the derivative's linear system (qdldl_interface.c:729-838) is listed. *)
Definition must_grant (k : call) : list slot :=
  match k with
  | Solve => permute_unchecked ++ polish_unchecked
  | Compute => deriv_unchecked
  | GetMat => r_vec ["x@g"] ++ [["rx@g"]]
  | GetVec => [["rx@v"]]
  end.

(** Without constraints there are none of any kind (src/derivative.c:153-186): the branch decisions of a
    derivative call that can occur. *)
Definition sized (fl : string -> bool) : Prop :=
  fl "m=0" = true -> fl "n_ineq_l=0" = true /\ fl "n_ineq_u=0" = true /\ fl "n_eq=0" = true.

(** A call that can follow the osqp_setup given by [fl], with memory enough for what it does not check. *)
Definition served (fl : string -> bool) (e : event) : Prop :=
  same_config fl (branches e) /\ sized (branches e) /\ grants (answers e) (must_grant (what e)).

(** A request of osqp_adjoint_derivative_compute and the pointer it follows although that request was refused
    (src/derivative.c:112-311). *)
Definition compute_crashes : list (slot * slot) :=
  map (fun s => (s, s))
    ([["P@d"]; ["A@d"]; ["l@d"]; ["u@d"]; ["x@d"]; ["y@d"]] ++ ints ++
     [["dy_l_vec"]; ["dy_u_vec"]; ["A_ineq_l_i"]; ["A_ineq_u_i"]; ["A_eq_i"]; ["A_ineq_l"]; ["A_ineq_u"]; ["A_eq"]; ["G"]; ["P_full"]; ["C@trip"];
      ["m_zeros"]; ["y_l_ineq"]; ["y_u_ineq"]; ["lambda"]; ["l_ineq"]; ["u_ineq"]; ["h"]; ["slacks"]; ["GDiagLambda"]; ["dy_l_ineq"]; ["dy_u_ineq"];
      ["d_nu_vec"]; ["r_yl"]; ["r_yu"]]) ++
  [(["rridx@d"], ["A_ineq_l"]); (["M@d"], ["A_ineq_l"]); (["M_trip"], ["G"]); (["w@trip"], ["C@trip"])].
(** Requests that can be refused without osqp_adjoint_derivative_compute saying so. *)
Definition compute_silent : list slot := [adj; ["P@adj"]; ["S"]; ["residual@adj"]].
