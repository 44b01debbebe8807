(** C76: the memory of the derivative functions.  Programs and machine: Alloc.v, AllocDeriv.v; statements: AllocSpec.v, AllocDerivSpec.v. *)
From Coq Require Import ZArith List Bool String Arith.
From Verif Require Import Alloc AllocSpec AllocRuns AllocDeriv AllocDerivSpec AllocDerivRuns.
Import ListNotations.
Local Open Scope string_scope.
Local Open Scope list_scope.

(** C76: after a successful osqp_setup, any sequence of osqp_solve, osqp_adjoint_derivative_compute, _get_mat and _get_vec, each with
    its own branches and its own answers to the requests it makes, does nothing undefined, and osqp_cleanup then leaves no block, provided each
    call is granted the requests it does not check; those of the derivative's linear system are not among them.  A derivative call returns 0. *)
Theorem C76_sessions : forall (o : nat -> slot -> bool) (fl : string -> bool) (calls : list event) st,
  grants o setup_unchecked -> fl "allocate_solution" = true -> exec o fl setup start = Ret 0 st ->
  (forall e, In e calls -> served fl e) ->
  exists st', calls_ calls st = Go st' /\ (forall o' fl', cleans_up o' fl' st') /\
    forall e, served fl e -> is_solve (what e) = false ->
      exists st'', exec (answers e) (branches e) (prog (what e)) st' = Ret 0 st''.
Proof. exact deriv_sessions. Qed.
Print Assumptions C76_sessions.
(** A session with polishing and a derivative that runs out of memory in its ordering. *)
Example C76_sessions_ex : grants all_granted setup_unchecked /\ usual "allocate_solution" = true /\
  (exists st, exec all_granted usual setup start = Ret 0 st) /\ (forall e, In e demo -> served usual e).
Proof. exact demo_ex. Qed.

(** C76 as stated is false: refused any one of these forty-two requests, osqp_adjoint_derivative_compute follows a NULL pointer. *)
Theorem C76_refuted_crash : forall s t, In (s, t) compute_crashes -> exists st,
  exec all_granted usual setup start = Ret 0 st /\ exec (only_refuses s) usual compute st = Bad t.
Proof. exact crash_comp. Qed.
Print Assumptions C76_refuted_crash.
(** And osqp_setup reports success although the right-hand side kept for the derivative was refused; the derivative then follows it. *)
Theorem C76_refuted_rhs : forall s, In s [dd ~> "rhs"; dd ~> "rhs" ~> "values"] -> exists st,
  exec (only_refuses s) usual setup start = Ret 0 st /\ exec all_granted usual compute st = Bad (dd ~> "rhs").
Proof. exact crash_rhs. Qed.
Print Assumptions C76_refuted_rhs.
(** Refused one of these, it gives everything back but reports success. *)
Theorem C76_refuted_silent : forall s, In s compute_silent -> exists st st',
  exec all_granted usual setup start = Ret 0 st /\ refused st = false /\
  exec (only_refuses s) usual compute st = Ret 0 st' /\ refused st' = true /\ List.length (live st') = List.length (live st).
Proof. exact silent_comp. Qed.
Print Assumptions C76_refuted_silent.
