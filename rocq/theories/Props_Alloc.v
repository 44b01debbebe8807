(** C50 and C71: memory.

    Specification: AllocSpec.v ([cleans_up]: osqp_cleanup does nothing undefined and leaves no block; [grants], [only_refuses]: what the allocator answers;
    the lists of requests and pointers; [same_config]: the branches fixed by osqp_setup's arguments), Alloc.v (the machine: [exec o fl c st] runs c with the
    allocator's answers [o] and the undecided branches [fl]; [Bad p] is undefined behaviour at pointer p, a free of a block already freed included;
    [live]: the blocks allocated and not yet freed; [refused]: some request so far was refused). *)
From Coq Require Import ZArith List Bool String Arith.
From Verif Require Import Alloc AllocSpec AllocFacts AllocRuns.
Import ListNotations.
Local Open Scope string_scope.
Local Open Scope list_scope.

(** C50: whatever the other requests are answered, if those that osqp_setup does not check are granted then osqp_setup does nothing undefined, osqp_cleanup on
    what it leaves frees every block exactly once, and success is reported only if no request was refused (for problems without constraints two requests of
    size 0 may be refused). *)
Theorem C50_balanced : forall (o : nat -> slot -> bool) (fl : string -> bool), grants o setup_unchecked ->
  exists z st, exec o fl setup start = Ret z st /\ (forall o' fl', cleans_up o' fl' st) /\
    (z = 0%Z -> fl "allocate_solution" && fl "m=0" = false -> refused st = false).
Proof. exact setup_balanced. Qed.
Print Assumptions C50_balanced.
(** an allocator of this kind that refuses the scaling vectors: osqp_setup reports it, dozens of blocks are then freed *)
Example C50_balanced_ex : grants (only_refuses (sc ~> "E")) setup_unchecked /\
  exists st, exec (only_refuses (sc ~> "E")) usual setup start = Ret MEM st /\ List.length (live st) = 65 /\ refused st = true.
Proof. exact balanced_ex. Qed.

(** C50, every allocator: osqp_setup either follows one of fifteen pointers without having checked it, or returns one of its codes and osqp_cleanup frees
    every block exactly once. *)
Theorem C50_any_failure : forall (o : nat -> slot -> bool) (fl : string -> bool),
  match exec o fl setup start with
  | Go _ => False
  | Ret z st => (z = 0%Z \/ z = LINSYS_INIT \/ z = NONCVX \/ z = MEM) /\ forall o' fl', cleans_up o' fl' st
  | Bad p => In p setup_crashes
  end.
Proof. exact setup_any. Qed.
Print Assumptions C50_any_failure.

(** C50: the non-convexity code means that the factorisation failed, the out-of-memory and linear-system codes that a request was refused; if none is
    refused and the factorisation succeeds, osqp_setup returns 0. *)
Theorem C50_codes : forall (o : nat -> slot -> bool) (fl : string -> bool) z st, exec o fl setup start = Ret z st ->
  (z = NONCVX -> not_quasidefinite fl = true) /\ (z = LINSYS_INIT \/ z = MEM -> refused st = true).
Proof. exact setup_codes. Qed.
Print Assumptions C50_codes.
Theorem C50_success : forall fl : string -> bool, not_quasidefinite fl = false -> exists st, exec all_granted fl setup start = Ret 0 st.
Proof. exact setup_generous. Qed.
Print Assumptions C50_success.
Example C50_codes_ex : not_quasidefinite usual = false /\ exists st z, exec (only_refuses ["C"]) usual setup start = Ret z st /\ z = LINSYS_INIT.
Proof. exact codes_ex. Qed.

(** C50 as stated is false: refusing any one of these fifteen requests makes osqp_setup follow a NULL pointer. *)
Theorem C50_refuted : forall s, In s setup_crashes -> exec (only_refuses s) usual setup start = Bad s.
Proof. exact crash_one. Qed.
Print Assumptions C50_refuted.
(** Refusing any one of these thirteen, osqp_setup reports success. *)
Theorem C50_refuted_silent : forall s, In s setup_silent ->
  exists st, exec (only_refuses s) usual setup start = Ret 0 st /\ refused st = true.
Proof. exact silent_one. Qed.
Print Assumptions C50_refuted_silent.
(** When AMD is refused its work space osqp_setup reports success and the first osqp_solve reads a permutation that was never written. *)
Theorem C50_refuted_permutation : forall s, In s [["Len"]; ["APinv"]; ["S"]] ->
  exists st, exec (only_refuses s) usual setup start = Ret 0 st /\ exec all_granted usual solve st = Bad (ls ~> "P" ~> "[]").
Proof. exact amd_uninitialised. Qed.
Print Assumptions C50_refuted_permutation.

(** C71: after a successful osqp_setup any number of calls of osqp_solve, with or without polishing and each taking its own branches, does nothing undefined and
    osqp_cleanup frees every block exactly once, if the requests that are not checked and those polishing makes once it has a linear system are granted. *)
Theorem C71_sessions : forall (o : nat -> slot -> bool) (fl : string -> bool) (calls : list (string -> bool)) st,
  grants o (setup_unchecked ++ polish_unchecked) -> (forall f, In f calls -> same_config fl f) -> exec o fl setup start = Ret 0 st ->
  exists st', solves_ o calls st = Go st' /\ forall o' fl', cleans_up o' fl' st'.
Proof. exact session_ok. Qed.
Print Assumptions C71_sessions.
(** three solves with polishing, the second of which is refused the reduced constraint matrix: it returns an error, the others succeed *)
Example C71_sessions_ex : grants picky (setup_unchecked ++ polish_unchecked) /\ same_config usual usual /\
  exists st st1 st2 st3, exec picky usual setup start = Ret 0 st /\ exec picky usual solve st = Ret 0 st1 /\ exec picky usual solve st1 = Ret MEM st2 /\
    exec picky usual solve st2 = Ret 0 st3 /\ refused st1 = false /\ refused st2 = true.
Proof. exact sessions_ex. Qed.

(** C71 without the condition is false: refused one of these fifteen requests, polishing leaves exactly this many blocks that no one frees. *)
Theorem C71_refuted_leak : forall s k, In (s, k) polish_leaks -> exists st z st1 st2,
  exec (only_refuses s) usual setup start = Ret 0 st /\ exec (only_refuses s) usual solve st = Ret z st1 /\
  exec (only_refuses s) usual cleanup st1 = Ret 0 st2 /\ List.length (live st2) = k.
Proof. exact leak_one. Qed.
Print Assumptions C71_refuted_leak.
(** Refused one of these, it follows a NULL pointer or reads values never written. *)
Theorem C71_refuted_crash : forall s t, In (s, t) polish_crashes ->
  exists st, exec (only_refuses s) usual setup start = Ret 0 st /\ exec (only_refuses s) usual solve st = Bad t.
Proof. exact pol_crash_one. Qed.
Print Assumptions C71_refuted_crash.
