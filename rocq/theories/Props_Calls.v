(** C81: what the calls other than osqp_solve store and hand out, number for number.  E is any environment, K any number system: binary64 included.
    The effects are specified in MachineCalls.v (section CallSpec) and MachineMat.v (section MatSpec). *)
From Coq Require Import ZArith List Bool.
From Verif Require Import Num Arr Csc CscSpec CscFacts Vec Types Linsys Scaling Validate Auxil Polish Api LinsysFacts Inv InvApi InvUpd History ExEnv Runs SetupClaims MachineSpec MachineClaims MachineEx MachineCalls CallsEx MachineMat MatEx.
Import ListNotations.
Open Scope Z_scope.
Notation rho_range K := (nltb (OSQP_RHO_MIN K) (OSQP_RHO_MAX K) = true).

(** C81: osqp_warm_start returns 0 and stores the first entries of the arrays given, multiplied by the stored scaling when the solver is scaled; z becomes the
    product A x when x is given; of the settings only warm_starting is switched on; nothing else the user can see changes. *)
Theorem C81_warm_start : forall (K : NumOps) (E : Env K), env_ok E -> rho_range K -> forall P A q l u m n ust s, lives E P A q l u m n ust s -> forall x y, vec_arg n x -> vec_arg m y ->
  exists s', osqp_warm_start (HSolver s) x y = Some (0, HSolver s') /\ lives E P A q l u m n ust s' /\ warm_effect n m x y s s'.
Proof. exact @call_warm. Qed.
Print Assumptions C81_warm_start.
Example C81_warm_start_ex : env_ok fE /\ rho_range F64 /\ (exists s, there fP fA fq fl fu 3 2 fst0 s /\ solved_here s = true) /\ vec_arg 2 (Some px) /\ vec_arg 3 (Some py).
Proof. exact (conj fE_ok (conj MM_F64 (conj f_there (conj (arg2 px eq_refl) (arg3 py eq_refl))))). Qed.

(** C81: after a warm start with a point and multipliers the iterate depends on nothing but the problem stored, its scaling and what was given. *)
Theorem C81_warm_start_forgets : forall (K : NumOps) (E : Env K), env_ok E -> rho_range K -> @neqb K n0 n0 = true -> forall P A q l u m n ust P2 A2 q2 l2 u2 ust2 s t x y s1 t1,
  lives E P A q l u m n ust s -> lives E P2 A2 q2 l2 u2 m n ust2 t -> D t = D s -> SC t = SC s -> is_scaled t = is_scaled s -> vec_arg n (Some x) -> vec_arg m (Some y) ->
  osqp_warm_start (HSolver s) (Some x) (Some y) = Some (0, HSolver s1) -> osqp_warm_start (HSolver t) (Some x) (Some y) = Some (0, HSolver t1) ->
  X t1 = X s1 /\ Y t1 = Y s1 /\ Zv t1 = Zv s1.
Proof. exact @call_warm_forgets. Qed.
Print Assumptions C81_warm_start_forgets.
Example C81_warm_start_forgets_ex : exists s t, there fP fA fq fl fu 3 2 fst0 s /\ there fP fA fq fl fu 3 2 fst0 t /\ D t = D s /\ SC t = SC s /\ is_scaled t = is_scaled s /\ feqb (hd0 (X t)) (hd0 (X s)) = false.
Proof. exact f_two. Qed.

(** C81: osqp_cold_start sets x, y, z to zero and changes nothing else the user can see. *)
Theorem C81_cold_start : forall (K : NumOps) (E : Env K), env_ok E -> rho_range K -> forall P A q l u m n ust s, lives E P A q l u m n ust s ->
  exists s', osqp_cold_start (HSolver s) = Some (HSolver s') /\ lives E P A q l u m n ust s' /\ cold_effect n m s s'.
Proof. exact @call_cold. Qed.
Print Assumptions C81_cold_start.
Example C81_cold_start_ex : exists s, there fP fA fq fl fu 3 2 fst0 s /\ solved_here s = true.
Proof. exact f_there. Qed.

(** C81: osqp_get_solution writes the first n or m cells of each array: with a status that comes with a point, the iterate times the stored scaling and
    OSQP_NAN for the certificates; with an infeasibility status OSQP_NAN for the point, the last change divided by its largest magnitude as certificate and
    OSQP_NAN for the other one, and the iterate is reset to zero; with the non-convex status the certificates are not written. *)
Theorem C81_get_solution : forall (K : NumOps) (E : Env K), env_ok E -> rho_range K -> forall P A q l u m n ust s, lives E P A q l u m n ust s -> forall o, solok n m o ->
  exists s' o', osqp_get_solution (HSolver s) (Some o) = Some (0, HSolver s', Some o') /\ lives E P A q l u m n ust s' /\ handed_out n m s s' o o'.
Proof. exact @call_get. Qed.
Print Assumptions C81_get_solution.
Example C81_get_solution_ex1 : (exists s, there fP fA fq fl fu 3 2 fst0 s /\ solved_here s = true) /\ solok 2 3 zero32.
Proof. exact (conj f_there zero32_ok). Qed.
Example C81_get_solution_ex2 : (exists s, there iP iA iq il iu 2 1 fst0 s /\ (stat s =? OSQP_PRIMAL_INFEASIBLE) = true) /\ solok 1 2 isol.
Proof. exact (conj f_pinf_there isol_ok). Qed.

(** C81: with a status that comes with a point, reading the solution again into the same arrays leaves them as they are. *)
Theorem C81_reread : forall (K : NumOps) (E : Env K), env_ok E -> rho_range K -> forall P A q l u m n ust s o s1 o1, lives E P A q l u m n ust s -> no_point (stat s) = false -> solok n m o ->
  osqp_get_solution (HSolver s) (Some o) = Some (0, HSolver s1, Some o1) -> exists s2, osqp_get_solution (HSolver s1) (Some o1) = Some (0, HSolver s2, Some o1).
Proof. exact @call_reread. Qed.
Print Assumptions C81_reread.
Example C81_reread_ex : (exists s, there fP fA fq fl fu 3 2 fst0 s /\ solved_here s = true) /\ solok 2 3 zero32 /\ no_point OSQP_SOLVED = false.
Proof. exact (conj f_there (conj zero32_ok eq_refl)). Qed.

(** C81: not so for certificates: in binary64 the certificate osqp_get_solution hands out may differ from the one osqp_solve left in the solution structure
    (it is divided by its largest magnitude once more). *)
Theorem C81_certificate_reread_refuted : exists s o s1 o1, there iP iA iq jl ju 2 1 fst0 s /\ stat s = OSQP_PRIMAL_INFEASIBLE /\ sv_solution s = Some o /\
  osqp_get_solution (HSolver s) (Some isol) = Some (0, HSolver s1, Some o1) /\ so_prim_inf_cert o1 <> so_prim_inf_cert o.
Proof. exact f_cert_differs. Qed.
Print Assumptions C81_certificate_reread_refuted.

(** C81: nor does osqp_get_solution return a point given to osqp_warm_start: exactly so in real arithmetic (C25), but not in binary64. *)
Theorem C81_round_trip_refuted : exists s s1 s2 o, there fP fA fq fl fu 3 2 fst0 s /\ osqp_warm_start (HSolver s) (Some px) None = Some (0, HSolver s1) /\
  osqp_get_solution (HSolver s1) (Some zero32) = Some (0, HSolver s2, Some o) /\ so_x o <> px.
Proof. exact f_round_trip. Qed.
Print Assumptions C81_round_trip_refuted.

(** C81: osqp_update_data_vec refuses, with the problem as before, exactly when a bound is given and a lower bound compares greater than its upper bound;
    otherwise it stores the vectors given, multiplied by the stored scaling when the solver is scaled, and the status is "unsolved" again. *)
Theorem C81_update_vectors : forall (K : NumOps) (E : Env K), env_ok E -> rho_range K -> forall P A q l u m n ust s, lives E P A q l u m n ust s -> forall qn ln un,
  vec_arg n qn -> vec_arg m ln -> vec_arg m un ->
  exists fl s', osqp_update_data_vec E (HSolver s) qn ln un = Some (fl, HSolver s') /\ lives E P A q l u m n ust s' /\ vec_effect n m qn ln un s fl s'.
Proof. exact @call_vec. Qed.
Print Assumptions C81_update_vectors.
Example C81_update_vectors_ex : (exists s, there fP fA fq fl fu 3 2 fst0 s /\
  (solved_here s && accepts 0 (Some px) (Some lower) (Some upper) s && accepts OSQP_DATA_VALIDATION_ERROR None (Some upper) None s) = true) /\
  vec_arg 2 (Some px) /\ vec_arg 3 (Some lower) /\ vec_arg 3 (Some upper).
Proof. exact (conj f_vec (conj (arg2 px eq_refl) (conj (arg3 lower eq_refl) (arg3 upper eq_refl)))). Qed.

(** C81: osqp_update_data_mat returns 1 or 2 and leaves the problem alone exactly for the wrong counts; otherwise the status is "unsolved" again.  In an
    unscaled solver exactly the entries named are replaced (the last value given for an entry wins).  A scaled solver takes the problem back to the user's units,
    replaces the entries named there, and then holds the scaled problem and the scaling that osqp_setup computes for the result. *)
Theorem C81_update_matrices : forall (K : NumOps) (E : Env K), env_ok E -> rho_range K -> forall P A q l u m n ust s, lives E P A q l u m n ust s -> forall Px Pidx Pn Ax Aidx An,
  mat_arg (nnz (d_P (D s))) Pn Px Pidx -> mat_arg (nnz (d_A (D s))) An Ax Aidx ->
  exists fl s', osqp_update_data_mat E (HSolver s) Px Pidx Pn Ax Aidx An = Some (fl, HSolver s') /\ lives E P A q l u m n ust s' /\ mat_effect Px Pidx Pn Ax Aidx An s fl s' /\
    (is_scaled s = true -> bad_count (nnz (d_P (D s))) Pn Pidx || bad_count (nnz (d_A (D s))) An Aidx = false -> rescaled Px Pidx Pn Ax Aidx An m n s s').
Proof. exact @call_mat_full. Qed.
Print Assumptions C81_update_matrices.
Example C81_update_matrices_scaled_ex : exists s W d P1 A1 t g', there fP fA fq fl fu 3 2 fst0 s /\ solved_here s = true /\
  mat_arg (nnz (d_P (D s))) 2 newP (Some [0; 2]) /\ mat_arg (nnz (d_A (D s))) 0 newA None /\ mat_code 0 2 s = true /\
  SC s = Some W /\ back_scaled W (D s) d /\ entries_after (d_P d) P1 newP (Some [0; 2]) 2 /\ entries_after (d_A d) A1 newA None 0 /\
  osqp_setup fE g0 (Some P1) (Some (d_q d)) (Some A1) (Some (d_l d)) (Some (d_u d)) 3 2 (Some fst0) = Some (0, Some t, g').
Proof. exact f_mat_scaled. Qed.
Example C81_update_matrices_ex : exists s, there fP fA fq fl fu 3 2 unscaled s /\
  mat_arg (nnz (d_P (D s))) 2 (Some [@nofZ F64 5; nofZ 3]) (Some [0; 2]) /\ mat_arg (nnz (d_A (D s))) 0 (Some [@nofZ F64 1; nofZ 2; nofZ 1; nofZ 1]) None /\
  (negb (is_scaled s) && mat_code 0 2 s && mat_code 1 4 s) = true.
Proof. exact f_mat. Qed.

(** C81: osqp_update_rho refuses a rho that compares at most zero, with nothing changed; otherwise it stores the rho cut to its range.  Problem, iterate, status
    and solution stay. *)
Theorem C81_update_rho : forall (K : NumOps) (E : Env K), env_ok E -> rho_range K -> forall P A q l u m n ust s, lives E P A q l u m n ust s -> forall r,
  exists fl s', osqp_update_rho E (HSolver s) r = Some (fl, HSolver s') /\ lives E P A q l u m n ust s' /\ rho_effect r s fl s'.
Proof. exact @call_rho. Qed.
Print Assumptions C81_update_rho.
Example C81_update_rho_ex : exists s, there fP fA fq fl fu 3 2 fst0 s /\ (solved_here s && rho_code 0 (nlit 1 9) s && rho_code 1 (nofZ 0) s) = true.
Proof. exact f_rho. Qed.

(** C81: osqp_update_settings replaces every field but those its header names, rho, device, linsys_solver and allocate_solution when the new settings pass the checks, and otherwise changes nothing. *)
Theorem C81_update_settings : forall (K : NumOps) (E : Env K), env_ok E -> rho_range K -> forall P A q l u m n ust s, lives E P A q l u m n ust s -> forall new,
  exists fl s', osqp_update_settings (HSolver s) new = Some (fl, HSolver s') /\ lives E P A q l u m n ust s' /\ settings_effect new s fl s'.
Proof. exact @call_settings. Qed.
Print Assumptions C81_update_settings.
Example C81_update_settings_ex : exists s, there fP fA fq fl fu 3 2 fst0 s /\ (solved_here s && set_code 0 (Some one_iter) s && set_code OSQP_SETTINGS_VALIDATION_ERROR (Some (set_st_max_iter 0 fst0)) s) = true.
Proof. exact f_set. Qed.
