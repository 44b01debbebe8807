(** C58: the reduced KKT system of the indirect solvers, in exact arithmetic, for every pair of matrices and all vectors.

    Specification (ReducedFacts.v): [rmat m P A rho sg j k] is entry (j,k) of P + sg*I + A'*diag(rho)*A, [mv n M x i] and [mtv m M y j] are
    (M x)_i and (M' y)_j, [solves_kkt] is the KKT system of one step before elimination.  [dns A] is the matrix a CSC structure stores and
    [sdns P] the symmetric matrix of which it stores the upper triangle (CscSpec.v). *)
From Coq Require Import ZArith Reals List Bool Lia Lra.
From Verif Require Import Num Arr ArrFacts RSum Csc CscSpec CscExamples Vec Types RealVec Frame Ldl QpSpec Reduced ReducedFacts ReducedEx.
Import ListNotations.
Open Scope Z_scope.

(** C58: the operator multiplies by P + sigma*I + A'*diag(rho)*A and writes only to arrays of the right size. *)
Theorem C58_operator : forall P A : csc Rops, wf P -> triu P -> wf A -> cn A = cn P -> forall (rho : list R) (sg : R) (x v work : list R),
  rlen rho = cm A -> rlen x = cn P -> rlen v = cn P -> rlen work = cm A ->
  exists v' work', @reduced_kkt_mv_times Rops P A rho sg x v work = Some (v', work') /\ rlen v' = cn P /\ rlen work' = cm A /\
    forall j, 0 <= j < cn P -> rnth v' j = mv (cn P) (rmat (cm A) (sdns P) (dns A) (rnth rho) sg) (rnth x) j.
Proof. exact op_real. Qed.
Print Assumptions C58_operator.
(** a 3 x 3 and a 2 x 3 matrix with a repeated entry and an empty column *)
Example C58_operator_ex : wf (exP : csc Rops) /\ triu (exP : csc Rops) /\ wf (exA : csc Rops) /\ cn (exA : csc Rops) = cn (exP : csc Rops) /\ cn (exP : csc Rops) = 3 /\ cm (exA : csc Rops) = 2.
Proof. exact (conj (exP_wf _) (conj (exP_triu _) (conj (exA_wf _) (conj eq_refl (conj eq_refl eq_refl))))). Qed.

(** C58: the right-hand side becomes b1 + A'*diag(rho)*b2. *)
Theorem C58_rhs : forall P A : csc Rops, wf A -> cn A = cn P -> forall rho b1 b2 work : list R, rlen rho = cm A -> rlen b1 = cn P -> rlen b2 = cm A -> rlen work = cm A ->
  exists b1' work', @reduced_kkt_compute_rhs Rops A rho b1 b2 work = Some (b1', work') /\ rlen b1' = cn P /\ rlen work' = cm A /\
    forall j, 0 <= j < cn P -> rnth b1' j = (rnth b1 j + mtv (cm A) (dns A) (fun i => rnth rho i * rnth b2 i)%R j)%R.
Proof. exact rhs_real. Qed.
Print Assumptions C58_rhs.
Example C58_rhs_ex : wf (exA : csc Rops) /\ cn (exA : csc Rops) = cn (exP : csc Rops) /\ cm (exA : csc Rops) = 2.
Proof. exact (conj (exA_wf _) (conj eq_refl eq_refl)). Qed.

(** C58: the preconditioner is the diagonal of that matrix and its inverse, whatever the two arrays held before. *)
Theorem C58_diagonal : forall P A : csc Rops, wf P -> wf A -> cn A = cn P -> forall (rho : list R) (sg : R) (d di : list R), nodup_rows P -> nodup_rows A -> rlen rho = cm A -> rlen d = cn P -> rlen di = cn P ->
  exists d' di', @reduced_kkt_diagonal Rops P A rho sg d di = Some (d', di') /\ rlen d' = cn P /\ rlen di' = cn P /\
    forall j, 0 <= j < cn P -> rnth d' j = rmat (cm A) (sdns P) (dns A) (rnth rho) sg j j /\ rnth di' j = (/ rmat (cm A) (sdns P) (dns A) (rnth rho) sg j j)%R.
Proof. exact diag_real. Qed.
Print Assumptions C58_diagonal.
(** here P stores no entry (1,1) *)
Example C58_diagonal_ex : wf (exP : csc Rops) /\ wf (exB : csc Rops) /\ nodup_rows (exP : csc Rops) /\ nodup_rows (exB : csc Rops) /\ cn (exB : csc Rops) = cn (exP : csc Rops).
Proof. exact (conj (exP_wf _) (conj (exB_wf _) (conj (exP_nodup _) (conj (exB_nodup _) eq_refl)))). Qed.

(** C58: for a convex problem no division by zero happens there. *)
Theorem C58_diagonal_positive : forall m n (P A : Z -> Z -> R) (rho : Z -> R) (sg : R) j, psd n P -> (0 < sg)%R -> (forall i, 0 <= i < m -> (0 <= rho i)%R) -> 0 <= j < n -> (0 < rmat m P A rho sg j j)%R.
Proof. exact rmat_diag_pos. Qed.
Print Assumptions C58_diagonal_positive.
Example C58_diagonal_positive_ex : psd 2 (fun i j => if i =? j then 2 else 1)%R.
Proof. exact ex_psd2. Qed.

(** C58: eliminating nu loses nothing and adds nothing: (x, nu) solves the KKT system exactly when x solves the reduced system and nu is
    rho (A x - b2). *)
Theorem C58_eliminates : forall m n (P A : Z -> Z -> R) (rho : Z -> R) (sg : R) (b1 b2 x nu : Z -> R), (forall i, 0 <= i < m -> rho i <> 0%R) ->
  solves_kkt m n P A rho sg b1 b2 x nu <->
  (forall j, 0 <= j < n -> mv n (rmat m P A rho sg) x j = (b1 j + mtv m A (fun i => rho i * b2 i)%R j)%R) /\ (forall i, 0 <= i < m -> nu i = (rho i * (mv n A x i - b2 i))%R).
Proof. exact elimination. Qed.
Print Assumptions C58_eliminates.
Example C58_eliminates_ex : solves_kkt 2 1 (fun _ _ => 2)%R (fun i _ => if i =? 0 then 1 else 3)%R (fun i => if i =? 0 then 1 else 2)%R 1 (fun _ => 15)%R (fun i => if i =? 0 then 1 else 1)%R (fun _ => 1)%R (fun i => if i =? 0 then 0 else 4)%R.
Proof. exact ex_kkt. Qed.

(** C58: a solve through the conjugate-gradient interface.  [honest]: when the library asks for the stopping test it hands over the
    residual of the reduced system; everything else it does is arbitrary.  [cg_result] says: the lower part of the result is A x (or
    rho (A x - b2) when polishing) for the x in the upper part, and if the interface's own test ended the loop, (x, nu) with
    nu = rho (A x - b2) solves the KKT system up to the tolerance in every component, which after the first iteration of a solve never
    grows and stays at least 1e-7. *)
Theorem C58_solve : forall P A : csc Rops, wf P -> triu P -> wf A -> cn A = cn P -> forall (dcg : @dcg_oracle Rops) fuel (s : @mklcg Rops) (pr dr : R) tmp b it,
  cg_ok P A s -> honest P A s dcg -> tmp_ok P tmp -> rlen b = cn P + cm A ->
  post (@solve_linsys_mklcg Rops dcg fuel P A s pr dr tmp b it) (fun r => let '(req, b', s') := r in cg_result P A s b it req b' s').
Proof. exact cg_solve_real. Qed.
Print Assumptions C58_solve.
(** a library that asks for one product and then for the stopping test: the solve ends with code 2 *)
Example C58_solve_ex : exists s, @init_linsys_mklcg Rops 0%R gP gA [1%R; 2%R] 1%R 1 20 10 (/ 2)%R false = Some s /\ cg_ok gP gA s /\ honest gP gA s gdcg /\ tmp_ok gP ([0], [0], [0], [0])%R /\
  exists b' s', @solve_linsys_mklcg Rops gdcg 5 gP gA s 0%R 0%R ([0], [0], [0], [0])%R [15; 1; 1]%R 1 = Some (2, b', s').
Proof. exact ex_cg. Qed.

(** C58: the preconditioner is that of the current matrix after initialisation and after every change of rho or of the matrices. *)
Theorem C58_precond_init : forall P A : csc Rops, wf P -> wf A -> cn A = cn P -> forall (jx : R) (rho : list R) (sg : R) maxit red (fr : R) polish, nodup_rows P -> nodup_rows A -> rlen rho = cm A ->
  exists s, @init_linsys_mklcg Rops jx P A rho sg 1 maxit red fr polish = Some s /\ cg_ok P A s /\ precond_current P A s /\ cg_sigma s = sg /\ cg_polish s = polish /\
    (forall i, 0 <= i < cm A -> rnth (cg_rho s) i = if polish then (/ sg)%R else rnth rho i) /\ (forall j, 0 <= j < cn P -> rnth (cg_x s) j = 0%R).
Proof. exact init_real. Qed.
Print Assumptions C58_precond_init.
Theorem C58_precond_update_rho : forall P A : csc Rops, wf P -> wf A -> cn A = cn P -> forall (s : @mklcg Rops) (rho : list R), nodup_rows P -> nodup_rows A -> cg_ok P A s -> cg_precond_type s = 1 -> rlen rho = cm A ->
  exists s', @update_rho_linsys_mklcg Rops P A s rho = Some s' /\ cg_ok P A s' /\ precond_current P A s' /\ cg_rho s' = rho /\ cg_sigma s' = cg_sigma s.
Proof. exact update_rho_real. Qed.
Print Assumptions C58_precond_update_rho.
Theorem C58_precond_update_matrices : forall P A : csc Rops, wf P -> wf A -> cn A = cn P -> forall s : @mklcg Rops, nodup_rows P -> nodup_rows A -> cg_ok P A s -> cg_precond_type s = 1 ->
  exists s', @update_matrices_linsys_mklcg Rops P A s = Some s' /\ cg_ok P A s' /\ precond_current P A s' /\ cg_rho s' = cg_rho s /\ cg_sigma s' = cg_sigma s.
Proof. exact update_precond_real. Qed.
Print Assumptions C58_precond_update_matrices.
Theorem C58_precond_update_settings : forall P A : csc Rops, wf P -> wf A -> cn A = cn P -> forall (s : @mklcg Rops) maxit red (fr : R), nodup_rows P -> nodup_rows A -> cg_ok P A s ->
  (cg_precond_type s = 1 -> precond_current P A s) ->
  exists s', @update_settings_linsys_solver_mklcg Rops P A s 1 maxit red fr = Some s' /\ cg_ok P A s' /\ cg_precond_type s' = 1 /\ precond_current P A s' /\
    cg_rho s' = cg_rho s /\ cg_sigma s' = cg_sigma s /\ cg_max_iter s' = maxit /\ cg_reduction_interval s' = red /\ cg_tol_fraction s' = fr.
Proof. exact update_settings_real. Qed.
Print Assumptions C58_precond_update_settings.
(** the state after initialisation meets the hypotheses of the update theorems, the current preconditioner included *)
Example C58_precond_ex : exists s, @init_linsys_mklcg Rops 0%R exP exB [1%R; 2%R] 1%R 1 20 10 (/ 2)%R false = Some s /\ cg_ok exP exB s /\ precond_current exP exB s /\ cg_precond_type s = 1.
Proof. exact ex_precond. Qed.
