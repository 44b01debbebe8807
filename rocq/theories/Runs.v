(** Runs of the model in binary64 arithmetic on small literal problems.  They serve two purposes: they witness the
    [_refuted] statements (a property is false as soon as one run breaks it), and they show that the situations
    the other theorems speak about are reached.  Not a model of any file. *)
From Coq Require Import ZArith List Bool Lia String SpecFloat.
From Verif Require Import Num Arr Csc Vec Types Linsys Scaling Validate Auxil Polish Api LinsysFacts History ExEnv.
Import ListNotations.
Open Scope Z_scope.

Section Script.
  Context {K : NumOps}.
  Variable E : Env K.

  (** Calls made one after the other: the exit codes and the solver at the end. *)
  Fixpoint calls (cs : list (call K)) (s : solver K) : option (list Z * solver K) :=
    match cs with
    | [] => Some ([], s)
    | c :: cs' =>
        match run E c s with
        | Some (fl, HSolver s') => match calls cs' s' with Some (fls, s2) => Some (fl :: fls, s2) | None => None end
        | _ => None
        end
    end.

  Definition codes_eqb (a b : list Z) : bool := if list_eq_dec Z.eq_dec a b then true else false.

  (** osqp_setup returns 0, the calls return the codes fls, and T holds of the two solvers, after setup and at the end. *)
  Definition script g P q A l u m n st cs fls (T : solver K -> solver K -> bool) : bool :=
    match osqp_setup E g (Some P) (Some q) (Some A) (Some l) (Some u) m n (Some st) with
    | Some (0, Some s0, _) => match calls cs s0 with Some (f, s) => codes_eqb f fls && T s0 s | None => false end
    | _ => false
    end.
  Lemma script_ok g P q A l u m n st cs fls T : script g P q A l u m n st cs fls T = true ->
    exists s0 g' s, osqp_setup E g (Some P) (Some q) (Some A) (Some l) (Some u) m n (Some st) = Some (0, Some s0, g') /\
      calls cs s0 = Some (fls, s) /\ T s0 s = true.
  Proof.
    unfold script. destruct (osqp_setup E g (Some P) (Some q) (Some A) (Some l) (Some u) m n (Some st)) as [[[fl so] g']|]; [|discriminate].
    destruct fl; try discriminate. destruct so as [s0|]; [|discriminate]. destruct (calls cs s0) as [[f s]|] eqn:Ec; [|discriminate].
    intros H. apply andb_prop in H. destruct H as (H1 & H2). unfold codes_eqb in H1. destruct (list_eq_dec Z.eq_dec f fls); [subst|discriminate].
    exists s0, g', s. auto.
  Qed.
End Script.

(** Before any library call. *)
Definition g0 : world := mkworld 0%nat 0%nat 0 0 [].
(** A clock that stands still, no interrupt. *)
Definition fE : Env F64 := exEnv (fun _ => n0) (fun _ => false).
Lemma fE_ok : env_ok fE. Proof. apply exEnv_ok. Qed.
Definition fst0 : settings F64 := default_settings.

(** The demo problem: P = [4 1; 1 2], q = (1, 1), A = [1 1; 1 0; 0 1], l = (1, 0, 0), u = (1, 0.7, 0.7). *)
Definition fP : csc F64 := mkcsc 2 2 [0;1;3] [0;0;1] [nofZ 4;nofZ 1;nofZ 2] 3 (-1).
Definition fA : csc F64 := mkcsc 3 2 [0;2;4] [0;1;0;2] [nofZ 1;nofZ 1;nofZ 1;nofZ 1] 4 (-1).
Definition fq : list F64 := [nofZ 1; nofZ 1].
Definition fl : list F64 := [nofZ 1; nofZ 0; nofZ 0].
Definition fu : list F64 := [nofZ 1; nlit 7 (-1); nlit 7 (-1)].

(** An infeasible problem: minimise x^2/2 subject to 1 <= x and x <= 0 (two rows). *)
Definition iP : csc F64 := mkcsc 1 1 [0;1] [0] [nofZ 1] 1 (-1).
Definition iA : csc F64 := mkcsc 2 1 [0;2] [0;1] [nofZ 1; nofZ 1] 2 (-1).
Definition iq : list F64 := [nofZ 0].
Definition il : list F64 := [nofZ 1; nofZ (-2)].
Definition iu : list F64 := [nofZ 2; nofZ 0].
Definition isol : solution F64 := mksolution (K := F64) [n0] [n0; n0] [n0; n0] [n0].

Ltac split_bool H := repeat match type of H with _ && _ = true => let H1 := fresh "B" in apply andb_prop in H; destruct H as (H & H1) end.
Ltac bools := repeat match goal with H : _ && _ = true |- _ => apply andb_prop in H; destruct H | H : (_ =? _) = true |- _ => apply Z.eqb_eq in H end.

Definition one (v : F64) : csc F64 := mkcsc 1 1 [0;1] [0] [v] 1 (-1).
Definition is_nan (v : F64) : bool := match v : spec_float with S754_nan => true | _ => false end.
Definition hd0 (a : list F64) : F64 := match a with v :: _ => v | [] => n0 end.
Definition sx (s : solver F64) : list F64 := match sv_solution s with Some o => so_x o | None => [] end.
Definition scert (s : solver F64) : list F64 := match sv_solution s with Some o => so_prim_inf_cert o | None => [] end.

(** Settings: a NaN passes the range checks. *)
Definition nan_alpha : settings F64 := set_st_max_iter 25 (set_st_alpha (S754_nan : F64) fst0).
Lemma nan_settings : exists s0 g' s, osqp_setup fE g0 (Some fP) (Some fq) (Some fA) (Some fl) (Some fu) 3 2 (Some nan_alpha) = Some (0, Some s0, g') /\
  calls fE [CSolve] s0 = Some ([0], s) /\ is_nan (hd0 (w_x (sv_work s))) = true.
Proof. apply (script_ok fE g0 fP fq fA fl fu 3 2 nan_alpha [CSolve] [0] (fun _ s => is_nan (hd0 (w_x (sv_work s))))). vm_compute. reflexivity. Qed.

(** Data: a NaN in q passes, and with the duality gap check off the solver reports "solved" and returns a NaN. *)
Definition no_gap : settings F64 := set_st_check_dualgap 0 fst0.
Lemma nan_solved : exists s0 g' s, osqp_setup fE g0 (Some (one (nofZ 1))) (Some [S754_nan : F64]) (Some (one (nofZ 1))) (Some [nofZ (-1)]) (Some [nofZ 1]) 1 1 (Some no_gap) = Some (0, Some s0, g') /\
  calls fE [CSolve] s0 = Some ([0], s) /\ i_status_val (sv_info s) = OSQP_SOLVED /\ neqb (i_prim_res (sv_info s)) n0 = true /\ neqb (i_dual_res (sv_info s)) n0 = true /\ is_nan (hd0 (sx s)) = true.
Proof.
  destruct (script_ok fE g0 (one (nofZ 1)) [S754_nan : F64] (one (nofZ 1)) [nofZ (-1)] [nofZ 1] 1 1 no_gap [CSolve] [0]
    (fun _ s => (i_status_val (sv_info s) =? OSQP_SOLVED) && neqb (i_prim_res (sv_info s)) n0 && neqb (i_dual_res (sv_info s)) n0 && is_nan (hd0 (sx s))))
    as (s0 & g' & s & H1 & H2 & H3); [vm_compute; reflexivity|]. bools. exists s0, g', s. auto 10.
Qed.

(** A rejected update of the bounds changes the certificate that osqp_get_solution returns. *)
Definition bad_l : list F64 := [nofZ 1; nofZ 1].
Definition bad_u : list F64 := [nofZ 5; nofZ 0].
Definition get_cert (s : solver F64) : list F64 := match osqp_get_solution (HSolver s) (Some isol) with Some (_, _, Some o) => so_prim_inf_cert o | _ => [] end.
Lemma rejected_update_cert : exists s0 g' s s', osqp_setup fE g0 (Some iP) (Some iq) (Some iA) (Some il) (Some iu) 2 1 (Some fst0) = Some (0, Some s0, g') /\
  calls fE [CSolve] s0 = Some ([0], s) /\ calls fE [CUpdVec None (Some bad_l) (Some bad_u)] s = Some ([OSQP_DATA_VALIDATION_ERROR], s') /\
  i_status_val (sv_info s) = OSQP_PRIMAL_INFEASIBLE /\ i_status_val (sv_info s') = OSQP_PRIMAL_INFEASIBLE /\
  nltb (hd0 (get_cert s)) n0 = true /\ neqb (hd0 (get_cert s')) (nofZ 1) = true.
Proof.
  destruct (script_ok fE g0 iP iq iA il iu 2 1 fst0 [CSolve] [0]
    (fun _ s => (i_status_val (sv_info s) =? OSQP_PRIMAL_INFEASIBLE) && nltb (hd0 (get_cert s)) n0 &&
       match calls fE [CUpdVec None (Some bad_l) (Some bad_u)] s with
       | Some (f, s') => codes_eqb f [OSQP_DATA_VALIDATION_ERROR] && ((i_status_val (sv_info s') =? OSQP_PRIMAL_INFEASIBLE) && neqb (hd0 (get_cert s')) (nofZ 1))
       | None => false end))
    as (s0 & g' & s & H1 & H2 & H3); [vm_compute; reflexivity|]. bools.
  destruct (calls fE [CUpdVec None (Some bad_l) (Some bad_u)] s) as [[f s']|] eqn:E2; [|discriminate]. bools.
  match goal with H : codes_eqb _ _ = true |- _ => unfold codes_eqb in H; destruct (list_eq_dec Z.eq_dec f [OSQP_DATA_VALIDATION_ERROR]); [subst|discriminate] end.
  exists s0, g', s, s'. auto 10.
Qed.

(** A non-convex problem (minimise -x^2/2 over -1 <= 10 x <= 1) is accepted, and x = 0, the worst point, reported as solved. *)
Definition unscaled : settings F64 := set_st_scaling 0 fst0.
Lemma nonconvex_solved : exists s0 g' s, osqp_setup fE g0 (Some (one (nofZ (-1)))) (Some [nofZ 0]) (Some (one (nofZ 10))) (Some [nofZ (-1)]) (Some [nofZ 1]) 1 1 (Some unscaled) = Some (0, Some s0, g') /\
  calls fE [CSolve] s0 = Some ([0], s) /\ i_status_val (sv_info s) = OSQP_SOLVED /\ neqb (hd0 (sx s)) n0 = true.
Proof.
  destruct (script_ok fE g0 (one (nofZ (-1))) [nofZ 0] (one (nofZ 10)) [nofZ (-1)] [nofZ 1] 1 1 unscaled [CSolve] [0]
    (fun _ s => (i_status_val (sv_info s) =? OSQP_SOLVED) && neqb (hd0 (sx s)) n0)) as (s0 & g' & s & H1 & H2 & H3); [vm_compute; reflexivity|].
  bools. exists s0, g', s. auto.
Qed.

(** The status of an earlier solve survives: after a cold start and one iteration the status still says "solved" although the primal residual exceeds 1. *)
Definition one_iter : settings F64 := set_st_check_termination 0 (set_st_max_iter 1 fst0).
Lemma stale_status : exists s0 g' s, osqp_setup fE g0 (Some fP) (Some fq) (Some fA) (Some fl) (Some fu) 3 2 (Some fst0) = Some (0, Some s0, g') /\
  calls fE [CSolve; CCold; CUpdSettings (Some one_iter); CSolve] s0 = Some ([0; 0; 0; 0], s) /\
  i_status_val (sv_info s) = OSQP_SOLVED /\ i_iter (sv_info s) = 1 /\ nltb (nofZ 1) (i_prim_res (sv_info s)) = true.
Proof.
  destruct (script_ok fE g0 fP fq fA fl fu 3 2 fst0 [CSolve; CCold; CUpdSettings (Some one_iter); CSolve] [0; 0; 0; 0]
    (fun _ s => (i_status_val (sv_info s) =? OSQP_SOLVED) && (i_iter (sv_info s) =? 1) && nltb (nofZ 1) (i_prim_res (sv_info s)))) as (s0 & g' & s & H1 & H2 & H3); [vm_compute; reflexivity|].
  bools. exists s0, g', s. auto.
Qed.

(** Time limit: with a clock that advances by one at every reading and a limit of 4 the loop stops in its third iteration; the
    reported residual is that of the second iterate while the third is returned (A = 1, no scaling: the residual is |x - z|). *)
Definition tickE : Env F64 := exEnv (fun k => nofZ (Z.of_nat k)) (fun _ => false).
Definition limited : settings F64 := set_st_check_termination 1 (set_st_time_limit (nofZ 4) unscaled).
Lemma stale_residual : exists s0 g' s, osqp_setup tickE g0 (Some (one (nofZ 1))) (Some [nofZ 1]) (Some (one (nofZ 1))) (Some [nofZ 5]) (Some [nofZ 6]) 1 1 (Some limited) = Some (0, Some s0, g') /\
  calls tickE [CSolve] s0 = Some ([0], s) /\ i_status_val (sv_info s) = OSQP_TIME_LIMIT_REACHED /\ i_iter (sv_info s) = 2 /\
  neqb (hd0 (sx s)) (hd0 (w_x (sv_work s))) = true /\ neqb (i_prim_res (sv_info s)) (c_absval (nsub (hd0 (w_x (sv_work s))) (hd0 (w_z (sv_work s))))) = false.
Proof.
  destruct (script_ok tickE g0 (one (nofZ 1)) [nofZ 1] (one (nofZ 1)) [nofZ 5] [nofZ 6] 1 1 limited [CSolve] [0]
    (fun _ s => (i_status_val (sv_info s) =? OSQP_TIME_LIMIT_REACHED) && (i_iter (sv_info s) =? 2) && neqb (hd0 (sx s)) (hd0 (w_x (sv_work s))) &&
       negb (neqb (i_prim_res (sv_info s)) (c_absval (nsub (hd0 (w_x (sv_work s))) (hd0 (w_z (sv_work s)))))))) as (s0 & g' & s & H1 & H2 & H3); [vm_compute; reflexivity|].
  bools. exists s0, g', s. repeat split; auto. apply negb_true_iff; auto.
Qed.

(** Polishing makes a solved problem unsolved: the polished point is taken because the old dual residual is below 1e-10 and the new
    primal residual is smaller; its dual residual is 0.9 and the tolerance was 1e-10. *)
Definition pP : csc F64 := mkcsc 2 2 [0;1;2] [0;1] [nofZ 1;nofZ 1] 2 (-1).
Definition pA : csc F64 := mkcsc 2 2 [0;1;2] [0;1] [nofZ 3;nofZ 3] 2 (-1).
Definition pq : list F64 := [nofZ 0; nofZ (-1)].
Definition pl : list F64 := [nlit 3 (-18); nofZ (-30)].
Definition pu : list F64 := [nofZ 10; nofZ 30].
Definition pst : settings F64 := set_st_polishing 1 (set_st_eps_abs (nlit 1 (-10)) (set_st_eps_rel (nlit 1 (-10))
  (set_st_adaptive_rho 0 (set_st_polish_refine_iter 0 (set_st_sigma (nofZ 10) unscaled))))).
Lemma polish_worse : exists s0 g' s, osqp_setup fE g0 (Some pP) (Some pq) (Some pA) (Some pl) (Some pu) 2 2 (Some pst) = Some (0, Some s0, g') /\
  calls fE [CSolve] s0 = Some ([0], s) /\ i_status_val (sv_info s) = OSQP_SOLVED /\ i_status_polish (sv_info s) = OSQP_POLISH_SUCCESS /\ nltb (nlit 9 (-1)) (i_dual_res (sv_info s)) = true.
Proof.
  destruct (script_ok fE g0 pP pq pA pl pu 2 2 pst [CSolve] [0]
    (fun _ s => (i_status_val (sv_info s) =? OSQP_SOLVED) && (i_status_polish (sv_info s) =? OSQP_POLISH_SUCCESS) && nltb (nlit 9 (-1)) (i_dual_res (sv_info s)))) as (s0 & g' & s & H1 & H2 & H3); [vm_compute; reflexivity|].
  bools. exists s0, g', s. auto.
Qed.

(** The run time of a solve without polishing contains the polishing time of an earlier solve: every clock reading is 1. *)
Definition secE : Env F64 := exEnv (fun _ => nofZ 1) (fun _ => false).
Definition polishing : settings F64 := set_st_polishing 1 fst0.
Lemma stale_polish_time : exists s0 g' s, osqp_setup secE g0 (Some fP) (Some fq) (Some fA) (Some fl) (Some fu) 3 2 (Some polishing) = Some (0, Some s0, g') /\
  calls secE [CSolve; CUpdSettings (Some fst0); CSolve] s0 = Some ([0; 0; 0], s) /\ st_polishing (sv_settings s) = 0 /\
  neqb (i_update_time (sv_info s)) n0 = true /\ neqb (i_solve_time (sv_info s)) (nofZ 1) = true /\ neqb (i_run_time (sv_info s)) (nofZ 2) = true.
Proof.
  destruct (script_ok secE g0 fP fq fA fl fu 3 2 polishing [CSolve; CUpdSettings (Some fst0); CSolve] [0; 0; 0]
    (fun _ s => (st_polishing (sv_settings s) =? 0) && neqb (i_update_time (sv_info s)) n0 && neqb (i_solve_time (sv_info s)) (nofZ 1) && neqb (i_run_time (sv_info s)) (nofZ 2)))
    as (s0 & g' & s & H1 & H2 & H3); [vm_compute; reflexivity|].
  bools. exists s0, g', s. auto 10.
Qed.

(** Time based adaptation with check interval 25 chooses the interval 1. *)
Definition timed : settings F64 := set_st_adaptive_rho_interval 0 (set_st_adaptive_rho ADAPTIVE_RHO_TIME fst0).
Lemma interval_one : exists s0 g' s, osqp_setup secE g0 (Some fP) (Some fq) (Some fA) (Some fl) (Some fu) 3 2 (Some timed) = Some (0, Some s0, g') /\
  calls secE [CSolve] s0 = Some ([0], s) /\ st_check_termination (sv_settings s) = 25 /\ st_adaptive_rho_interval (sv_settings s) = 1.
Proof.
  destruct (script_ok secE g0 fP fq fA fl fu 3 2 timed [CSolve] [0]
    (fun _ s => (st_check_termination (sv_settings s) =? 25) && (st_adaptive_rho_interval (sv_settings s) =? 1))) as (s0 & g' & s & H1 & H2 & H3); [vm_compute; reflexivity|].
  bools. exists s0, g', s. auto.
Qed.

(** A row with both bounds infinite is classified as an inequality once its scaling factor is small. *)
Lemma infinite_row : exists s0 g', osqp_setup fE g0 (Some (one (nofZ 1))) (Some [nofZ 1]) (Some (one (nlit 1 10))) (Some [nlit (-1) 30]) (Some [nlit 1 30]) 1 1 (Some fst0) = Some (0, Some s0, g') /\
  w_constr_type (sv_work s0) = Some [0] /\ nltb (hd0 (d_u (w_data (sv_work s0)))) (nmul (OSQP_INFTY F64) (OSQP_MIN_SCALING F64)) = true.
Proof.
  destruct (script_ok fE g0 (one (nofZ 1)) [nofZ 1] (one (nlit 1 10)) [nlit (-1) 30] [nlit 1 30] 1 1 fst0 [] []
    (fun s _ => match w_constr_type (sv_work s) with Some t => codes_eqb t [0] | None => false end && nltb (hd0 (d_u (w_data (sv_work s)))) (nmul (OSQP_INFTY F64) (OSQP_MIN_SCALING F64))))
    as (s0 & g' & s & H1 & H2 & H3); [vm_compute; reflexivity|].
  bools. exists s0, g'. split; auto. destruct (w_constr_type (sv_work s0)) as [t|]; [|discriminate]. split; auto.
  unfold codes_eqb in *. destruct (list_eq_dec Z.eq_dec t [0]); [subst; auto|discriminate].
Qed.

(** Reading the solution of an infeasible problem discards a warm start made after the solve. *)
Lemma read_discards : exists s0 g' s s', osqp_setup fE g0 (Some iP) (Some iq) (Some iA) (Some il) (Some iu) 2 1 (Some fst0) = Some (0, Some s0, g') /\
  calls fE [CSolve; CWarm (Some [nofZ 5]) None] s0 = Some ([0; 0], s) /\ calls fE [CGetSol (Some isol)] s = Some ([0], s') /\
  neqb (hd0 (w_x (sv_work s))) n0 = false /\ neqb (hd0 (w_x (sv_work s'))) n0 = true.
Proof.
  destruct (script_ok fE g0 iP iq iA il iu 2 1 fst0 [CSolve; CWarm (Some [nofZ 5]) None] [0; 0]
    (fun _ s => negb (neqb (hd0 (w_x (sv_work s))) n0) && match calls fE [CGetSol (Some isol)] s with
       | Some (f, s') => codes_eqb f [0] && neqb (hd0 (w_x (sv_work s'))) n0 | None => false end)) as (s0 & g' & s & H1 & H2 & H3); [vm_compute; reflexivity|].
  bools. destruct (calls fE [CGetSol (Some isol)] s) as [[f s']|] eqn:E2; [|discriminate]. bools.
  match goal with H : codes_eqb _ _ = true |- _ => unfold codes_eqb in H; destruct (list_eq_dec Z.eq_dec f [0]); [subst|discriminate] end.
  exists s0, g', s, s'. repeat split; auto. apply negb_true_iff; auto.
Qed.

(** After osqp_update_data_mat the kinds of the rows are those of the old scaling: the stored bounds of the row now differ by less
    than the equality threshold, its kind is still "inequality". *)
Lemma stale_kind : exists s0 g' s, osqp_setup fE g0 (Some (one (nofZ 1))) (Some [nofZ 1]) (Some (one (nofZ 1))) (Some [nofZ 0]) (Some [nlit 1 (-3)]) 1 1 (Some fst0) = Some (0, Some s0, g') /\
  calls fE [CUpdMat None None 0 (Some [nofZ 1000000]) None 0; CSolve] s0 = Some ([0; 0], s) /\ w_constr_type (sv_work s) = Some [0] /\
  nltb (nsub (hd0 (d_u (w_data (sv_work s)))) (hd0 (d_l (w_data (sv_work s))))) (OSQP_RHO_TOL F64) = true.
Proof.
  destruct (script_ok fE g0 (one (nofZ 1)) [nofZ 1] (one (nofZ 1)) [nofZ 0] [nlit 1 (-3)] 1 1 fst0 [CUpdMat None None 0 (Some [nofZ 1000000]) None 0; CSolve] [0; 0]
    (fun _ s => match w_constr_type (sv_work s) with Some t => codes_eqb t [0] | None => false end && nltb (nsub (hd0 (d_u (w_data (sv_work s)))) (hd0 (d_l (w_data (sv_work s))))) (OSQP_RHO_TOL F64)))
    as (s0 & g' & s & H1 & H2 & H3); [vm_compute; reflexivity|].
  bools. exists s0, g', s. split; auto. split; auto. destruct (w_constr_type (sv_work s)) as [t|]; [|discriminate]. split; auto.
  unfold codes_eqb in *. destruct (list_eq_dec Z.eq_dec t [0]); [subst; auto|discriminate].
Qed.

Lemma marker_number : is_nan (OSQP_NAN F64) = false /\ neqb (OSQP_NAN F64) (nofZ 2143289344) = true.
Proof. split; reflexivity. Qed.

(** osqp_setup refuses the problem with rho = 0.001; osqp_update_rho to 0.001 is accepted. *)
Definition with_rho (r : Z) : settings F64 := set_st_rho (nlit r (-3)) (set_st_adaptive_rho 0 unscaled).
Definition setup_concave (r : Z) := osqp_setup fE g0 (Some (one (nofZ (-1)))) (Some [nofZ 1]) (Some (one (nofZ 10))) (Some [nofZ (-1)]) (Some [nofZ 1]) 1 1 (Some (with_rho r)).
Lemma rho_unchecked : (exists s g', setup_concave 1 = Some (OSQP_NONCVX_ERROR, Some s, g')) /\
  exists s0 g' s, setup_concave 100 = Some (0, Some s0, g') /\ calls fE [CUpdRho (nlit 1 (-3))] s0 = Some ([0], s) /\ neqb (st_rho (sv_settings s)) (nlit 1 (-3)) = true.
Proof.
  split.
  - assert (H : match setup_concave 1 with Some (f, Some _, _) => f =? OSQP_NONCVX_ERROR | _ => false end = true) by (vm_compute; reflexivity).
    destruct (setup_concave 1) as [[[f [s|]] g']|]; try discriminate. apply Z.eqb_eq in H. subst f. eauto.
  - destruct (script_ok fE g0 (one (nofZ (-1))) [nofZ 1] (one (nofZ 10)) [nofZ (-1)] [nofZ 1] 1 1 (with_rho 100) [CUpdRho (nlit 1 (-3))] [0]
      (fun _ s => neqb (st_rho (sv_settings s)) (nlit 1 (-3)))) as (s0 & g' & s & H1 & H2 & H3); [vm_compute; reflexivity|].
    exists s0, g', s. auto.
Qed.
