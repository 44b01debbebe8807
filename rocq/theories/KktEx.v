(** Runs in binary64 arithmetic for the claim about the relative KKT error.  Not a model of any file. *)
From Coq Require Import ZArith List Bool Lia String SpecFloat.
From Verif Require Import Num Arr Csc CscSpec CscFacts CscExamples Vec Types Linsys Scaling Validate Auxil Polish Api LinsysFacts ValidFacts InvUpd InvSetup History PassFacts Trace Mid ExEnv Runs SetupClaims KktErr
  MachineSpec MachineTerm MachineInfo MachineSolve MachineClaims MachineEx.
Import ListNotations.
Open Scope Z_scope.

(** A first solve of the problem of Runs.v in binary64, with exit code 0, that ends "solved". *)
Definition ecase (st : settings F64) (s s' : solver F64) : Prop :=
  lives fE fP fA (Some fq) (Some fl) (Some fu) 3 2 st s /\ stat s = OSQP_UNSOLVED /\ solve fE s = Some (0, s') /\ stat s' = OSQP_SOLVED.
Lemma ecase_ok st T :
  script fE g0 fP fq fA fl fu 3 2 st [CSolve] [0] (fun s0 s => (stat s0 =? OSQP_UNSOLVED) && (stat s =? OSQP_SOLVED) && T s) = true ->
  exists s s', ecase st s s' /\ T s' = true.
Proof.
  intros HS. destruct (script_ok _ _ _ _ _ _ _ _ _ _ _ _ _ HS) as (s0 & g' & s & H1 & H2 & H3). clear HS. bools.
  cbn [calls run] in H2. unfold osqp_solve, on_solver in H2. destruct (solve fE s0) as [[f s1]|] eqn:Es; [|discriminate]. injection H2 as Hf1 Hf2. subst f s1.
  exists s0, s. split; [|assumption]. split; [exact (lives_intro fE fP fA _ _ _ 3 2 st s0 g0 s0 g' fdata_readable H1 (reach_0 _ _))|]. split; [assumption|]. split; [exact Es|assumption].
Qed.

(** No polishing: the error is that of the last iterate and is not zero. *)
Lemma e_plain : exists s s', ecase fst0 s s' /\ ~ rejected s' /\ nltb n0 (i_rel_kkt_error (sv_info s')) = true.
Proof.
  destruct (ecase_ok fst0 (fun s => (st_polishing (sv_settings s) =? 0) && nltb n0 (i_rel_kkt_error (sv_info s)))) as (s & s' & H & HT); [vm_compute; reflexivity|].
  apply andb_prop in HT as (H1 & H2). apply Z.eqb_eq in H1. exists s, s'. split; [exact H|]. split; [|exact H2]. intros (HX & _). rewrite H1 in HX. discriminate.
Qed.
(** Polishing succeeds. *)
Lemma e_polished : exists s s', ecase polishing s s' /\ polished s' /\ nltb n0 (i_rel_kkt_error (sv_info s')) = true.
Proof.
  destruct (ecase_ok polishing (fun s => tr (st_polishing (sv_settings s)) && (i_status_polish (sv_info s) =? OSQP_POLISH_SUCCESS) && nltb n0 (i_rel_kkt_error (sv_info s)))) as (s & s' & H & HT); [vm_compute; reflexivity|].
  apply andb_prop in HT as (HT & H3). apply andb_prop in HT as (H1 & H2). apply Z.eqb_eq in H2. exists s, s'. split; [exact H|]. split; [|exact H3]. split; [exact H1|]. split; [apply H|exact H2].
Qed.
(** The polished point is rejected: residuals and gap are those of the last iterate, below 1e-8, the error is that of the rejected point, above 1e-6. *)
Definition precise : settings F64 := set_st_polish_refine_iter 0 (set_st_eps_abs (nlit 1 (-9)) (set_st_eps_rel (nlit 1 (-9)) polishing)).
Lemma e_rejected : exists s s', ecase precise s s' /\ rejected s' /\ nltb (i_prim_res (sv_info s')) (nlit 1 (-8)) = true /\ nltb (i_dual_res (sv_info s')) (nlit 1 (-8)) = true /\
  nltb (i_duality_gap (sv_info s')) (nlit 1 (-8)) = true /\ nltb (nlit 1 (-6)) (i_rel_kkt_error (sv_info s')) = true.
Proof.
  destruct (ecase_ok precise (fun s => tr (st_polishing (sv_settings s)) && (i_status_polish (sv_info s) =? OSQP_POLISH_FAILED) && nltb (i_prim_res (sv_info s)) (nlit 1 (-8)) && nltb (i_dual_res (sv_info s)) (nlit 1 (-8)) &&
    nltb (i_duality_gap (sv_info s)) (nlit 1 (-8)) && nltb (nlit 1 (-6)) (i_rel_kkt_error (sv_info s)))) as (s & s' & H & HT); [vm_compute; reflexivity|].
  apply andb_prop in HT as (HT & H6). apply andb_prop in HT as (HT & H5). apply andb_prop in HT as (HT & H4). apply andb_prop in HT as (HT & H3). apply andb_prop in HT as (H1 & H2). apply Z.eqb_eq in H2.
  exists s, s'. split; [exact H|]. split; [split; [exact H1|split; [apply H|exact H2]]|auto].
Qed.
(** The gap is negative and twice as large in magnitude as the error reported. *)
Lemma e_signed : exists s s', ecase (set_st_polish_refine_iter 0 polishing) s s' /\ polished s' /\ nltb (nmul (nlit 19 (-1)) (i_rel_kkt_error (sv_info s'))) (nopp (i_duality_gap (sv_info s'))) = true.
Proof.
  destruct (ecase_ok (set_st_polish_refine_iter 0 polishing) (fun s => tr (st_polishing (sv_settings s)) && (i_status_polish (sv_info s) =? OSQP_POLISH_SUCCESS) &&
    nltb (nmul (nlit 19 (-1)) (i_rel_kkt_error (sv_info s))) (nopp (i_duality_gap (sv_info s))))) as (s & s' & H & HT); [vm_compute; reflexivity|].
  apply andb_prop in HT as (HT & H3). apply andb_prop in HT as (H1 & H2). apply Z.eqb_eq in H2. exists s, s'. split; [exact H|]. split; [|exact H3]. split; [exact H1|]. split; [apply H|exact H2].
Qed.
(** The estimate of rho is a number between the two ends of its range and differs from the rho in use. *)
Definition e_between (s : solver F64) : bool := let r := i_rho_estimate (sv_info s) in
  nltb (nlit 1 (-6)) r && nltb r (nlit 1 6) && (nltb r (st_rho (sv_settings s)) || nltb (st_rho (sv_settings s)) r).
Lemma e_estimate : exists s s', ecase fst0 s s' /\ e_between s' = true.
Proof. apply ecase_ok. vm_compute. reflexivity. Qed.
(** The time limit strikes in the third iteration: the error reported holds the gap of the second iterate, which the final objective has replaced. *)
Definition hurried : settings F64 := set_st_check_termination 1 (set_st_time_limit (nofZ 4) fst0).
Lemma e_time : exists s0 g' s, osqp_setup tickE g0 (Some fP) (Some fq) (Some fA) (Some fl) (Some fu) 3 2 (Some hurried) = Some (0, Some s0, g') /\ calls tickE [CSolve] s0 = Some ([0], s) /\
  stat s = OSQP_TIME_LIMIT_REACHED /\ nltb (i_prim_res (sv_info s)) (nofZ 121) = true /\ nltb (i_dual_res (sv_info s)) (nofZ 121) = true /\ nltb (i_duality_gap (sv_info s)) (nofZ 121) = true /\
  nltb (nofZ 134) (i_rel_kkt_error (sv_info s)) = true.
Proof.
  destruct (script_ok tickE g0 fP fq fA fl fu 3 2 hurried [CSolve] [0]
    (fun _ s => (stat s =? OSQP_TIME_LIMIT_REACHED) && nltb (i_prim_res (sv_info s)) (nofZ 121) && nltb (i_dual_res (sv_info s)) (nofZ 121) && nltb (i_duality_gap (sv_info s)) (nofZ 121) &&
      nltb (nofZ 134) (i_rel_kkt_error (sv_info s)))) as (s0 & g' & s & H1 & H2 & H3); [vm_compute; reflexivity|].
  bools. exists s0, g', s. auto 10.
Qed.
