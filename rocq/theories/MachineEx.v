(** Runs in binary64 arithmetic that meet the hypotheses of the machine-level claims.  Not a model of any file. *)
From Coq Require Import ZArith List Bool Lia String SpecFloat.
From Verif Require Import Num Arr Csc CscSpec CscFacts CscExamples Vec Types Linsys Scaling Validate Auxil Polish Api LinsysFacts ValidFacts InvUpd InvSetup History PassFacts Trace Mid ExEnv Runs SetupClaims MachineSpec MachineTerm MachineInfo MachineSolve MachineClaims.
Import ListNotations.
Open Scope Z_scope.
Notation stat s := (i_status_val (sv_info s)).

(** A first solve of the problem in binary64, with status v and exit code 0. *)
Definition fcase (P A : csc F64) (q l u : list F64) (m n : Z) (st : settings F64) (v : Z) (s s' : solver F64) : Prop :=
  lives fE P A (Some q) (Some l) (Some u) m n st s /\ stat s = OSQP_UNSOLVED /\ solve fE s = Some (0, s') /\ stat s' = v /\ ~ polished s'.
Lemma fcase_ok P A q l u m n st v T : data_readable (Some P) (Some q) (Some A) (Some l) (Some u) m n ->
  script fE g0 P q A l u m n st [CSolve] [0] (fun s0 s => (stat s0 =? OSQP_UNSOLVED) && (stat s =? v) && negb (i_status_polish (sv_info s) =? OSQP_POLISH_SUCCESS) && T s0 s) = true ->
  exists s s', fcase P A q l u m n st v s s' /\ T s s' = true.
Proof.
  intros HD HS. destruct (script_ok _ _ _ _ _ _ _ _ _ _ _ _ _ HS) as (s0 & g' & s & H1 & H2 & H3). clear HS. bools.
  cbn [calls run] in H2. unfold osqp_solve, on_solver in H2. destruct (solve fE s0) as [[f s1]|] eqn:Es; [|discriminate]. injection H2 as Hf1 Hf2. subst f s1.
  exists s0, s. split; [|assumption]. split; [exact (lives_intro fE P A _ _ _ m n st s0 g0 s0 g' HD H1 (reach_0 _ _))|]. split; [assumption|]. split; [exact Es|]. split; [assumption|].
  intros (_ & _ & HP). match goal with H : negb _ = true |- _ => rewrite HP in H; discriminate H end.
Qed.

Lemma idata_readable : data_readable (Some iP) (Some iq) (Some iA) (Some il) (Some iu) 2 1.
Proof.
  constructor; try (intros v [= <-]; unfold zlen; cbn; lia); try (intros _; eexists; split; [reflexivity|unfold zlen; cbn; lia]).
  - intros P [= <-]. apply wfb_ok. vm_compute. reflexivity.
  - intros A [= <-]. apply wfb_ok. vm_compute. reflexivity.
Qed.
(** One variable, one constraint. *)
Lemma one_readable p a q l u : data_readable (Some (one p)) (Some [q]) (Some (one a)) (Some [l]) (Some [u]) 1 1.
Proof.
  constructor; try (intros v [= <-]; unfold zlen; cbn; lia); try (intros _; eexists; split; [reflexivity|unfold zlen; cbn; lia]).
  - intros P [= <-]. apply wfb_ok. vm_compute. reflexivity.
  - intros A [= <-]. apply wfb_ok. vm_compute. reflexivity.
Qed.

Definition any (_ _ : solver F64) : bool := true.
Lemma f_solved : exists s s', fcase fP fA fq fl fu 3 2 fst0 OSQP_SOLVED s s' /\ (i_iter (sv_info s') =? 25) = true.
Proof. apply (fcase_ok fP fA fq fl fu 3 2 fst0 OSQP_SOLVED (fun _ s => i_iter (sv_info s) =? 25)); [exact fdata_readable|vm_compute; reflexivity]. Qed.
Definition rough : settings F64 := set_st_eps_abs (nofZ 50) one_iter.
Lemma f_inaccurate : exists s s', fcase fP fA fq fl fu 3 2 rough OSQP_SOLVED_INACCURATE s s' /\ any s s' = true.
Proof. apply fcase_ok; [exact fdata_readable|vm_compute; reflexivity]. Qed.
Lemma f_max_iter : exists s s', fcase fP fA fq fl fu 3 2 one_iter OSQP_MAX_ITER_REACHED s s' /\ any s s' = true.
Proof. apply fcase_ok; [exact fdata_readable|vm_compute; reflexivity]. Qed.
Lemma f_pinf : exists s s', fcase iP iA iq il iu 2 1 fst0 OSQP_PRIMAL_INFEASIBLE s s' /\ (match sv_solution s' with Some _ => true | None => false end) = true.
Proof. apply (fcase_ok iP iA iq il iu 2 1 fst0 OSQP_PRIMAL_INFEASIBLE (fun _ s => match sv_solution s with Some _ => true | None => false end)); [exact idata_readable|vm_compute; reflexivity]. Qed.
Lemma f_dinf : exists s s', fcase (one (nofZ 0)) (one (nofZ 1)) [nofZ (-1)] [nofZ 0] [nlit 1 30] 1 1 fst0 OSQP_DUAL_INFEASIBLE s s' /\ (match sv_solution s' with Some _ => true | None => false end) = true.
Proof. apply (fcase_ok (one (nofZ 0)) (one (nofZ 1)) [nofZ (-1)] [nofZ 0] [nlit 1 30] 1 1 fst0 OSQP_DUAL_INFEASIBLE (fun _ s => match sv_solution s with Some _ => true | None => false end)); [apply one_readable|vm_compute; reflexivity]. Qed.
Definition short : settings F64 := set_st_scaling 0 one_iter.
Lemma f_ncvx : exists s s', fcase (one (nofZ 0)) (one (nofZ 1)) [nlit 1 31] [nofZ 0] [nofZ 1] 1 1 short OSQP_NON_CVX s s' /\ any s s' = true.
Proof. apply fcase_ok; [apply one_readable|vm_compute; reflexivity]. Qed.

(** The first scheduled test, after one iteration, accepts. *)
Definition coarse : settings F64 := set_st_check_termination 1 (set_st_eps_abs (nofZ 500) fst0).
Lemma f_found : exists s s' t t1, fcase fP fA fq fl fu 3 2 coarse OSQP_SOLVED s s' /\ iterate fE s 1 t t1 /\ scheduled (sv_settings s) 1 = true /\ stop_requested fE t1 = false /\ time_over fE t1 = false.
Proof.
  destruct (fcase_ok fP fA fq fl fu 3 2 coarse OSQP_SOLVED (fun s0 _ => (1 <=? st_max_iter (sv_settings s0)) && scheduled (sv_settings s0) 1 &&
    match begin_solve s0 with Some t => match admm_step fE t with Some t1 => negb (stop_requested fE t1) && negb (time_over fE t1) | None => false end | None => false end)) as (s & s' & H & HT); [exact fdata_readable|vm_compute; reflexivity|].
  apply andb_prop in HT. destruct HT as (HT & HX). apply andb_prop in HT. destruct HT as (HM & HSc). apply Z.leb_le in HM.
  destruct (begin_solve s) as [t|] eqn:Eb; [|discriminate]. destruct (admm_step fE t) as [t1|] eqn:Ea; [|discriminate]. apply andb_prop in HX. destruct HX as (H1 & H2).
  exists s, s', t, t1. split; [exact H|]. split; [eexists; split; [apply bf_1; exact Eb|split; [exact HM|exact Ea]]|]. split; [exact HSc|].
  split; [destruct (stop_requested fE t1); [discriminate H1|reflexivity]|destruct (time_over fE t1); [discriminate H2|reflexivity]].
Qed.
