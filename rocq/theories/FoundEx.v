(** Runs in binary64 arithmetic whose scheduled tests find infeasibility certificates, for the hypotheses of the claims of MachineFound.v.  Not a model of any file. *)
From Coq Require Import ZArith List Bool Lia String SpecFloat.
From Verif Require Import Num Arr ArrFacts Csc CscSpec CscFacts CscExamples Vec Types Linsys Scaling Validate Auxil Polish Api LinsysFacts ValidFacts InvUpd InvSetup History PassFacts Trace Mid ExEnv Runs SetupClaims MachineSpec MachineTerm MachineInfo MachineSolve MachineClaims MachineEx MachineFound.
Import ListNotations.
Open Scope Z_scope.
Local Open Scope opt_scope.

Section Decide.
  Context {K : NumOps}.
  Definition the_scaling (sc : option (scaling K)) : scaling K := match sc with Some W => W | None => mkscaling n0 [] [] n0 [] [] end.
  Definition measure (st : settings K) (d : data K) (sc : option (scaling K)) (x y z : list K) : option reading :=
    if negb (st_scaling st =? 0) && match sc with None => true | Some _ => false end then None else
    if (d_m d <=? 0) || (d_n d <? 0) then None else
    ax <- csc_Axpy (d_A d) x (zrep (d_m d) n0) n1 n0 ;; px <- csc_Axpy_sym_triu (d_P d) x (zrep (d_n d) n0) n1 n0 ;; aty <- csc_Atxpy (d_A d) y (zrep (d_n d) n0) n1 n0 ;;
    Some (reading_of st d (the_scaling sc) x y z ax px aty).
  Lemma measure_ok st d sc x y z V : measure st d sc x y z = Some V -> measured st d sc x y z V.
  Proof.
    unfold measure. destruct (negb _ && _) eqn:E1; [discriminate|]. destruct (_ || _) eqn:E2; [discriminate|].
    destruct (csc_Axpy _ _ _ _ _) as [ax|] eqn:Ea; [|discriminate]. destruct (csc_Axpy_sym_triu _ _ _ _ _) as [px|] eqn:Ep; [|discriminate]. destruct (csc_Atxpy _ _ _ _ _) as [aty|] eqn:Et; [|discriminate].
    intros [= <-]. exists (the_scaling sc), ax, px, aty. split; [|split; [|split; [|split; [|split; [|split; [|reflexivity]]]]]].
    - intros Hs. destruct sc as [W|]; [reflexivity|]. destruct (Z.eqb_spec (st_scaling st) 0); [lia|discriminate E1].
    - intros _. eexists. split; [|exact Ea]. apply zlen_zrep. lia.
    - lia.
    - eexists. split; [|exact Ep]. apply zlen_zrep. lia.
    - intros _. eexists. split; [|exact Et]. apply zlen_zrep. lia.
    - lia.
  Qed.
  Definition infeasibleb (st : settings K) (d : data K) (sc : option (scaling K)) (dy : list K) : bool :=
    let users := negb (st_scaling st =? 0)%Z && (st_scaled_termination st =? 0)%Z in
    let v := projected d dy in let W := the_scaling sc in
    negb (users && match sc with None => true | Some _ => false end) && (0 <=? d_n d) && match csc_Atxpy (d_A d) v (zrep (d_n d) n0) n1 n0 with None => false | Some t =>
      let size := largest (if users then times (sc_E W) v else v) in
      nltb (OSQP_DIVISION_TOL K) size && nltb (support_at (d_l d) (d_u d) v) n0 && nltb (largest (if users then times t (sc_Dinv W) else t)) (nmul (st_eps_prim_inf st) size) end.
  Lemma infeasibleb_ok st d sc dy : infeasibleb st d sc dy = true -> certifies_infeasible st d sc dy.
  Proof.
    unfold infeasibleb, certifies_infeasible. cbv zeta. set (users := negb (st_scaling st =? 0) && (st_scaled_termination st =? 0)). intros H. apply andb_prop in H. destruct H as (H & HM). apply andb_prop in H. destruct H as (H1 & H2).
    destruct (csc_Atxpy _ _ _ _ _) as [t|] eqn:Et; [|discriminate]. apply andb_prop in HM. destruct HM as (HM & H5). apply andb_prop in HM. destruct HM as (H3 & H4).
    exists (the_scaling sc), (zrep (d_n d) n0), t. split; [intros Hu; rewrite Hu in H1; destruct sc; [reflexivity|discriminate]|]. split; [apply zlen_zrep; lia|]. auto.
  Qed.
  Definition unboundedb (st : settings K) (d : data K) (sc : option (scaling K)) (dx : list K) : bool :=
    let users := negb (st_scaling st =? 0)%Z && (st_scaled_termination st =? 0)%Z in
    let e := st_eps_dual_inf st in let W := the_scaling sc in
    negb (users && match sc with None => true | Some _ => false end) && (0 <=? d_n d) && (0 <=? d_m d) &&
    match csc_Axpy_sym_triu (d_P d) dx (zrep (d_n d) n0) n1 n0, csc_Axpy (d_A d) dx (zrep (d_m d) n0) n1 n0 with Some t, Some a =>
      let size := largest (if users then times (sc_D W) dx else dx) in
      nltb (OSQP_DIVISION_TOL K) size && nltb (total (times (d_q d) dx)) n0 && nltb (largest (if users then times t (sc_Dinv W) else t)) (nmul (nmul (if users then sc_c W else n1) e) size) &&
      forallb (fun b => b) (zip3 (stays (nmul e size)) (if users then times a (sc_Einv W) else a) (d_l d) (d_u d))
    | _, _ => false end.
  Lemma unboundedb_ok st d sc dx : unboundedb st d sc dx = true -> certifies_unbounded st d sc dx.
  Proof.
    unfold unboundedb, certifies_unbounded. cbv zeta. set (users := negb (st_scaling st =? 0) && (st_scaled_termination st =? 0)). intros H. apply andb_prop in H. destruct H as (H & HM). apply andb_prop in H. destruct H as (H & H2). apply andb_prop in H. destruct H as (H1 & H0).
    destruct (csc_Axpy_sym_triu _ _ _ _ _) as [t|] eqn:Et; [|discriminate]. destruct (csc_Axpy _ _ _ _ _) as [a|] eqn:Ea; [|discriminate].
    apply andb_prop in HM. destruct HM as (HM & H6). apply andb_prop in HM. destruct HM as (HM & H5). apply andb_prop in HM. destruct HM as (H3 & H4).
    exists (the_scaling sc), (zrep (d_n d) n0), t, (zrep (d_m d) n0), a. split; [intros Hu; rewrite Hu in H1; destruct sc; [reflexivity|discriminate]|]. split; [apply zlen_zrep; lia|]. split; [apply zlen_zrep; lia|]. auto 10.
  Qed.

  Variable E : Env K.
  Fixpoint passes (j : nat) (k : Z) (f : flags) (t : solver K) : option (Z * flags * solver K) :=
    match j with O => Some (k, f, t) | S j => match admm_pass E t k f with Some (Continue t' f') => passes j (k + 1) f' t' | _ => None end end.
  Lemma passes_ok (s : solver K) j : forall k f t k' f' t', before E s k f t -> k + Z.of_nat j <= st_max_iter (sv_settings s) -> passes j k f t = Some (k', f', t') -> before E s k' f' t' /\ k' = k + Z.of_nat j.
  Proof.
    induction j as [|j IH]; cbn [passes]; intros k f t k' f' t' HB Hk HP.
    - injection HP as <- <- <-. split; [auto|lia].
    - destruct (admm_pass E t k f) as [[t2 f2| |]|] eqn:Ep; try discriminate. destruct (IH (k + 1) f2 t2 k' f' t') as (H1 & H2); auto; [eapply bf_S; eauto; lia|lia|]. split; [auto|lia].
  Qed.
  (** The iterate of iteration j + 1. *)
  Definition nth_iterate (j : nat) (s : solver K) : option (solver K * solver K) :=
    t <- begin_solve s ;; r <- passes j 1 (false, tr (st_verbose (sv_settings t)), false) t ;; let '(k, f, t2) := r in t1 <- admm_step E t2 ;; Some (t2, t1).
  Lemma nth_iterate_ok (s : solver K) j t t1 : nth_iterate j s = Some (t, t1) -> 1 + Z.of_nat j <= st_max_iter (sv_settings s) -> iterate E s (1 + Z.of_nat j) t t1.
  Proof.
    unfold nth_iterate. destruct (begin_solve s) as [t0|] eqn:Eb; [|discriminate]. destruct (passes j 1 _ t0) as [[[k f] t2]|] eqn:Ep; [|discriminate]. destruct (admm_step E t2) as [t3|] eqn:Ea; [|discriminate].
    intros [= <- <-] Hj. destruct (passes_ok s j _ _ _ _ _ _ (bf_1 _ _ _ Eb) Hj Ep) as (HB & ->). exists f. auto.
  Qed.
End Decide.

(** The scheduled test after j + 1 iterations finds what T says. *)
Definition test_at (j : nat) (T : solver F64 -> solver F64 -> @reading F64 -> bool) (s : solver F64) : bool :=
  match nth_iterate fE j s with None => false | Some (t, t1) =>
    (1 + Z.of_nat j <=? st_max_iter (sv_settings s)) && scheduled (sv_settings s) (1 + Z.of_nat j) && negb (stop_requested fE t1) && negb (time_over fE t1) &&
    match measure (sv_settings s) (w_data (sv_work s)) (w_scaling (sv_work s)) (w_x (sv_work t1)) (w_y (sv_work t1)) (w_z (sv_work t1)) with Some V => negb (exploded V) && T s t1 V | None => false end end.
Definition tested (j : nat) (s t t1 : solver F64) (V : @reading F64) : Prop :=
  iterate fE s (1 + Z.of_nat j) t t1 /\ scheduled (sv_settings s) (1 + Z.of_nat j) = true /\ stop_requested fE t1 = false /\ time_over fE t1 = false /\
  measured (sv_settings s) (w_data (sv_work s)) (w_scaling (sv_work s)) (w_x (sv_work t1)) (w_y (sv_work t1)) (w_z (sv_work t1)) V /\ exploded V = false.
Lemma test_at_ok j T s : test_at j T s = true -> exists t t1 V, tested j s t t1 V /\ T s t1 V = true.
Proof.
  unfold test_at. destruct (nth_iterate fE j s) as [[t t1]|] eqn:En; [|discriminate]. intros H. apply andb_prop in H. destruct H as (H & HV). apply andb_prop in H. destruct H as (H & H4). apply andb_prop in H. destruct H as (H & H3). apply andb_prop in H. destruct H as (H1 & H2).
  destruct (measure _ _ _ _ _ _) as [V|] eqn:Em; [|discriminate]. apply andb_prop in HV. destruct HV as (H5 & H6). apply negb_true_iff in H3, H4, H5. apply measure_ok in Em.
  exists t, t1, V. split; [|exact H6]. split; [apply nth_iterate_ok; [exact En|lia]|]. auto 10.
Qed.

Lemma f_found_pinf : exists s s' t t1 V, fcase iP iA iq il iu 2 1 fst0 OSQP_PRIMAL_INFEASIBLE s s' /\ tested 49 s t t1 V /\
  below (sv_settings s) false (r_prim V) (r_pnorm V) = false /\ certifies_infeasible (sv_settings s) (w_data (sv_work s)) (w_scaling (sv_work s)) (w_delta_y (sv_work t1)).
Proof.
  destruct (fcase_ok iP iA iq il iu 2 1 fst0 OSQP_PRIMAL_INFEASIBLE (fun s _ => test_at 49 (fun s t1 V => negb (below (sv_settings s) false (r_prim V) (r_pnorm V)) &&
    infeasibleb (sv_settings s) (w_data (sv_work s)) (w_scaling (sv_work s)) (w_delta_y (sv_work t1))) s)) as (s & s' & H & HT); [exact idata_readable|vm_compute; reflexivity|].
  destruct (test_at_ok _ _ _ HT) as (t & t1 & V & H1 & H2). apply andb_prop in H2. destruct H2 as (H2 & H3). apply negb_true_iff in H2. apply infeasibleb_ok in H3. exists s, s', t, t1, V. auto.
Qed.
Lemma f_found_dinf : exists s s' t t1 V, fcase (one (nofZ 0)) (one (nofZ 1)) [nofZ (-1)] [nofZ 0] [nlit 1 30] 1 1 fst0 OSQP_DUAL_INFEASIBLE s s' /\ tested 24 s t t1 V /\
  below (sv_settings s) false (r_dual V) (r_dnorm V) = false /\ certifies_unbounded (sv_settings s) (w_data (sv_work s)) (w_scaling (sv_work s)) (w_delta_x (sv_work t1)).
Proof.
  destruct (fcase_ok (one (nofZ 0)) (one (nofZ 1)) [nofZ (-1)] [nofZ 0] [nlit 1 30] 1 1 fst0 OSQP_DUAL_INFEASIBLE (fun s _ => test_at 24 (fun s t1 V => negb (below (sv_settings s) false (r_dual V) (r_dnorm V)) &&
    unboundedb (sv_settings s) (w_data (sv_work s)) (w_scaling (sv_work s)) (w_delta_x (sv_work t1))) s)) as (s & s' & H & HT); [apply one_readable|vm_compute; reflexivity|].
  destruct (test_at_ok _ _ _ HT) as (t & t1 & V & H1 & H2). apply andb_prop in H2. destruct H2 as (H2 & H3). apply negb_true_iff in H2. apply unboundedb_ok in H3. exists s, s', t, t1, V. auto.
Qed.
Lemma f_found_solved : exists s s' t t1 V, fcase fP fA fq fl fu 3 2 fst0 OSQP_SOLVED s s' /\ tested 24 s t t1 V /\ accepted (sv_settings s) 3 false V = true.
Proof.
  destruct (fcase_ok fP fA fq fl fu 3 2 fst0 OSQP_SOLVED (fun s _ => test_at 24 (fun s t1 V => accepted (sv_settings s) 3 false V) s)) as (s & s' & H & HT); [exact fdata_readable|vm_compute; reflexivity|].
  destruct (test_at_ok _ _ _ HT) as (t & t1 & V & H1 & H2). exists s, s', t, t1, V. auto.
Qed.
