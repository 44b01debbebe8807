(** A run in binary64 arithmetic that meets the hypotheses of call_mat_full in a scaled solver.  Not a model of any file. *)
From Coq Require Import ZArith List Bool Lia String SpecFloat.
From Verif Require Import Num Arr ArrFacts Csc CscSpec CscFacts CscExamples Vec Types Linsys Scaling Validate Auxil Polish Api LinsysFacts Inv InvApi ValidFacts InvUpd InvSetup History ExEnv Runs SetupClaims MachineSpec MachineClaims MachineEx MachineCalls CallsEx MachineMat.
Import ListNotations.
Open Scope Z_scope.

Definition newP : option (list F64) := Some [nofZ 5; nofZ 3].
Definition newA : option (list F64) := Some [nofZ 1; nofZ 2; nofZ 1; nofZ 1].
(** The problem back in the user's units with the new entries, and whether osqp_setup takes it. *)
Definition taken (s : solver F64) : bool :=
  match unscale_data (sv_work s) with
  | Some w1 => match csc_update_values (d_P (w_data w1)) [nofZ 5; nofZ 3] (Some [0; 2]) 2, csc_update_values (d_A (w_data w1)) [nofZ 1; nofZ 2; nofZ 1; nofZ 1] None 4 with
    | Some P1, Some A1 => match osqp_setup fE g0 (Some P1) (Some (d_q (w_data w1))) (Some A1) (Some (d_l (w_data w1))) (Some (d_u (w_data w1))) 3 2 (Some fst0) with Some (0, Some _, _) => true | _ => false end
    | _, _ => false end
  | None => false end.
Lemma f_mat_scaled : exists s W d P1 A1 t g', there fP fA fq fl fu 3 2 fst0 s /\ solved_here s = true /\
  mat_arg (nnz (d_P (D s))) 2 newP (Some [0; 2]) /\ mat_arg (nnz (d_A (D s))) 0 newA None /\ mat_code 0 2 s = true /\
  SC s = Some W /\ back_scaled W (D s) d /\ entries_after (d_P d) P1 newP (Some [0; 2]) 2 /\ entries_after (d_A d) A1 newA None 0 /\
  osqp_setup fE g0 (Some P1) (Some (d_q d)) (Some A1) (Some (d_l d)) (Some (d_u d)) 3 2 (Some fst0) = Some (0, Some t, g').
Proof.
  destruct (there_ok fP fA fq fl fu 3 2 fst0 [CSolve] [0] (fun s => (nnz (d_P (D s)) =? 3) && (nnz (d_A (D s)) =? 4) && (solved_here s && mat_code 0 2 s && taken s))) as (s & H1 & H2);
    [exact fdata_readable|reflexivity|vm_compute; reflexivity|].
  apply andb_prop in H2. destruct H2 as (H2 & H3). apply andb_prop in H2. destruct H2 as (H2 & H4). apply Z.eqb_eq in H2. apply Z.eqb_eq in H4.
  apply andb_prop in H3. destruct H3 as (H3 & H5). apply andb_prop in H3. destruct H3 as (H3 & H6).
  assert (M1 : mat_arg 3 2 newP (Some [0; 2])).
  { intros _. cbv zeta. replace (2 =? 0) with false by reflexivity. split; [intros v [= <-]; cbn; lia|]. intros e [= <-]. split; [cbn; lia|]. intros j Hj. assert (Hc : j = 0 \/ j = 1) by lia. destruct Hc as [->| ->]; (split; [vm_compute; discriminate|reflexivity]). }
  assert (M2 : mat_arg 4 0 newA None) by (intros _; cbv zeta; replace (0 =? 0) with true by reflexivity; split; [intros v [= <-]; cbn; lia|discriminate]).
  pose proof (the_inv fE fE_ok MM_F64 _ _ _ _ _ _ _ _ _ H1) as HI. pose proof (wo_d _ _ (iv_w _ HI)) as DO.
  assert (Hs : is_scaled s = true) by (apply andb_prop in H3; apply H3). destruct (wo_sc _ _ (iv_w _ HI) Hs) as (W & HW & WO).
  unfold taken in H5. destruct (unscale_data (sv_work s)) as [w1|] eqn:E1; [|discriminate H5].
  destruct (unscale_numbers _ _ W DO HW WO E1) as (BK & _).
  destruct (csc_update_values (d_P (w_data w1)) _ _ _) as [P1|] eqn:E2 in H5; [|discriminate H5]. destruct (csc_update_values (d_A (w_data w1)) _ _ _) as [A1|] eqn:E3 in H5; [|discriminate H5].
  destruct (osqp_setup _ _ _ _ _ _ _ _ _ _) as [[[[| |] [t|]] g']|] eqn:E4 in H5; try discriminate H5.
  pose proof (bk_P _ _ _ BK) as (SP & _). pose proof (bk_A _ _ _ BK) as (SA & _). pose proof (same_pat_wf _ _ SP (do_P _ DO)) as WP. pose proof (same_pat_wf _ _ SA (do_A _ DO)) as WA.
  pose proof (same_pat_nnz _ _ SP) as NP. pose proof (same_pat_nnz _ _ SA) as NA. rewrite H2 in NP. rewrite H4 in NA.
  exists s, W, (w_data w1), P1, A1, t, g'. split; [exact H1|]. split; [exact H3|]. split; [rewrite H2; exact M1|]. split; [rewrite H4; exact M2|]. split; [exact H6|]. split; [exact HW|]. split; [exact BK|].
  split; [|split; [|exact E4]].
  - eapply values_after; [exact WP|lia|reflexivity|rewrite NP; exact M1|exact E2].
  - eapply values_after; [exact WA|lia|reflexivity|rewrite NA; exact M2|]. rewrite NA. exact E3.
Qed.
