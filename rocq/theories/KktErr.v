(** The relative KKT error of the information, in the parts of osqp_solve after its main loop, for every number system. *)
From Coq Require Import ZArith List Bool Lia String.
From Verif Require Import Num Arr ArrFacts Csc CscSpec CscFacts CscFacts2 Scatter Vec Types Kkt Linsys Scaling Validate Auxil Polish Api
  VecFacts LinsysFacts LinsysSolve Inv InvStep InvApi InvScale InvPolish InvSolve RecSimp Frame FrameSolve Mid Trace PassFacts SolveEnd.
Import ListNotations.
Open Scope Z_scope.
Local Open Scope opt_scope.

Section KktErr.
  Context {K : NumOps}.
  Variable E : Env K.
  Notation stat s := (i_status_val (sv_info s)).

  (** The larger of two numbers, written as the C comparison does: the second unless the first is greater. *)
  Definition greater (a b : K) : K := if nltb b a then a else b.
  (** The error is the largest of the two residuals and the (signed) gap that stand beside it (auxil.c:757). *)
  Definition error_shown (i : info K) : Prop :=
    i_rel_kkt_error i = greater (greater (i_dual_res i) (i_prim_res i)) (i_duality_gap i).
  (** The values the error is made of, and the error. *)
  Definition res4 (i : info K) := (i_prim_res i, i_dual_res i, i_duality_gap i, i_rel_kkt_error i).

  Lemma polish_error (s : solver K) : post (polish E s) (fun r => let s' := snd r in
    (i_status_polish (sv_info s') = OSQP_POLISH_SUCCESS -> error_shown (sv_info s')) /\
    (i_status_polish (sv_info s') <> OSQP_POLISH_SUCCESS -> i_status_polish (sv_info s') <> OSQP_POLISH_FAILED -> res4 (sv_info s') = res4 (sv_info s)) /\
    i_rho_estimate (sv_info s') = i_rho_estimate (sv_info s)).
  Proof.
    unfold polish. walk1. walk1. rs. destruct (_ =? 0).
    { apply post_ret. cbn [snd]. rs. split; [discriminate|split; reflexivity]. }
    walk1. walk1. destruct o as [plsh|].
    2:{ apply post_ret. cbn [snd]. rs. split; [discriminate|split; reflexivity]. }
    do 11 (apply post_bind; intros ? ?).
    eapply post_bindP with (P := fun s1 => i_rel_kkt_error (sv_info s1) = greater (greater (p_dual_res (w_pol (sv_work s1))) (p_prim_res (w_pol (sv_work s1)))) (p_duality_gap (w_pol (sv_work s1))) /\
      i_rho_estimate (sv_info s1) = i_rho_estimate (sv_info s)).
    { unfold update_info_polish. apply post_bind. intros [[[[[pr dr] p0] dv] g] w] _. unfold toc. apply post_ret. rs. split; reflexivity. }
    intros s1 (HP & HQ). destruct (polish_successful _ _).
    - do 3 walk1. apply post_ret. cbn [snd]. rs. split; [intros _; unfold error_shown; rs; exact HP|split; [intros []; reflexivity|exact HQ]].
    - apply post_ret. cbn [snd]. rs. split; [discriminate|split; [intros _ []; reflexivity|exact HQ]].
  Qed.

  (** Polishing was tried and its point was not taken. *)
  Definition rejected (s : solver K) : Prop :=
    tr (st_polishing (sv_settings s)) = true /\ stat s = OSQP_SOLVED /\ i_status_polish (sv_info s) = OSQP_POLISH_FAILED.
  (** What the end of the solve does to the error: e is the state before polishing. *)
  Definition error_kept (e s' : solver K) : Prop :=
    (polished s' -> error_shown (sv_info s')) /\
    (~ polished s' -> ~ rejected s' -> res4 (sv_info s') = res4 (sv_info e)) /\
    i_rho_estimate (sv_info s') = compute_rho_estimate (sv_settings e) (sv_work e) /\ sv_settings s' = sv_settings e.

  Lemma finish_error (t : solver K) it f : post (finish_solve E t it f) (fun r => forall e, conclude E t it f = Some e -> error_kept e (snd r)).
  Proof.
    unfold finish_solve, conclude. destruct (final_check E t it f) as [s1|]; [|apply post_none]. cbv beta iota.
    destruct (final_objective s1) as [s2|]; [|apply post_none]. cbv beta iota.
    set (s3 := if _ && _ then _ else s2). clearbody s3. cbv zeta. destruct (final_status s3) as [e|] eqn:Ee; [|apply post_none].
    unfold toc. set (s5 := set_sv_info _ (set_sv_world _ _)).
    assert (F5 : sv_settings s5 = sv_settings e /\ stat s5 = stat e /\ res4 (sv_info s5) = res4 (sv_info e) /\ i_rho_estimate (sv_info s5) = compute_rho_estimate (sv_settings e) (sv_work e)) by (repeat split; reflexivity).
    clearbody s5. destruct F5 as (Fa & Fd & Fe & Fr).
    eapply post_bindP with (P := fun r => error_kept e (snd r)).
    { destruct (tr (st_polishing (sv_settings s5)) && _) eqn:EC.
      - apply andb_true_iff in EC as [EC1 EC2]. apply Z.eqb_eq in EC2.
        eapply post_bindP; [apply post_and; [apply polish_error|apply polish_post]|]. intros [fl s6] ((H6 & H7 & H8) & B1 & _ & _ & _ & _ & B6 & _). cbn [fst snd] in *. unfold push_sec in H7, H8, B1, B6. rs_in H7. rs_in H8. rs_in B1. rs_in B6.
        unfold pop_sec. cbn [snd]. destruct (g_sections _); [apply post_none|]. cbn. apply post_ret. cbn [fst snd]. split; [|split; [|rs; split; congruence]].
        + intros (_ & _ & HP). apply H6. exact HP.
        + intros HN HJ. rewrite <- Fe. apply H7; intros HX; [apply HN|apply HJ]; unfold polished, rejected; rs; rewrite B1, B6; auto.
      - apply post_ret; cbn [fst snd]. split; [|split; [auto|split; [exact Fr|exact Fa]]]. intros (X1 & X2 & _). apply Z.eqb_eq in X2. rewrite X1, X2 in EC. discriminate. }
    intros [fl s6] (A6 & B6 & R6 & T6). cbn [fst snd] in *. destruct (0 <? fl) eqn:Ef.
    { eapply post_weaken; [apply solve_exit_eq|]. cbv beta zeta. intros r (B1 & B2 & B3 & B4 & B5) e' [= <-]. unfold error_kept, polished, rejected in *. rewrite B2, B3. auto 10. }
    destruct (store_solution (finish_times s6) (sv_solution (finish_times s6))) as [r|] eqn:Er; [|apply post_none].
    eapply post_weaken; [apply solve_exit_eq|]. cbv beta zeta. intros r' (B1 & B2 & B3 & B4 & B5) e' [= <-]. rs_in B2. rs_in B3.
    destruct (store_solution_post _ _ _ Er) as (S1 & S2). unfold error_kept, polished, rejected in *. rewrite B2, B3.
    assert (HI : sv_info (fst r) = sv_info (finish_times s6)) by (decompose [and] S2; congruence). rewrite HI, S1.
    assert (HF : sv_settings (finish_times s6) = sv_settings s6 /\ stat (finish_times s6) = stat s6 /\ i_status_polish (sv_info (finish_times s6)) = i_status_polish (sv_info s6) /\ res4 (sv_info (finish_times s6)) = res4 (sv_info s6)).
    { unfold finish_times. repeat match goal with |- context [if ?b then _ else _] => destruct b end; repeat split; reflexivity. }
    destruct HF as (H1 & H2 & H3 & H4). rewrite H1, H2, H3, H4. split; [intros HP; exact (A6 HP)|split; [exact B6|split; [exact R6|exact T6]]].
  Qed.
End KktErr.
