(** Histories of calls of the public functions on one solver. *)
From Coq Require Import ZArith List Bool Lia String.
From Verif Require Import Num Arr ArrFacts Csc CscSpec CscFacts Vec Types Linsys Scaling Validate Auxil Polish Api
  VecFacts LinsysFacts Inv InvStep InvApi InvScale InvPolish RecSimp InvSolve ValidFacts InvUpd InvSetup.
Import ListNotations.
Open Scope Z_scope.
Local Open Scope opt_scope.

Section History.
  Context {K : NumOps}.
  Variable E : Env K.

  (** One call of a public function with its arguments. *)
  Inductive call :=
  | CSolve
  | CUpdVec (q l u : option (list K))
  | CUpdMat (Px : option (list K)) (Pidx : option (list Z)) (Pn : Z) (Ax : option (list K)) (Aidx : option (list Z)) (An : Z)
  | CUpdRho (rho : K)
  | CUpdSettings (new : option (settings K))
  | CWarm (x y : option (list K))
  | CCold
  | CGetSol (sol : option (solution K)).

  (** The call on a solver: exit code (0 for the void osqp_cold_start) and the solver afterwards. *)
  Definition run (c : call) (s : solver K) : option (Z * handle K) :=
    let h := HSolver s in
    match c with
    | CSolve => osqp_solve E h
    | CUpdVec q l u => osqp_update_data_vec E h q l u
    | CUpdMat Px Pidx Pn Ax Aidx An => osqp_update_data_mat E h Px Pidx Pn Ax Aidx An
    | CUpdRho rho => osqp_update_rho E h rho
    | CUpdSettings new => osqp_update_settings h new
    | CWarm x y => osqp_warm_start h x y
    | CCold => h' <- osqp_cold_start h ;; Some (0, h')
    | CGetSol sol => r <- osqp_get_solution h sol ;; Some (fst r)
    end.

  (** The arrays passed have the sizes the interface asks for. *)
  Definition args_ok (c : call) (s : solver K) : Prop :=
    let d := w_data (sv_work s) in
    match c with
    | CUpdVec q l u => vec_arg (d_n d) q /\ vec_arg (d_m d) l /\ vec_arg (d_m d) u
    | CUpdMat Px Pidx Pn Ax Aidx An => mat_arg (nnz (d_P d)) Pn Px Pidx /\ mat_arg (nnz (d_A d)) An Ax Aidx
    | CWarm x y => vec_arg (d_n d) x /\ vec_arg (d_m d) y
    | CGetSol (Some o) => solok (d_n d) (d_m d) o
    | _ => True
    end.

  (** States reachable from one successful setup. *)
  Inductive reach (s0 : solver K) : solver K -> Prop :=
  | reach_0 : reach s0 s0
  | reach_S : forall s c fl s', reach s0 s -> args_ok c s -> run c s = Some (fl, HSolver s') -> reach s0 s'.

  Hypothesis EO : env_ok E.
  Hypothesis MM : nltb (OSQP_RHO_MIN K) (OSQP_RHO_MAX K) = true.

  Lemma oks_restored (s s' : solver K) : oks s s' -> Inv s' /\ fr s s' /\ restored s s'.
  Proof. intros ((H1 & H2 & H3 & H4 & H5) & _). split; auto. split; auto. split; auto. Qed.
  Lemma ok_restored (s s' : solver K) : ok s s' -> Inv s' /\ fr s s' /\ restored s s'.
  Proof. intros (H1 & H2 & H3 & H4 & H5). split; auto. split; auto. split; auto. Qed.

  Theorem run_safe c s : Inv s -> args_ok c s ->
    safe (run c s) (fun r => exists s', snd r = HSolver s' /\ Inv s' /\ fr s s' /\ restored s s').
  Proof.
    intros HI HA. destruct c; cbn [run args_ok] in *; unfold osqp_solve, osqp_update_data_vec, osqp_update_data_mat, osqp_update_rho, osqp_warm_start, on_solver.
    - eapply safe_bind; [apply solve_safe; auto|]. intros [fl s'] H. apply safe_ret. exists s'. auto.
    - destruct HA as (H1 & H2 & H3). eapply safe_bind; [apply update_data_vec_safe; auto|]. intros [fl s'] H. apply safe_ret. exists s'. split; auto. apply oks_restored; auto.
    - destruct HA as (H1 & H2). eapply safe_bind; [apply update_data_mat_safe; auto|]. intros [fl s'] H. apply safe_ret. exists s'. split; auto. apply oks_restored; auto.
    - eapply safe_bind; [apply update_rho_safe; auto|]. intros [fl s'] [H _]. apply safe_ret. exists s'. split; auto. apply ok_restored; auto.
    - eapply safe_weaken; [apply update_settings_safe; auto|]. intros [fl h] (s' & H1 & H2 & _). exists s'. split; auto. apply oks_restored; auto.
    - destruct HA as (H1 & H2). eapply safe_bind; [apply warm_start_safe; auto|]. intros [fl s'] [H _]. apply safe_ret. exists s'. split; auto. apply oks_restored; auto.
    - eapply safe_bind; [apply cold_start_api_safe; auto|]. intros h (s' & -> & H & _). apply safe_ret. exists s'. split; auto. apply oks_restored; auto.
    - unfold osqp_get_solution. destruct sol as [o|].
      + eapply safe_bind; [eapply safe_bind; [apply (store_solution_safe s (Some o)); [auto|]|]|].
        { intros o' [= <-]. exact HA. }
        { intros r Hr. apply (safe_ret _ (fun r => exists s', snd (fst r) = HSolver s' /\ ok s s')). exists (fst r). split; auto. apply Hr. }
        intros r (s' & Es & HO). apply safe_ret. exists s'. split; auto. apply ok_restored; auto.
      + apply safe_ret. exists s. split; auto. apply ok_restored, ok_refl; auto.
  Qed.

  Theorem reach_inv s0 s : Inv s0 -> reach s0 s -> Inv s /\ fr s0 s /\ restored s0 s.
  Proof.
    intros HI HR. induction HR as [|s c fl s' HR IH HA HC].
    - apply ok_restored, ok_refl; auto.
    - destruct IH as (I1 & F1 & R1). destruct (run_safe c s I1 HA) as ([fl' h'] & E1 & s2 & E2 & I2 & F2 & R2). cbn [snd] in E2. subst h'.
      rewrite HC in E1. injection E1 as _ <-. split; auto. split; [eapply fr_trans; eauto|]. destruct R1, R2. split; congruence.
  Qed.
End History.
Arguments call K : clear implicits.
