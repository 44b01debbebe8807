(** What each step leaves unchanged, for every number system (partial correctness: if the step ends normally). *)
From Coq Require Import ZArith List Bool Lia String.
From Verif Require Import Num Arr ArrFacts Csc Vec Types Linsys Scaling Validate Auxil Polish Api Inv InvApi RecSimp.
Import ListNotations.
Open Scope Z_scope.

(** [post e Q]: every result of e satisfies Q. *)
Definition post {A} (e : option A) (Q : A -> Prop) : Prop := forall a, e = Some a -> Q a.
Lemma post_ret {A} (a : A) (Q : A -> Prop) : Q a -> post (Some a) Q.
Proof. intros H b [= <-]. auto. Qed.
Lemma post_none {A} (Q : A -> Prop) : post None Q.
Proof. intros b H. discriminate. Qed.
Lemma post_bind {A B} (e : option A) (k : A -> option B) (Q : B -> Prop) :
  (forall a, e = Some a -> post (k a) Q) -> post (match e with Some a => k a | None => None end) Q.
Proof. intros H b Hb. destruct e as [a|]; [|discriminate]. exact (H a eq_refl b Hb). Qed.
Lemma post_bindP {A B} (e : option A) (k : A -> option B) (P : A -> Prop) (Q : B -> Prop) :
  post e P -> (forall a, P a -> post (k a) Q) -> post (match e with Some a => k a | None => None end) Q.
Proof. intros HP H b Hb. destruct e as [a|]; [|discriminate]. exact (H a (HP a eq_refl) b Hb). Qed.
Lemma post_weaken {A} (e : option A) (P Q : A -> Prop) : post e P -> (forall a, P a -> Q a) -> post e Q.
Proof. intros H1 H2 a E. auto. Qed.
Lemma safe_post {A} (e : option A) (P Q : A -> Prop) : safe e P -> post e Q -> safe e (fun a => P a /\ Q a).
Proof. intros (a & E & HP) HQ. exists a. auto. Qed.
Lemma post_safe {A} (e : option A) (P : A -> Prop) : safe e P -> post e P.
Proof. intros (a & E & HP) b Hb. rewrite E in Hb. injection Hb as <-. auto. Qed.

Ltac walk1 := match goal with
  | |- post (Some _) _ => apply post_ret
  | |- post None _ => apply post_none
  | |- post (match ?e with Some _ => _ | None => None end) _ => apply post_bind; intros ? ?
  | |- post (if ?b then _ else _) _ => let H := fresh "Hb" in destruct b eqn:H
  | |- post (let '(_, _) := ?p in _) _ => let H := fresh "Hp" in destruct p eqn:H
  | |- post (match ?e with _ => _ end) _ => let H := fresh "Hm" in destruct e eqn:H
  end.
Ltac walk := repeat (walk1; rs; cbv beta zeta; cbn [fst snd]).

Section Frame.
  Context {K : NumOps}.
  Variable E : Env K.

  (** What an iteration keeps: problem, linear system solver, rho, scaling and the flags of the interface. *)
  Definition fixed (w : work K) :=
    (core w, w_first_run w, w_clear_update_time w, w_rho_update_from_solve w, w_last_rel_kkt w, w_rho_updated w).
  Definition iter3 (w : work K) := (w_x w, w_y w, w_z w).
  Definition deltas (w : work K) := (w_delta_x w, w_delta_y w).
  Definition prods (w : work K) := (w_Ax w, w_Px w, w_Aty w).

  Ltac fin := unfold fixed, core, iter3, deltas, prods; rs; auto.

  Lemma write_xtilde_post v (w : work K) : post (write_xtilde v w) (fun w' => exists t, w' = set_w_xz_tilde t w).
  Proof. unfold write_xtilde. walk. eauto. Qed.
  Lemma write_ztilde_post v (w : work K) : post (write_ztilde v w) (fun w' => exists t, w' = set_w_xz_tilde t w).
  Proof. unfold write_ztilde. walk. eauto. Qed.
  Lemma compute_rhs_post st (w : work K) : post (compute_rhs st w) (fun w' => exists t, w' = set_w_xz_tilde t w).
  Proof.
    unfold compute_rhs. do 2 walk1. eapply post_bindP; [apply write_xtilde_post|]. intros w1 (t & ->). walk1.
    destruct (tr _); [do 3 walk1|walk1];
      (eapply post_weaken; [apply write_ztilde_post|]; intros w2 (t2 & ->); exists t2; destruct w; reflexivity).
  Qed.
  Lemma update_xz_tilde_post st (w : work K) : post (update_xz_tilde E st w) (fun w' => exists t, w' = set_w_xz_tilde t w).
  Proof.
    unfold update_xz_tilde. eapply post_bindP; [apply compute_rhs_post|]. intros w1 (t & ->). walk. eexists. destruct w; reflexivity.
  Qed.
  Lemma update_x_post st (w : work K) : post (update_x st w) (fun w' => exists x dx, w' = set_w_delta_x dx (set_w_x x w)).
  Proof. unfold update_x. walk. eexists _, _; destruct w; reflexivity. Qed.
  Lemma update_z_post st (w : work K) : post (update_z st w) (fun w' => exists z, w' = set_w_z z w).
  Proof. unfold update_z. walk; eexists; destruct w; reflexivity. Qed.
  Lemma update_y_post st (w : work K) : post (update_y st w) (fun w' => exists y dy, w' = set_w_y y (set_w_delta_y dy w)).
  Proof. unfold update_y. walk; eexists _, _; destruct w; reflexivity. Qed.

  Lemma admm_step_post (s : solver K) : post (admm_step E s) (fun s' =>
    sv_settings s' = sv_settings s /\ sv_info s' = sv_info s /\ sv_solution s' = sv_solution s /\ sv_world s' = sv_world s /\
    fixed (sv_work s') = fixed (sv_work s) /\ w_pol (sv_work s') = w_pol (sv_work s) /\ w_summary_printed (sv_work s') = w_summary_printed (sv_work s) /\
    w_x_prev (sv_work s') = w_x (sv_work s) /\ w_z_prev (sv_work s') = w_z (sv_work s) /\ prods (sv_work s') = prods (sv_work s)).
  Proof.
    unfold admm_step, push_sec, pop_sec. rs.
    eapply post_bindP; [apply update_xz_tilde_post|]. intros w1 (t & ->). rs.
    eapply post_bindP; [apply update_x_post|]. intros w2 (x & dx & ->). rs.
    eapply post_bindP; [apply update_z_post|]. intros w3 (z & ->). rs.
    eapply post_bindP; [apply update_y_post|]. intros w4 (y & dy & ->). rs.
    apply post_ret. rs. repeat (split; [try reflexivity; try (destruct s as [? ? ? ? []]; reflexivity)|]); reflexivity.
  Qed.

  (** The workspace apart from the scratch vectors used for residuals. *)
  Lemma obj_post st (w : work K) x y : post (compute_obj_val_dual_gap st w x y) (fun r => let w' := snd r in
    fixed w' = fixed w /\ iter3 w' = iter3 w /\ deltas w' = deltas w /\ prods w' = prods w /\ w_pol w' = w_pol w /\
    w_summary_printed w' = w_summary_printed w /\ w_x_prev w' = w_x_prev w /\ w_scaled_prim_res w' = w_scaled_prim_res w /\ w_scaled_dual_res w' = w_scaled_dual_res w).
  Proof. unfold compute_obj_val_dual_gap. walk; repeat split; fin. Qed.
  Lemma prim_res_post st (w : work K) x z : post (compute_prim_res st w x z) (fun r => let w' := snd r in
    fixed w' = fixed w /\ iter3 w' = iter3 w /\ deltas w' = deltas w /\ w_Px w' = w_Px w /\ w_Aty w' = w_Aty w /\ w_pol w' = w_pol w /\
    w_summary_printed w' = w_summary_printed w /\ w_x_prev w' = w_x_prev w /\ w_scaled_dual_res w' = w_scaled_dual_res w).
  Proof. unfold compute_prim_res. walk; repeat split; fin. Qed.
  Lemma dual_res_post st (w : work K) x y : post (compute_dual_res st w x y) (fun r => let w' := snd r in
    fixed w' = fixed w /\ iter3 w' = iter3 w /\ deltas w' = deltas w /\ w_Ax w' = w_Ax w /\ w_pol w' = w_pol w /\
    w_summary_printed w' = w_summary_printed w /\ w_z_prev w' = w_z_prev w /\ w_scaled_prim_res w' = w_scaled_prim_res w).
  Proof.
    unfold compute_dual_res. do 3 walk1. rs. apply post_bindP with (P := fun rw => exists Aty, snd rw = set_w_Aty Aty (set_w_Px a0 w)).
    - destruct (tr _); walk; eexists; destruct w; reflexivity.
    - intros [r w1] [Aty HH]. cbn [snd] in HH. subst w1. walk; repeat split; fin.
  Qed.
  Lemma prim_inf_post st (w : work K) e : post (is_primal_infeasible st w e) (fun r => let w' := snd r in
    fixed w' = fixed w /\ iter3 w' = iter3 w /\ prods w' = prods w /\ w_delta_x w' = w_delta_x w /\ w_pol w' = w_pol w /\
    w_summary_printed w' = w_summary_printed w /\ w_z_prev w' = w_z_prev w /\ w_x_prev w' = w_x_prev w /\
    w_scaled_prim_res w' = w_scaled_prim_res w /\ w_scaled_dual_res w' = w_scaled_dual_res w /\ w_scaled_dual_gap w' = w_scaled_dual_gap w /\
    w_xtPx w' = w_xtPx w /\ w_qtx w' = w_qtx w /\ w_SC w' = w_SC w).
  Proof.
    unfold is_primal_infeasible. walk1. rs. apply post_bindP with (P := fun r => exists t, snd r = set_w_Adelta_x t (set_w_delta_y a w)).
    - destruct (unscaled_termination st); walk; [eexists; destruct w; reflexivity|exists (w_Adelta_x w); destruct w; reflexivity].
    - intros [nd w1] [t HH]. cbn [snd] in HH. subst w1. walk; repeat split; fin.
  Qed.
  Lemma dual_inf_post st (w : work K) e : post (is_dual_infeasible st w e) (fun r => let w' := snd r in
    fixed w' = fixed w /\ iter3 w' = iter3 w /\ prods w' = prods w /\ deltas w' = deltas w /\ w_pol w' = w_pol w /\
    w_summary_printed w' = w_summary_printed w /\ w_z_prev w' = w_z_prev w /\ w_x_prev w' = w_x_prev w /\
    w_scaled_prim_res w' = w_scaled_prim_res w /\ w_scaled_dual_res w' = w_scaled_dual_res w /\ w_scaled_dual_gap w' = w_scaled_dual_gap w /\
    w_xtPx w' = w_xtPx w /\ w_qtx w' = w_qtx w /\ w_SC w' = w_SC w).
  Proof.
    unfold is_dual_infeasible. walk1. rs. walk; repeat split; fin.
  Qed.

  Lemma residuals_post st (w : work K) x y z : post (residuals st w x y z) (fun r => let w' := snd r in
    fixed w' = fixed w /\ iter3 w' = iter3 w /\ deltas w' = deltas w /\ w_pol w' = w_pol w /\ w_summary_printed w' = w_summary_printed w).
  Proof.
    unfold residuals. eapply post_bindP with (P := fun r => let w' := snd r in
      fixed w' = fixed w /\ iter3 w' = iter3 w /\ deltas w' = deltas w /\ w_pol w' = w_pol w /\ w_summary_printed w' = w_summary_printed w).
    { destruct (_ =? 0); [apply post_ret; repeat split; auto|]. eapply post_weaken; [apply prim_res_post|]. cbv beta zeta. intros r H. decompose [and] H. auto 10. }
    intros [pr w1] (A1 & A2 & A3 & A4 & A5). cbn [snd] in *.
    eapply post_bindP; [apply dual_res_post|]. intros [dr w2] (B1 & B2 & B3 & B4 & B5 & B6 & _). cbn [snd] in *.
    eapply post_bindP; [apply obj_post|]. intros [[[p dv] g] w3] (C1 & C2 & C3 & C4 & C5 & C6 & _). cbn [snd] in *.
    apply post_ret. cbn [snd]. repeat split; congruence.
  Qed.

  (** The information that residuals, termination tests and polishing do not change. *)
  Definition ifix (i : info K) :=
    (i_setup_time i, i_update_time i, i_run_time i, i_rho_updates i, i_rho_estimate i).

  Lemma update_info_post (s : solver K) iter : post (update_info E s iter) (fun s' =>
    sv_settings s' = sv_settings s /\ sv_solution s' = sv_solution s /\ fixed (sv_work s') = fixed (sv_work s) /\ iter3 (sv_work s') = iter3 (sv_work s) /\
    deltas (sv_work s') = deltas (sv_work s) /\ w_pol (sv_work s') = w_pol (sv_work s) /\
    ifix (sv_info s') = ifix (sv_info s) /\ i_status_val (sv_info s') = i_status_val (sv_info s) /\ i_status (sv_info s') = i_status (sv_info s) /\
    i_iter (sv_info s') = iter /\ i_polish_time (sv_info s') = i_polish_time (sv_info s) /\ i_status_polish (sv_info s') = i_status_polish (sv_info s)).
  Proof.
    unfold update_info, toc. rs. eapply post_bindP; [apply residuals_post|]. intros [[[[[pr dr] p] dv] g] w1] (A1 & A2 & A3 & A4 & A5). cbn [snd] in *.
    apply post_ret. rs. repeat (split; [solve [auto|exact A1|exact A2]|]). auto.
  Qed.
  Lemma update_info_polish_post (s : solver K) : post (update_info_polish E s) (fun s' =>
    sv_settings s' = sv_settings s /\ sv_solution s' = sv_solution s /\ fixed (sv_work s') = fixed (sv_work s) /\ iter3 (sv_work s') = iter3 (sv_work s) /\
    deltas (sv_work s') = deltas (sv_work s) /\ ifix (sv_info s') = ifix (sv_info s) /\ i_status_val (sv_info s') = i_status_val (sv_info s) /\
    i_iter (sv_info s') = i_iter (sv_info s) /\ i_prim_res (sv_info s') = i_prim_res (sv_info s) /\ i_dual_res (sv_info s') = i_dual_res (sv_info s) /\
    p_x (w_pol (sv_work s')) = p_x (w_pol (sv_work s)) /\ p_y (w_pol (sv_work s')) = p_y (w_pol (sv_work s)) /\ p_z (w_pol (sv_work s')) = p_z (w_pol (sv_work s)) /\
    i_obj_val (sv_info s') = i_obj_val (sv_info s) /\ i_dual_obj_val (sv_info s') = i_dual_obj_val (sv_info s) /\ i_duality_gap (sv_info s') = i_duality_gap (sv_info s)).
  Proof.
    unfold update_info_polish, toc. rs. eapply post_bindP; [apply residuals_post|]. intros [[[[[pr dr] p] dv] g] w1] (A1 & A2 & A3 & A4 & A5). cbn [snd] in *.
    apply post_ret. rs. rewrite A4. repeat (split; [solve [auto|exact A1|exact A2]|]). auto.
  Qed.

  Lemma update_status_post (i : info K) v : post (update_status i v) (fun i' => exists msg, zget OSQP_STATUS_MESSAGE v = Some msg /\ i' = set_i_status msg (set_i_status_val v i)).
  Proof. unfold update_status. walk. eauto. Qed.

  Lemma check_termination_post (s : solver K) ap : post (check_termination s ap) (fun r => let s' := snd r in
    sv_settings s' = sv_settings s /\ sv_solution s' = sv_solution s /\ sv_world s' = sv_world s /\ fixed (sv_work s') = fixed (sv_work s) /\ iter3 (sv_work s') = iter3 (sv_work s) /\
    w_pol (sv_work s') = w_pol (sv_work s) /\ w_summary_printed (sv_work s') = w_summary_printed (sv_work s) /\
    prods (sv_work s') = prods (sv_work s) /\
    ifix (sv_info s') = ifix (sv_info s) /\ i_iter (sv_info s') = i_iter (sv_info s) /\ i_prim_res (sv_info s') = i_prim_res (sv_info s) /\
    i_dual_res (sv_info s') = i_dual_res (sv_info s) /\ i_duality_gap (sv_info s') = i_duality_gap (sv_info s) /\ i_polish_time (sv_info s') = i_polish_time (sv_info s) /\
    i_solve_time (sv_info s') = i_solve_time (sv_info s) /\ i_status_polish (sv_info s') = i_status_polish (sv_info s) /\
    i_rel_kkt_error (sv_info s') = i_rel_kkt_error (sv_info s) /\ i_primdual_int (sv_info s') = i_primdual_int (sv_info s) /\
    (fst r = false -> sv_info s' = sv_info s)).
  Proof.
    unfold check_termination. destruct (_ || _).
    { eapply post_bindP; [apply update_status_post|]. intros i (msg & _ & ->). apply post_ret. cbn [fst snd]. rs. unfold ifix; rs. repeat (split; [auto|]). discriminate. }
    eapply post_bindP with (P := fun r => let w' := snd r in fixed w' = fixed (sv_work s) /\ iter3 w' = iter3 (sv_work s) /\ prods w' = prods (sv_work s) /\
      w_pol w' = w_pol (sv_work s) /\ w_summary_printed w' = w_summary_printed (sv_work s)).
    { destruct (_ =? 0); [apply post_ret; repeat split; auto|]. apply post_bind. intros tol _. destruct (nltb _ _); [apply post_ret; repeat split; auto|].
      eapply post_bindP; [apply prim_inf_post|]. intros [b w1] H. apply post_ret. cbn [snd] in *. decompose [and] H. auto 10. }
    intros [[c1 c2] w1] (A1 & A2 & A3 & A4 & A5). cbn [snd] in *. apply post_bind. intros ed _.
    eapply post_bindP with (P := fun r => let w' := snd r in fixed w' = fixed (sv_work s) /\ iter3 w' = iter3 (sv_work s) /\ prods w' = prods (sv_work s) /\
      w_pol w' = w_pol (sv_work s) /\ w_summary_printed w' = w_summary_printed (sv_work s)).
    { destruct (nltb _ _); [apply post_ret; cbn [snd]; repeat split; congruence|].
      eapply post_bindP; [apply dual_inf_post|]. intros [b w2] (B1 & B2 & B3 & B4 & B5 & B6 & _). apply post_ret. cbn [snd] in *. repeat split; congruence. }
    intros [[c3 c4] w2] (B1 & B2 & B3 & B4 & B5). cbn [snd] in *. apply post_bind. intros gc _.
    destruct (_ && _ && _).
    { eapply post_bindP; [apply update_status_post|]. intros i (msg & _ & ->). apply post_ret. cbn [fst snd]. unfold ifix; rs. repeat (split; [auto|]). discriminate. }
    destruct c2.
    { eapply post_bindP; [apply update_status_post|]. intros i (msg & _ & ->). apply post_bind. intros dy _. apply post_ret. cbn [fst snd]. unfold ifix; rs. 
      repeat (split; [solve [auto|exact B1|exact B2|exact B3]|]). discriminate. }
    destruct c4.
    { eapply post_bindP; [apply update_status_post|]. intros i (msg & _ & ->). apply post_bind. intros dy _. apply post_ret. cbn [fst snd]. unfold ifix; rs. 
      repeat (split; [solve [auto|exact B1|exact B2|exact B3]|]). discriminate. }
    apply post_ret. cbn [fst snd]. unfold ifix; rs. repeat (split; [auto|]). auto.
  Qed.
End Frame.
