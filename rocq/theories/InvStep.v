(** The steps of the algorithm (Auxil.v) stay within their arrays and preserve the invariant. *)
From Coq Require Import ZArith List Bool Lia String.
From Verif Require Import Num Arr ArrFacts Csc CscSpec CscFacts Scatter Vec Types Kkt Linsys Scaling Validate Auxil
  VecFacts LinsysFacts LinsysSolve Inv RecSimp.
Import ListNotations.
Open Scope Z_scope.

Ltac leaf :=
  first
  [ apply safe_v1 | apply safe_v2 | apply safe_v3 | apply safe_view | apply safe_view_write | apply safe_add_scaled
  | apply safe_add_scaled3 | apply safe_dot | apply safe_dot_signed | apply safe_scaled_norm | apply safe_all_leq
  | apply safe_in_reccone | apply safe_Axpy | apply safe_Atxpy | apply safe_symv | apply safe_to_raw | apply safe_from_raw
  | apply safe_lmult | apply safe_rmult | apply safe_mscale | apply safe_col_norm | apply safe_row_norm ].
(** Side conditions on sizes. *)
Ltac size := rs; unfold vf_mult_scalar, vf_set_scalar, vf_round_to_zero, vf_ew_sqrt; rewrite ?zlen_map; first [assumption | lia | solve [auto]].
Ltac bind := eapply safe_bind; [leaf; size|rs; intros ? ?].
Ltac lens_tac := constructor; size.

Section Steps.
  Context {K : NumOps}.
  Variable E : Env K.
  Hypothesis EO : env_ok E.
  Variable st : settings K.
  Notation vec := (tr (st_rho_is_vec st)).
  Notation scd := (tr (st_scaling st)).

  (** What the steps of an iteration keep. *)
  Definition keeps (w w' : work K) : Prop :=
    core w' = core w /\ lens (d_n (w_data w)) (d_m (w_data w)) scd w'.

  Lemma wok_keeps w w' : wok st w -> keeps w w' -> wok st w'.
  Proof. intros H [H1 H2]. eapply wok_core; eauto. Qed.
  Lemma keeps_trans w1 w2 w3 : keeps w1 w2 -> keeps w2 w3 -> keeps w1 w3.
  Proof. intros [A1 B1] [A2 B2]. pose proof (core_eq _ _ A1) as (Ed & _). rewrite Ed in B2. split; auto. congruence. Qed.
  Lemma keeps_refl w : wok st w -> keeps w w.
  Proof. intros H. split; auto. apply H. Qed.

  Ltac start w H := pose proof H as HW; destruct H as [Hd Hsc Hrho Hls Hlen]; destruct Hd, Hlen.

  Lemma rho_vecs w : wok st w -> vec = true -> exists ct, w_constr_type w = Some ct /\ zlen ct = d_m (w_data w) /\
    w_rho_vec w = Some (map (rho_of (st_rho st)) ct) /\ w_rho_inv_vec w = Some (map (fun t => ndiv n1 (rho_of (st_rho st) t)) ct).
  Proof. intros H Hv. pose proof (wo_rho _ _ H) as HR. unfold rho_ok in HR. rewrite Hv in HR. auto. Qed.

  Lemma swap_safe w : wok st w -> keeps w (swap_iterates w).
  Proof. intros H. start w H. split; auto. lens_tac. Qed.


  Lemma write_xtilde_safe (v : list K) w : dok (w_data w) -> zlen (w_xz_tilde w) = d_n (w_data w) + d_m (w_data w) -> zlen v = d_n (w_data w) ->
    safe (write_xtilde v w) (fun w' => exists t, w' = set_w_xz_tilde t w /\ zlen t = d_n (w_data w) + d_m (w_data w)).
  Proof. intros [] H1 H2. unfold write_xtilde. bind. apply safe_ret. eexists; split; [reflexivity|lia]. Qed.
  Lemma write_ztilde_safe (v : list K) w : dok (w_data w) -> zlen (w_xz_tilde w) = d_n (w_data w) + d_m (w_data w) -> zlen v = d_m (w_data w) ->
    safe (write_ztilde v w) (fun w' => exists t, w' = set_w_xz_tilde t w /\ zlen t = d_n (w_data w) + d_m (w_data w)).
  Proof. intros [] H1 H2. unfold write_ztilde. bind. apply safe_ret. eexists; split; [reflexivity|lia]. Qed.

  Lemma compute_rhs_safe w : wok st w -> safe (compute_rhs st w) (keeps w).
  Proof.
    intros H. pose proof (wo_d _ _ H) as Hdok. start w H. unfold compute_rhs, xtilde, ztilde. rs.
    bind. bind. eapply safe_bind; [apply write_xtilde_safe; size|]. intros w1 (t & -> & Ht). rs.
    bind. destruct vec eqn:Ev.
    - destruct (rho_vecs w HW Ev) as (ct & E1 & E2 & E3 & E4). rs. rewrite E4. bind. bind.
      eapply safe_weaken; [apply write_ztilde_safe; size|]. intros w2 (t2 & -> & Ht2). rs_in Ht2. split; auto. lens_tac.
    - bind. eapply safe_weaken; [apply write_ztilde_safe; size|]. intros w2 (t2 & -> & Ht2). rs_in Ht2. split; auto. lens_tac.
  Qed.

  Lemma update_xz_tilde_safe w : wok st w -> safe (update_xz_tilde E st w) (keeps w).
  Proof.
    intros H. unfold update_xz_tilde. eapply safe_bind; [apply compute_rhs_safe; auto|]. intros w1 HK.
    pose proof (wok_keeps _ _ H HK) as H1. destruct (wo_ls _ _ H1) as (ls & r & El & LO & _). rewrite El.
    pose proof H1 as H2. start w1 H1.
    destruct (solve_linsys_spec E EO ls (d_P (w_data w1)) (d_A (w_data w1)) (st_sigma st) r (w_xz_tilde w1)) as (bp & b' & _ & _ & -> & Lb & _); auto; [lia|].
    apply safe_ret. eapply keeps_trans; [exact HK|]. split; auto. lens_tac.
  Qed.

  Lemma update_x_safe w : wok st w -> safe (update_x st w) (keeps w).
  Proof.
    intros H. start w H. unfold update_x, xtilde. bind. bind. bind. apply safe_ret. split; auto. lens_tac.
  Qed.

  Lemma update_z_safe w : wok st w -> safe (update_z st w) (keeps w).
  Proof.
    intros H. start w H. unfold update_z, ztilde. bind.
    eapply safe_bind with (P := fun z => zlen z = d_m (w_data w)).
    - destruct vec eqn:Ev.
      + destruct (rho_vecs w HW Ev) as (ct & E1 & E2 & E3 & E4). rewrite E4. bind.
        eapply safe_weaken; [leaf; size|]. cbv beta. intros; lia.
      + eapply safe_weaken; [leaf; size|]. cbv beta. intros; lia.
    - intros z Hz. bind. apply safe_ret. split; auto. lens_tac.
  Qed.

  Lemma update_y_safe w : wok st w -> safe (update_y st w) (keeps w).
  Proof.
    intros H. start w H. unfold update_y, ztilde. bind. bind.
    eapply safe_bind with (P := fun z => zlen z = d_m (w_data w)).
    - destruct vec eqn:Ev.
      + destruct (rho_vecs w HW Ev) as (ct & E1 & E2 & E3 & E4). rewrite E3.
        eapply safe_weaken; [leaf; size|]. cbv beta. intros; lia.
      + apply safe_ret. size.
    - intros dy Hdy. bind. apply safe_ret. split; auto. lens_tac.
  Qed.

  Lemma scal w : wok st w -> scd = true -> exists sc, w_scaling w = Some sc /\ scok (d_n (w_data w)) (d_m (w_data w)) sc.
  Proof. intros H. apply (wo_sc _ _ H). Qed.
  Lemma uterm_scd : unscaled_termination st = true -> scd = true.
  Proof. unfold unscaled_termination. intros H. apply andb_true_iff in H. tauto. Qed.

  Ltac getsc w HW Hs sc := destruct (scal w HW Hs) as (sc & Esc & [? ? ? ?]).

  Lemma obj_safe w x y : wok st w -> zlen x = d_n (w_data w) -> zlen y = d_m (w_data w) ->
    safe (compute_obj_val_dual_gap st w x y) (fun r => keeps w (snd r)).
  Proof.
    intros H Hx Hy. start w H. unfold compute_obj_val_dual_gap. bind. bind. bind. bind. rs. bind. bind.
    eapply safe_bind with (P := fun _ => True).
    - destruct scd eqn:Es; [|apply safe_ret; auto]. getsc w HW Es sc. rewrite Esc. apply safe_ret; auto.
    - intros [[p dv] g] _. apply safe_ret. cbn [snd]. split; auto. lens_tac.
  Qed.

  Lemma gap_tol_safe w ea er : wok st w -> safe (compute_duality_gap_tol st w ea er) (fun _ => True).
  Proof.
    intros H. unfold compute_duality_gap_tol. eapply safe_bind with (P := fun _ => True); [|intros; apply safe_ret; auto].
    destruct (unscaled_termination st) eqn:Eu; [|apply safe_ret; auto]. apply uterm_scd in Eu. getsc w H Eu sc. rewrite Esc. apply safe_ret; auto.
  Qed.

  Lemma prim_res_safe w x z : wok st w -> zlen x = d_n (w_data w) -> zlen z = d_m (w_data w) ->
    safe (compute_prim_res st w x z) (fun r => keeps w (snd r)).
  Proof.
    intros H Hx Hz. start w H. unfold compute_prim_res. bind. bind.
    destruct (unscaled_termination st) eqn:Eu.
    - apply uterm_scd in Eu. getsc w HW Eu sc. rewrite Esc. bind. apply safe_ret. cbn [snd]. split; auto. lens_tac.
    - apply safe_ret. cbn [snd]. split; auto. lens_tac.
  Qed.

  Lemma prim_tol_safe w ea er : wok st w -> safe (compute_prim_tol st w ea er) (fun _ => True).
  Proof.
    intros H. unfold compute_prim_tol. eapply safe_bind with (P := fun _ => True); [|intros; apply safe_ret; auto].
    destruct (unscaled_termination st) eqn:Eu; [|apply safe_ret; auto]. apply uterm_scd in Eu. getsc w H Eu sc. rewrite Esc.
    start w H. bind. bind. apply safe_ret; auto.
  Qed.

  Lemma dual_res_safe w x y : wok st w -> zlen x = d_n (w_data w) -> zlen y = d_m (w_data w) ->
    safe (compute_dual_res st w x y) (fun r => keeps w (snd r)).
  Proof.
    intros H Hx Hy. start w H. destruct do_Pt as (Hsq & Htri). unfold compute_dual_res. bind. bind. bind.
    eapply safe_bind with (P := fun r => zlen (fst r) = d_n (w_data w) /\ keeps w (snd r)).
    - destruct (tr (d_m (w_data w))).
      + bind. bind. apply safe_ret. split; [cbn [fst]; lia|]. split; auto. cbn [snd]. lens_tac.
      + apply safe_ret. split; [cbn [fst]; lia|]. split; auto. cbn [snd]. lens_tac.
    - intros [r1 w1] (L1 & HK). cbn [fst snd] in *. pose proof (wok_keeps _ _ HW HK) as Hw1.
      pose proof (core_eq _ _ (proj1 HK)) as (Ed & _ & _ & _ & _ & Es & _).
      assert (HK2 : keeps w (set_w_scaled_dual_res (vf_norm_inf r1) (set_w_x_prev r1 w1))).
      { destruct HK as [C1 L]. split; [exact C1|]. destruct L. lens_tac. }
      destruct (unscaled_termination st) eqn:Eu.
      + apply uterm_scd in Eu. getsc w HW Eu sc. rs. rewrite Es, Esc. bind. apply safe_ret. exact HK2.
      + apply safe_ret. exact HK2.
  Qed.

  Lemma dual_tol_safe w ea er : wok st w -> safe (compute_dual_tol st w ea er) (fun _ => True).
  Proof.
    intros H. unfold compute_dual_tol. eapply safe_bind with (P := fun _ => True); [|intros; apply safe_ret; auto].
    destruct (unscaled_termination st) eqn:Eu; [|apply safe_ret; auto]. apply uterm_scd in Eu. getsc w H Eu sc. rewrite Esc.
    start w H. bind. bind. bind. apply safe_ret; auto.
  Qed.

  Lemma prim_inf_safe w e : wok st w -> safe (is_primal_infeasible st w e) (fun r => keeps w (snd r)).
  Proof.
    intros H. start w H. unfold is_primal_infeasible. bind.
    eapply safe_bind with (P := fun r => keeps w (snd r) /\ w_Atdelta_y (snd r) = w_Atdelta_y w).
    - destruct (unscaled_termination st) eqn:Eu.
      + apply uterm_scd in Eu. getsc w HW Eu sc. rs. rewrite Esc. bind. apply safe_ret. cbn [snd]. rs. split; [|reflexivity]. split; auto. lens_tac.
      + apply safe_ret. cbn [snd]. rs. split; [|reflexivity]. split; auto. lens_tac.
    - intros [nd w1] (HK & EA). cbn [fst snd] in *. pose proof (core_eq _ _ (proj1 HK)) as (Ed & _ & _ & _ & _ & Es & _).
      destruct (nd >? OSQP_DIVISION_TOL K)%num; [|apply safe_ret; auto]. bind. bind.
      destruct (_ <? _)%num; [|apply safe_ret; auto]. rewrite EA. bind.
      eapply safe_bind with (P := fun t => zlen t = d_n (w_data w)).
      + destruct (unscaled_termination st) eqn:Eu; [|apply safe_ret; lia].
        apply uterm_scd in Eu. getsc w HW Eu sc. rewrite Es, Esc. eapply safe_weaken; [leaf; size|]. cbv beta; intros; lia.
      + intros t Ht. apply safe_ret. cbn [snd]. destruct HK as [C1 L]. split; [exact C1|]. destruct L. lens_tac.
  Qed.

  Lemma dual_inf_safe w e : wok st w -> safe (is_dual_infeasible st w e) (fun r => keeps w (snd r)).
  Proof.
    intros H. start w H. destruct do_Pt as (Hsq & Htri). unfold is_dual_infeasible.
    eapply safe_bind with (P := fun _ => True).
    - destruct (unscaled_termination st) eqn:Eu; [|apply safe_ret; auto].
      apply uterm_scd in Eu. getsc w HW Eu sc. rewrite Esc. bind. apply safe_ret. auto.
    - intros [nd cs] _. pose proof (keeps_refl w HW) as HKr.
      destruct (nd >? OSQP_DIVISION_TOL K)%num; [|apply safe_ret; auto]. bind.
      destruct (_ <? _)%num; [|apply safe_ret; auto]. bind.
      eapply safe_bind with (P := fun t => zlen t = d_n (w_data w)).
      { destruct (unscaled_termination st) eqn:Eu; [|apply safe_ret; lia].
        apply uterm_scd in Eu. getsc w HW Eu sc. rewrite Esc. eapply safe_weaken; [leaf; size|]. cbv beta; intros; lia. }
      intros t Ht. assert (HK1 : keeps w (set_w_Pdelta_x t w)) by (split; auto; lens_tac).
      destruct (_ <? _)%num; [|apply safe_ret; auto]. bind.
      eapply safe_bind with (P := fun t => zlen t = d_m (w_data w)).
      { destruct (unscaled_termination st) eqn:Eu; [|apply safe_ret; lia].
        apply uterm_scd in Eu. getsc w HW Eu sc. rs. rewrite Esc. eapply safe_weaken; [leaf; size|]. cbv beta; intros; lia. }
      intros t2 Ht2. bind. apply safe_ret. cbn [snd]. split; auto. lens_tac.
  Qed.

  Lemma residuals_safe w x y z : wok st w -> zlen x = d_n (w_data w) -> zlen y = d_m (w_data w) -> zlen z = d_m (w_data w) ->
    safe (residuals st w x y z) (fun r => keeps w (snd r)).
  Proof.
    intros H Hx Hy Hz. unfold residuals.
    eapply safe_bind with (P := fun r => keeps w (snd r)).
    - destruct (d_m (w_data w) =? 0); [apply safe_ret; apply keeps_refl; auto|apply prim_res_safe; auto].
    - intros [pr w1] HK1. cbn [snd] in *. pose proof (wok_keeps _ _ H HK1) as H1. pose proof (core_eq _ _ (proj1 HK1)) as (Ed1 & _).
      eapply safe_bind; [apply dual_res_safe; rewrite ?Ed1; auto|]. intros [dr w2] HK2. cbn [snd] in *.
      pose proof (wok_keeps _ _ H1 HK2) as H2. pose proof (core_eq _ _ (proj1 HK2)) as (Ed2 & _).
      eapply safe_bind; [apply obj_safe; rewrite ?Ed2, ?Ed1; auto|]. intros [[[p dv] g] w3] HK3. cbn [snd] in *.
      apply safe_ret. cbn [snd]. eapply keeps_trans; [exact HK1|]. eapply keeps_trans; eauto.
  Qed.

  Lemma cold_start_safe w : wok st w -> safe (cold_start w) (keeps w).
  Proof.
    intros H. destruct (wo_ls _ _ H) as (ls & r & El & _). unfold cold_start. rewrite El. apply safe_ret.
    unfold vf_set_scalar. start w H. split; auto. lens_tac.
  Qed.
End Steps.
