(** The functions of one iteration, run side by side on two workspaces that agree on what matters: the same
    assignments are made to both. *)
From Coq Require Import ZArith List Bool Lia.
From Verif Require Import Num Arr ArrFacts Csc CscSpec CscFacts CscFacts2 Scatter CscFacts3 CscFacts5 Vec Types RecSimp Kkt Linsys Scaling Validate Auxil VecFacts LinsysFacts LinsysSolve Inv InvStep TwinKer.
Import ListNotations.
Open Scope Z_scope.
Local Open Scope opt_scope.

Section Step.
  Context {K : NumOps}.
  Variables E E' : Env K.
  Hypothesis ES : env_sim E E'.
  Hypothesis EO : env_ok E.
  Hypothesis EO' : env_ok E'.
  Hypothesis NZ : @neqb K n0 n0 = true.
  Variable st : settings K.
  Notation scd := (tr (st_scaling st)).
  Notation vec := (tr (st_rho_is_vec st)).

  (** The part the iterations do not change. *)
  Record ctw (w w' : work K) : Prop := {
    ct_d : w_data w' = w_data w;
    ct_ls : exists ls ls', w_linsys w = Some ls /\ w_linsys w' = Some ls' /\ lsim ls ls';
    ct_rv : w_rho_vec w' = w_rho_vec w;
    ct_riv : vec = true -> w_rho_inv_vec w' = w_rho_inv_vec w;
    ct_ct : vec = true -> w_constr_type w' = w_constr_type w;
    ct_ri : vec = false -> w_rho_inv w' = w_rho_inv w;
    ct_sc : scd = true -> w_scaling w' = w_scaling w }.

  Lemma ctw_core w w' v v' : ctw w w' -> core v = core w -> core v' = core w' -> ctw v v'.
  Proof.
    intros [] C C'. apply core_eq in C as (D1 & D2 & D3 & D4 & D5 & D6 & D7). apply core_eq in C' as (F1 & F2 & F3 & F4 & F5 & F6 & F7).
    constructor; rewrite ?D1, ?D2, ?D3, ?D4, ?D5, ?D6, ?D7, ?F1, ?F2, ?F3, ?F4, ?F5, ?F6, ?F7; auto.
  Qed.

  Lemma both_true {A B} (e : option A) (e' : option B) : both e e' (fun _ _ => True).
  Proof. intros a b _ _. auto. Qed.

  Ltac bb := eapply both_bind; [first [apply both_add_scaled | apply both_add_scaled3 | apply both_v1 | apply both_v2 | apply both_v3 | apply both_same]; rs; auto; try congruence|rs; let v := fresh "v" in intros v ? <-].

  Lemma rhs_both w w' : ctw w w' -> wok st w -> wok st w' -> w_x_prev w' = w_x_prev w -> w_z_prev w' = w_z_prev w -> w_y w' = w_y w ->
    both (compute_rhs st w) (compute_rhs st w') (fun a b => exists t, a = set_w_xz_tilde t w /\ b = set_w_xz_tilde t w').
  Proof.
    intros C W W' Hx Hz Hy. pose proof (ln_xz _ _ _ _ (wo_len _ _ W)) as L. pose proof (ln_xz _ _ _ _ (wo_len _ _ W')) as L'. destruct C. rewrite ct_d0 in L'.
    unfold compute_rhs, write_xtilde, write_ztilde, xtilde, ztilde. rewrite ct_d0, Hx.
    eapply both_bind; [apply both_true|]. intros o o' _. bb.
    eapply both_bind with (R := fun a b => exists t t', a = set_w_xz_tilde t w /\ b = set_w_xz_tilde t' w' /\
      view_write (w_xz_tilde w) 0 (d_n (w_data w)) v = Some t /\ view_write (w_xz_tilde w') 0 (d_n (w_data w)) v = Some t').
    { intros a b Ha Hb. destruct (view_write (w_xz_tilde w) _ _ _) as [t|]; [|discriminate]. destruct (view_write (w_xz_tilde w') _ _ _) as [t'|]; [|discriminate].
      injection Ha as <-. injection Hb as <-. exists t, t'. auto. }
    intros a b (t & t' & -> & -> & Ht & Ht'). rs. rewrite ct_d0, Hz, Hy. eapply both_bind; [apply both_true|]. clear o o'. intros o o' _.
    assert (Fin : forall z z', z' = z -> both (match view_write t (d_n (w_data w)) (d_m (w_data w)) z with Some t0 => Some (set_w_xz_tilde t0 (set_w_xz_tilde t w)) | None => None end)
        (match view_write t' (d_n (w_data w)) (d_m (w_data w)) z' with Some t0 => Some (set_w_xz_tilde t0 (set_w_xz_tilde t' w')) | None => None end)
        (fun a b => exists t0, a = set_w_xz_tilde t0 w /\ b = set_w_xz_tilde t0 w')).
    { intros z z' -> a b Ha Hb. destruct (view_write t _ _ z) as [u|] eqn:Eu; [|discriminate]. destruct (view_write t' _ _ z) as [u'|] eqn:Eu'; [|discriminate].
      injection Ha as <-. injection Hb as <-. exists u. assert (u' = u) as -> by (symmetry; exact (both_halves _ _ _ _ _ _ L L' _ _ _ _ Ht Ht' Eu Eu')). split; reflexivity. }
    destruct vec eqn:Ev.
    - rewrite (ct_riv0 eq_refl). bb. bb. bb. apply Fin; auto.
    - rewrite (ct_ri0 eq_refl). bb. apply Fin; auto.
  Qed.

  Lemma xz_both w w' : ctw w w' -> wok st w -> wok st w' -> w_x_prev w' = w_x_prev w -> w_z_prev w' = w_z_prev w -> w_y w' = w_y w ->
    both (update_xz_tilde E st w) (update_xz_tilde E' st w') (fun a b => exists t, a = set_w_xz_tilde t w /\ b = set_w_xz_tilde t w').
  Proof.
    intros C W W' Hx Hz Hy. unfold update_xz_tilde. eapply both_bind; [eapply both_safe; [apply rhs_both; auto|apply compute_rhs_safe; auto|apply compute_rhs_safe; auto]|].
    intros a b ((t & Ea & Eb) & Ka & Kb). pose proof (wok_keeps _ _ _ W Ka) as Wa. pose proof (wok_keeps _ _ _ W' Kb) as Wb.
    pose proof (ln_xz _ _ _ _ (wo_len _ _ Wa)) as L.
    destruct (wo_ls _ _ Wa) as (ls & r & El & LO & _). destruct (wo_ls _ _ Wb) as (ls' & r' & El' & LO' & _).
    subst a b. rs_in El. rs_in El'. rs_in LO. rs_in LO'. rs_in L. rs. destruct (ct_ls _ _ C) as (l1 & l2 & E1 & E2 & LS). rewrite El, El' in *. injection E1 as <-. injection E2 as <-.
    rewrite (ct_d _ _ C) in LO'. destruct (wo_d _ _ W).
    eapply both_bind; [refine (both_solve_linsys E E' ES EO EO' ls ls' _ _ _ _ _ t LS _ _ LO LO' _); auto; lia|]. intros v ? <-. apply both_ret. exists v. auto.
  Qed.

  Lemma x_both w w' : ctw w w' -> w_xz_tilde w' = w_xz_tilde w -> w_x_prev w' = w_x_prev w ->
    both (update_x st w) (update_x st w') (fun a b => exists x dx, a = set_w_delta_x dx (set_w_x x w) /\ b = set_w_delta_x dx (set_w_x x w')).
  Proof. intros C Hxz Hx. unfold update_x, xtilde. rewrite (ct_d _ _ C), Hxz, Hx. bb. bb. bb. apply both_ret. eauto. Qed.

  Lemma z_both w w' : ctw w w' -> w_xz_tilde w' = w_xz_tilde w -> w_z_prev w' = w_z_prev w -> w_y w' = w_y w ->
    both (update_z st w) (update_z st w') (fun a b => exists z, a = set_w_z z w /\ b = set_w_z z w').
  Proof.
    intros C Hxz Hz Hy. unfold update_z, ztilde. rewrite (ct_d _ _ C), Hxz, Hz, Hy. bb. eapply both_bind with (R := eq).
    - destruct vec eqn:Ev.
      + rewrite (ct_riv _ _ C Ev). bb. bb. apply both_add_scaled3; auto.
      + rewrite (ct_ri _ _ C Ev). apply both_add_scaled3; auto.
    - intros z ? <-. bb. apply both_ret. eauto.
  Qed.

  Lemma y_both w w' : ctw w w' -> w_xz_tilde w' = w_xz_tilde w -> w_z_prev w' = w_z_prev w -> w_y w' = w_y w -> w_z w' = w_z w ->
    both (update_y st w) (update_y st w') (fun a b => exists y dy, a = set_w_y y (set_w_delta_y dy w) /\ b = set_w_y y (set_w_delta_y dy w')).
  Proof.
    intros C Hxz Hzp Hy Hz. unfold update_y, ztilde. rewrite (ct_d _ _ C), Hxz, Hz, Hzp, (ct_rv _ _ C). bb. bb. bb. rewrite Hy. bb. apply both_ret. eauto.
  Qed.

  Ltac sc Cw := match goal with |- context [if unscaled_termination st then _ else _] => destruct (unscaled_termination st) eqn:Eu; [pose proof (uterm_scd st Eu) as Es; rewrite ?(ct_sc _ _ Cw Es)|] end.

  Lemma obj_both w w' x y : ctw w w' -> w_Px w' = w_Px w -> both (compute_obj_val_dual_gap st w x y) (compute_obj_val_dual_gap st w' x y)
    (fun a b => fst b = fst a /\ exists zp g q l s, snd a = set_w_xtPx q (set_w_qtx l (set_w_SC s (set_w_scaled_dual_gap g (set_w_z_prev zp w)))) /\
      snd b = set_w_xtPx q (set_w_qtx l (set_w_SC s (set_w_scaled_dual_gap g (set_w_z_prev zp w'))))).
  Proof.
    intros C HP. unfold compute_obj_val_dual_gap. rewrite (ct_d _ _ C), HP. bb. bb. bb. bb. bb. bb.
    eapply both_bind with (R := eq).
    - destruct scd eqn:Es; [rewrite (ct_sc _ _ C Es)|]; apply both_same; auto.
    - intros [[p dv] g] ? <-. apply both_ret. cbn [fst snd]. split; auto. do 5 eexists. split; reflexivity.
  Qed.

  Lemma prim_res_both w w' x z : ctw w w' -> wok st w -> wok st w' -> both (compute_prim_res st w x z) (compute_prim_res st w' x z)
    (fun a b => fst b = fst a /\ exists r zp Ax, snd a = set_w_scaled_prim_res r (set_w_z_prev zp (set_w_Ax Ax w)) /\ snd b = set_w_scaled_prim_res r (set_w_z_prev zp (set_w_Ax Ax w'))).
  Proof.
    intros C W W'. pose proof (ln_Ax _ _ _ _ (wo_len _ _ W)) as L. pose proof (ln_Ax _ _ _ _ (wo_len _ _ W')) as L'. pose proof (ct_d _ _ C) as Ed. destruct (wo_d _ _ W). rewrite Ed in L'.
    unfold compute_prim_res. rewrite Ed. eapply both_bind; [apply both_Axpy; auto; lia|]. intros Ax ? <-. bb. sc C.
    - bb. bb. apply both_ret. split; auto. do 3 eexists. split; reflexivity.
    - apply both_ret. split; auto. do 3 eexists. split; reflexivity.
  Qed.

  Lemma dual_res_both w w' x y : ctw w w' -> wok st w -> wok st w' -> (d_m (w_data w) = 0 -> w_Aty w' = w_Aty w) -> both (compute_dual_res st w x y) (compute_dual_res st w' x y)
    (fun a b => fst b = fst a /\ exists r xp Aty Px, snd a = set_w_scaled_dual_res r (set_w_x_prev xp (set_w_Aty Aty (set_w_Px Px w))) /\ snd b = set_w_scaled_dual_res r (set_w_x_prev xp (set_w_Aty Aty (set_w_Px Px w')))).
  Proof.
    intros C W W' HA. pose proof (ln_Px _ _ _ _ (wo_len _ _ W)) as L. pose proof (ln_Px _ _ _ _ (wo_len _ _ W')) as L'. pose proof (ct_d _ _ C) as Ed. destruct (wo_d _ _ W). destruct do_Pt as [Hsq _]. rewrite Ed in L'.
    pose proof (ln_Aty _ _ _ _ (wo_len _ _ W)) as M. pose proof (ln_Aty _ _ _ _ (wo_len _ _ W')) as M'. rewrite Ed in M'.
    unfold compute_dual_res. rewrite Ed. bb. eapply both_bind; [apply both_symv; auto; lia|]. intros Px ? <-. bb.
    eapply both_bind with (R := fun a b => fst b = fst a /\ exists Aty, snd a = set_w_Aty Aty (set_w_Px Px w) /\ snd b = set_w_Aty Aty (set_w_Px Px w')).
    { destruct (tr (d_m (w_data w))) eqn:Em.
      - eapply both_bind; [apply both_Atxpy; rs; auto; lia|]. intros Aty ? <-. bb. apply both_ret. split; auto. exists Aty. split; reflexivity.
      - apply both_ret. split; auto. exists (w_Aty w). split; [destruct w; reflexivity|]. rewrite <- HA; [destruct w'; reflexivity|]. unfold tr in Em. lia. }
    intros [r w1] [r' w1'] (H1 & Aty & H2 & H3). cbn [fst snd] in *. subst r' w1 w1'. rs. sc C.
    - bb. bb. apply both_ret. split; auto. do 4 eexists. split; reflexivity.
    - apply both_ret. split; auto. do 4 eexists. split; reflexivity.
  Qed.

  (** What the iterations read again later. *)
  Record tw (b c : Prop) (w w' : work K) : Prop := {
    tw_c : ctw w w';
    tw_x : w_x w' = w_x w; tw_y : w_y w' = w_y w; tw_z : w_z w' = w_z w;
    tw_m0 : d_m (w_data w) = 0 -> w_Aty w' = w_Aty w /\ w_scaled_prim_res w' = w_scaled_prim_res w;
    tw_b : b -> w_delta_x w' = w_delta_x w /\ w_delta_y w' = w_delta_y w;
    tw_Ax : c -> w_Ax w' = w_Ax w; tw_Px : c -> w_Px w' = w_Px w; tw_Aty : c -> w_Aty w' = w_Aty w;
    tw_t : c -> w_xtPx w' = w_xtPx w /\ w_qtx w' = w_qtx w /\ w_SC w' = w_SC w;
    tw_gap : c -> w_scaled_dual_gap w' = w_scaled_dual_gap w;
    tw_pr : c -> w_scaled_prim_res w' = w_scaled_prim_res w; tw_dr : c -> w_scaled_dual_res w' = w_scaled_dual_res w }.

  Lemma tw_mono (b c b' c' : Prop) w w' : tw b c w w' -> (b' -> b) -> (c' -> c) -> tw b' c' w w'.
  Proof. intros [] Hb Hc. constructor; auto. Qed.

  (** Fields the evaluation of the residuals leaves alone. *)
  Definition frm (w : work K) := (w_x w, w_y w, w_z w, w_pol w, w_rho_update_from_solve w, w_last_rel_kkt w, w_first_run w).
  (** The residuals of an iterate. *)
  Lemma res_both b c w w' x y z : tw b c w w' -> wok st w -> wok st w' -> zlen x = d_n (w_data w) -> zlen y = d_m (w_data w) -> zlen z = d_m (w_data w) ->
    both (residuals st w x y z) (residuals st w' x y z) (fun r r' => fst r' = fst r /\ tw b True (snd r) (snd r') /\
      frm (snd r) = frm w /\ frm (snd r') = frm w').
  Proof.
    intros T W W' Lx Ly Lz. pose proof (ct_d _ _ (tw_c _ _ _ _ T)) as Ed. unfold residuals. rewrite Ed.
    eapply both_bind with (R := fun r r' => fst r' = fst r /\ (core (snd r) = core w /\ core (snd r') = core w') /\ (wok st (snd r) /\ wok st (snd r')) /\
      exists pr zp Ax pr' zp' Ax', snd r = set_w_scaled_prim_res pr (set_w_z_prev zp (set_w_Ax Ax w)) /\ snd r' = set_w_scaled_prim_res pr' (set_w_z_prev zp' (set_w_Ax Ax' w')) /\ (pr' = pr) /\ (d_m (w_data w) <> 0 -> zp' = zp /\ Ax' = Ax)).
    { destruct (Z.eqb_spec (d_m (w_data w)) 0) as [E0|E0].
      - apply both_ret. cbn [fst snd]. split; auto. split; auto. split; auto.
        exists (w_scaled_prim_res w), (w_z_prev w), (w_Ax w), (w_scaled_prim_res w'), (w_z_prev w'), (w_Ax w'). split; [destruct w; reflexivity|]. split; [destruct w'; reflexivity|].
        split; [apply (tw_m0 _ _ _ _ T E0)|]. intros; lia.
      - eapply both_weaken; [eapply both_safe; [apply prim_res_both; auto; apply (tw_c _ _ _ _ T)|apply prim_res_safe; auto|apply prim_res_safe; auto; congruence]|].
        intros a b0 ((F & r & zp & Ax & Ha & Hb) & Ka & Kb). split; auto. split; [split; [apply Ka|apply Kb]|]. split; [exact (conj (wok_keeps _ _ _ W Ka) (wok_keeps _ _ _ W' Kb))|].
        exists r, zp, Ax, r, zp, Ax. auto 10. }
    intros [pr w1] [pr' w1'] (F1 & (C1 & C1') & (W1 & W1') & r1 & zp & Ax & r1' & zp' & Ax' & H1 & H1' & H2 & H3). cbn [fst snd] in *. subst pr' r1'.
    assert (Cw1 : ctw w1 w1') by (eapply ctw_core; [apply (tw_c _ _ _ _ T)|auto|auto]).
    assert (Ed1 : w_data w1 = w_data w) by (apply core_eq in C1; tauto). assert (Ed1' : w_data w1' = w_data w') by (apply core_eq in C1'; tauto).
    eapply both_bind; [eapply both_safe; [apply dual_res_both; auto; rewrite Ed1; intros Hm; subst w1 w1'; rs; apply (tw_m0 _ _ _ _ T Hm)|apply dual_res_safe; auto; congruence|apply dual_res_safe; auto; congruence]|].
    intros [dr w2] [dr' w2'] ((F2 & r2 & xp & Aty & Px & H4 & H4') & K2 & K2'). cbn [fst snd] in *. subst dr'.
    assert (Cw2 : ctw w2 w2') by (eapply ctw_core; [exact Cw1|apply K2|apply K2']).
    pose proof (wok_keeps _ _ _ W1 K2) as W2. pose proof (wok_keeps _ _ _ W1' K2') as W2'. pose proof (core_eq _ _ (proj1 K2)) as (Ed2 & _). pose proof (core_eq _ _ (proj1 K2')) as (Ed2' & _).
    eapply both_bind; [eapply both_safe; [apply obj_both; auto; subst w2 w2'; reflexivity|apply obj_safe; auto; congruence|apply obj_safe; auto; congruence]|].
    intros [pdg w3] [pdg' w3'] ((F3 & zq & g & q & l & s & H5 & H5') & K3 & K3'). cbn [fst snd] in *. subst pdg'.
    assert (Cw3 : ctw w3 w3') by (eapply ctw_core; [exact Cw2|apply K3|apply K3']).
    assert (Ed3 : w_data w3 = w_data w) by (pose proof (core_eq _ _ (proj1 K3)) as (? & _); congruence).
    destruct pdg as [[p dv] gp]. apply both_ret. cbn [fst snd]. split; [reflexivity|]. split.
    - assert (Lax : d_m (w_data w) = 0 -> Ax = [] /\ Ax' = []).
      { intros Hm. pose proof (ln_Ax _ _ _ _ (wo_len _ _ W1)) as La. pose proof (ln_Ax _ _ _ _ (wo_len _ _ W1')) as La'. rewrite Ed1, Hm in La. rewrite Ed1', Ed, Hm in La'. subst w1 w1'. rs_in La. rs_in La'.
        destruct Ax; [|unfold zlen in La; cbn in La; lia]. destruct Ax'; [|unfold zlen in La'; cbn in La'; lia]. auto. }
      destruct T. constructor; auto; try (subst w3 w3' w2 w2' w1 w1'; rs; now auto).
      + subst w3 w3' w2 w2' w1 w1'; rs. intros _. destruct (Z.eq_dec (d_m (w_data w)) 0) as [Hm|Hm]; [destruct (Lax Hm); congruence|apply H3; auto].
    - subst w3 w3' w2 w2' w1 w1'. unfold frm. rs. auto.
  Qed.
End Step.
