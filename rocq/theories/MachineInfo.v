(** update_info leaves a reading of the current iterate, in every number system. *)
From Coq Require Import ZArith List Bool Lia String.
From Verif Require Import Num Arr ArrFacts Csc CscSpec CscFacts CscFacts2 Scatter Vec Types Kkt Linsys Scaling Validate Auxil Polish Api
  VecFacts LinsysFacts LinsysSolve Inv InvStep InvApi InvScale InvPolish InvSolve RecSimp Frame FrameSolve Mid Trace PassFacts SolveEnd KktErr AtyFacts MachineSpec MachineTerm.
Import ListNotations.
Open Scope Z_scope.
Local Open Scope opt_scope.

Section MachineInfo.
  Context {K : NumOps}.
  Variable E : Env K.
  Variable st : settings K.
  Notation users := (negb (st_scaling st =? 0) && (st_scaled_termination st =? 0)).
  Notation scaled := (negb (st_scaling st =? 0)).

  (** With no constraints the vector that holds A'y is a vector of zeros. *)
  Definition aty_zero (w : work K) : Prop := d_m (w_data w) = 0 -> Forall (eq n0) (w_Aty w).

  Lemma prim_res_machine (w : work K) x z : post (compute_prim_res st w x z) (fun r => let '(pr, w') := r in (exists b, csc_Axpy (d_A (w_data w)) x b n1 n0 = Some (w_Ax w')) /\ w_scaled_prim_res w' = largest (zip (fun p q => nsub p q) (w_Ax w') z) /\
    forall W, (users = true -> w_scaling w = Some W) -> pr = (let v := zip (fun p q => nsub p q) (w_Ax w') z in if users then largest (times (sc_Einv W) v) else largest v)).
  Proof.
    unfold compute_prim_res. apply post_bind. intros ax Ea. cbv zeta. apply post_bind. intros zp Ez. apply v2_inv in Ez as (-> & _). rs. rewrite ut_users. destruct users.
    - apply post_bind. intros sc Es. apply post_bind. intros r Er. apply scaled_norm_inv in Er. apply post_ret. rs. split; [eauto|]. split; [reflexivity|]. intros W HW. rewrite (HW eq_refl) in Es. injection Es as <-. exact Er.
    - apply post_ret. rs. split; [eauto|]. split; reflexivity.
  Qed.
  Lemma dual_res_machine (w : work K) x y : post (compute_dual_res st w x y) (fun r => let '(dr, w') := r in (exists b, csc_Axpy_sym_triu (d_P (w_data w)) x b n1 n0 = Some (w_Px w')) /\
    (d_m (w_data w) <> 0 -> exists b, csc_Atxpy (d_A (w_data w)) y b n1 n0 = Some (w_Aty w')) /\ (d_m (w_data w) = 0 -> w_Aty w' = w_Aty w) /\
    (d_m (w_data w) <> 0 -> w_scaled_dual_res w' = largest (zip (fun p q => nadd p q) (zip (fun p q => nadd p q) (d_q (w_data w)) (w_Px w')) (w_Aty w'))) /\
    forall W, (users = true -> w_scaling w = Some W) ->
      dr = (let v := if d_m (w_data w) =? 0 then zip (fun p q => nadd p q) (d_q (w_data w)) (w_Px w') else zip (fun p q => nadd p q) (zip (fun p q => nadd p q) (d_q (w_data w)) (w_Px w')) (w_Aty w') in
            if users then nmul (sc_cinv W) (largest (times (sc_Dinv W) v)) else largest v)).
  Proof.
    unfold compute_dual_res. cbv zeta. apply post_bind. intros r0 Er0. apply v1_inv in Er0 as (Er0 & _). rewrite map_id in Er0. subst r0. apply post_bind. intros px Ep. apply post_bind. intros r1 Er1. apply v2_inv in Er1 as (-> & _). rs.
    eapply post_bindP with (P := fun rw => let '(v, w1) := rw in w_Px w1 = px /\ w_scaling w1 = w_scaling w /\ (d_m (w_data w) <> 0 -> exists b, csc_Atxpy (d_A (w_data w)) y b n1 n0 = Some (w_Aty w1)) /\ (d_m (w_data w) = 0 -> w_Aty w1 = w_Aty w) /\
      v = (if d_m (w_data w) =? 0 then zip (fun p q => nadd p q) (d_q (w_data w)) px else zip (fun p q => nadd p q) (zip (fun p q => nadd p q) (d_q (w_data w)) px) (w_Aty w1))).
    { unfold tr. destruct (Z.eqb_spec (d_m (w_data w)) 0) as [Em|Em]; cbn [negb].
      - apply post_ret. rs. repeat (split; [solve [auto|congruence]|]). reflexivity.
      - apply post_bind. intros aty Ea. rs_in Ea. apply post_bind. intros v Ev. apply v2_inv in Ev as (-> & _). apply post_ret. rs. repeat (split; [solve [eauto|congruence]|]). reflexivity. }
    intros [v w1] (H1 & HS & H2 & H3 & H4).
    assert (H5 : v = (if d_m (w_data w) =? 0 then zip (fun p q => nadd p q) (d_q (w_data w)) px else zip (fun p q => nadd p q) (zip (fun p q => nadd p q) (d_q (w_data w)) px) (w_Aty w1)) ->
      d_m (w_data w) <> 0 -> vf_norm_inf v = largest (zip (fun p q => nadd p q) (zip (fun p q => nadd p q) (d_q (w_data w)) px) (w_Aty w1))).
    { intros -> Hm. destruct (Z.eqb_spec (d_m (w_data w)) 0) as [Em|_]; [contradiction|reflexivity]. }
    rewrite ut_users. rs. destruct users.
    - apply post_bind. intros sc Es. apply post_bind. intros t Et. apply scaled_norm_inv in Et. apply post_ret. rs. rewrite H1. split; [eauto|]. split; [auto|]. split; [auto|]. split; [exact (H5 H4)|]. intros W HW. rewrite HS, (HW eq_refl) in Es. injection Es as <-. rewrite <- H4, <- Et. reflexivity.
    - apply post_ret. rs. rewrite H1. split; [eauto|]. split; [auto|]. split; [auto|]. split; [exact (H5 H4)|]. intros _ _. rewrite <- H4. reflexivity.
  Qed.

  Definition values (i : info K) (V : reading) : Prop := i_obj_val i = r_obj V /\ i_dual_obj_val i = r_dobj V.

  Lemma residuals_machine (w : work K) : aty_zero w -> post (residuals st w (w_x w) (w_y w) (w_z w)) (fun r => let '(pr, dr, p, dv, g, w3) := r in
    exists W V, (forall i, i_prim_res i = pr -> i_dual_res i = dr -> i_duality_gap i = g -> i_rel_kkt_error i = greater (greater dr pr) g -> cur st w3 i W V) /\ p = r_obj V /\ dv = r_dobj V).
  Proof.
    intros HA. unfold residuals.
    eapply post_bindP with (P := fun r => let '(pr, w1) := r in fixed w1 = fixed w /\ iter3 w1 = iter3 w /\ w_Aty w1 = w_Aty w /\ (d_m (w_data w) <> 0 -> exists b, csc_Axpy (d_A (w_data w)) (w_x w) b n1 n0 = Some (w_Ax w1)) /\ (d_m (w_data w) <> 0 -> w_scaled_prim_res w1 = largest (zip (fun p q => nsub p q) (w_Ax w1) (w_z w))) /\
      forall W, (users = true -> w_scaling w = Some W) -> pr = (if d_m (w_data w) =? 0 then n0 else let v := zip (fun p q => nsub p q) (w_Ax w1) (w_z w) in if users then largest (times (sc_Einv W) v) else largest v)).
    { destruct (Z.eqb_spec (d_m (w_data w)) 0) as [Em|Em].
      - apply post_ret. repeat (split; [solve [auto|intros; lia]|]). auto.
      - eapply post_weaken; [apply post_and; [apply prim_res_post|apply prim_res_machine]|]. cbv beta zeta. intros [pr w1] (HP & HM). cbn [snd] in HP. decompose [and] HP. destruct HM as (HM1 & HM2 & HM3). repeat (split; [solve [auto|tauto]|]). exact HM3. }
    intros [pr w1] (F1 & X1 & A1 & MA & MSP & MP).
    assert (D1 : w_data w1 = w_data w) by (apply fx_data; auto).
    assert (S1 : w_scaling w1 = w_scaling w) by (apply fixed_core, core_eq in F1 as (_ & _ & _ & _ & _ & ? & _); auto).
    eapply post_bindP; [apply post_and; [apply dual_res_post|apply dual_res_machine]|]. cbv beta zeta. intros [dr w2] ((F2 & X2 & _ & AX2 & _ & _ & _ & SP2) & MB & MC & MD & MSD & ME). cbn [snd] in F2, X2, AX2, SP2.
    assert (D2 : w_data w2 = w_data w) by (apply fx_data in F2; congruence).
    assert (S2 : w_scaling w2 = w_scaling w) by (apply fixed_core, core_eq in F2 as (_ & _ & _ & _ & _ & ? & _); congruence).
    rewrite D1 in MB, MC, MD, MSD, ME. rewrite S1 in ME.
    eapply post_bindP; [apply post_and; [apply obj_post|apply obj_machine]|]. cbv beta zeta. intros [[[p dv] g] w3] ((F3 & X3 & _ & P3 & _ & _ & _ & SP3 & SD3) & MO). cbn [snd] in F3, X3, P3, SP3, SD3. unfold obj_ok in MO.
    destruct MO as ((W & MW & Mp & Md & Mg) & Mq & Ml & Ms & Mgap).
    assert (D3 : w_data w3 = w_data w) by (apply fx_data in F3; congruence).
    assert (S3 : w_scaling w3 = w_scaling w) by (apply fixed_core, core_eq in F3 as (_ & _ & _ & _ & _ & ? & _); congruence).
    unfold iter3 in X1, X2, X3. injection X1 as X1a X1b X1c. injection X2 as X2a X2b X2c. injection X3 as X3a X3b X3c. unfold prods in P3. injection P3 as P3a P3b P3c.
    rewrite D2 in *. rewrite S2 in *.
    assert (HU : users = true -> w_scaling w = Some W) by (intros HU; apply MW; apply (users_scaled st HU)).
    specialize (ME W HU). specialize (MP W HU).
    apply post_ret. exists W, (reading_of st (w_data w) W (w_x w) (w_y w) (w_z w) (w_Ax w3) (w_Px w3) (w_Aty w3)).
    split; [|split; [rewrite Mp|rewrite Md]; unfold reading_of; cbn [r_obj r_dobj]; rewrite ?P3a, ?P3b, ?P3c; reflexivity].
    assert (XX : w_x w3 = w_x w) by congruence. assert (YY : w_y w3 = w_y w) by congruence. assert (ZZ : w_z w3 = w_z w) by congruence.
    intros i Hp Hd Hg He. constructor; rewrite ?D3, ?S3, ?XX, ?YY, ?ZZ; auto.
    - rewrite P3a, AX2. exact MA.
    - rewrite P3b. exact MB.
    - rewrite P3c. exact MC.
    - intros Hm. rewrite P3c, (MD Hm), A1. apply HA. exact Hm.
    - rewrite Hp, MP. unfold reading_of. cbn [r_prim]. rewrite P3a, AX2. reflexivity.
    - rewrite Hd, ME. unfold reading_of. cbn [r_dual]. rewrite P3b, P3c. destruct users; reflexivity.
    - rewrite Hg, Mg. unfold reading_of. cbn [r_rgap]. rewrite P3b. reflexivity.
    - unfold error_shown. rewrite Hp, Hd, Hg. exact He.
    - intros Hm. rewrite SP3, SP2, P3a, AX2. exact (MSP Hm).
    - intros Hm. rewrite SD3, P3b, P3c. exact (MSD Hm).
    - rewrite Mq, P3b. reflexivity.
    - rewrite Mgap, Mq, Ml, Ms. reflexivity.
  Qed.

  Lemma update_info_machine (s : solver K) k : sv_settings s = st -> aty_zero (sv_work s) ->
    post (update_info E s k) (fun s' => exists W V, cur st (sv_work s') (sv_info s') W V /\ values (sv_info s') V).
  Proof.
    intros Hst HA. unfold update_info. rs. rewrite Hst. eapply post_bindP; [apply residuals_machine; exact HA|].
    intros [[[[[pr dr] p] dv] g] w3] (W & V & HC & Hp & Hd). unfold toc. apply post_ret. rs. exists W, V. split; [|split; [exact Hp|exact Hd]].
    specialize (HC (set_i_rel_kkt_error (greater (greater dr pr) g) (set_i_prim_res pr (set_i_dual_res dr (set_i_duality_gap g (sv_info s))))) eq_refl eq_refl eq_refl eq_refl).
    eapply cur_same; [| |exact HC]; [repeat split|reflexivity].
  Qed.

  Lemma kz_zero (w w' : work K) : kz w w' -> aty_zero w -> aty_zero w'.
  Proof. intros [H1 H2] H Hm. rewrite H1 in Hm. rewrite (H2 Hm). apply H. exact Hm. Qed.

  (** The final recomputation of the objective changes nothing. *)
  Lemma objective_machine (s : solver K) W V : sv_settings s = st -> cur st (sv_work s) (sv_info s) W V ->
    post (final_objective s) (fun s' => cur st (sv_work s') (sv_info s') W V /\ (has_solution (sv_info s) = true -> values (sv_info s') V)).
  Proof.
    intros Hst HC. unfold final_objective. destruct (has_solution _); [|apply post_ret; split; [auto|discriminate]]. rewrite Hst.
    eapply post_bindP; [apply post_and; [apply obj_post|apply obj_machine]|]. cbv beta zeta. intros [[[p dv] g] w3] ((F3 & X3 & _ & P3 & _ & _ & _ & S5 & S6) & MO). cbn [snd] in F3, X3, P3, S5, S6. unfold obj_ok in MO.
    destruct MO as ((W' & MW & Mp & Md & Mg) & Mq & Ml & Ms & Mgap). apply post_ret. rs.
    assert (HW : st_scaling st <> 0 -> W' = W).
    { intros Hs. specialize (MW Hs). rewrite (cr_W _ _ _ _ _ HC Hs) in MW. congruence. }
    assert (HB : (if scaled then sc_cinv W' else n0) = (if scaled then sc_cinv W else n0)).
    { destruct (Z.eqb_spec (st_scaling st) 0) as [E0|E0]; cbn [negb]; [reflexivity|]. rewrite (HW E0). reflexivity. }
    pose proof (cr_V _ _ _ _ _ HC) as EV.
    assert (VG : g = r_rgap V /\ p = r_obj V /\ dv = r_dobj V).
    { rewrite EV, Mg, Mp, Md. unfold reading_of. cbn [r_rgap r_obj r_dobj]. destruct scaled; [rewrite HB; auto|auto]. }
    destruct VG as (G1 & G2 & G3).
    split; [|intros _; split; [exact G2|exact G3]].
    assert (HS : same_cur (sv_work s) w3).
    { pose proof F3 as F3'. apply fixed_core, core_eq in F3' as (D3 & _ & _ & _ & _ & S3 & _).
      repeat split; auto. unfold scalars. rewrite Mq, Ml, Ms, Mgap, S5, S6.
      rewrite (cr_gap _ _ _ _ _ HC), (cr_quad _ _ _ _ _ HC), (cr_lin _ _ _ _ _ HC), (cr_sup _ _ _ _ _ HC). reflexivity. }
    eapply cur_same; [exact HS| |exact HC]. unfold res4. rs. rewrite G1, (cr_rg _ _ _ _ _ HC). reflexivity.
  Qed.
End MachineInfo.
