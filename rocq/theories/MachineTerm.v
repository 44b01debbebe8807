(** The termination test of osqp_solve against its machine-level specification, for every number system. *)
From Coq Require Import ZArith List Bool Lia String.
From Verif Require Import Num Arr ArrFacts Csc CscSpec CscFacts CscFacts2 Scatter Vec Types Kkt Linsys Scaling Validate Auxil Polish Api
  VecFacts LinsysFacts LinsysSolve Inv InvStep InvApi InvScale InvPolish InvSolve RecSimp Frame FrameSolve Mid Trace PassFacts SolveEnd KktErr AtyFacts MachineSpec.
Import ListNotations.
Open Scope Z_scope.
Local Open Scope opt_scope.

Section MachineTerm.
  Context {K : NumOps}.
  Variable st : settings K.
  Notation users := (negb (st_scaling st =? 0) && (st_scaled_termination st =? 0)).
  Notation scaled := (negb (st_scaling st =? 0)).

  Lemma ut_users : unscaled_termination st = users.
  Proof. unfold unscaled_termination, tr. rewrite negb_involutive. reflexivity. Qed.

  Lemma scaled_norm_inv (S v : list K) r : vf_scaled_norm_inf S v = Some r -> r = largest (times S v).
  Proof. unfold vf_scaled_norm_inf. destruct (v2 _ _ _ _) as [w|] eqn:Ew; [|discriminate]. intros [= <-]. apply v2_inv in Ew as (-> & _). reflexivity. Qed.
  Lemma dot_inv (a b : list K) r : vf_dot_prod a b = Some r -> r = total (times a b).
  Proof. unfold vf_dot_prod. destruct (v2 _ _ _ _) as [w|] eqn:Ew; [|discriminate]. intros [= <-]. apply v2_inv in Ew as (-> & _). reflexivity. Qed.
  Lemma dot1_inv (a b : list K) r : vf_dot_prod_signed a b 1 = Some r -> r = total (zip (fun p q => nmul p (larger q n0)) a b).
  Proof. unfold vf_dot_prod_signed. cbn [Z.eqb Pos.eqb]. destruct (v2 _ _ _ _) as [w|] eqn:Ew; [|discriminate]. intros [= <-]. apply v2_inv in Ew as (-> & _). reflexivity. Qed.
  Lemma dotm_inv (a b : list K) r : vf_dot_prod_signed a b (-1) = Some r -> r = total (zip (fun p q => nmul p (smaller q n0)) a b).
  Proof. unfold vf_dot_prod_signed. cbn [Z.eqb Pos.eqb]. destruct (v2 _ _ _ _) as [w|] eqn:Ew; [|discriminate]. intros [= <-]. apply v2_inv in Ew as (-> & _). reflexivity. Qed.
  Lemma polar_inv (y l u r : list K) : vf_project_polar_reccone y l u infval = Some r -> r = zip3 kept y l u.
  Proof. unfold vf_project_polar_reccone. intros H. apply v3_inv in H as (-> & _). reflexivity. Qed.
  Lemma ew_inv (c a b r : list K) : vf_ew_prod c a b = Some r -> r = times a b.
  Proof. unfold vf_ew_prod. intros H. apply v2_inv in H as (-> & _). reflexivity. Qed.

  (** The workspace and the information hold the reading V of the current iterate. *)
  Record cur (w : work K) (i : info K) (W : scaling K) (V : reading) : Prop := {
    cr_W : st_scaling st <> 0 -> w_scaling w = Some W;
    cr_A : d_m (w_data w) <> 0 -> exists b, csc_Axpy (d_A (w_data w)) (w_x w) b n1 n0 = Some (w_Ax w);
    cr_P : exists b, csc_Axpy_sym_triu (d_P (w_data w)) (w_x w) b n1 n0 = Some (w_Px w);
    cr_At : d_m (w_data w) <> 0 -> exists b, csc_Atxpy (d_A (w_data w)) (w_y w) b n1 n0 = Some (w_Aty w);
    cr_0 : d_m (w_data w) = 0 -> Forall (eq n0) (w_Aty w);
    cr_V : V = reading_of st (w_data w) W (w_x w) (w_y w) (w_z w) (w_Ax w) (w_Px w) (w_Aty w);
    cr_pr : i_prim_res i = r_prim V;
    cr_dr : i_dual_res i = r_dual V;
    cr_rg : i_duality_gap i = r_rgap V;
    cr_err : error_shown i;
    cr_spr : d_m (w_data w) <> 0 -> w_scaled_prim_res w = largest (zip (fun p q => nsub p q) (w_Ax w) (w_z w));
    cr_sdr : d_m (w_data w) <> 0 -> w_scaled_dual_res w = largest (zip (fun p q => nadd p q) (zip (fun p q => nadd p q) (d_q (w_data w)) (w_Px w)) (w_Aty w));
    cr_quad : w_xtPx w = total (times (w_Px w) (w_x w));
    cr_lin : w_qtx w = total (times (d_q (w_data w)) (w_x w));
    cr_sup : w_SC w = support_at (d_l (w_data w)) (d_u (w_data w)) (map dead (zip3 kept (w_y w) (d_l (w_data w)) (d_u (w_data w))));
    cr_gap : w_scaled_dual_gap w = nadd (nadd (w_xtPx w) (w_qtx w)) (w_SC w) }.

  Lemma cur_reads w i W V : cur w i W V -> reads st (w_data w) (w_scaling w) (w_x w) (w_y w) (w_z w) V.
  Proof. intros []. exists W, (w_Ax w), (w_Px w), (w_Aty w). auto 10. Qed.

  Lemma cur_same w w' i i' W V : same_cur w w' -> res4 i' = res4 i -> cur w i W V -> cur w' i' W V.
  Proof.
    intros (H1 & H2 & H3 & H4 & H5) H6 []. unfold iter3 in H3. injection H3 as X1 X2 X3. unfold prods in H4. injection H4 as P1 P2 P3. unfold scalars in H5. injection H5 as S1 S2 S3 S4 S5 S6. unfold res4 in H6. injection H6 as R1 R2 R3 R4.
    constructor; unfold error_shown in *; rewrite ?H1, ?H2, ?X1, ?X2, ?X3, ?P1, ?P2, ?P3, ?S1, ?S2, ?S3, ?S4, ?S5, ?S6, ?R1, ?R2, ?R3, ?R4; auto.
  Qed.

  Lemma users_scaled : users = true -> st_scaling st <> 0.
  Proof. intros H Hs. rewrite Hs in H. discriminate. Qed.

  Lemma prim_tol_cur w i W V ea er t : cur w i W V -> compute_prim_tol st w ea er = Some t -> t = nadd ea (nmul er (r_pnorm V)).
  Proof.
    intros HC. unfold compute_prim_tol. rewrite ut_users. rewrite (cr_V _ _ _ _ HC). unfold reading_of. cbn [r_pnorm].
    destruct users eqn:EU.
    - rewrite (cr_W _ _ _ _ HC (users_scaled EU)). destruct (vf_scaled_norm_inf (sc_Einv W) (w_z w)) as [a|] eqn:Ea; [|discriminate].
      destruct (vf_scaled_norm_inf (sc_Einv W) (w_Ax w)) as [b|] eqn:Eb; [|discriminate]. apply scaled_norm_inv in Ea, Eb. subst. intros [= <-]. reflexivity.
    - intros [= <-]. reflexivity.
  Qed.
  Lemma dual_tol_cur w i W V ea er t : cur w i W V -> compute_dual_tol st w ea er = Some t -> t = nadd ea (nmul er (r_dnorm V)).
  Proof.
    intros HC. unfold compute_dual_tol. rewrite ut_users. rewrite (cr_V _ _ _ _ HC). unfold reading_of. cbn [r_dnorm].
    destruct users eqn:EU.
    - rewrite (cr_W _ _ _ _ HC (users_scaled EU)). destruct (vf_scaled_norm_inf (sc_Dinv W) (d_q (w_data w))) as [a|] eqn:Ea; [|discriminate].
      destruct (vf_scaled_norm_inf (sc_Dinv W) (w_Aty w)) as [b|] eqn:Eb; [|discriminate]. destruct (vf_scaled_norm_inf (sc_Dinv W) (w_Px w)) as [c|] eqn:Ec; [|discriminate].
      apply scaled_norm_inv in Ea, Eb, Ec. subst. intros [= <-]. reflexivity.
    - intros [= <-]. reflexivity.
  Qed.
  Lemma gap_tol_cur w i W V ea er t : cur w i W V -> compute_duality_gap_tol st w ea er = Some t -> t = nadd ea (nmul er (r_gnorm V)).
  Proof.
    intros HC. unfold compute_duality_gap_tol. rewrite ut_users. rewrite (cr_V _ _ _ _ HC). unfold reading_of. cbn [r_gnorm].
    rewrite (cr_quad _ _ _ _ HC), (cr_lin _ _ _ _ HC), (cr_sup _ _ _ _ HC).
    destruct users eqn:EU.
    - rewrite (cr_W _ _ _ _ HC (users_scaled EU)). intros [= <-]. reflexivity.
    - intros [= <-]. reflexivity.
  Qed.
  Lemma gap_cur w i W V : cur w i W V -> (if users then i_duality_gap i else w_scaled_dual_gap w) = r_gap V.
  Proof.
    intros HC. rewrite (cr_rg _ _ _ _ HC), (cr_gap _ _ _ _ HC), (cr_quad _ _ _ _ HC), (cr_lin _ _ _ _ HC), (cr_sup _ _ _ _ HC), (cr_V _ _ _ _ HC). unfold reading_of. cbn [r_gap r_rgap].
    destruct users eqn:EU; [|reflexivity]. apply andb_true_iff in EU as [-> _]. reflexivity.
  Qed.

  (** What is_primal_infeasible and is_dual_infeasible answer. *)
  Lemma prim_inf_machine (w : work K) loose : post (is_primal_infeasible st w (loosen loose (st_eps_prim_inf st))) (fun r => w_delta_y (snd r) = projected (w_data w) (w_delta_y w) /\
    (fst r = true -> shows_infeasible st (w_data w) (w_scaling w) loose (w_delta_y w))).
  Proof.
    unfold is_primal_infeasible. apply post_bind. intros dy Edy. apply polar_inv in Edy. rs. rewrite ut_users. unfold shows_infeasible, projected. cbv zeta. rewrite <- Edy. clear Edy.
    eapply post_bindP with (P := fun r => w_delta_y (snd r) = dy /\ w_scaling (snd r) = w_scaling w /\ exists W, (users = true -> w_scaling w = Some W) /\ fst r = largest (if users then times (sc_E W) dy else dy)).
    { destruct users.
      - apply post_bind. intros sc Es. apply post_bind. intros t Et. apply ew_inv in Et. apply post_ret. cbn [fst snd]. rs. split; [auto|]. split; [auto|]. exists sc. subst t. auto.
      - apply post_ret. cbn [fst snd]. rs. split; [auto|]. split; [auto|]. destruct (w_scaling w) as [sc|]; [exists sc; auto|]. eexists (mkscaling n0 [] [] n0 [] []). split; [discriminate|reflexivity]. }
    intros [nd w1] (H1 & HS & W & H2 & H3). cbn [fst snd] in *. destruct (nltb _ nd) eqn:E1; [|apply post_ret; cbn [fst snd]; split; [auto|discriminate]].
    apply post_bind. intros a Ea. apply dot1_inv in Ea. apply post_bind. intros b Eb. apply dotm_inv in Eb. destruct (nltb _ n0) eqn:E2; [|apply post_ret; cbn [fst snd]; split; [auto|discriminate]].
    apply post_bind. intros t Et. eapply post_bindP with (P := fun t' => t' = if users then times t (sc_Dinv W) else t).
    { destruct users; [|apply post_ret; auto]. apply post_bind. intros sc Es. rewrite HS, (H2 eq_refl) in Es. injection Es as <-. intros t' Et'. apply ew_inv in Et'. auto. }
    intros t' ->. apply post_ret. cbn [fst snd]. rs. split; [exact H1|]. intros E3. exists W, (w_Atdelta_y w1), t. subst nd a b. auto 10.
  Qed.

  Lemma dual_inf_machine (w : work K) loose : post (is_dual_infeasible st w (loosen loose (st_eps_dual_inf st))) (fun r => fst r = true -> shows_unbounded st (w_data w) (w_scaling w) loose (w_delta_x w)).
  Proof.
    unfold is_dual_infeasible. rewrite ut_users. unfold shows_unbounded. cbv zeta.
    eapply post_bindP with (P := fun r => exists W, (users = true -> w_scaling w = Some W) /\ fst r = largest (if users then times (sc_D W) (w_delta_x w) else w_delta_x w) /\ snd r = if users then sc_c W else n1).
    { destruct users.
      - apply post_bind. intros sc Es. apply post_bind. intros t Et. apply scaled_norm_inv in Et. apply post_ret. cbn [fst snd]. exists sc. auto.
      - apply post_ret. cbn [fst snd]. destruct (w_scaling w) as [sc|]; [exists sc; auto|]. eexists (mkscaling n0 [] [] n0 [] []). split; [discriminate|split; reflexivity]. }
    intros [nd cs] (W & H2 & H3 & H4). cbn [fst snd] in *. destruct (nltb _ nd) eqn:E1; [|apply post_ret; cbn [fst]; discriminate].
    apply post_bind. intros a Ea. apply dot_inv in Ea. destruct (nltb a n0) eqn:E2; [|apply post_ret; cbn [fst]; discriminate].
    apply post_bind. intros t Et. eapply post_bindP with (P := fun t' => t' = if users then times t (sc_Dinv W) else t).
    { destruct users; [|apply post_ret; auto]. apply post_bind. intros sc Es. rewrite (H2 eq_refl) in Es. injection Es as <-. intros t' Et'. apply ew_inv in Et'. auto. }
    intros t' Ht'. cbv beta in Ht'. destruct (nltb (vf_norm_inf t') _) eqn:E3; [|apply post_ret; cbn [fst]; discriminate].
    apply post_bind. intros t2 Et2. rs_in Et2. eapply post_bindP with (P := fun t' => t' = if users then times t2 (sc_Einv W) else t2).
    { destruct users; [|apply post_ret; auto]. apply post_bind. intros sc Es. rs_in Es. rewrite (H2 eq_refl) in Es. injection Es as <-. intros t3 Et'. apply ew_inv in Et'. auto. }
    intros t3 Ht3. cbv beta in Ht3. apply post_bind. intros b Eb. apply post_ret. cbn [fst]. intros ->. exists W, (w_Pdelta_x w), t, (w_Adelta_x w), t2.
    subst t' nd cs a. split; [exact H2|]. split; [exact Et|]. split; [exact Et2|]. split; [exact E1|]. split; [exact E2|]. split; [exact E3|].
    unfold vf_in_reccone in Eb. destruct (v3 _ _ _ _ _) as [w3|] eqn:Ew; [|discriminate]. apply v3_inv in Ew as (-> & _). injection Eb as Eb. rewrite <- Ht3. exact Eb.
  Qed.

  (** The certificates left in the workspace: the change of y with the parts of absent bounds dropped, the change of x, in the user's units. *)
  Definition pcert (d : data K) (sc : option (scaling K)) (loose : bool) (v : list K) : Prop :=
    exists dy W, shows_infeasible st d sc loose dy /\ (users = true -> sc = Some W) /\ v = (if users then times (projected d dy) (sc_E W) else projected d dy).
  Definition dcert (d : data K) (sc : option (scaling K)) (loose : bool) (v : list K) : Prop :=
    exists dx W, shows_unbounded st d sc loose dx /\ (users = true -> sc = Some W) /\ v = (if users then times dx (sc_D W) else dx).

  (** The verdict of the termination test; what it says about the reading holds when the state holds one. *)
  Inductive mverdict (loose : bool) (s : solver K) : bool -> solver K -> Prop :=
  | mv_huge : forall s', (forall W V, cur (sv_work s) (sv_info s) W V -> exploded V = true) -> i_status_val (sv_info s') = OSQP_NON_CVX -> mverdict loose s true s'
  | mv_solved : forall s', (forall W V, cur (sv_work s) (sv_info s) W V -> exploded V = false /\ accepted st (d_m (w_data (sv_work s))) loose V = true) ->
      i_status_val (sv_info s') = (if loose then OSQP_SOLVED_INACCURATE else OSQP_SOLVED) -> res5 (sv_info s') = res5 (sv_info s) -> mverdict loose s true s'
  | mv_pinf : forall s', (forall W V, cur (sv_work s) (sv_info s) W V -> exploded V = false /\ accepted st (d_m (w_data (sv_work s))) loose V = false) ->
      i_status_val (sv_info s') = (if loose then OSQP_PRIMAL_INFEASIBLE_INACCURATE else OSQP_PRIMAL_INFEASIBLE) ->
      pcert (w_data (sv_work s)) (w_scaling (sv_work s)) loose (w_delta_y (sv_work s')) -> mverdict loose s true s'
  | mv_dinf : forall s', (forall W V, cur (sv_work s) (sv_info s) W V -> exploded V = false /\ accepted st (d_m (w_data (sv_work s))) loose V = false) ->
      i_status_val (sv_info s') = (if loose then OSQP_DUAL_INFEASIBLE_INACCURATE else OSQP_DUAL_INFEASIBLE) ->
      dcert (w_data (sv_work s)) (w_scaling (sv_work s)) loose (w_delta_x (sv_work s')) -> mverdict loose s true s'
  | mv_no : forall s', (forall W V, cur (sv_work s) (sv_info s) W V -> exploded V = false /\ accepted st (d_m (w_data (sv_work s))) loose V = false) -> sv_info s' = sv_info s -> mverdict loose s false s'.

  Lemma mverdict_ok (s : solver K) loose : sv_settings s = st -> post (check_termination s loose) (fun r => mverdict loose s (fst r) (snd r)).
  Proof.
    intros Hst. unfold check_termination. rewrite Hst. set (i := sv_info s) in *. set (w := sv_work s) in *.
    set (hb := nltb (OSQP_INFTY K) (i_prim_res i) || nltb (OSQP_INFTY K) (i_dual_res i)).
    assert (HX : forall W V, cur w i W V -> exploded V = hb) by (intros W V HC; subst hb; rewrite (cr_pr _ _ _ _ HC), (cr_dr _ _ _ _ HC); reflexivity).
    destruct hb.
    { eapply post_bindP; [apply update_status_post|]. intros i' (msg & _ & ->). apply post_ret. cbn [fst snd]. apply mv_huge; auto. }
    cbv zeta. change (if loose then nmul (st_eps_abs st) (nofZ 10) else st_eps_abs st) with (loosen loose (st_eps_abs st)). change (if loose then nmul (st_eps_rel st) (nofZ 10) else st_eps_rel st) with (loosen loose (st_eps_rel st)).
    change (if loose then nmul (st_eps_prim_inf st) (nofZ 10) else st_eps_prim_inf st) with (loosen loose (st_eps_prim_inf st)). change (if loose then nmul (st_eps_dual_inf st) (nofZ 10) else st_eps_dual_inf st) with (loosen loose (st_eps_dual_inf st)).
    eapply post_bindP with (P := fun r => let '(pc, pi, w1) := r in same_cur w w1 /\ w_delta_x w1 = w_delta_x w /\
      (forall W V, cur w i W V -> pc = ((d_m (w_data w) =? 0) || below st loose (r_prim V) (r_pnorm V))) /\
      (pi = true -> shows_infeasible st (w_data w) (w_scaling w) loose (w_delta_y w) /\ w_delta_y w1 = projected (w_data w) (w_delta_y w))).
    { destruct (d_m (w_data w) =? 0).
      { apply post_ret. split; [apply same_cur_refl|]. split; [auto|]. split; [auto|]. discriminate. }
      apply post_bind. intros tol Etol.
      assert (HB : forall W V, cur w i W V -> nltb (i_prim_res i) tol = below st loose (r_prim V) (r_pnorm V)).
      { intros W V HC. rewrite (prim_tol_cur _ _ _ _ _ _ _ HC Etol), (cr_pr _ _ _ _ HC). reflexivity. }
      cbn [orb]. destruct (nltb (i_prim_res i) tol) eqn:EB.
      - apply post_ret. split; [apply same_cur_refl|]. split; [auto|]. split; [exact HB|]. discriminate.
      - eapply post_bindP; [apply post_and; [apply prim_inf_post|apply prim_inf_machine]|]. cbv beta zeta. intros [b w1] (HP & HD & HS). apply post_ret. cbn [fst snd] in *. decompose [and] HP.
        split; [|auto]. match goal with H : fixed w1 = fixed w |- _ => apply fixed_core, core_eq in H as (? & _ & _ & _ & _ & ? & _) end. unfold same_cur, scalars. repeat split; congruence. }
    intros [[pc pi] w1] (SC1 & DX1 & PC1 & PI1). assert (HC1 : forall W V, cur w i W V -> cur w1 i W V) by (intros W V; apply (cur_same _ _ _ _ _ _ SC1 (eq_refl (res4 i)))).
    apply post_bind. intros tol Etol. pose proof SC1 as (D1 & S1 & _).
    assert (HB : forall W V, cur w i W V -> nltb (i_dual_res i) tol = below st loose (r_dual V) (r_dnorm V)).
    { intros W V HC. rewrite (dual_tol_cur _ _ _ _ _ _ _ (HC1 _ _ HC) Etol), (cr_dr _ _ _ _ HC). reflexivity. }
    eapply post_bindP with (P := fun r => let '(dc, di, w2) := r in same_cur w1 w2 /\ deltas w2 = deltas w1 /\ (forall W V, cur w i W V -> dc = below st loose (r_dual V) (r_dnorm V)) /\
      (di = true -> shows_unbounded st (w_data w) (w_scaling w) loose (w_delta_x w))).
    { destruct (nltb (i_dual_res i) tol) eqn:EB.
      - apply post_ret. split; [apply same_cur_refl|]. split; [auto|]. split; [auto|]. discriminate.
      - eapply post_bindP; [apply post_and; [apply dual_inf_post|apply dual_inf_machine]|]. cbv beta zeta. intros [b w2] (HP & HD). apply post_ret. cbn [fst snd] in *. decompose [and] HP.
        rewrite D1, S1, DX1 in HD. split; [|auto]. match goal with H : fixed w2 = fixed w1 |- _ => apply fixed_core, core_eq in H as (? & _ & _ & _ & _ & ? & _) end. unfold same_cur, scalars. repeat split; congruence. }
    intros [[dc di] w2] (SC2 & DD2 & DC2 & DI2). assert (HC2 : forall W V, cur w i W V -> cur w2 i W V) by (intros W V HC; apply (cur_same _ _ _ _ _ _ SC2 (eq_refl (res4 i))); auto). clear HB.
    eapply post_bindP with (P := fun gc => forall W V, cur w i W V -> gc = ((st_check_dualgap st =? 0) || below st loose (mabs (r_gap V)) (r_gnorm V))).
    { unfold tr. destruct (st_check_dualgap st =? 0); [apply post_ret; auto|]. cbv iota. cbn [negb orb]. apply post_bind. intros tol2 Etol2. apply post_ret. intros W V HC.
      rewrite ut_users, (gap_cur _ _ _ _ (HC2 _ _ HC)), (gap_tol_cur _ _ _ _ _ _ _ (HC2 _ _ HC) Etol2). reflexivity. }
    intros gc GC. assert (EA : forall W V, cur w i W V -> accepted st (d_m (w_data w)) loose V = pc && dc && gc).
    { intros W V HC. rewrite (PC1 _ _ HC), (DC2 _ _ HC), (GC _ _ HC). reflexivity. }
    destruct (pc && dc && gc).
    { eapply post_bindP; [apply update_status_post|]. intros i' (msg & _ & ->). apply post_ret. cbn [fst snd]. apply mv_solved; eauto. }
    pose proof SC2 as (D2 & S2 & _). unfold deltas in DD2. injection DD2 as DDx DDy.
    destruct pi.
    { destruct (PI1 eq_refl) as (PS & PD). eapply post_bindP; [apply update_status_post|]. intros i' (msg & _ & ->).
      eapply post_bindP with (P := fun dy => pcert (w_data w) (w_scaling w) loose dy).
      { rewrite ut_users. unfold pcert. destruct users; [|apply post_ret; exists (w_delta_y w), (mkscaling n0 [] [] n0 [] []); split; [auto|]; split; [discriminate|congruence]].
        apply post_bind. intros sc Es dy Edy. apply ew_inv in Edy. exists (w_delta_y w), sc. split; [auto|]. split; congruence. }
      intros dy Hdy. apply post_ret. cbn [fst snd]. apply mv_pinf; eauto. }
    destruct di.
    { specialize (DI2 eq_refl). eapply post_bindP; [apply update_status_post|]. intros i' (msg & _ & ->).
      eapply post_bindP with (P := fun dx => dcert (w_data w) (w_scaling w) loose dx).
      { rewrite ut_users. unfold dcert. destruct users; [|apply post_ret; exists (w_delta_x w), (mkscaling n0 [] [] n0 [] []); split; [auto|]; split; [discriminate|congruence]].
        apply post_bind. intros sc Es dy Edy. apply ew_inv in Edy. exists (w_delta_x w), sc. split; [auto|]. split; congruence. }
      intros dx Hdx. apply post_ret. cbn [fst snd]. apply mv_dinf; eauto. }
    apply post_ret. cbn [fst snd]. apply mv_no; eauto.
  Qed.

  (** compute_obj_val_dual_gap in terms of the products in the workspace. *)
  Definition obj_ok (w : work K) (x y : list K) (r : K * K * K * work K) : Prop :=
    let '(p, dv, g, w') := r in let d := w_data w in
    let quad := total (times (w_Px w) x) in let lin := total (times (d_q d) x) in let sup := support_at (d_l d) (d_u d) (map dead (zip3 kept y (d_l d) (d_u d))) in
    (exists W, (st_scaling st <> 0 -> w_scaling w = Some W) /\
      p = (let p := nadd (nmul (nlit 5 (-1)) quad) lin in if scaled then nmul p (sc_cinv W) else p) /\
      dv = (let p := nsub (nmul (nopp (nlit 5 (-1))) quad) sup in if scaled then nmul p (sc_cinv W) else p) /\
      g = (let g := nadd (nadd quad lin) sup in if scaled then nmul (sc_cinv W) g else g)) /\
    w_xtPx w' = quad /\ w_qtx w' = lin /\ w_SC w' = sup /\ w_scaled_dual_gap w' = nadd (nadd quad lin) sup.
  Lemma obj_machine (w : work K) x y : post (compute_obj_val_dual_gap st w x y) (obj_ok w x y).
  Proof.
    unfold compute_obj_val_dual_gap. apply post_bind. intros quad Eq. apply dot_inv in Eq. apply post_bind. intros lin El. apply dot_inv in El.
    apply post_bind. intros zp Ez. apply v1_inv in Ez as (Ez & _). rewrite map_id in Ez. subst zp. apply post_bind. intros zp Ez. apply polar_inv in Ez. cbv zeta.
    apply post_bind. intros su Esu. apply dot1_inv in Esu. apply post_bind. intros sl Esl. apply dotm_inv in Esl. rs.
    eapply post_bindP with (P := fun r => let '(p, dv, g) := r in exists W, (st_scaling st <> 0 -> w_scaling w = Some W) /\
      p = (let p := nadd (nmul (nlit 5 (-1)) quad) lin in if scaled then nmul p (sc_cinv W) else p) /\
      dv = (let p := nsub (nmul (nopp (nlit 5 (-1))) quad) (nadd su sl) in if scaled then nmul p (sc_cinv W) else p) /\
      g = (let g := nadd (nadd quad lin) (nadd su sl) in if scaled then nmul (sc_cinv W) g else g)).
    { unfold tr. destruct (st_scaling st =? 0) eqn:Es; cbn [negb].
      - apply post_ret. exists (mkscaling n0 [] [] n0 [] []). split; [intros Hn; lia|auto].
      - apply post_bind. intros sc Esc. rs_in Esc. apply post_ret. exists sc. auto. }
    intros [[p dv] g] H. apply post_ret. unfold obj_ok. rs.
    subst quad lin zp su sl. split; [exact H|]. repeat split; reflexivity.
  Qed.
End MachineTerm.
