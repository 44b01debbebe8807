(** What osqp_solve does after its main loop, for every number system. *)
From Coq Require Import ZArith List Bool Lia String.
From Verif Require Import Num Arr ArrFacts Csc CscSpec CscFacts CscFacts2 Scatter Vec Types Kkt Linsys Scaling Validate Auxil Polish Api
  VecFacts LinsysFacts LinsysSolve Inv InvStep InvApi InvScale InvPolish InvSolve RecSimp Frame FrameSolve Mid Trace PassFacts.
Import ListNotations.
Open Scope Z_scope.
Local Open Scope opt_scope.

Lemma post_and {A} (e : option A) (P P' : A -> Prop) : post e P -> post e P' -> post e (fun a => P a /\ P' a).
Proof. intros H1 H2 a Ea. split; auto. Qed.

Section SolveEnd.
  Context {K : NumOps}.
  Variable E : Env K.

  (** The values update_info leaves in the workspace beside the products. *)
  Definition scalars (w : work K) := (w_xtPx w, w_qtx w, w_SC w, w_scaled_dual_gap w, w_scaled_prim_res w, w_scaled_dual_res w).
  Definition same_cur (w w' : work K) : Prop :=
    w_data w' = w_data w /\ w_scaling w' = w_scaling w /\ iter3 w' = iter3 w /\ prods w' = prods w /\ scalars w' = scalars w.
  Lemma same_cur_refl w : same_cur w w. Proof. repeat split; auto. Qed.
  Lemma same_cur_trans a b c : same_cur a b -> same_cur b c -> same_cur a c.
  Proof. intros (?&?&?&?&?) (?&?&?&?&?). repeat split; congruence. Qed.

  Definition res5 (i : info K) := (i_prim_res i, i_dual_res i, i_obj_val i, i_dual_obj_val i, i_duality_gap i).
  Definition res3 (i : info K) := (i_prim_res i, i_dual_res i, i_duality_gap i).

  Lemma check_keeps (s : solver K) ap : post (check_termination s ap) (fun r => same_cur (sv_work s) (sv_work (snd r))).
  Proof.
    set (P := fun w' : work K => fixed w' = fixed (sv_work s) /\ iter3 w' = iter3 (sv_work s) /\ prods w' = prods (sv_work s) /\ scalars w' = scalars (sv_work s)).
    assert (HP : forall w', P w' -> same_cur (sv_work s) w').
    { intros w' (H1 & H2 & H3 & H4). apply fixed_core, core_eq in H1 as (? & _ & _ & _ & _ & ? & _). repeat split; auto. }
    assert (P0 : P (sv_work s)) by (repeat split; auto).
    unfold check_termination. destruct (_ || _).
    { eapply post_bindP; [apply update_status_post|]. intros i (msg & _ & ->). apply post_ret. cbn [fst snd]. rs. apply HP; auto. }
    eapply post_bindP with (P := fun r => P (snd r)).
    { destruct (_ =? 0); [apply post_ret; auto|]. apply post_bind. intros tol _. destruct (nltb _ _); [apply post_ret; auto|].
      eapply post_bindP; [apply prim_inf_post|]. intros [b w1] H. apply post_ret. cbn [snd] in *. decompose [and] H. unfold P, scalars. repeat split; congruence. }
    intros [[c1 c2] w1] P1. cbn [snd] in P1. apply post_bind. intros ed _.
    eapply post_bindP with (P := fun r => P (snd r)).
    { destruct (nltb _ _); [apply post_ret; auto|].
      eapply post_bindP; [apply dual_inf_post|]. intros [b w2] H. apply post_ret. cbn [snd] in *. decompose [and] H. destruct P1 as (? & ? & ? & Hs). unfold scalars in Hs. unfold P, scalars. repeat split; congruence. }
    intros [[c3 c4] w2] P2. cbn [snd] in P2. apply post_bind. intros gc _.
    destruct (_ && _ && _).
    { eapply post_bindP; [apply update_status_post|]. intros i (msg & _ & ->). apply post_ret. cbn [fst snd]. rs. apply HP; auto. }
    destruct c2.
    { eapply post_bindP; [apply update_status_post|]. intros i (msg & _ & ->). apply post_bind. intros dy _. apply post_ret. cbn [fst snd]. rs. apply HP. exact P2. }
    destruct c4.
    { eapply post_bindP; [apply update_status_post|]. intros i (msg & _ & ->). apply post_bind. intros dy _. apply post_ret. cbn [fst snd]. rs. apply HP. exact P2. }
    apply post_ret. cbn [fst snd]. rs. apply HP; auto.
  Qed.

  Lemma polish_keeps (s : solver K) : post (polish E s) (fun r => let s' := snd r in
    i_status_polish (sv_info s') <> OSQP_POLISH_SUCCESS -> res5 (sv_info s') = res5 (sv_info s)).
  Proof.
    unfold polish. walk1. walk1. rs. destruct (_ =? 0).
    { apply post_ret. cbn [snd]. rs. auto. }
    walk1. walk1. destruct o as [plsh|].
    2:{ apply post_ret. cbn [snd]. rs. auto. }
    do 11 (apply post_bind; intros ? ?). eapply post_bindP; [apply update_info_polish_post|]. intros s1 HP. cbv beta in HP. decompose [and] HP. clear HP. rs_all.
    destruct (polish_successful _ _).
    - do 3 walk1. apply post_ret. cbn [snd]. rs. intros []. reflexivity.
    - apply post_ret. cbn [snd]. rs. intros _. unfold res5. rs. congruence.
  Qed.

  (** The part of osqp_solve between the loop and polishing (osqp_api.c:913-969). *)
  Definition conclude (t : solver K) (it : Z) (f : flags) : option (solver K) :=
    s <- final_check E t it f ;;
    s <- final_objective s ;;
    let s := if tr (st_verbose (sv_settings s)) && negb (tr (w_summary_printed (sv_work s))) then print_summary s else s in
    final_status s.

  (** The state after polishing, s6, against the state e before. *)
  Record after_polish (e : solver K) (fl : Z) (s6 : solver K) : Prop := {
    ap_st : sv_settings s6 = sv_settings e;
    ap_so : sv_solution s6 = sv_solution e;
    ap_fx : fixed (sv_work s6) = fixed (sv_work e);
    ap_dl : deltas (sv_work s6) = deltas (sv_work e);
    ap_sv : i_status_val (sv_info s6) = i_status_val (sv_info e);
    ap_it : i_iter (sv_info s6) = i_iter (sv_info e);
    ap_np : ~ polished s6 -> iter3 (sv_work s6) = iter3 (sv_work e) /\ res5 (sv_info s6) = res5 (sv_info e);
    ap_pol : tr (st_polishing (sv_settings e)) = true -> i_status_val (sv_info e) = OSQP_SOLVED -> exists s5 s6', polish E s5 = Some (fl, s6') /\ (Inv e -> Inv s5) /\
      sv_settings s5 = sv_settings e /\ sv_work s5 = sv_work e /\ res5 (sv_info s5) = res5 (sv_info e) /\ sv_work s6 = sv_work s6' /\ sv_info s6 = sv_info s6' }.

  Inductive finished (e : solver K) (fl : Z) (s' : solver K) : Prop :=
  | fi_err : forall s6, after_polish e fl s6 -> 0 < fl -> i_status_val (sv_info e) = OSQP_SOLVED -> tr (st_polishing (sv_settings e)) = true ->
      sv_work s' = sv_work s6 -> sv_info s' = sv_info s6 -> sv_settings s' = sv_settings s6 -> sv_solution s' = sv_solution s6 -> finished e fl s'
  | fi_ok : forall s6 r, after_polish e fl s6 -> fl <= 0 -> (Inv e -> Inv s6) -> (fl <> 0 -> i_status_val (sv_info e) = OSQP_SOLVED /\ tr (st_polishing (sv_settings e)) = true) ->
      store_solution (finish_times s6) (sv_solution s6) = Some r ->
      sv_work s' = sv_work (fst r) -> sv_info s' = sv_info (fst r) -> sv_settings s' = sv_settings (fst r) -> sv_solution s' = snd r -> finished e fl s'.

  Hypothesis EO : env_ok E.
  Hypothesis MM : nltb (OSQP_RHO_MIN K) (OSQP_RHO_MAX K) = true.

  Lemma after_polish_eq e fl s6 : sv_settings s6 = sv_settings e -> sv_solution s6 = sv_solution e -> sv_work s6 = sv_work e -> i_status_val (sv_info s6) = i_status_val (sv_info e) ->
    i_iter (sv_info s6) = i_iter (sv_info e) -> res5 (sv_info s6) = res5 (sv_info e) -> ~ (tr (st_polishing (sv_settings e)) = true /\ i_status_val (sv_info e) = OSQP_SOLVED) -> after_polish e fl s6.
  Proof. intros H1 H2 H3 H4 H5 H6 H7. constructor; rewrite ?H3; auto. intros H8 H9. exfalso. auto. Qed.

  Lemma finish_ends (t : solver K) it f : post (finish_solve E t it f) (fun r => exists e, conclude t it f = Some e /\ finished e (fst r) (snd r)).
  Proof.
    unfold finish_solve, conclude. destruct (final_check E t it f) as [s1|]; [|apply post_none]. cbv beta iota.
    destruct (final_objective s1) as [s2|]; [|apply post_none]. cbv beta iota.
    set (s3 := if _ && _ then _ else s2). clearbody s3. cbv zeta. destruct (final_status s3) as [e|] eqn:Ee; [|apply post_none]. 
    unfold toc. set (s5 := set_sv_info _ (set_sv_world _ _)).
    assert (I5 : Inv e -> Inv s5).
    { intros [I1 I2 I3 I4]. constructor; auto. }
    assert (F5 : sv_settings s5 = sv_settings e /\ sv_solution s5 = sv_solution e /\ sv_work s5 = sv_work e /\ i_status_val (sv_info s5) = i_status_val (sv_info e) /\ res5 (sv_info s5) = res5 (sv_info e) /\ i_iter (sv_info s5) = i_iter (sv_info e)) by (repeat split; reflexivity).
    clearbody s5. destruct F5 as (Fa & Fb & Fc & Fd & Fe & Ff).
    eapply post_bindP with (P := fun r => after_polish e (fst r) (snd r) /\ (Inv e -> Inv (snd r)) /\ (fst r <> 0 -> i_status_val (sv_info e) = OSQP_SOLVED /\ tr (st_polishing (sv_settings e)) = true)).
    { destruct (tr (st_polishing (sv_settings s5)) && _) eqn:EC.
      2:{ apply post_ret; cbn [fst snd]. split; [|split; [auto|intros []; reflexivity]]. apply after_polish_eq; auto. intros (X1 & X2). apply Z.eqb_eq in X2. rewrite Fa, Fd, X1, X2 in EC. discriminate. }
      apply andb_true_iff in EC as [EC1 EC2]. apply Z.eqb_eq in EC2.
      assert (HI : post (polish E (push_sec SEC_POLISH s5)) (fun r => Inv e -> Inv (snd r))).
      { intros a Ea HI. apply I5 in HI. assert (HI' : Inv (push_sec SEC_POLISH s5)) by (destruct HI; constructor; auto).
        destruct (polish_safe E EO (push_sec SEC_POLISH s5) HI') as (b & Eb & (Ib & _) & _). rewrite Ea in Eb. injection Eb as <-. exact Ib. }
      eapply post_bindP; [apply post_and; [apply polish_post|apply post_and; [apply polish_keeps|apply post_and; [exact HI|intros a Ea; exact Ea]]]|].
      intros [fl s6] (H8 & H9 & I6 & Epl). cbv zeta in H8, H9. cbn [fst snd] in *. destruct H8 as (B1 & B2 & B3 & B4 & B5 & B6 & B7 & B8). unfold push_sec in B1, B2, B3, B4, B6, B7, B8, H9. rs_in B1. rs_in B2. rs_in B3. rs_in B4. rs_in B6. rs_in B7. rs_in B8. rs_in H9.
      unfold pop_sec. cbn [snd]. destruct (g_sections _); [apply post_none|]. cbn. apply post_ret. cbn [fst snd]. split; [|split].
      - constructor; rs; try congruence.
        2:{ intros X1 X2. exists (push_sec SEC_POLISH s5), s6. split; [auto|]. split; [intros HI0; apply I5 in HI0; destruct HI0; constructor; auto|]. auto 10. }
        intros HN. assert (HN' : i_status_polish (sv_info s6) <> OSQP_POLISH_SUCCESS).
        { intros HX. apply HN. unfold polished. rs. rewrite B1, B6. auto. }
        rewrite (B8 HN'), (H9 HN'). rewrite Fc. auto.
      - intros HI0. destruct (I6 HI0). constructor; auto.
      - intros _. rewrite <- Fa, <- Fd. auto. }
    intros [fl s6] (A6 & I6 & F6). cbn [fst snd] in *. destruct (0 <? fl) eqn:Ef.
    { apply Z.ltb_lt in Ef. destruct (F6 ltac:(lia)) as (S1 & S2). eapply post_weaken; [apply solve_exit_eq|]. cbv beta zeta. intros r (B1 & B2 & B3 & B4 & B5). exists e. split; [reflexivity|]. apply fi_err with (s6 := s6); rewrite ?B5; auto. }
    apply Z.ltb_ge in Ef. rewrite (eq_refl : sv_solution (finish_times s6) = sv_solution s6).
    destruct (store_solution (finish_times s6) (sv_solution s6)) as [r|] eqn:Er; [|apply post_none].
    eapply post_weaken; [apply solve_exit_eq|]. cbv beta zeta. intros r' (B1 & B2 & B3 & B4 & B5). rs_in B1. rs_in B2. rs_in B3. rs_in B4. exists e. split; [reflexivity|].
    apply fi_ok with (s6 := s6) (r := r); rewrite ?B5; auto.
  Qed.
End SolveEnd.
