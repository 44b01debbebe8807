(** Solving again: with warm starting off, or from the same point, what a solve reports depends on the history of the solver only through the stored problem, the settings, the status and
    the number of rho updates. *)
From Coq Require Import ZArith String List Bool Lia.
From Verif Require Import Num Arr ArrFacts Csc CscSpec CscFacts CscFacts2 Vec Types RecSimp Kkt Linsys Scaling Validate Auxil VecFacts LinsysFacts LinsysSolve Inv InvStep InvApi InvPolish InvSolve Polish Api
  InvScale ValidFacts InvUpd InvSetup History Frame FrameSolve FrameUpd DataFacts LinFrame SolLen TwinInit TwinKer TwinStep TwinTerm TwinSolve TwinFinish TwinHist AtyFacts MachineClaims TwinClaims TwinReset Runs.
Import ListNotations.
Open Scope Z_scope.
Local Open Scope opt_scope.

Section Again.
  Context {K : NumOps}.
  Variable E : Env K.
  Hypothesis EO : env_ok E.
  Hypothesis NZ : @neqb K n0 n0 = true.
  Hypothesis MM : nltb (OSQP_RHO_MIN K) (OSQP_RHO_MAX K) = true.

  (** Calls that keep the units in which a scaled problem is stored: any but a matrix update of a scaled solver. *)
  Definition keeps_units (c : call K) (s : solver K) : Prop :=
    match c with CUpdMat _ _ _ _ _ _ => st_scaling (sv_settings s) = 0 | _ => True end.
  Inductive later (s0 : solver K) : solver K -> Prop :=
  | later_0 : later s0 s0
  | later_S : forall s c fl s', later s0 s -> args_ok c s -> run E c s = Some (fl, HSolver s') -> keeps_units c s -> later s0 s'.

  Lemma later_reach s0 s : later s0 s -> reach E s0 s.
  Proof. induction 1; [apply reach_0|]. eapply reach_S; eauto. Qed.

  Lemma warm_rest (s : solver K) x y : post (warm_start s x y) (fun r => let s' := snd r in
    w_data (sv_work s') = w_data (sv_work s) /\ w_constr_type (sv_work s') = w_constr_type (sv_work s) /\ w_scaling (sv_work s') = w_scaling (sv_work s) /\ w_rho_inv (sv_work s') = w_rho_inv (sv_work s) /\
    (sv_settings s' = sv_settings s \/ sv_settings s' = set_st_warm_starting 1 (sv_settings s))).
  Proof.
    unfold warm_start. cbv zeta. set (s1 := if negb _ then _ else s).
    assert (H1 : sv_work s1 = sv_work s /\ (sv_settings s1 = sv_settings s \/ sv_settings s1 = set_st_warm_starting 1 (sv_settings s))) by (subst s1; destruct (negb _); auto).
    clearbody s1. destruct H1 as (Ew & H1).
    pose (P := fun w : work K => w_data w = w_data (sv_work s) /\ w_constr_type w = w_constr_type (sv_work s) /\ w_scaling w = w_scaling (sv_work s) /\ w_rho_inv w = w_rho_inv (sv_work s)).
    assert (P0 : P (sv_work s1)) by (rewrite Ew; unfold P; auto).
    eapply post_bindP with (P := P). { destruct x; [|apply post_ret; exact P0]. walk. exact P0. }
    intros w1 A1. eapply post_bindP with (P := P). { destruct y; [|apply post_ret; exact A1]. walk. exact A1. }
    intros w2 A2. eapply post_bindP with (P := P). { destruct x; [do 1 walk1|]; apply post_ret; exact A2. }
    intros w3 A3. walk1. apply post_ret. cbn [snd]. unfold P in *. rs. intuition auto.
  Qed.

  Definition unitsync (s0 s : solver K) : Prop := ctsync s /\ w_scaling (sv_work s) = w_scaling (sv_work s0).

  Lemma run_units c (s0 s : solver K) fl s' : run E c s = Some (fl, HSolver s') -> keeps_units c s -> unitsync s0 s -> unitsync s0 s'.
  Proof.
    intros HC HN (HS & HW). destruct c; cbn [run] in HC.
    - unfold osqp_solve, on_solver in HC. destruct (solve E s) as [[f s1]|] eqn:Er; [|discriminate]. injection HC as _ <-.
      destruct (solve_sfr E s _ Er) as [A1 A2 A3 (r & t & A4) _]. cbn [snd] in *. split; [|congruence]. unfold ctsync in *. rewrite A1, A3, A4. exact HS.
    - unfold osqp_update_data_vec, on_solver in HC. destruct (update_data_vec E s q l u) as [[f s1]|] eqn:Er; [|discriminate]. injection HC as _ <-.
      destruct (update_data_vec_shape E s q l u _ Er) as (lt & ut & okb & H). destruct okb.
      + destruct (vs_acc _ _ _ _ _ _ _ _ H eq_refl) as (q' & _ & Ed & Ew & _ & _ & _ & _ & Es & _ & _ & C1 & C2). cbn [snd] in *. split; [|congruence].
        destruct (given l || given u) eqn:Eg; [auto|]. apply orb_false_iff in Eg as [Eg1 Eg2]. destruct l, u; try discriminate. cbn [pick andb] in *.
        unfold ctsync in *. rewrite Es, Ed, (C2 eq_refl). exact HS.
      + destruct (vs_rej _ _ _ _ _ _ _ _ H eq_refl) as (_ & t & c & Es). cbn [snd] in Es. rewrite Es. split; [exact HS|exact HW].
    - unfold osqp_update_data_mat, on_solver in HC. destruct (update_data_mat E s Px Pidx Pn Ax Aidx An) as [[f s1]|] eqn:Er; [|discriminate]. injection HC as _ <-.
      destruct (update_data_mat_shape E s _ _ _ _ _ _ _ Er) as (nP & nA & _ & _ & [(_ & Es)|(_ & _ & t & c & w1 & P2 & A2 & w4 & ls & ls' & i & g & X1 & _ & _ & X2 & _ & _ & Es & _)]); cbn [snd] in Es; rewrite Es.
      + destruct (begin_update_eq s) as (t & c & ->). split; [exact HS|exact HW].
      + cbn [keeps_units] in HN. rewrite HN in X1, X2. change (tr 0) with false in X1, X2. cbv iota in X1, X2. subst w4 w1. split; [exact HS|exact HW].
    - unfold osqp_update_rho, on_solver in HC. destruct (update_rho E s rho) as [[f s1]|] eqn:Er; [|discriminate]. injection HC as _ <-.
      destruct (proj1 (update_rho_post E s rho _ Er)) as [A1 A2 A3 (r & t & A4) _]. cbn [snd] in *. split; [|congruence]. unfold ctsync in *. rewrite A1, A3, A4. exact HS.
    - unfold osqp_update_settings in HC. destruct (validate_settings new false) eqn:EV; [injection HC as _ <-; split; auto|]. destruct new as [st|]; [|discriminate].
      destruct (w_linsys (sv_work s)); [|discriminate]. injection HC as _ <-. split; [exact HS|exact HW].
    - unfold osqp_warm_start, on_solver in HC. destruct (warm_start s x y) as [[f s1]|] eqn:Er; [|discriminate]. injection HC as _ <-.
      destruct (warm_rest s x y _ Er) as (A0 & A1 & A3 & _ & A2). cbn [snd] in *. split; [|congruence]. unfold ctsync. rewrite A0, A1. destruct A2 as [-> | ->]; exact HS.
    - unfold osqp_cold_start in HC. pose proof (cold_start_post (sv_work s)) as HP. destruct (cold_start (sv_work s)); [|discriminate]. injection HC as _ <-.
      rewrite (HP _ eq_refl). split; [exact HS|exact HW].
    - unfold osqp_get_solution in HC. destruct sol as [o|]; [|injection HC as _ <-; split; auto].
      destruct (store_solution s (Some o)) as [[s1 o1]|] eqn:Er; [|discriminate]. injection HC as _ <-. destruct (store_solution_post s (Some o) _ Er) as (A1 & _ & _ & _ & A2 & _).
      cbn [fst] in *. destruct (sfr_fixed _ _ (fixed_core _ _ A2) A1) as [B1 B2 B3 _ _]. split; [|congruence]. unfold ctsync in *. rewrite A1, B1, B3. exact HS.
  Qed.
  Lemma later_units s0 s : later s0 s -> ctsync s0 -> unitsync s0 s.
  Proof. intros HL HC. induction HL as [|s c fl s' HL IH HA HR HK]; [split; auto|]. eapply run_units; eauto. Qed.

  (** A single rho and the inverse the iteration uses. *)
  Lemma run_inverse c (s : solver K) fl s' : run E c s = Some (fl, HSolver s') -> keeps_units c s -> rsync s -> rsync s'.
  Proof.
    intros HC HN HS. destruct c; cbn [run] in HC.
    - unfold osqp_solve, on_solver in HC. destruct (solve E s) as [[f s1]|] eqn:Er; [|discriminate]. injection HC as _ <-. exact (sf_rs _ _ (solve_sfr E s _ Er) HS).
    - unfold osqp_update_data_vec, on_solver in HC. destruct (update_data_vec E s q l u) as [[f s1]|] eqn:Er; [|discriminate]. injection HC as _ <-.
      destruct (update_data_vec_shape E s q l u _ Er) as (lt & ut & okb & H). destruct okb.
      + destruct (vs_acc _ _ _ _ _ _ _ _ H eq_refl) as (q' & _ & _ & _ & Ei & _ & _ & _ & Es & _). cbn [snd] in *. unfold rsync. rewrite Es, Ei.
        destruct (_ || _); cbn [andb]; auto. destruct (tr (st_rho_is_vec (sv_settings s))) eqn:Ev; auto. rs. congruence.
      + destruct (vs_rej _ _ _ _ _ _ _ _ H eq_refl) as (_ & t & c & Es). cbn [snd] in Es. rewrite Es. exact HS.
    - unfold osqp_update_data_mat, on_solver in HC. destruct (update_data_mat E s Px Pidx Pn Ax Aidx An) as [[f s1]|] eqn:Er; [|discriminate]. injection HC as _ <-.
      destruct (update_data_mat_shape E s _ _ _ _ _ _ _ Er) as (nP & nA & _ & _ & [(_ & Es)|(_ & _ & t & c & w1 & P2 & A2 & w4 & ls & ls' & i & g & X1 & _ & _ & X2 & _ & _ & Es & _)]); cbn [snd] in Es; rewrite Es.
      + destruct (begin_update_eq s) as (t & c & ->). exact HS.
      + cbn [keeps_units] in HN. rewrite HN in X1, X2. change (tr 0) with false in X1, X2. cbv iota in X1, X2. subst w4 w1. exact HS.
    - unfold osqp_update_rho, on_solver in HC. destruct (update_rho E s rho) as [[f s1]|] eqn:Er; [|discriminate]. injection HC as _ <-. exact (sf_rs _ _ (proj1 (update_rho_post E s rho _ Er)) HS).
    - unfold osqp_update_settings in HC. destruct (validate_settings new false) eqn:EV; [injection HC as _ <-; auto|]. destruct new as [st|]; [|discriminate].
      destruct (w_linsys (sv_work s)); [|discriminate]. injection HC as _ <-. exact HS.
    - unfold osqp_warm_start, on_solver in HC. destruct (warm_start s x y) as [[f s1]|] eqn:Er; [|discriminate]. injection HC as _ <-.
      destruct (warm_rest s x y _ Er) as (_ & _ & _ & A1 & A2). cbn [snd] in *. unfold rsync. rewrite A1. destruct A2 as [-> | ->]; exact HS.
    - unfold osqp_cold_start in HC. pose proof (cold_start_post (sv_work s)) as HP. destruct (cold_start (sv_work s)); [|discriminate]. injection HC as _ <-. rewrite (HP _ eq_refl). exact HS.
    - unfold osqp_get_solution in HC. destruct sol as [o|]; [|injection HC as _ <-; auto].
      destruct (store_solution s (Some o)) as [[s1 o1]|] eqn:Er; [|discriminate]. injection HC as _ <-. destruct (store_solution_post s (Some o) _ Er) as (A1 & _ & _ & _ & A2 & _).
      cbn [fst] in *. exact (sf_rs _ _ (sfr_fixed _ _ (fixed_core _ _ A2) A1) HS).
  Qed.
  Lemma later_inverse s0 s : later s0 s -> rsync s0 -> rsync s.
  Proof. intros HL HC. induction HL as [|s c fl s' HL IH HA HR HK]; [auto|]. eapply run_inverse; eauto. Qed.

  (** With warm starting off a solve is a solve after a cold start. *)
  Lemma solve_cold (s s1 : solver K) : tr (st_warm_starting (sv_settings s)) = false -> run E CCold s = Some (0, HSolver s1) -> solve E s1 = solve E s.
  Proof.
    intros Hw HC. cbn [run] in HC. unfold osqp_cold_start in HC. unfold cold_start in HC. destruct (w_linsys (sv_work s)) as [ls|] eqn:El; [|discriminate HC]. injection HC as <-.
    unfold solve. match goal with |- match ?a with _ => _ end = match ?b with _ => _ end => assert (EB : a = b) end; [|rewrite EB; reflexivity].
    unfold begin_solve, push_sec, start_interrupt_listener, cold_start, vf_set_scalar. rs. destruct (w_clear_update_time (sv_work s) =? 1)%Z; rs; rewrite Hw; rs; rewrite El, !map_map; reflexivity.
  Qed.

  Lemma sim_refl : env_sim E E. Proof. constructor; reflexivity. Qed.

  Theorem again (P A : csc K) q l u m n ust g (s0 s t : solver K) g' :
    data_readable (Some P) q (Some A) l u m n -> osqp_setup E g (Some P) q (Some A) l u m n (Some ust) = Some (0, Some s0, g') ->
    later s0 s -> later s0 t ->
    w_data (sv_work t) = w_data (sv_work s) -> sv_settings t = sv_settings s -> i_status_val (sv_info t) = i_status_val (sv_info s) -> i_rho_updates (sv_info t) = i_rho_updates (sv_info s) ->
    st_warm_starting (sv_settings s) = 0 \/ w_x (sv_work t) = w_x (sv_work s) /\ w_y (sv_work t) = w_y (sv_work s) /\ w_z (sv_work t) = w_z (sv_work s) ->
    0 < m -> (st_rho_is_vec (sv_settings s) = 0 -> clamp (st_rho ust) = st_rho ust) -> st_adaptive_rho (sv_settings s) <> ADAPTIVE_RHO_KKT_ERROR -> signs (st_rho (sv_settings s)) ->
    unhurried E s -> unhurried E t ->
    exists fl s' t', run E CSolve s = Some (fl, HSolver s') /\ run E CSolve t = Some (fl, HSolver t') /\ same_outcome fl s' t'.
  Proof.
    intros HR HS Ls Lt ED EST EV EU HX HM Hv Hk HN Us Ut.
    destruct (setup_result_of MM E EO _ _ _ _ _ _ _ _ _ _ _ HR HS) as (HI0 & Hn0 & Hm0 & HF & _).
    assert (CT0 : ctsync s0).
    { intros Hv0. apply (fs_types _ _ _ _ _ _ _ _ _ _ HF). rewrite (fs_settings _ _ _ _ _ _ _ _ _ _ HF) in Hv0. revert Hv0. unfold setup_adaptive_rho.
      repeat match goal with |- context [if ?b then _ else _] => destruct b end; destruct ust; cbn; auto. }
    destruct (later_units _ _ Ls CT0) as (CTs & SCs). destruct (later_units _ _ Lt CT0) as (CTt & SCt).
    assert (RI : tr (st_rho_is_vec (sv_settings s)) = false -> rsync s0).
    { intros Hf H0. assert (Hz : st_rho_is_vec (sv_settings s) = 0) by (unfold tr in Hf; apply negb_false_iff, Z.eqb_eq in Hf; exact Hf). specialize (Hv Hz).
      rewrite (fs_settings _ _ _ _ _ _ _ _ _ _ HF) in H0 |- *. replace (st_rho (setup_adaptive_rho _)) with (clamp (st_rho ust)) by (unfold setup_adaptive_rho; repeat match goal with |- context [if ?b then _ else _] => destruct b end; destruct ust; reflexivity).
      rewrite Hv. apply (fs_rho_inv _ _ _ _ _ _ _ _ _ _ HF). revert H0. unfold setup_adaptive_rho. repeat match goal with |- context [if ?b then _ else _] => destruct b end; destruct ust; cbn; auto. }
    pose proof (later_reach _ _ Ls) as Rs. pose proof (later_reach _ _ Lt) as Rt.
    destruct (lives_facts E EO MM P A q l u m n ust s) as (HIs & _ & Hmx & Hm & Hn); [econstructor; eauto|].
    destruct (lives_facts E EO MM P A q l u m n ust t) as (HIt & _ & _ & _ & _); [econstructor; eauto|].
    assert (ZN : 0 <= n /\ 0 <= m) by (pose proof (wo_d _ _ (iv_w _ HI0)) as []; split; lia). destruct ZN as (ZN & ZM).
    assert (SX : forall r, reach E s0 r -> forall o, sv_solution r = Some o -> zlen (so_x o) = n /\ zlen (so_y o) = m /\ zlen (so_prim_inf_cert o) = m /\ zlen (so_dual_inf_cert o) = n).
    { intros r RC o Ho. pose proof (reach_sl E EO s0 r RC) as SL. unfold sl in SL. rewrite Ho in SL. destruct (sv_solution s0) as [o0|] eqn:E0; [|discriminate SL].
      pose proof (setup_sol E _ _ _ _ _ _ _ _ _ _ _ _ _ HS E0) as ->. cbn [option_map] in SL. injection SL as S1 S2 S3 S4. cbn in S1, S2, S3, S4. rewrite zlen_zrep in * by auto. auto. }
    assert (NN : sv_solution s = None <-> sv_solution t = None).
    { pose proof (reach_sl E EO s0 s Rs) as S1. pose proof (reach_sl E EO s0 t Rt) as S2. unfold sl in *. destruct (sv_solution s), (sv_solution t), (sv_solution s0); try discriminate; split; congruence. }
    destruct (wo_ls _ _ (iv_w _ HI0)) as (ls0 & r0 & El0 & _).
    pose proof (setup_exact E _ _ _ _ _ _ _ _ _ _ _ _ _ HS El0) as X0.
    assert (AG : forall a b : solver K, reach E s0 a -> reach E s0 b -> sv_settings a = sv_settings s -> sv_settings b = sv_settings s -> w_data (sv_work a) = w_data (sv_work s) -> w_data (sv_work b) = w_data (sv_work s) ->
      w_constr_type (sv_work a) = w_constr_type (sv_work s) -> w_constr_type (sv_work b) = w_constr_type (sv_work t) -> w_scaling (sv_work a) = w_scaling (sv_work s) -> w_scaling (sv_work b) = w_scaling (sv_work t) ->
      w_rho_inv (sv_work a) = w_rho_inv (sv_work s) -> w_rho_inv (sv_work b) = w_rho_inv (sv_work t) -> sv_info a = sv_info s -> sv_info b = sv_info t -> sv_solution a = sv_solution s -> sv_solution b = sv_solution t ->
      w_x (sv_work b) = w_x (sv_work a) -> w_y (sv_work b) = w_y (sv_work a) -> w_z (sv_work b) = w_z (sv_work a) -> agree a b).
    { intros a b Ra Rb Sa Sb Da Db Ca Cb Wa Wb Va Vb Ia Ib Oa Ob Xx Xy Xz. constructor; auto; try congruence.
      - intros HV. rewrite Sa in HV. rewrite Ca, Cb. destruct (CTs HV) as (c1 & c2 & ch & B1 & B2). rewrite <- EST in HV. destruct (CTt HV) as (c1' & c2' & ch' & B1' & B2'). rewrite B2, B2'. f_equal. rewrite ED in B1'. exact (bounds_det _ _ _ _ _ _ _ _ _ _ B1 B1').
      - intros Hf. rewrite Sa in Hf. pose proof (later_inverse _ _ Ls (RI Hf) Hf) as Y1. pose proof (later_inverse _ _ Lt (RI Hf)) as Y2. unfold rsync in Y2. rewrite EST in Y2. rewrite Va, Vb, Y1. exact (Y2 Hf).
      - intros o Ho. unfold solex. rewrite Da, Hn, Hm. exact (SX a Ra o Ho).
      - intros o Ho. unfold solex. rewrite Db, Hn, Hm. exact (SX b Rb o Ho).
      - pose proof (reach_lk E s0 a Ra) as L1. pose proof (reach_lk E s0 b Rb) as L2. unfold lk in *. congruence.
      - intros ls Hls. pose proof (reach_lk E s0 a Ra) as L1. unfold lk in L1. rewrite El0, Hls in L1. cbn [option_map] in L1. eapply exactly_lf; [|exact X0]. exact (f_equal (fun o => match o with Some v => v | None => lf ls end) L1). }
    destruct HX as [Hw|(X1 & X2 & X3)].
    - assert (CO : forall r, Inv r -> reach E s0 r -> exists r1, run E CCold r = Some (0, HSolver r1) /\ reach E s0 r1 /\ Inv r1 /\
        sv_work r1 = set_w_x (map (fun _ => n0) (w_x (sv_work r))) (set_w_z (map (fun _ => n0) (w_z (sv_work r))) (set_w_y (map (fun _ => n0) (w_y (sv_work r))) (sv_work r))) /\
        sv_settings r1 = sv_settings r /\ sv_info r1 = sv_info r /\ sv_solution r1 = sv_solution r).
      { intros r HI RC. destruct (wo_ls _ _ (iv_w _ HI)) as (ls & r' & El & _).
        destruct (run_safe E EO MM CCold r HI Logic.I) as ([fl h] & Er & r1 & Eh & HI1 & _). cbn [snd] in Eh. subst h.
        assert (EC : run E CCold r = Some (0, HSolver (set_sv_work (set_w_x (map (fun _ => n0) (w_x (sv_work r))) (set_w_z (map (fun _ => n0) (w_z (sv_work r))) (set_w_y (map (fun _ => n0) (w_y (sv_work r))) (sv_work r)))) r))).
        { cbn [run]. unfold osqp_cold_start, cold_start. rewrite El. reflexivity. }
        rewrite EC in Er. injection Er as <- <-. eexists. split; [exact EC|]. split; [eapply reach_S; [exact RC| |exact EC]; exact Logic.I|]. split; [exact HI1|]. rs. auto. }
      destruct (CO s HIs Rs) as (s1 & C1 & R1 & I1 & W1 & T1 & F1 & O1). destruct (CO t HIt Rt) as (t1 & C2 & R2 & I2 & W2 & T2 & F2 & O2).
      assert (Hw' : tr (st_warm_starting (sv_settings s)) = false) by (rewrite Hw; reflexivity).
      pose proof (wo_len _ _ (iv_w _ HIs)) as Zs. pose proof (wo_len _ _ (iv_w _ HIt)) as Zt. rewrite ED in Zt.
      destruct (agree_solve E E sim_refl EO EO NZ MM s1 t1) as (fl & s' & t' & G1 & G2 & G3); auto.
      + apply AG; auto; rewrite ?W1, ?W2; rs; try congruence.
        all: rewrite (zeros_of _ _ eq_refl), (zeros_of _ _ eq_refl); f_equal.
        * rewrite (ln_x _ _ _ _ Zt), (ln_x _ _ _ _ Zs). reflexivity.
        * rewrite (ln_y _ _ _ _ Zt), (ln_y _ _ _ _ Zs). reflexivity.
        * rewrite (ln_z _ _ _ _ Zt), (ln_z _ _ _ _ Zs). reflexivity.
      + rewrite W1. rs. rewrite Hm. exact HM.
      + rewrite T1. exact HN.
      + unfold unhurried in *. rewrite T1, F1. exact Us.
      + unfold unhurried in *. rewrite T2, F2. exact Ut.
      + rewrite T1. exact Hmx.
      + exists fl, s', t'. cbn [run] in *. unfold osqp_solve, on_solver in *. rewrite (solve_cold s s1 Hw' C1) in G1. rewrite <- EST in Hw'. rewrite (solve_cold t t1 Hw' C2) in G2. auto.
    - apply (agree_solve E E sim_refl EO EO NZ MM s t); auto. rewrite Hm. exact HM.
  Qed.
End Again.
