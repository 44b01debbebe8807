(** No call changes the lengths of the arrays of the stored solution. *)
From Coq Require Import ZArith List Bool Lia String.
From Verif Require Import Num Arr ArrFacts Csc CscSpec CscFacts CscFacts2 Scatter Vec Types Kkt Linsys Scaling Validate Auxil Polish Api
  VecFacts LinsysFacts LinsysSolve Inv InvStep InvApi InvScale InvPolish InvSolve InvUpd History RecSimp Frame FrameSolve FrameUpd DataFacts SolveEnd LinFrame.
Import ListNotations.
Open Scope Z_scope.

Section SolLen.
  Context {K : NumOps}.
  Variable E : Env K.

  Definition sk (s s' : solver K) : Prop := sv_solution s' = sv_solution s.
  Lemma sk_refl s : sk s s. Proof. reflexivity. Qed.
  Lemma sk_trans a b c : sk a b -> sk b c -> sk a c.
  Proof. unfold sk. congruence. Qed.
  Ltac old L := eapply post_weaken; [apply L|]; cbv beta zeta; let x := fresh in let H := fresh in intros x H; decompose [and] H; unfold sk; congruence.
  Lemma step_sk (s : solver K) : post (admm_step E s) (sk s). Proof. old (admm_step_post E). Qed.
  Lemma info_sk (s : solver K) it : post (update_info E s it) (sk s). Proof. old (update_info_post E). Qed.
  Lemma check_sk (s : solver K) ap : post (check_termination s ap) (fun r => sk s (snd r)). Proof. old (@check_termination_post K). Qed.
  Lemma adapt_sk (s : solver K) : post (adapt_rho E s) (fun r => sk s (snd r)). Proof. old (adapt_rho_post E). Qed.
  Lemma rho_sk (s : solver K) r : post (update_rho E s r) (fun r => sk s (snd r)). Proof. old (update_rho_post E). Qed.
  Lemma polish_sk (s : solver K) : post (polish E s) (fun r => sk s (snd r)). Proof. old (polish_post E). Qed.

  Lemma pass_sk (s : solver K) it f : post (admm_pass E s it f) (fun o => sk s (outS o)).
  Proof.
    destruct f as [[cc cp] ca]. unfold admm_pass. eapply post_bindP; [apply step_sk|]. intros s1 H1.
    unfold is_interrupted. cbv zeta. set (s2 := set_sv_world _ s1). assert (H2 : sk s s2) by exact H1. clearbody s2.
    destruct (env_int _ _). { walk1. apply post_ret. exact H2. }
    destruct (temp_run_time_eq E s2) as [t ->]. set (s3 := snd _). assert (H3 : sk s s3) by exact H2. clearbody s3.
    destruct (_ && _). { walk1. apply post_ret. exact H3. }
    destruct (decide_adapt_post E s3 it ca) as (_ & _ & D1 & _). destruct (decide_adapt E s3 it ca) as [ca4 s4]. cbn [snd] in *.
    assert (H4 : sk s s4) by (unfold sk in *; congruence).
    eapply post_bindP with (P := sk s).
    { destruct (_ || _); [|apply post_ret; auto]. eapply post_weaken; [apply info_sk|]. intros; eapply sk_trans; eauto. }
    intros s5 H5. eapply post_bindP with (P := fun r => sk s (snd r)).
    { destruct (_ && _); [|apply post_ret; auto]. eapply post_weaken; [apply check_sk|]. intros; eapply sk_trans; eauto. }
    intros [stop s6] H6. cbn [snd] in H6. destruct stop; [apply post_ret; exact H6|].
    set (s7 := set_sv_work _ s6). assert (H7 : sk s s7) by exact H6. clearbody s7.
    set (ca7 := if _ && _ then _ else _). clearbody ca7.
    eapply post_bindP with (P := fun r => sk s (snd r)).
    { destruct ca7; [|apply post_ret; auto]. eapply post_weaken; [apply adapt_sk|]. intros; eapply sk_trans; eauto. }
    intros [fl s8] H8. cbn [snd] in H8. destruct (tr fl); [apply post_ret; exact H8|]. apply post_ret. cbn [outS].
    set (s9 := if tr _ then _ else s8). assert (H9 : sk s s9) by (subst s9; destruct (tr _); exact H8). clearbody s9.
    destruct (_ || _); exact H9.
  Qed.
  Lemma loop_sk k : forall it f (s : solver K), post (admm_loop E k it f s) (fun o => sk s (outS (fst o))).
  Proof.
    induction k as [|k IH]; intros it f s; cbn [admm_loop]; [apply post_ret; apply sk_refl|].
    eapply post_bindP; [apply pass_sk|]. intros [s1 f1|s1 f1|s1 fl] H; cbn [outS] in H; [|apply post_ret; exact H..].
    eapply post_weaken; [apply IH|]. intros o Ho. eapply sk_trans; eauto.
  Qed.

  (** Lengths of a stored solution. *)
  Definition olen (o : solution K) := (zlen (so_x o), zlen (so_y o), zlen (so_prim_inf_cert o), zlen (so_dual_inf_cert o)).
  Definition sl (s s' : solver K) : Prop := option_map olen (sv_solution s') = option_map olen (sv_solution s).
  Lemma sl_refl s : sl s s. Proof. reflexivity. Qed.
  Lemma sl_trans a b c : sl a b -> sl b c -> sl a c.
  Proof. unfold sl. congruence. Qed.
  Lemma sk_sl a b : sk a b -> sl a b.
  Proof. unfold sk, sl. congruence. Qed.
  Lemma raw_len (bv a : list K) : post (vf_to_raw bv a) (fun c => zlen c = zlen bv).
  Proof.
    unfold vf_to_raw, view_write. destruct (_ && _) eqn:C; [|apply post_none]. apply post_ret. cbn [Z.to_nat firstn app]. unfold zlen. rewrite app_length, skipn_length.
    unfold zlen in C. lia.
  Qed.

  Lemma store_len (s : solver K) so : post (store_solution s so) (fun r => option_map olen (snd r) = option_map olen so).
  Proof.
    unfold store_solution. destruct so as [o|]; [|apply post_ret; reflexivity]. destruct (has_solution _).
    - eapply post_bindP with (P := fun r => zlen (fst (fst r)) = zlen (so_x o) /\ zlen (snd (fst r)) = zlen (so_y o)).
      { destruct (tr _); [do 2 walk1|]; (eapply post_bindP; [apply raw_len|]; intros x Hx; eapply post_bindP; [apply raw_len|]; intros y Hy; apply post_ret; auto). }
      intros [[x y] w] (Hx & Hy). cbn [fst snd] in *. eapply post_bindP; [apply raw_len|]. intros pc Hp. eapply post_bindP; [apply raw_len|]. intros dc Hd. apply post_ret. cbn [snd option_map]. unfold olen. cbn. congruence.
    - eapply post_bindP; [apply raw_len|]. intros x Hx. eapply post_bindP; [apply raw_len|]. intros y Hy. walk1.
      set (o1 := set_so_x x (set_so_y y o)). assert (H1 : olen o1 = olen o) by (subst o1; unfold olen; rs; congruence). clearbody o1.
      eapply post_bindP with (P := fun r => olen (snd r) = olen o).
      { destruct (_ || _); [|apply post_ret; exact H1]. eapply post_bindP; [apply raw_len|]. intros pc Hp. eapply post_bindP; [apply raw_len|]. intros dc Hd. apply post_ret. cbn [snd]. rewrite <- H1. unfold olen. rs. congruence. }
      intros [w2 o2] H2. cbn [snd] in H2. eapply post_bindP with (P := fun r => olen (snd r) = olen o).
      { destruct (_ || _); [|apply post_ret; exact H2]. eapply post_bindP; [apply raw_len|]. intros pc Hp. eapply post_bindP; [apply raw_len|]. intros dc Hd. apply post_ret. cbn [snd]. rewrite <- H2. unfold olen. rs. congruence. }
      intros [w3 o3] H3. cbn [snd] in H3. apply post_ret. cbn [snd option_map]. congruence.
  Qed.

  Lemma exit_sk (s : solver K) fl : post (solve_exit s fl) (fun r => sk s (snd r)).
  Proof. unfold solve_exit, pop_sec, end_interrupt_listener. rs. destruct (g_sections _); walk. reflexivity. Qed.
  Lemma conclude_sk (t : solver K) it f : post (conclude E t it f) (sk t).
  Proof.
    unfold conclude. eapply post_bindP with (P := sk t).
    { destruct f as [[cc cp] ca]. unfold final_check. destruct cc; [apply post_ret; apply sk_refl|].
      eapply post_bindP with (P := sk t). { destruct cp; [apply post_ret; apply sk_refl|apply info_sk]. }
      intros s1 H1. set (s2 := if _ && _ then _ else s1). assert (H2 : sk t s2) by (subst s2; destruct (_ && _); exact H1). clearbody s2.
      eapply post_bindP; [apply check_sk|]. intros r Hr. apply post_ret. eapply sk_trans; eauto. }
    intros s1 H1. eapply post_bindP with (P := sk t).
    { unfold final_objective. destruct (has_solution _); [|apply post_ret; auto]. apply post_bind. intros [[[p dv] g] w] _. apply post_ret. exact H1. }
    intros s2 H2. set (s3 := if _ && _ then _ else s2). assert (H3 : sk t s3) by (subst s3; destruct (_ && _); exact H2). clearbody s3. cbv zeta.
    unfold final_status. eapply post_bindP with (P := sk t).
    { destruct (_ =? _); [|apply post_ret; auto]. eapply post_bindP; [apply check_sk|]. intros r Hr. pose proof (sk_trans _ _ _ H3 Hr). destruct (fst r); walk; auto. }
    intros s4 H4. destruct (_ =? _); [|apply post_ret; auto]. eapply post_bindP; [apply check_sk|]. intros r Hr. pose proof (sk_trans _ _ _ H4 Hr). destruct (fst r); walk; auto.
  Qed.
  Lemma finish_sl (s : solver K) it f : env_ok E -> post (finish_solve E s it f) (fun r => sl s (snd r)).
  Proof.
    intros EO. intros r Hr. destruct (finish_ends E EO s it f r Hr) as (e & Ec & HF). apply conclude_sk in Ec.
    destruct HF as [s6 A6 _ _ _ _ _ _ B|s6 r' A6 _ _ _ Er _ _ _ B].
    - apply sk_sl. unfold sk in *. rewrite B, (ap_so _ _ _ _ A6). auto.
    - unfold sl. rewrite B. rewrite (store_len _ _ _ Er), (ap_so _ _ _ _ A6). unfold sk in Ec. congruence.
  Qed.
  Lemma solve_sl (s : solver K) : env_ok E -> post (solve E s) (fun r => sl s (snd r)).
  Proof.
    intros EO. unfold solve. eapply post_bindP with (P := sk s).
    { unfold begin_solve. cbv zeta. set (s1 := if _ =? 1 then _ else s). assert (H1 : sk s s1) by (subst s1; destruct (_ =? 1); reflexivity). clearbody s1.
      unfold start_interrupt_listener, push_sec. rs. destruct (tr _); [apply post_ret; exact H1|]. walk1. apply post_ret. exact H1. }
    intros s1 H1. eapply post_bindP; [apply loop_sk|]. intros [o it] Ho. cbn [fst] in Ho. pose proof (sk_trans _ _ _ H1 Ho) as H2.
    destruct o as [s2 f2|s2 f2|s2 fl]; cbn [outS] in H2.
    - eapply post_weaken; [apply finish_sl; auto|]. intros r Hr. exact (sl_trans _ _ _ (sk_sl _ _ H2) Hr).
    - eapply post_weaken; [apply finish_sl; auto|]. intros r Hr. exact (sl_trans _ _ _ (sk_sl _ _ H2) Hr).
    - eapply post_weaken; [apply exit_sk|]. intros r Hr. exact (sk_sl _ _ (sk_trans _ _ _ H2 Hr)).
  Qed.

  Lemma begin_sk (s : solver K) : sk s (begin_update s).
  Proof. destruct (begin_update_eq s) as (t & c & ->). reflexivity. Qed.
  Lemma end_sk (s : solver K) : post (end_update E s) (sk s).
  Proof. destruct (end_update_eq E s) as (m & t & g & ->). apply post_ret. reflexivity. Qed.
  Lemma rho_vec_sk (s : solver K) : post (update_rho_vec E s) (fun r => sk s (snd r)).
  Proof.
    unfold update_rho_vec. eapply post_bindP with (P := fun r => sk s (snd r)). { unfold set_rho_vec. do 3 walk1. apply post_ret. reflexivity. }
    intros [ch s1] H1. cbn [snd] in H1. destruct ch; walk; exact H1.
  Qed.
  Lemma vec_sk (s : solver K) q l u : post (update_data_vec E s q l u) (fun r => sk s (snd r)).
  Proof.
    unfold update_data_vec. pose proof (begin_sk s) as H0. set (s0 := begin_update s) in *. clearbody s0.
    eapply post_bindP with (P := fun r => sk s (snd (fst r))).
    { destruct l as [l|], u as [u|]; [| | |apply post_ret; exact H0]; do 3 walk1; (destruct (negb _); [apply post_ret; exact H0|]);
        (match goal with |- post (if ?b then _ else _) _ => destruct b end; [eapply post_bindP; [apply rho_vec_sk|]; intros r Hr; apply post_ret; cbn [fst snd]; eapply sk_trans; [exact H0|exact Hr]|apply post_ret; exact H0]). }
    intros [[fl s1] failed] H1. cbn [fst snd] in H1. destruct failed; [apply post_ret; exact H1|].
    eapply post_bindP with (P := sk s). { destruct q; walk; exact H1. }
    intros s2 H2. eapply post_bindP; [apply end_sk|]. intros s3 H3. apply post_ret. eapply sk_trans; eauto.
  Qed.
  Lemma mat_sk (s : solver K) Px Pidx Pn Ax Aidx An : post (update_data_mat E s Px Pidx Pn Ax Aidx An) (fun r => sk s (snd r)).
  Proof.
    unfold update_data_mat. pose proof (begin_sk s) as H0. set (s0 := begin_update s) in *. clearbody s0. cbv zeta.
    do 2 walk1. do 4 (match goal with |- post (if ?b then _ else _) _ => destruct b; [apply post_ret; exact H0|] end).
    do 6 (apply post_bind; intros ? _). eapply post_bindP; [apply end_sk|]. intros s5 H5'. apply post_ret. cbn [snd]. eapply sk_trans; [exact H0|exact H5'].
  Qed.
  Lemma warm_sk (s : solver K) x y : post (warm_start s x y) (fun r => sk s (snd r)).
  Proof.
    unfold warm_start. cbv zeta. set (s1 := if negb _ then _ else s). assert (H1 : sk s s1) by (subst s1; destruct (negb _); reflexivity). clearbody s1.
    do 4 (apply post_bind; intros ? _). apply post_ret. exact H1.
  Qed.

  Lemma run_sl c (s : solver K) fl s' : env_ok E -> run E c s = Some (fl, HSolver s') -> sl s s'.
  Proof.
    intros EO. assert (HO : forall f fl, on_solver (HSolver s) f = Some (fl, HSolver s') -> post (f s) (fun r => sl s (snd r)) -> sl s s').
    { intros f fl0 H HP. unfold on_solver in H. destruct (f s) as [[a b]|]; [|discriminate]. injection H as <- <-. exact (HP _ eq_refl). }
    assert (W : forall (e : option (Z * solver K)), post e (fun r => sk s (snd r)) -> post e (fun r => sl s (snd r))) by (intros e He; eapply post_weaken; [exact He|]; intros; apply sk_sl; auto).
    intros HC. destruct c; cbn [run] in HC.
    - eapply HO; [exact HC|]. apply solve_sl; auto.
    - eapply HO; [exact HC|]. apply W, vec_sk.
    - eapply HO; [exact HC|]. apply W, mat_sk.
    - eapply HO; [exact HC|]. apply W, rho_sk.
    - unfold osqp_update_settings in HC. destruct (validate_settings new false); [injection HC as _ <-; apply sl_refl|]. destruct new as [st|]; [|discriminate].
      destruct (w_linsys (sv_work s)); [|discriminate]. injection HC as _ <-. exact (sl_refl s).
    - eapply HO; [exact HC|]. apply W, warm_sk.
    - unfold osqp_cold_start in HC. destruct (cold_start (sv_work s)) as [w|] eqn:Ec; [|discriminate]. injection HC as _ <-. exact (sl_refl s).
    - unfold osqp_get_solution in HC. destruct sol as [o|]; [|injection HC as _ <-; apply sl_refl].
      destruct (store_solution s (Some o)) as [[s1 o1]|] eqn:Er; [|discriminate]. injection HC as _ <-. destruct (store_solution_post s (Some o) _ Er) as (_ & _ & _ & A4 & _). cbn [fst] in A4. apply sk_sl. exact A4.
  Qed.
End SolLen.
