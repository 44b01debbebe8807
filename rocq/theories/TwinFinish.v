(** The end of a solve, polishing and the stored solution, run side by side on two solvers. *)
From Coq Require Import ZArith String List Bool Lia.
From Verif Require Import Num Arr ArrFacts Csc CscSpec CscFacts CscFacts2 Scatter CscFacts3 CscFacts5 Vec Types RecSimp Kkt Linsys Scaling Validate Auxil VecFacts LinsysFacts LinsysSolve Inv InvStep InvApi InvPolish InvSolve Polish Api Frame FrameSolve TimeFacts TwinKer TwinStep TwinTerm TwinSolve.
Import ListNotations.
Open Scope Z_scope.
Local Open Scope opt_scope.

Section Finish.
  Context {K : NumOps}.
  Variables E E' : Env K.
  Hypothesis ES : env_sim E E'.
  Hypothesis EO : env_ok E.
  Hypothesis EO' : env_ok E'.
  Hypothesis NZ : @neqb K n0 n0 = true.
  Variables pS pI pU : Prop.
  Notation ts := (@ts K E E' pS pI pU).
  Notation ti := (@ti K pS pI pU).

  Ltac bb := eapply both_bind; [first [apply both_add_scaled | apply both_add_scaled3 | apply both_v1 | apply both_v2 | apply both_v3 | apply both_same]; rs; auto; try congruence|rs; let v := fresh "v" in intros v ? <-].

  Lemma both_keep {A B} (e : option A) (e' : option B) R : both e e' R -> both e e' (fun a b => e = Some a /\ R a b).
  Proof. intros H a b Ha Hb. auto. Qed.
  Lemma both_keep2 {A B} (e : option A) (e' : option B) R : both e e' R -> both e e' (fun a b => e = Some a /\ e' = Some b /\ R a b).
  Proof. intros H a b Ha Hb. auto. Qed.
  Lemma v1_len {X A C} (x : list X) (f : A -> C) a r : v1 x f a = Some r -> zlen r = zlen x.
  Proof. unfold v1. destruct (Z.eqb_spec (zlen x) (zlen a)); [|discriminate]. intros [= <-]. rewrite zlen_map. auto. Qed.
  Lemma v2_len {X A B C} (x : list X) (f : A -> B -> C) a b r : v2 x f a b = Some r -> zlen r = zlen x /\ zlen a = zlen x /\ zlen b = zlen x.
  Proof. intros H. destruct (v2_inv _ _ _ _ _ H) as (-> & H1 & H2). rewrite zlen_zip by lia. lia. Qed.
  Lemma v3_len {X A B C D} (x : list X) (f : A -> B -> C -> D) a b c r : v3 x f a b c = Some r -> zlen r = zlen x /\ zlen a = zlen x.
  Proof. intros H. destruct (v3_inv _ _ _ _ _ _ H) as (-> & H1 & H2 & H3). rewrite zlen_zip3 by lia. lia. Qed.

  Lemma print_form (s : solver K) (x : bool) : exists v, (if x then print_summary s else s) = set_sv_work (set_w_summary_printed v (sv_work s)) s.
  Proof. destruct x; [exists 1; reflexivity|]. exists (w_summary_printed (sv_work s)). destruct s as [a1 a2 a3 w a5]; destruct w; reflexivity. Qed.
  Lemma ts_maybe b c d s s' (x x' : bool) : ts b c d s s' -> ts b c d (if x then print_summary s else s) (if x' then print_summary s' else s').
  Proof. intros T. destruct (print_form s x) as (v & ->). destruct (print_form s' x') as (v' & ->). apply ts_print; auto. Qed.
  Lemma Inv_maybe (s : solver K) (x : bool) : Inv s -> Inv (if x then print_summary s else s).
  Proof. intros HI. destruct x; auto. apply (print_ok s HI). Qed.

  Lemma final_check_both s s' iter f : ts True True False s s' -> Inv s -> Inv s' -> both (final_check E s iter f) (final_check E' s' iter f) (ts True True False).
  Proof.
    intros T HI HI'. destruct f as [[cc cp] ca]. unfold final_check. destruct cc; [apply both_ret; auto|].
    eapply both_bind with (R := fun a b => ts True True False a b /\ Inv a /\ Inv b).
    { destruct cp; [apply both_ret; auto|]. eapply both_imp; [apply (update_info_both E E' NZ pS pI pU _ _ _ _ (iter - 1) T HI HI')|apply update_info_safe; auto|apply update_info_safe; auto|].
      intros a b TA (HA & _) (HB & _). split; auto. split; [apply HA|apply HB]. }
    intros a b (TA & IA & IB).
    set (x := tr (st_verbose (sv_settings a)) && _). set (x' := tr (st_verbose (sv_settings b)) && _).
    pose proof (ts_maybe _ _ _ _ _ x x' TA) as T1. pose proof (Inv_maybe _ x IA) as I1. pose proof (Inv_maybe _ x' IB) as I1'.
    eapply both_bind; [apply (check_both E E' NZ pS pI pU _ _ _ false T1 I1 I1')|]. intros r r' (_ & TR). apply both_ret. auto.
  Qed.

  Lemma final_objective_both s s' : ts True True False s s' -> both (final_objective s) (final_objective s') (ts True True False).
  Proof.
    intros T. pose proof (ts_st _ _ _ _ _ _ _ _ _ _ T) as Est. pose proof (ts_w _ _ _ _ _ _ _ _ _ _ T) as TW. pose proof (ts_i _ _ _ _ _ _ _ _ _ _ T) as TI.
    assert (Eh : has_solution (sv_info s') = has_solution (sv_info s)). { unfold has_solution. rewrite (ti_v _ _ _ _ _ _ _ TI). reflexivity. }
    unfold final_objective. rewrite Eh. destruct (has_solution (sv_info s)); [|apply both_ret; auto]. rewrite Est, (tw_x _ _ _ _ _ TW), (tw_y _ _ _ _ _ TW).
    eapply both_bind; [apply obj_both; [apply (tw_c _ _ _ _ _ TW)|apply (tw_Px _ _ _ _ _ TW Logic.I)]|].
    intros [[[p dv] g] v] [[[p' dv'] g'] v'] (F & zp & gg & q & l & su & H1 & H2). cbn [fst snd] in *. subst v v'. injection F as -> -> ->. apply both_ret.
    destruct T. constructor; rs; auto.
    - destruct TW. constructor; rs; auto. destruct tw_c. constructor; rs; auto.
    - destruct TI. constructor; rs; auto.
  Qed.

  Lemma check_or_both s s' v : ts True True False s s' -> Inv s -> Inv s' ->
    both (r <- check_termination s true ;; if fst r then Some (snd r) else i <- update_status (sv_info (snd r)) v ;; Some (set_sv_info i (snd r)))
      (r <- check_termination s' true ;; if fst r then Some (snd r) else i <- update_status (sv_info (snd r)) v ;; Some (set_sv_info i (snd r))) (ts True True False).
  Proof.
    intros T HI HI'. eapply both_bind; [apply (check_both E E' NZ pS pI pU _ _ _ true T HI HI')|]. intros r r' (F & TR). rewrite F. destruct (fst r); [apply both_ret; auto|].
    eapply both_bind; [eapply status_both; apply (ts_i _ _ _ _ _ _ _ _ _ _ TR)|]. intros i i' (m & -> & ->). apply both_ret.
    eapply ts_info; [exact TR|apply ti_status; apply (ts_i _ _ _ _ _ _ _ _ _ _ TR)|reflexivity|reflexivity|reflexivity|reflexivity].
  Qed.

  Lemma final_status_both s s' : ts True True False s s' -> Inv s -> Inv s' -> both (final_status s) (final_status s') (ts True True False).
  Proof.
    intros T HI HI'. unfold final_status. rewrite (ti_v _ _ _ _ _ _ _ (ts_i _ _ _ _ _ _ _ _ _ _ T)).
    eapply both_bind with (R := fun a b => ts True True False a b /\ Inv a /\ Inv b).
    { destruct (_ =? OSQP_UNSOLVED); [|apply both_ret; auto].
      eapply both_imp; [apply (check_or_both _ _ OSQP_MAX_ITER_REACHED T HI HI')|apply check_or_safe; auto; unfold OSQP_MAX_ITER_REACHED; lia|apply check_or_safe; auto; unfold OSQP_MAX_ITER_REACHED; lia|].
      intros a b TA HA HB. split; auto. split; [apply HA|apply HB]. }
    intros a b (TA & IA & IB). rewrite (ti_v _ _ _ _ _ _ _ (ts_i _ _ _ _ _ _ _ _ _ _ TA)).
    destruct (_ =? OSQP_TIME_LIMIT_REACHED); [|apply both_ret; auto]. apply check_or_both; auto.
  Qed.

  (** Functions that only use the oracles. *)
  Lemma init_env (P A : csc K) rv st pol : init_linsys_solver E' P A rv st pol = init_linsys_solver E P A rv st pol.
  Proof.
    unfold init_linsys_solver. rewrite (es_jz _ _ ES), (es_jx _ _ ES). cbv zeta.
    assert (PE : forall M p a b c d, permute_KKT E' M p a b c d = permute_KKT E M p a b c d).
    { intros. unfold permute_KKT. rewrite (es_amd _ _ ES), (es_jz _ _ ES), (es_jx _ _ ES). reflexivity. }
    assert (FE : forall M n, LDL_factor E' M n = LDL_factor E M n). { intros. unfold LDL_factor. rewrite (es_fac _ _ ES). reflexivity. }
    destruct (match rv with None => _ | Some _ => _ end) as [rhov|]; auto. destruct pol.
    - destruct (form_KKT _ _ _ _ _ _ _ _ _ _ _) as [[[[M a] b] c]|]; auto. rewrite PE. destruct (permute_KKT _ _ _ _ _ _ _) as [[[M1 p] mm]|]; auto. rewrite FE. auto.
    - destruct (zget (cp P) (cn P)); auto. destruct (zget (cp A) (cn P)); auto. destruct (form_KKT _ _ _ _ _ _ _ _ _ _ _) as [[[[M a] b] c]|]; auto.
      destruct a, b, c; auto. rewrite PE. destruct (permute_KKT _ _ _ _ _ _ _) as [[[M1 p] [[[mP mA] mR]|]]|]; auto. rewrite FE. auto.
  Qed.
  Lemma solve_env ls (b : list K) : solve_linsys E' ls b = solve_linsys E ls b.
  Proof.
    assert (LE : forall x c, LDLSolve E' ls x c = LDLSolve E ls x c).
    { intros. unfold LDLSolve. rewrite (es_jx _ _ ES). destruct (for_ _ _ _ (zrep _ _)); auto. rewrite (es_solve _ _ ES). auto. }
    unfold solve_linsys. rewrite !LE, (es_jx _ _ ES). reflexivity.
  Qed.
  Lemma refine_env st (w w' : work K) Ared p z b : w_data w' = w_data w -> iterative_refinement E' st w' Ared p z b = iterative_refinement E st w Ared p z b.
  Proof.
    intros Ed. unfold iterative_refinement. rewrite Ed, (es_jx _ _ ES). destruct (_ <=? 0); auto. cbv zeta.
    match goal with |- match ?a with _ => _ end = match ?b with _ => _ end => assert (H : a = b) end.
    { apply for_ext. intros k [y rhs] _. destruct (vf_copy rhs b); auto. destruct (view y 0 _); auto. destruct (view y _ _); auto. destruct (view l 0 _); auto.
      destruct (csc_Axpy_sym_triu _ _ _ _ _); auto. destruct (csc_Atxpy _ _ _ _ _); auto. destruct (view l _ _); auto. destruct (csc_Axpy _ _ _ _ _); auto.
      destruct (view_write l _ _ _); auto. destruct (view_write _ _ _ _); auto. rewrite solve_env. auto. }
    rewrite H. auto.
  Qed.

  Lemma form_Ared_both st b c (w w' : work K) : tw st b c w w' -> zlen (p_active_flags (w_pol w)) = d_m (w_data w) -> zlen (p_active_flags (w_pol w')) = d_m (w_data w) ->
    both (form_Ared E w) (form_Ared E' w') (fun r r' => snd r' = snd r /\ exists fl k, zlen fl = d_m (w_data w) /\ fst r = set_p_active_flags fl (set_p_n_active k (w_pol w)) /\ fst r' = set_p_active_flags fl (set_p_n_active k (w_pol w'))).
  Proof.
    intros T L L'. unfold form_Ared. rewrite (ct_d _ _ _ (tw_c _ _ _ _ _ T)), (tw_z _ _ _ _ _ T), (tw_y _ _ _ _ _ T), (es_jz _ _ ES), (es_jx _ _ ES).
    set (m := d_m (w_data w)) in *. pose proof (zlen_nonneg (p_active_flags (w_pol w))) as Hm. rewrite L in Hm.
    eapply both_bind.
    { apply (both_for (fun k (t t' : list Z * Z) => snd t' = snd t /\ zlen (fst t) = m /\ zlen (fst t') = m /\ forall i, 0 <= i < k -> zget (fst t') i = zget (fst t) i)).
      - cbn [fst snd]. repeat split; auto. intros; lia.
      - intros k [fl n] [fl' n'] Hk (H1 & H2 & H3 & H4). cbn [fst snd] in *. subst n'. bb. bb. bb. bb.
        intros u u' Hu Hu'. destruct (zset fl k _) as [f1|] eqn:E1; [|discriminate]. destruct (zset fl' k _) as [f1'|] eqn:E2; [|discriminate]. injection Hu as <-. injection Hu' as <-. cbn [fst snd].
        pose proof (zset_len _ _ _ _ E1). pose proof (zset_len _ _ _ _ E2). rewrite zset_Some in E1, E2 by lia. injection E1 as <-. injection E2 as <-. split; [auto|]. split; [lia|]. split; [lia|].
        intros i Hi. rewrite !zget_upd by lia. destruct (Z.eqb_spec i k); auto. apply H4. lia. }
    intros [fl n] [fl' n'] (H1 & H2 & H3 & H4). cbn [fst snd] in *. subst n'. replace (Z.max 0 m) with m in H4 by lia.
    assert (fl' = fl) as ->. { apply (list_ext_znth 0); [lia|]. intros i Hi. unfold znth. rewrite H4 by lia. auto. }
    bb. apply both_ret. cbn [fst snd]. eauto 6.
  Qed.

  Lemma ypol_eq (w w' : work K) yv : w_y w' = w_y w -> w_data w' = w_data w -> p_n_active (w_pol w') = p_n_active (w_pol w) -> p_active_flags (w_pol w') = p_active_flags (w_pol w) ->
    zlen (p_y (w_pol w')) = zlen (p_y (w_pol w)) -> get_ypol_from_yred w' yv = get_ypol_from_yred w yv.
  Proof.
    intros H1 H2 H3 H4 H5. unfold get_ypol_from_yred, vf_from_raw, vf_set_scalar. rewrite H1, H2, H3, H4, H5.
    destruct (_ =? 0); auto. f_equal. assert (HL : length (p_y (w_pol w')) = length (p_y (w_pol w))) by (unfold zlen in H5; lia).
    clear - HL. revert HL. generalize (p_y (w_pol w')) (p_y (w_pol w)). intros a. induction a; intros [|y l] HL; cbn in *; try discriminate; auto. f_equal. auto.
  Qed.

  (** The workspace apart from the polishing structure. *)
  Lemma tw_pol st b c (w w' : work K) p p' : tw st b c w w' -> tw st b c (set_w_pol p w) (set_w_pol p' w').
  Proof. intros []. constructor; rs; auto. destruct tw_c. constructor; rs; auto. Qed.

  Definition polsol (p : pol K) := (p_x p, p_y p, p_z p).
  Definition polres (p : pol K) := (p_prim_res p, p_dual_res p, p_obj_val p, p_dual_obj_val p, p_duality_gap p).
  Lemma pol_info_both d s s' x y z : ts True True d s s' -> wok (sv_settings s) (sv_work s) -> wok (sv_settings s) (sv_work s') -> polsol (w_pol (sv_work s)) = (x, y, z) -> polsol (w_pol (sv_work s')) = (x, y, z) ->
    both (update_info_polish E s) (update_info_polish E' s') (fun a b => ts True True d a b /\ polsol (w_pol (sv_work a)) = (x, y, z) /\ polsol (w_pol (sv_work b)) = (x, y, z) /\ polres (w_pol (sv_work b)) = polres (w_pol (sv_work a))).
  Proof.
    intros T W W' P P'. pose proof (ts_w _ _ _ _ _ _ _ _ _ _ T) as TW. pose proof (wo_len _ _ W) as L. unfold polsol in *. injection P as P1 P2 P3. injection P' as P1' P2' P3'.
    unfold update_info_polish. rewrite P1, P2, P3, P1', P2', P3', (ts_st _ _ _ _ _ _ _ _ _ _ T).
    eapply both_bind; [apply (res_both NZ (sv_settings s) True True _ _ x y z TW W W'); [rewrite <- P1|rewrite <- P2|rewrite <- P3]; apply L|].
    intros [[[[[pr dr] p] dv] g] v] [[[[[pr' dr'] p'] dv'] g'] v'] (F & TV & Fr & Fr'). cbn [fst snd] in *. injection F as -> -> -> -> ->.
    unfold frm in Fr, Fr'. injection Fr as _ _ _ F0 F1 F2 _. injection Fr' as _ _ _ F0' F1' F2' _.
    unfold toc. rs. apply both_ret. rs. split; [|rewrite F0, F0', P1, P2, P3, P1', P2', P3'; auto].
    destruct T. constructor; rs; auto.
    - apply tw_printed, tw_pol; auto.
    - destruct ts_i. constructor; rs; auto.
    - rewrite F2, F2'. auto.
    - destruct ts_q as (A & B & C). split; [exact A|]. split; [rs; rewrite F1; exact B|exact C].
    - destruct ts_q' as (A & B & C). split; [exact A|]. split; [rs; rewrite F1'; exact B|exact C].
  Qed.

  Lemma polish_both d s s' : ts True True d s s' -> Inv s -> Inv s' -> both (polish E s) (polish E' s') (fun r r' => fst r' = fst r /\ ts True True d (snd r) (snd r') /\ i_status_polish (sv_info (snd r')) = i_status_polish (sv_info (snd r))).
  Proof.
    intros T HI HI'. pose proof (ts_st _ _ _ _ _ _ _ _ _ _ T) as Est. pose proof (ts_w _ _ _ _ _ _ _ _ _ _ T) as TW. pose proof (ts_i _ _ _ _ _ _ _ _ _ _ T) as TI.
    pose proof (iv_w _ HI) as W. pose proof (iv_w _ HI') as W'. rewrite Est in W'. pose proof (ct_d _ _ _ (tw_c _ _ _ _ _ TW)) as Ed.
    pose proof (wo_len _ _ W) as L. pose proof (wo_len _ _ W') as L'. rewrite Ed in L'. pose proof (wo_d _ _ W) as D.
    unfold polish. eapply both_bind; [apply (form_Ared_both _ _ _ _ _ TW); [apply L|apply L']|]. intros [pl A] [pl' A'] (F & fl & k & Lfl & Hp & Hp'). cbn [fst snd] in *. subst A'.
    rs. rewrite Ed. assert (Ek : p_n_active pl = k /\ p_n_active pl' = k) by (subst pl pl'; rs; auto). destruct Ek as (Ek & Ek'). rewrite Ek, Ek'.
    destruct (k =? 0).
    { apply both_ret. cbn [fst snd]. rs. split; auto. split; auto. destruct T. constructor; rs; auto; [apply tw_pol; auto|]. destruct TI. constructor; rs; auto. }
    rewrite Est, init_env. eapply both_bind; [apply both_same; reflexivity|]. intros [flag [plsh|]] ? <-.
    2:{ apply both_ret. cbn [fst snd]. rs. split; auto. split; auto. destruct T. constructor; rs; auto; [apply tw_pol; auto|]. destruct TI. constructor; rs; auto. }
    assert (Efl : p_active_flags pl' = p_active_flags pl) by (subst pl pl'; reflexivity).
    eapply both_bind with (R := eq). { unfold form_rhs_red. rs. rewrite Ed, Efl, (es_jx _ _ ES). apply both_same. reflexivity. }
    intros rhs ? <-. rewrite solve_env. bb.
    eapply both_bind with (R := eq). { apply both_same. symmetry. apply refine_env. rs. exact Ed. }
    intros ps ? <-. bb. bb.
    assert (Lx : zlen (p_x pl) = d_n (w_data (sv_work s))) by (subst pl; rs; apply L).
    assert (Lz : zlen (p_z pl) = d_m (w_data (sv_work s))) by (subst pl; rs; apply L). assert (Lz' : zlen (p_z pl') = d_m (w_data (sv_work s))) by (subst pl'; rs; apply L').
    assert (Ly : zlen (p_y pl) = d_m (w_data (sv_work s))) by (subst pl; rs; apply L). assert (Ly' : zlen (p_y pl') = d_m (w_data (sv_work s))) by (subst pl'; rs; apply L').
    eapply both_bind; [apply both_keep, both_v1; reflexivity|]. intros x ? (Gx & <-). apply v1_len in Gx.
    eapply both_bind; [apply both_keep, both_Axpy; auto; [rewrite Lz|rewrite Lz']; symmetry; apply D|]. intros z ? (Gz & <-).
    assert (Lz2 : zlen z = d_m (w_data (sv_work s))).
    { destruct (csc_Axpy_safe (d_A (w_data (sv_work s))) x (p_z pl) n1 n0) as (z0 & Hz0 & Hl); [apply D|rewrite Gx, Lx; destruct D; lia|rewrite Lz; destruct D; lia|]. rewrite Hz0 in Gz. injection Gz as <-. lia. }
    eapply both_bind with (R := eq). { apply both_same. symmetry. apply ypol_eq; rs; auto; [apply (tw_y _ _ _ _ _ TW)|congruence|congruence]. }
    intros y ? <-. eapply both_bind; [apply both_keep, both_v2; reflexivity|]. intros y2 ? (Gy & <-). apply v2_len in Gy.
    eapply both_bind; [apply both_keep, both_v3; auto|]. intros z2 ? (Gz2 & <-). apply v3_len in Gz2.
    eapply both_bind; [apply both_keep, both_v2; reflexivity|]. intros y3 ? (Gy3 & <-). apply v2_len in Gy3.
    match goal with |- context [update_info_polish E ?a] => set (s2 := a) end. match goal with |- context [update_info_polish E' ?a] => set (s2' := a) end.
    assert (TW2 : tw (sv_settings s) True True (sv_work s2) (sv_work s2')) by (subst s2 s2'; rs; repeat apply tw_pol; auto).
    assert (W2 : wok (sv_settings s) (sv_work s2)).
    { eapply wok_keeps; [exact W|]. subst s2. rs. split; [reflexivity|]. assert (zlen (p_active_flags pl) = d_m (w_data (sv_work s))) by (subst pl; auto). destruct L. lens_tac. }
    assert (W2' : wok (sv_settings s) (sv_work s2')).
    { eapply wok_keeps; [exact W'|]. subst s2'. rs. split; [reflexivity|]. rewrite Ed. assert (zlen (p_active_flags pl') = d_m (w_data (sv_work s))) by (subst pl'; auto). destruct L'. lens_tac. }
    assert (Fs : ts True True d s2 s2'). { destruct T. constructor; subst s2 s2'; rs; auto. }
    assert (PP : polsol (w_pol (sv_work s2)) = (x, y3, z2) /\ polsol (w_pol (sv_work s2')) = (x, y3, z2)) by (subst s2 s2'; rs; auto). destruct PP as (P1 & P1').
    assert (E2 : sv_settings s2 = sv_settings s) by (subst s2; auto). clearbody s2 s2'.
    eapply both_bind; [eapply (pol_info_both d s2 s2' x y3 z2); auto; [rewrite E2; auto|rewrite E2; auto]|].
    intros s3 s3' (T3 & P3 & P3' & PR). unfold polsol in P3, P3'. injection P3 as Q1 Q2 Q3. injection P3' as Q1' Q2' Q3'. unfold polres in PR. injection PR as R1 R2 R3 R4 R5.
    assert (PS : polish_successful (w_pol (sv_work s3')) (sv_info s3') = polish_successful (w_pol (sv_work s3)) (sv_info s3)).
    { unfold polish_successful. destruct (ti_r _ _ _ _ _ _ _ (ts_i _ _ _ _ _ _ _ _ _ _ T3) Logic.I) as (-> & ->). rewrite R1, R2. reflexivity. }
    cbv zeta. rewrite PS. clear PS. destruct (polish_successful _ _).
    - eapply both_bind; [apply both_v1; congruence|]. intros a ? <-. eapply both_bind; [apply both_v1; congruence|]. intros b ? <-. eapply both_bind; [apply both_v1; congruence|]. intros c ? <-.
      apply both_ret. cbn [fst snd]. rs. split; auto. split; auto. destruct T3. constructor; rs; auto.
      + destruct ts_w. constructor; rs; auto. destruct tw_c. constructor; rs; auto.
      + destruct ts_i. constructor; rs; auto.
    - apply both_ret. cbn [fst snd]. rs. split; auto. split; auto. destruct T3. constructor; rs; auto. destruct ts_i. constructor; rs; auto.
  Qed.

  (** A solution structure of exactly the right sizes, as osqp_setup allocates it. *)
  Definition solex (d : data K) (o : solution K) : Prop :=
    zlen (so_x o) = d_n d /\ zlen (so_y o) = d_m d /\ zlen (so_prim_inf_cert o) = d_m d /\ zlen (so_dual_inf_cert o) = d_n d.
  (** The stored solutions; q: the certificates too. *)
  Definition solr (q : Prop) (o o' : option (solution K)) : Prop :=
    match o, o' with
    | None, None => True
    | Some o, Some o' => so_x o' = so_x o /\ so_y o' = so_y o /\ (q -> so_prim_inf_cert o' = so_prim_inf_cert o /\ so_dual_inf_cert o' = so_dual_inf_cert o)
    | _, _ => False
    end.

  Lemma set_scalar_len (a b : list K) v : zlen a = zlen b -> vf_set_scalar a v = vf_set_scalar b v.
  Proof.
    intros H. unfold vf_set_scalar. assert (HL : length a = length b) by (unfold zlen in H; lia). clear H.
    revert b HL. induction a; intros [|y l] HL; cbn in *; try discriminate; auto. f_equal. auto.
  Qed.

  Lemma to_raw_len (o a r : list K) : vf_to_raw o a = Some r -> zlen r = zlen o.
  Proof. unfold vf_to_raw. intros H. apply VecFacts.view_write_inv in H. apply H. Qed.

  (** auxil.c:640-671: the certificates after a verdict without a solution, the primal block (first) or the dual one. *)
  Definition infeas_block (first : bool) (hit : bool) (w : work K) (sol : solution K) : option (work K * solution K) :=
    if hit then
      if first then
        let w := set_w_delta_y (vf_mult_scalar (w_delta_y w) (ndiv n1 (vf_norm_inf (w_delta_y w)))) w in
        pc <- vf_to_raw (so_prim_inf_cert sol) (w_delta_y w) ;;
        let w := set_w_delta_x (vf_set_scalar (w_delta_x w) (OSQP_NAN K)) w in
        dc <- vf_to_raw (so_dual_inf_cert sol) (w_delta_x w) ;;
        Some (w, set_so_prim_inf_cert pc (set_so_dual_inf_cert dc sol))
      else
        let w := set_w_delta_x (vf_mult_scalar (w_delta_x w) (ndiv n1 (vf_norm_inf (w_delta_x w)))) w in
        dc <- vf_to_raw (so_dual_inf_cert sol) (w_delta_x w) ;;
        let w := set_w_delta_y (vf_set_scalar (w_delta_y w) (OSQP_NAN K)) w in
        pc <- vf_to_raw (so_prim_inf_cert sol) (w_delta_y w) ;;
        Some (w, set_so_prim_inf_cert pc (set_so_dual_inf_cert dc sol))
    else Some (w, sol).

  Lemma tw_delta st (w w' : work K) dx dy : tw st True True w w' -> tw st True True (set_w_delta_x dx (set_w_delta_y dy w)) (set_w_delta_x dx (set_w_delta_y dy w')).
  Proof. intros []. constructor; rs; auto. destruct tw_c. constructor; rs; auto. Qed.
  Lemma tw_delta2 st (w w' : work K) dx dy : tw st True True w w' -> tw st True True (set_w_delta_y dy (set_w_delta_x dx w)) (set_w_delta_y dy (set_w_delta_x dx w')).
  Proof. intros []. constructor; rs; auto. destruct tw_c. constructor; rs; auto. Qed.
  Lemma tw_xyz st b c (w w' : work K) x y z : tw st b c w w' -> tw st b c (set_w_x x (set_w_z z (set_w_y y w))) (set_w_x x (set_w_z z (set_w_y y w'))).
  Proof. intros []. constructor; rs; auto. destruct tw_c. constructor; rs; auto. Qed.
  Lemma tw_prev st b c (w w' : work K) x z x' z' : tw st b c w w' -> tw st b c (set_w_x_prev x (set_w_z_prev z w)) (set_w_x_prev x' (set_w_z_prev z' w')).
  Proof. intros []. constructor; rs; auto. destruct tw_c. constructor; rs; auto. Qed.

  Lemma store_cold (s : solver K) sol : has_solution (sv_info s) = false -> store_solution s (Some sol) =
    (x <- vf_to_raw (so_x sol) (vf_set_scalar (w_x (sv_work s)) (OSQP_NAN K)) ;;
     y <- vf_to_raw (so_y sol) (vf_set_scalar (w_y (sv_work s)) (OSQP_NAN K)) ;;
     w <- cold_start (set_w_y (vf_set_scalar (w_y (sv_work s)) (OSQP_NAN K)) (set_w_x (vf_set_scalar (w_x (sv_work s)) (OSQP_NAN K)) (sv_work s))) ;;
     r <- infeas_block true ((i_status_val (sv_info s) =? OSQP_PRIMAL_INFEASIBLE)%Z || (i_status_val (sv_info s) =? OSQP_PRIMAL_INFEASIBLE_INACCURATE)%Z) w (set_so_x x (set_so_y y sol)) ;;
     r <- infeas_block false ((i_status_val (sv_info s) =? OSQP_DUAL_INFEASIBLE)%Z || (i_status_val (sv_info s) =? OSQP_DUAL_INFEASIBLE_INACCURATE)%Z) (fst r) (snd r) ;;
     Some (set_sv_work (fst r) s, Some (snd r))).
  Proof.
    intros H. unfold store_solution. rewrite H. rs. destruct (vf_to_raw _ _); auto. destruct (vf_to_raw _ _); auto. destruct (cold_start _) as [w|]; auto.
    unfold infeas_block. set (b1 := _ || _). set (b2 := _ || _). clearbody b1 b2.
    assert (X : forall w0 so0, (let '(w, sol0) := (w0, so0) in r <- (if b2 then (let w := set_w_delta_x (vf_mult_scalar (w_delta_x w) (ndiv n1 (vf_norm_inf (w_delta_x w)))) w in
        dc <- vf_to_raw (so_dual_inf_cert sol0) (w_delta_x w) ;;
        let w := set_w_delta_y (vf_set_scalar (w_delta_y w) (OSQP_NAN K)) w in
        pc <- vf_to_raw (so_prim_inf_cert sol0) (w_delta_y w) ;;
        Some (w, set_so_prim_inf_cert pc (set_so_dual_inf_cert dc sol0))) else Some (w, sol0)) ;; (let '(w, sol0) := r in Some (set_sv_work w s, Some sol0))) = 
      (r <- infeas_block false b2 w0 so0 ;; Some (set_sv_work (fst r) s, Some (snd r)))).
    { intros. unfold infeas_block. destruct b2; auto. rs. destruct (vf_to_raw _ _); auto. destruct (vf_to_raw _ _); auto. }
    unfold infeas_block in X. destruct b1.
    - rs. destruct (vf_to_raw _ _); auto. destruct (vf_to_raw _ _); auto. cbn [fst snd]. etransitivity; [|apply X]. cbv zeta. rs. reflexivity.
    - cbn [fst snd]. etransitivity; [|apply X]. cbv zeta. rs. reflexivity.
  Qed.

  (** What storing a solution leaves alone in the workspace. *)
  Definition fwk (w : work K) := (w_last_rel_kkt w, w_rho_update_from_solve w, w_first_run w, w_clear_update_time w).
  Lemma cold_both st (w w' : work K) v1 v2 : tw st True True w w' ->
    both (cold_start (set_w_y v1 (set_w_x v2 w))) (cold_start (set_w_y v1 (set_w_x v2 w'))) (fun a b => tw st True True a b /\ fwk a = fwk w /\ fwk b = fwk w' /\ w_delta_x a = w_delta_x w /\ w_delta_y a = w_delta_y w).
  Proof.
    intros T. unfold cold_start. rs. destruct (ct_ls _ _ _ (tw_c _ _ _ _ _ T)) as (ls & ls' & Els & Els' & _). rewrite Els, Els', (tw_z _ _ _ _ _ T).
    apply both_ret. unfold fwk. rs. split; [|auto]. apply tw_xyz. destruct T. constructor; rs; auto. destruct tw_c. constructor; rs; auto.
  Qed.
  Lemma block_both st first hit (w w' : work K) (o o' : solution K) (d : data K) : tw st True True w w' -> zlen (w_delta_x w) = d_n d -> zlen (w_delta_y w) = d_m d ->
    zlen (so_prim_inf_cert o) = d_m d -> zlen (so_dual_inf_cert o) = d_n d -> zlen (so_prim_inf_cert o') = d_m d -> zlen (so_dual_inf_cert o') = d_n d -> so_x o' = so_x o -> so_y o' = so_y o ->
    both (infeas_block first hit w o) (infeas_block first hit w' o') (fun a b => tw st True True (fst a) (fst b) /\ so_x (snd b) = so_x (snd a) /\ so_y (snd b) = so_y (snd a) /\ (so_x (snd a) = so_x o /\ so_y (snd a) = so_y o) /\
      (zlen (w_delta_x (fst a)) = d_n d /\ zlen (w_delta_y (fst a)) = d_m d) /\
      (hit = true \/ (so_prim_inf_cert o' = so_prim_inf_cert o /\ so_dual_inf_cert o' = so_dual_inf_cert o) -> so_prim_inf_cert (snd b) = so_prim_inf_cert (snd a) /\ so_dual_inf_cert (snd b) = so_dual_inf_cert (snd a)) /\
      fwk (fst a) = fwk w /\ fwk (fst b) = fwk w' /\ zlen (so_prim_inf_cert (snd a)) = d_m d /\ zlen (so_dual_inf_cert (snd a)) = d_n d /\ zlen (so_prim_inf_cert (snd b)) = d_m d /\ zlen (so_dual_inf_cert (snd b)) = d_n d).
  Proof.
    intros T L1 L2 L3 L4 L5 L6 E1 E2. destruct (tw_b _ _ _ _ _ T Logic.I) as (Edx & Edy). unfold infeas_block. destruct hit; [|apply both_ret; cbn [fst snd]; split; [exact T|]; assert (Hf : false = true <-> False) by (split; [discriminate|tauto]); tauto].
    destruct first; rs; rewrite Edx, Edy.
    - eapply both_bind; [apply both_keep, both_to_raw; auto; unfold vf_mult_scalar; rewrite zlen_map; congruence|]. intros pc ? (G1 & <-). apply to_raw_len in G1.
      eapply both_bind; [apply both_keep, both_to_raw; auto; unfold vf_set_scalar; rewrite zlen_map; congruence|]. intros dc ? (G2 & <-). apply to_raw_len in G2.
      apply both_ret. cbn [fst snd]. rs. split; [apply tw_delta; auto|]. unfold vf_mult_scalar, vf_set_scalar. rewrite !zlen_map. unfold fwk. rs. repeat (split; auto); congruence.
    - eapply both_bind; [apply both_keep, both_to_raw; auto; unfold vf_mult_scalar; rewrite zlen_map; congruence|]. intros pc ? (G1 & <-). apply to_raw_len in G1.
      eapply both_bind; [apply both_keep, both_to_raw; auto; unfold vf_set_scalar; rewrite zlen_map; congruence|]. intros dc ? (G2 & <-). apply to_raw_len in G2.
      apply both_ret. cbn [fst snd]. rs. split; [apply tw_delta2; auto|]. unfold vf_mult_scalar, vf_set_scalar. rewrite !zlen_map. unfold fwk. rs. repeat (split; auto); congruence.
  Qed.

  Lemma store_both (q : Prop) (s s' : solver K) so so' : sv_settings s' = sv_settings s -> tw (sv_settings s) True True (sv_work s) (sv_work s') -> i_status_val (sv_info s') = i_status_val (sv_info s) -> Inv s -> Inv s' ->
    (forall o, so = Some o -> solex (w_data (sv_work s)) o) -> (forall o, so' = Some o -> solex (w_data (sv_work s)) o) -> (so = None <-> so' = None) ->
    (q -> solr True so so' \/ i_status_val (sv_info s) <> OSQP_NON_CVX) ->
    both (store_solution s so) (store_solution s' so') (fun r r' => tw (sv_settings s) True True (sv_work (fst r)) (sv_work (fst r')) /\ solr q (snd r) (snd r') /\
      (fwk (sv_work (fst r)) = fwk (sv_work s) /\ fwk (sv_work (fst r')) = fwk (sv_work s')) /\ (forall o, snd r = Some o -> solex (w_data (sv_work s)) o) /\ (forall o, snd r' = Some o -> solex (w_data (sv_work s)) o)).
  Proof.
    intros Est TW Ev HI HI' HS HS' HN HQ. pose proof (ct_d _ _ _ (tw_c _ _ _ _ _ TW)) as Ed. pose proof (wo_len _ _ (iv_w _ HI)) as L. pose proof (wo_len _ _ (iv_w _ HI')) as L'. rewrite Est, Ed in L'.
    pose proof (wo_sc _ _ (iv_w _ HI)) as SC.
    destruct (tw_b _ _ _ _ _ TW Logic.I) as (Edx & Edy). pose proof (tw_x _ _ _ _ _ TW) as Ex. pose proof (tw_y _ _ _ _ _ TW) as Ey.
    destruct so as [o|], so' as [o'|]; [|exfalso; destruct HN as (_ & H); specialize (H eq_refl); discriminate|exfalso; destruct HN as (H & _); specialize (H eq_refl); discriminate|apply both_ret; cbn; split; auto; split; auto; split; auto; split; intros ? Hx; discriminate Hx].
    destruct (HS o eq_refl) as (S1 & S2 & S3 & S4). destruct (HS' o' eq_refl) as (S1' & S2' & S3' & S4'). destruct L. destruct L'. clear HS HS' HN.
    assert (Eh : has_solution (sv_info s') = has_solution (sv_info s)) by (unfold has_solution; rewrite Ev; reflexivity).
    assert (Lc : forall v : K, vf_set_scalar (w_delta_x (sv_work s')) v = vf_set_scalar (w_delta_x (sv_work s)) v) by (intros; apply set_scalar_len; congruence).
    destruct (has_solution (sv_info s)) eqn:Hs; clear Lc.
    - unfold store_solution. rewrite Hs, Eh, Est. eapply both_bind with (R := fun a b => fst b = fst a /\ (zlen (fst (fst a)) = d_n (w_data (sv_work s)) /\ zlen (snd (fst a)) = d_m (w_data (sv_work s))) /\ (exists xp zp xp' zp', snd a = set_w_x_prev xp (set_w_z_prev zp (sv_work s)) /\ snd b = set_w_x_prev xp' (set_w_z_prev zp' (sv_work s')))).
      { destruct (tr (st_scaling (sv_settings s))) eqn:Es.
        - rewrite (ct_sc _ _ _ (tw_c _ _ _ _ _ TW) Es). bb.  
          eapply both_bind with (R := fun a b => b = a /\ zlen (fst a) = d_n (w_data (sv_work s)) /\ zlen (snd a) = d_m (w_data (sv_work s))).
          { unfold unscale_solution. rewrite Ex, Ey. eapply both_bind; [apply both_keep, both_v2; reflexivity|]. intros x ? (Gx & <-). apply v2_len in Gx. eapply both_bind; [apply both_keep, both_v2; reflexivity|]. intros y ? (Gy & <-). apply v2_len in Gy.
            apply both_ret. cbn [fst snd]. split; auto. unfold vf_mult_scalar. rewrite zlen_map. lia. }
          intros [x y] ? (-> & G1 & G2). cbn [fst snd] in *. rs.
          eapply both_bind; [apply both_keep, both_to_raw; auto; congruence|]. intros a ? (GA & <-). apply to_raw_len in GA. eapply both_bind; [apply both_keep, both_to_raw; auto; congruence|]. intros b ? (GB & <-). apply to_raw_len in GB.
          apply both_ret. cbn [fst snd]. split; auto. split; [split; congruence|]. exists x, y, x, y. auto.
        - eapply both_bind; [apply both_keep, both_to_raw; auto; congruence|]. intros a ? (GA & <-). apply to_raw_len in GA. eapply both_bind; [apply both_keep, both_to_raw; auto; congruence|]. intros b ? (GB & <-). apply to_raw_len in GB.
          apply both_ret. cbn [fst snd]. split; auto. split; [split; congruence|]. exists (w_x_prev (sv_work s)), (w_z_prev (sv_work s)), (w_x_prev (sv_work s')), (w_z_prev (sv_work s')). split; [destruct (sv_work s)|destruct (sv_work s')]; reflexivity. }
      intros [[x y] v] [[x' y'] v'] (F & (Lx1 & Ly1) & xp & zp & xp' & zp' & Hv & Hv'). cbn [fst snd] in *. injection F as -> ->.
      assert (TV : tw (sv_settings s) True True v v') by (subst v v'; apply tw_prev; auto).
      assert (FV : fwk v = fwk (sv_work s) /\ fwk v' = fwk (sv_work s') /\ w_delta_y v = w_delta_y (sv_work s) /\ w_delta_x v = w_delta_x (sv_work s)) by (subst v v'; auto). destruct FV as (FV & FV' & D1 & D2).
      clear Hv Hv'. rs. destruct (tw_b _ _ _ _ _ TV Logic.I) as (Vx & Vy). rewrite Vx, Vy.
      eapply both_bind; [apply both_keep, both_to_raw; auto; unfold vf_set_scalar; rewrite zlen_map; congruence|]. intros a ? (GA & <-). apply to_raw_len in GA. eapply both_bind; [apply both_keep, both_to_raw; auto; unfold vf_set_scalar; rewrite zlen_map; congruence|]. intros b ? (GB & <-). apply to_raw_len in GB.
      apply both_ret. cbn [fst snd]. rs. split; [apply tw_delta; auto|]. split; [cbn; auto|]. split; [split; [exact FV|exact FV']|].
      split; intros ? [= <-]; unfold solex; rs; repeat split; congruence.
    - rewrite (store_cold s o Hs), (store_cold s' o' Eh), Ev. rewrite Ex, Ey.
      eapply both_bind; [apply both_keep, both_to_raw; auto; unfold vf_set_scalar; rewrite zlen_map; congruence|]. intros x ? (GA & <-). apply to_raw_len in GA. eapply both_bind; [apply both_keep, both_to_raw; auto; unfold vf_set_scalar; rewrite zlen_map; congruence|]. intros y ? (GB & <-). apply to_raw_len in GB.
      eapply both_bind; [apply cold_both; exact TW|]. intros v v' (TV & FV & FV' & D1 & D2).
      eapply both_bind; [apply (block_both (sv_settings s) true _ v v' _ _ (w_data (sv_work s)) TV); rs; auto; congruence|].
      intros [v1 p1] [v1' p1'] (TV1 & Q1 & Q2 & (X1 & Y1) & (Q3 & Q3') & Q4 & F1 & F1' & G1 & G1' & I1 & I2). cbn [fst snd] in *.
      eapply both_bind; [apply (block_both (sv_settings s) false _ v1 v1' _ _ (w_data (sv_work s)) TV1); rs; auto; congruence|].
      intros [v2 p2] [v2' p2'] (TV2 & R1 & R2 & (X2 & Y2) & R3 & R4 & F2 & F2' & G2 & G2' & I3 & I4). cbn [fst snd] in *.
      rs_in X1. rs_in Y1. apply both_ret. cbn [fst snd]. rs. split; [exact TV2|]. split; [|split; [split; congruence|]; split; intros ? [= <-]; unfold solex; repeat split; congruence].
      cbn [solr]. split; [exact R1|]. split; [exact R2|]. intros Hq. destruct (HQ Hq) as [Hc|Hc].
      + cbn in Hc. destruct Hc as (_ & _ & Hc). specialize (Hc Logic.I). apply R4. right. apply Q4. right. exact Hc.
      + apply R4. unfold has_solution in Hs.
        destruct (Z.eqb_spec (i_status_val (sv_info s)) OSQP_PRIMAL_INFEASIBLE); [right; apply Q4; left; reflexivity|].
        destruct (Z.eqb_spec (i_status_val (sv_info s)) OSQP_PRIMAL_INFEASIBLE_INACCURATE); [right; apply Q4; left; reflexivity|].
        left. destruct (Z.eqb_spec (i_status_val (sv_info s)) OSQP_DUAL_INFEASIBLE); [reflexivity|].
        destruct (Z.eqb_spec (i_status_val (sv_info s)) OSQP_DUAL_INFEASIBLE_INACCURATE); [reflexivity|].
        destruct (Z.eqb_spec (i_status_val (sv_info s)) OSQP_NON_CVX); [contradiction|discriminate].
  Qed.
End Finish.

(** Two solvers alike in what a solve depends on. *)
Record te {K : NumOps} (pS pI pU c d : Prop) (s s' : solver K) : Prop := {
  te_st : sv_settings s' = sv_settings s;
  te_w : tw (sv_settings s) c c (sv_work s) (sv_work s');
  te_i : ti pS pI pU c d (sv_info s) (sv_info s');
  te_k : st_adaptive_rho (sv_settings s) = ADAPTIVE_RHO_KKT_ERROR -> w_last_rel_kkt (sv_work s') = w_last_rel_kkt (sv_work s);
  te_n : sv_solution s = None <-> sv_solution s' = None;
  te_so : forall o, sv_solution s = Some o -> solex (w_data (sv_work s)) o;
  te_so' : forall o, sv_solution s' = Some o -> solex (w_data (sv_work s')) o }.

(** No interrupt and no time limit for the solve to come. *)
Definition calm {K : NumOps} (e : Env K) (s : solver K) : Prop :=
  (forall k, env_int e k = false) /\
  (ntruth (st_time_limit (sv_settings s)) = true -> forall k t, t = i_setup_time (sv_info s) \/ t = i_update_time (sv_info s) \/ t = n0 ->
     nleb (st_time_limit (sv_settings s)) (nadd t (env_clock e k)) = false).

Section Whole.
  Context {K : NumOps}.
  Variables E E' : Env K.
  Hypothesis ES : env_sim E E'.
  Hypothesis EO : env_ok E.
  Hypothesis EO' : env_ok E'.
  Hypothesis NZ : @neqb K n0 n0 = true.
  Variables pS pI pU : Prop.
  Notation ts := (@ts K E E' pS pI pU).

  Lemma begin_both s s' : te pS pI pU False False s s' -> calm E s -> calm E' s' -> st_adaptive_rho (sv_settings s) <> ADAPTIVE_RHO_TIME \/ st_adaptive_rho_interval (sv_settings s) <> 0 ->
    both (begin_solve s) (begin_solve s') (fun a b => ts False False False a b /\ (sv_solution a = sv_solution s /\ sv_solution b = sv_solution s') /\ w_data (sv_work a) = w_data (sv_work s) /\ sv_settings a = sv_settings s).
  Proof.
    intros T (C1 & C2) (C1' & C2') HT. pose proof (te_st _ _ _ _ _ _ _ T) as Est. unfold begin_solve. cbv zeta.
    set (s1 := if w_clear_update_time (sv_work s) =? 1 then _ else s). set (s1' := if w_clear_update_time (sv_work s') =? 1 then _ else s').
    assert (F1 : sv_settings s1 = sv_settings s /\ sv_work s1 = sv_work s /\ sv_solution s1 = sv_solution s /\ sv_world s1 = sv_world s) by (subst s1; destruct (w_clear_update_time (sv_work s) =? 1); rs; auto 8).
    assert (F1' : sv_settings s1' = sv_settings s' /\ sv_work s1' = sv_work s' /\ sv_solution s1' = sv_solution s' /\ sv_world s1' = sv_world s') by (subst s1'; destruct (w_clear_update_time (sv_work s') =? 1); rs; auto 8).
    assert (TI : ti pS pI pU False False (sv_info s1) (sv_info s1')).
    { pose proof (te_i _ _ _ _ _ _ _ T) as []. subst s1 s1'. destruct (w_clear_update_time (sv_work s) =? 1), (w_clear_update_time (sv_work s') =? 1); constructor; rs; auto. }
    assert (Q : i_setup_time (sv_info s1) = i_setup_time (sv_info s) /\ (i_update_time (sv_info s1) = i_update_time (sv_info s) \/ i_update_time (sv_info s1) = n0)) by (subst s1; destruct (w_clear_update_time (sv_work s) =? 1); rs; auto).
    assert (Q' : i_setup_time (sv_info s1') = i_setup_time (sv_info s') /\ (i_update_time (sv_info s1') = i_update_time (sv_info s') \/ i_update_time (sv_info s1') = n0)) by (subst s1'; destruct (w_clear_update_time (sv_work s') =? 1); rs; auto).
    clearbody s1 s1'. destruct F1 as (F1 & F2 & F3 & F4). destruct F1' as (F1' & F2' & F3' & F4').
    set (s2 := start_interrupt_listener _). set (s2' := start_interrupt_listener (push_sec SEC_OPT_SOLVE (set_sv_work (set_w_rho_update_from_solve 1 (sv_work s')) s1'))).
    assert (T2 : ts False False False s2 s2').
    { subst s2 s2'. unfold start_interrupt_listener, push_sec. constructor; rs; rewrite ?F1, ?F1', ?F3, ?F3'; auto.
      - pose proof (te_w _ _ _ _ _ _ _ T) as []. constructor; rs; auto. destruct tw_c. constructor; rs; auto.
      - apply (te_k _ _ _ _ _ _ _ T).
      - apply (te_n _ _ _ _ _ _ _ T).
      - split; [exact C1|]. split; [reflexivity|]. rs. rewrite F1. destruct Q as (-> & Q). intros Hl k. split; apply (C2 Hl); tauto.
      - split; [exact C1'|]. split; [reflexivity|]. rs. rewrite F1'. destruct Q' as (-> & Q'). intros Hl k. split; apply (C2' Hl); tauto. }
    assert (X : (sv_solution s2 = sv_solution s /\ sv_solution s2' = sv_solution s') /\ w_data (sv_work s2) = w_data (sv_work s) /\ sv_settings s2 = sv_settings s /\ sv_settings s2' = sv_settings s) by (subst s2 s2'; unfold start_interrupt_listener, push_sec; rs; rewrite F1'; auto).
    clearbody s2 s2'. destruct X as ((X1 & X1') & X2 & X3 & X3'). rewrite X3, X3'.
    destruct (tr (st_warm_starting (sv_settings s))); [apply both_ret; auto|].
    unfold cold_start. pose proof (ts_w _ _ _ _ _ _ _ _ _ _ T2) as TW. destruct (ct_ls _ _ _ (tw_c _ _ _ _ _ TW)) as (ls & ls' & Els & Els' & _). rewrite Els, Els'.
    apply both_ret. rs. split; [|auto]. destruct T2. constructor; rs; auto.
    rewrite (tw_x _ _ _ _ _ TW), (tw_y _ _ _ _ _ TW), (tw_z _ _ _ _ _ TW). apply tw_xyz. exact TW.
  Qed.

  (** Leaving through the label exit. *)
  Lemma exit_both (s s' : solver K) fl : both (solve_exit s fl) (solve_exit s' fl) (fun r r' => exists g g', r = (fl, set_sv_world g s) /\ r' = (fl, set_sv_world g' s')).
  Proof.
    unfold solve_exit, end_interrupt_listener. eapply both_bind; [apply pop_both|]. intros ? ? (g & g' & -> & ->). apply both_ret. rs. eexists. eexists. split; reflexivity.
  Qed.

  (** Whether polishing ran. *)
  Definition pol_ran (s : solver K) : Prop := tr (st_polishing (sv_settings s)) = true /\ i_status_val (sv_info s) = OSQP_SOLVED.
  Definition nc (s : solver K) : Prop := i_status_val (sv_info s) <> OSQP_NON_CVX.

  Lemma ts_te b c d (s s' : solver K) : @TwinTerm.ts K E E' pS pI pU True c d s s' -> c -> b = c -> (forall o, sv_solution s = Some o -> solex (w_data (sv_work s)) o) -> (forall o, sv_solution s' = Some o -> solex (w_data (sv_work s')) o) -> te pS pI pU b d s s'.
  Proof. intros [] Hc ->. constructor; auto. eapply tw_mono; [exact ts_w|auto|auto]. Qed.

  (** The result of a solve: r, r' from the solvers s, s'. *)
  Record sr (s s' : solver K) (r r' : Z * solver K) : Prop := {
    sr_flag : fst r' = fst r;
    sr_te : te pS pI pU True True (snd r) (snd r') \/ (fst r = 1 /\ te pS pI pU True False (snd r) (snd r'));
    sr_pol : pol_ran (snd r) -> fst r <= 0 -> i_status_polish (sv_info (snd r')) = i_status_polish (sv_info (snd r));
    sr_sol : fst r <= 0 -> solr (nc (snd r) \/ solr True (sv_solution s) (sv_solution s')) (sv_solution (snd r)) (sv_solution (snd r'));
    sr_keep : 0 < fst r -> sv_solution (snd r) = sv_solution s /\ sv_solution (snd r') = sv_solution s' }.

  Ltac scal_tac HI := apply oks_keeps; rs; auto; [split; [reflexivity|]; destruct (wo_len _ _ (iv_w _ HI)); lens_tac|apply HI|split; auto].

  Lemma solex_fr (s t : solver K) o : solex (w_data (sv_work s)) o -> fr s t -> solex (w_data (sv_work t)) o.
  Proof. unfold solex. intros (A & B & C & D) []. rewrite fr_n, fr_m. auto. Qed.

  Lemma ft_facts (s : solver K) : Inv s -> sv_settings (finish_times s) = sv_settings s /\ sv_solution (finish_times s) = sv_solution s /\ w_data (sv_work (finish_times s)) = w_data (sv_work s) /\ Inv (finish_times s) /\
    i_status_val (sv_info (finish_times s)) = i_status_val (sv_info s) /\ i_status_polish (sv_info (finish_times s)) = i_status_polish (sv_info s) /\ w_last_rel_kkt (sv_work (finish_times s)) = w_last_rel_kkt (sv_work s).
  Proof.
    intros HI. assert (X : oks s (finish_times s)). { unfold finish_times. destruct (tr (w_first_run (sv_work s))); scal_tac HI. }
    pose proof (proj1 (proj1 X)) as XI. split; [reflexivity|]. split; [reflexivity|]. split; [|split; [exact XI|]]; clear; unfold finish_times; destruct (tr (w_first_run (sv_work s))); rs; auto.
  Qed.

  Lemma finish_both (s0 s0' s s' : solver K) iter f : ts True True False s s' -> Inv s -> Inv s' -> (forall o, sv_solution s = Some o -> solex (w_data (sv_work s)) o) -> (forall o, sv_solution s' = Some o -> solex (w_data (sv_work s')) o) ->
    sv_solution s = sv_solution s0 -> sv_solution s' = sv_solution s0' -> both (finish_solve E s iter f) (finish_solve E' s' iter f) (sr s0 s0').
  Proof.
    intros T HI HI' SO SO' K0 K0'. unfold finish_solve.
    eapply both_bind; [eapply both_safe; [apply (final_check_both E E' NZ pS pI pU s s' iter f T HI HI')|apply final_check_safe; auto|apply final_check_safe; auto]|]. intros s1 s1' (T1 & O1 & O1').
    eapply both_bind; [eapply both_safe; [apply (final_objective_both E E' pS pI pU s1 s1' T1)|apply final_objective_safe; apply O1|apply final_objective_safe; apply O1']|]. intros s2 s2' (T2 & O2 & O2').
    pose proof (oks_trans _ _ _ O1 O2) as P2. pose proof (oks_trans _ _ _ O1' O2') as P2'. clear O1 O1' O2 O2' T1 s1 s1'.
    set (x := tr (st_verbose (sv_settings s2)) && _). set (x' := tr (st_verbose (sv_settings s2')) && _). cbv zeta.
    pose proof (ts_maybe E E' pS pI pU _ _ _ _ _ x x' T2) as T3.
    assert (P3 : oks s (if x then print_summary s2 else s2)). { destruct x; auto. eapply oks_trans; [exact P2|]. apply print_ok. apply P2. }
    assert (P3' : oks s' (if x' then print_summary s2' else s2')). { destruct x'; auto. eapply oks_trans; [exact P2'|]. apply print_ok. apply P2'. }
    set (s3 := if x then _ else _) in *. set (s3' := if x' then _ else _) in *. clearbody s3 s3'. clear x x' P2 P2' T2 s2 s2'.
    eapply both_bind; [eapply both_safe; [apply (final_status_both E E' NZ pS pI pU s3 s3' T3); [apply P3|apply P3']|apply final_status_safe; apply P3|apply final_status_safe; apply P3']|]. intros s4 s4' (T4 & O4 & O4').
    pose proof (oks_trans _ _ _ P3 O4) as P4. pose proof (oks_trans _ _ _ P3' O4') as P4'. clear O4 O4' T3 P3 P3' s3 s3'.
    unfold toc. match goal with |- both (match (if _ && (i_status_val (sv_info ?a) =? _) then _ else _) with _ => _ end) (match (if _ && (i_status_val (sv_info ?b) =? _) then _ else _) with _ => _ end) _ => set (s5 := a); set (s5' := b) end.
    assert (P5 : oks s s5).
    { eapply oks_trans; [exact P4|]. subst s5. pose proof (proj1 (proj1 P4)) as HI5. apply oks_keeps; rs; auto; [apply keeps_refl; apply HI5|apply HI5|split; auto]. }
    assert (P5' : oks s' s5').
    { eapply oks_trans; [exact P4'|]. subst s5'. pose proof (proj1 (proj1 P4')) as HI5. apply oks_keeps; rs; auto; [apply keeps_refl; apply HI5|apply HI5|split; auto]. }
    assert (T5 : ts True True True s5 s5').
    { subst s5 s5'. destruct T4. pose proof (est_eq _ _ _ _ ts_w) as EE. rewrite <- ts_st in EE at 1. constructor; rs; auto. destruct ts_i. constructor; rs; auto. }
    clearbody s5 s5'. clear T4 P4 P4' s4 s4'.
    assert (Ev : i_status_val (sv_info s5') = i_status_val (sv_info s5)) by apply (ts_i _ _ _ _ _ _ _ _ _ _ T5).
    rewrite Ev, (ts_st _ _ _ _ _ _ _ _ _ _ T5).
    eapply both_bind with (R := fun r r' => fst r' = fst r /\ ts True True True (snd r) (snd r') /\ oks s (snd r) /\ oks s' (snd r') /\ (pol_ran (snd r) -> i_status_polish (sv_info (snd r')) = i_status_polish (sv_info (snd r)))).
    { destruct (tr (st_polishing (sv_settings s5)) && (i_status_val (sv_info s5) =? OSQP_SOLVED)) eqn:Epol.
      - unfold push_sec. set (s7 := set_sv_world _ s5). set (s7' := set_sv_world _ s5').
        assert (I7 : Inv s7) by (apply Inv_world; apply P5). assert (I7' : Inv s7') by (apply Inv_world; apply P5').
        assert (T7 : ts True True True s7 s7') by (subst s7 s7'; apply ts_world; auto).
        eapply both_bind; [eapply both_safe; [apply (polish_both E E' ES NZ pS pI pU True s7 s7' T7 I7 I7')|apply polish_safe; auto|apply polish_safe; auto]|].
        intros [fl s8] [fl' s8'] ((F & T8 & PS) & ((HI8 & HF8 & HW8) & _ & Es8) & ((HI8' & HF8' & HW8') & _ & Es8')). cbn [fst snd] in *. subst fl'.
        unfold pop_sec. destruct HW8 as (W1 & W2 & W3). destruct HW8' as (W1' & W2' & W3'). rewrite W1, W1'. subst s7 s7'. rs. apply both_ret. cbn [fst snd]. rs.
        split; auto. split; [apply ts_world; auto|]. split; [|split; auto].
        + eapply oks_trans; [exact P5|]. split; [|exact Es8]. split; [apply Inv_world; auto|]. split; [destruct HF8; constructor; rs; auto|split; rs; auto].
        + eapply oks_trans; [exact P5'|]. split; [|exact Es8']. split; [apply Inv_world; auto|]. split; [destruct HF8'; constructor; rs; auto|split; rs; auto].
      - apply both_ret. cbn [fst snd]. split; auto. split; auto. split; auto. split; auto. intros (A & B). rewrite A, B in Epol. discriminate. }
    intros [fl s6] [fl' s6'] (F & T6 & P6 & P6' & PP). cbn [fst snd] in *. subst fl'. clear P5 P5' T5 Ev s5 s5'.
    assert (SO6 : forall o, sv_solution s6 = Some o -> solex (w_data (sv_work s6)) o) by (intros o Ho; eapply solex_fr; [apply SO; rewrite <- (proj2 P6); exact Ho|apply P6]).
    assert (SO6' : forall o, sv_solution s6' = Some o -> solex (w_data (sv_work s6')) o) by (intros o Ho; eapply solex_fr; [apply SO'; rewrite <- (proj2 P6'); exact Ho|apply P6']).
    destruct (Z.ltb_spec 0 fl) as [Hf|Hf].
    { intros r r' Hr Hr'. destruct (exit_both s6 s6' fl r r' Hr Hr') as (g & g' & -> & ->). destruct T6. constructor; cbn [fst snd]; rs; auto; try lia.
      - left. constructor; rs; auto.
      - intros _. destruct P6 as (_ & ->). destruct P6' as (_ & ->). auto. }
    set (s7 := finish_times s6). set (s7' := finish_times s6').
    pose proof (ft_facts s6 (proj1 (proj1 P6))) as F7. pose proof (ft_facts s6' (proj1 (proj1 P6'))) as F7'. fold s7 in F7. fold s7' in F7'.
    assert (TI7 : ti pS pI pU True True (sv_info s7) (sv_info s7')).
    { subst s7 s7'. unfold finish_times. rs. pose proof (ts_i _ _ _ _ _ _ _ _ _ _ T6) as []. constructor; rs; auto. }
    assert (TW7 : tw (sv_settings s6) True True (sv_work s7) (sv_work s7')).
    { subst s7 s7'. unfold finish_times. rs. pose proof (ts_w _ _ _ _ _ _ _ _ _ _ T6) as TW6. destruct (tr (w_first_run (sv_work s6))), (tr (w_first_run (sv_work s6'))); rs; destruct TW6; constructor; rs; auto; destruct tw_c; constructor; rs; auto. }
    clearbody s7 s7'. destruct F7 as (A1 & A2 & A3 & A4 & A5 & A6 & A7). destruct F7' as (A1' & A2' & A3' & A4' & A5' & A6' & A7').
    rewrite A2, A2'. rewrite <- A1 in TW7. rewrite <- A3 in SO6. rewrite <- A3' in SO6'.
    eapply both_bind; [apply both_keep2; eapply both_safe; [apply (store_both (nc s7 \/ solr True (sv_solution s0) (sv_solution s0')) s7 s7' (sv_solution s6) (sv_solution s6')); auto|apply store_solution_safe; auto|apply store_solution_safe; auto]|].
    { rewrite A1, A1'. apply (ts_st _ _ _ _ _ _ _ _ _ _ T6). }
    { apply TI7. }
    { rewrite <- (ct_d _ _ _ (tw_c _ _ _ _ _ TW7)). exact SO6'. }
    { apply (ts_n _ _ _ _ _ _ _ _ _ _ T6). }
    { intros [Hn|Hn]; [right; exact Hn|left]. destruct P6 as (_ & ->). destruct P6' as (_ & ->). congruence. }
    { rewrite <- A2. apply A4. } { rewrite <- A2'. apply A4'. }
    intros [s8 o8] [s8' o8'] (Est8 & Est8' & (TW8 & SR & (FW & FW') & L8 & L8') & (O8 & _ & I8 & N8 & _) & (O8' & _ & I8' & N8' & _)). pose proof (proj1 (store_solution_post _ _ _ Est8)) as S8. pose proof (proj1 (store_solution_post _ _ _ Est8')) as S8'. clear Est8 Est8'. cbn [fst snd] in *.
    intros r r' Hr Hr'. destruct (exit_both _ _ fl r r' Hr Hr') as (g & g' & -> & ->). cbn [fst snd]. rs.
    pose proof (fr_n _ _ (proj1 (proj2 O8))) as N1. pose proof (fr_m _ _ (proj1 (proj2 O8))) as M1. pose proof (fr_n _ _ (proj1 (proj2 O8'))) as N1'. pose proof (fr_m _ _ (proj1 (proj2 O8'))) as M1'.
    unfold fwk in FW, FW'. injection FW as W1 _ _ _. injection FW' as W1' _ _ _.
    constructor; cbn [fst snd]; rs; auto; try lia.
    - left. constructor; rs.
      + rewrite S8, S8', A1, A1'. apply (ts_st _ _ _ _ _ _ _ _ _ _ T6).
      + rewrite S8. exact TW8.
      + rewrite I8, I8'. exact TI7.
      + rewrite S8, W1, W1', A1, A7, A7'. apply (ts_k _ _ _ _ _ _ _ _ _ _ T6).
      + destruct o8, o8'; cbn in SR; try tauto; split; discriminate.
      + intros o Ho. specialize (L8 o Ho). unfold solex in *. rewrite N1, M1. exact L8.
      + intros o Ho. specialize (L8' o Ho). unfold solex in *. rewrite N1', M1'. rewrite (ct_d _ _ _ (tw_c _ _ _ _ _ TW7)). exact L8'.
    - unfold pol_ran. rs. rewrite I8, I8', A6, A6', A5, S8, A1. intros Hp _. apply PP. exact Hp.
    - unfold nc in *. rs. rewrite I8. intros _. exact SR.
  Qed.

  Hypothesis MM : nltb (OSQP_RHO_MIN K) (OSQP_RHO_MAX K) = true.

  Theorem solve_both s s' : te pS pI pU False False s s' -> Inv s -> Inv s' -> calm E s -> calm E' s' ->
    st_adaptive_rho (sv_settings s) <> ADAPTIVE_RHO_TIME \/ st_adaptive_rho_interval (sv_settings s) <> 0 -> 1 <= st_max_iter (sv_settings s) ->
    both (solve E s) (solve E' s') (sr s s').
  Proof.
    intros T HI HI' C C' HT HM. unfold solve.
    eapply both_bind; [eapply both_safe; [apply (begin_both s s' T C C' HT)|apply begin_solve_safe; auto|apply begin_solve_safe; auto]|].
    intros a a' ((TA & (Sa & Sa') & Da & Ea) & (IA & FA & _) & (IA' & FA' & _)).
    rewrite (ts_st _ _ _ _ _ _ _ _ _ _ TA), Ea. destruct (Z.to_nat (st_max_iter (sv_settings s))) as [|k] eqn:Ek; [lia|].
    eapply both_bind; [apply both_keep2; eapply both_safe; [apply (loop1_both E E' ES EO EO' NZ pS pI pU MM k _ a a' TA IA IA')|apply admm_loop_safe; auto|apply admm_loop_safe; auto]|].
    intros [o it] [o' it'] (L & L' & (Fi & RO) & OK & OK'). cbn [fst snd] in *. subst it'.
    assert (SOX : forall t, fr s t -> sv_solution t = sv_solution s -> forall o, sv_solution t = Some o -> solex (w_data (sv_work t)) o).
    { intros t F Es x Hx. eapply solex_fr; [apply (te_so _ _ _ _ _ _ _ T); rewrite <- Es; exact Hx|exact F]. }
    assert (SOX' : forall t, fr s' t -> sv_solution t = sv_solution s' -> forall o, sv_solution t = Some o -> solex (w_data (sv_work t)) o).
    { intros t F Es x Hx. eapply solex_fr; [apply (te_so' _ _ _ _ _ _ _ T); rewrite <- Es; exact Hx|exact F]. }
    destruct o as [t ft|t ft|t ft], o' as [t' ft'|t' ft'|t' ft']; cbn [oR out_ok] in *; try tauto; destruct RO as (-> & RO); destruct OK as ((I1 & F1 & _) & S1); destruct OK' as ((I1' & F1' & _) & S1');
      pose proof (fr_trans _ _ _ FA F1) as F2; pose proof (fr_trans _ _ _ FA' F1') as F2'; assert (S2 : sv_solution t = sv_solution s) by congruence; assert (S2' : sv_solution t' = sv_solution s') by congruence.
    - apply finish_both; auto.
    - apply finish_both; auto.
    - assert (ft = 1) as -> by (apply (loop_exit E _ _ _ _ _ L _ _ eq_refl)).
      intros r r' Hr Hr'. destruct (exit_both t t' 1 r r' Hr Hr') as (g & g' & -> & ->). pose proof (SOX t F2 S2) as X1. pose proof (SOX' t' F2' S2') as X2. destruct RO. constructor; cbn [fst snd]; rs; auto; try lia.
      right. split; auto. constructor; rs; auto.
  Qed.

  (** Both solves end, with results alike. *)
  Theorem solve_twin s s' : te pS pI pU False False s s' -> Inv s -> Inv s' -> calm E s -> calm E' s' ->
    st_adaptive_rho (sv_settings s) <> ADAPTIVE_RHO_TIME \/ st_adaptive_rho_interval (sv_settings s) <> 0 -> 1 <= st_max_iter (sv_settings s) ->
    exists r r', solve E s = Some r /\ solve E' s' = Some r' /\ sr s s' r r'.
  Proof.
    intros T HI HI' C C' HT HM. destruct (solve_safe E EO MM s HI) as (r & Hr & _). destruct (solve_safe E' EO' MM s' HI') as (r' & Hr' & _).
    exists r, r'. split; auto. split; auto. exact (solve_both s s' T HI HI' C C' HT HM r r' Hr Hr').
  Qed.
End Whole.
