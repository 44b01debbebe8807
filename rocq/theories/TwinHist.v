(** Two sessions with the same calls, on machines whose clocks differ: side by side through every function of the interface. *)
From Coq Require Import ZArith String List Bool Lia.
From Verif Require Import Num Arr ArrFacts Csc CscSpec CscFacts CscFacts2 Scatter CscFacts3 CscFacts5 Vec Types RecSimp Kkt Linsys Scaling Validate Auxil VecFacts LinsysFacts LinsysSolve Inv InvStep InvApi InvPolish InvSolve Polish Api
  InvScale ValidFacts InvUpd InvSetup History Frame FrameSolve FrameUpd DataFacts LinFrame SolLen TwinInit TwinKer TwinStep TwinTerm TwinSolve TwinFinish.
Import ListNotations.
Open Scope Z_scope.
Local Open Scope opt_scope.

Section Hist.
  Context {K : NumOps}.
  Variables E E' : Env K.
  Hypothesis ES : env_sim E E'.
  Hypothesis EO : env_ok E.
  Hypothesis EO' : env_ok E'.
  Hypothesis NZ : @neqb K n0 n0 = true.
  Hypothesis MM : nltb (OSQP_RHO_MIN K) (OSQP_RHO_MAX K) = true.

  Ltac bs := eapply both_bind; [apply both_same; reflexivity|]; let v := fresh "v" in intros v ? <-.
  Ltac bb := eapply both_bind; [first [apply both_add_scaled | apply both_add_scaled3 | apply both_v1 | apply both_v2 | apply both_v3 | apply both_same]; rs; auto; try congruence|rs; let v := fresh "v" in intros v ? <-].

  Notation ti0 := (@ti K True True True True False).

  (** Alike in everything but the times. *)
  Record hs (s s' : solver K) : Prop := { hs_te : te True True True True False s s'; hs_so : sv_solution s' = sv_solution s }.

  Lemma hs_st s s' : hs s s' -> sv_settings s' = sv_settings s. Proof. intros [[] _]. auto. Qed.
  Lemma hs_w s s' : hs s s' -> tw (sv_settings s) True True (sv_work s) (sv_work s'). Proof. intros [[] _]. auto. Qed.
  Lemma hs_i s s' : hs s s' -> ti0 (sv_info s) (sv_info s'). Proof. intros [[] _]. auto. Qed.
  Lemma hs_info s s' i i' : hs s s' -> ti0 i i' -> hs (set_sv_info i s) (set_sv_info i' s').
  Proof. intros [[] Hso] Hi. split; [constructor; rs; auto|rs; auto]. Qed.
  Lemma hs_world s s' g g' : hs s s' -> hs (set_sv_world g s) (set_sv_world g' s').
  Proof. intros [[] Hso]. split; [constructor; rs; auto|rs; auto]. Qed.
  Lemma hs_work s s' w w' : hs s s' -> tw (sv_settings s) True True w w' -> w_last_rel_kkt w = w_last_rel_kkt (sv_work s) -> w_last_rel_kkt w' = w_last_rel_kkt (sv_work s') ->
    d_n (w_data w) = d_n (w_data (sv_work s)) -> d_m (w_data w) = d_m (w_data (sv_work s)) -> hs (set_sv_work w s) (set_sv_work w' s').
  Proof.
    intros [[] Hso] HW H1 H2 H3 H4. split; [|rs; auto]. pose proof (ct_d _ _ _ (tw_c _ _ _ _ _ te_w)) as ED. pose proof (ct_d _ _ _ (tw_c _ _ _ _ _ HW)) as ED'.
    constructor; rs; auto.
    - rewrite H1, H2. auto.
    - intros o Ho. specialize (te_so o Ho). unfold solex in *. rewrite H3, H4. auto.
    - intros o Ho. specialize (te_so' o Ho). unfold solex in *. rewrite ED', H3, H4. rewrite ED in te_so'. auto.
  Qed.
  Lemma tw_set st st1 b c (w w' : work K) : tr (st_rho_is_vec st1) = tr (st_rho_is_vec st) -> tr (st_scaling st1) = tr (st_scaling st) -> tw st b c w w' -> tw st1 b c w w'.
  Proof. intros H1 H2 []. constructor; auto. destruct tw_c. constructor; auto; rewrite ?H1, ?H2; auto. Qed.
  Lemma hs_settings s s' st1 : hs s s' -> tr (st_rho_is_vec st1) = tr (st_rho_is_vec (sv_settings s)) -> tr (st_scaling st1) = tr (st_scaling (sv_settings s)) -> st_adaptive_rho st1 = st_adaptive_rho (sv_settings s) ->
    hs (set_sv_settings st1 s) (set_sv_settings st1 s').
  Proof. intros [[] Hso] H1 H2 H3. split; [|rs; auto]. constructor; rs; auto. - eapply tw_set; [| |exact te_w]; auto. - rewrite H3. auto. Qed.

  Lemma ti_utime (i i' : info K) t t' : ti0 i i' -> ti0 (set_i_update_time t i) (set_i_update_time t' i').
  Proof. intros []. constructor; rs; auto. Qed.
  Lemma tw_clear st b c (w w' : work K) v v' : tw st b c w w' -> tw st b c (set_w_clear_update_time v w) (set_w_clear_update_time v' w').
  Proof. intros []. constructor; rs; auto; eapply ctw_core; [exact tw_c|reflexivity|reflexivity]. Qed.

  (** Forgetting the update time of the last solve, or not, on either side. *)
  Definition forget (b : bool) (s : solver K) : solver K := if b then set_sv_info (set_i_update_time n0 (sv_info s)) (set_sv_work (set_w_clear_update_time 0 (sv_work s)) s) else s.
  Lemma forget_is (s : solver K) : exists t c, forget true s = set_sv_info (set_i_update_time t (sv_info s)) (set_sv_work (set_w_clear_update_time c (sv_work s)) s).
  Proof. eexists. eexists. reflexivity. Qed.
  Lemma same_is (s : solver K) : s = set_sv_info (set_i_update_time (i_update_time (sv_info s)) (sv_info s)) (set_sv_work (set_w_clear_update_time (w_clear_update_time (sv_work s)) (sv_work s)) s).
  Proof. destruct s as [? ? [] [] ?]. reflexivity. Qed.
  Lemma forget_eq b (s : solver K) : exists t c, forget b s = set_sv_info (set_i_update_time t (sv_info s)) (set_sv_work (set_w_clear_update_time c (sv_work s)) s).
  Proof. destruct b; [apply forget_is|]. eexists. eexists. exact (same_is s). Qed.
  Lemma hs_forget b b' s s' : hs s s' -> hs (forget b s) (forget b' s').
  Proof.
    intros H. destruct (forget_eq b s) as (t & c & ->). destruct (forget_eq b' s') as (t' & c' & ->). apply hs_info; [|apply ti_utime, hs_i; auto]. apply hs_work; rs; auto. apply tw_clear, hs_w; auto.
  Qed.
  Lemma begin_update_forget (s : solver K) : begin_update s = forget (w_clear_update_time (sv_work s) =? 1) s.
  Proof. reflexivity. Qed.
  Lemma end_both s s' : hs s s' -> both (end_update E s) (end_update E' s') hs.
  Proof.
    intros H. unfold end_update, reset_info, update_status. destruct (zget OSQP_STATUS_MESSAGE OSQP_UNSOLVED) as [msg|]; [|intros a b; discriminate]. unfold toc. rs. apply both_ret.
    apply hs_info; [apply hs_world; apply hs_info; [exact H|]|apply ti_utime]; pose proof (hs_i _ _ H) as []; constructor; rs; auto.
  Qed.

  Lemma update_rho_h s s' rho : hs s s' -> both (update_rho E s rho) (update_rho E' s' rho) (fun r r' => fst r' = fst r /\ hs (snd r) (snd r')).
  Proof.
    intros H0. unfold update_rho. destruct (nleb rho n0); [apply both_ret; auto|].
    set (b := _ && _). set (b' := _ && _). change (if b then _ else s) with (forget b s). change (if b' then _ else s') with (forget b' s'). pose proof (hs_forget b b' _ _ H0) as H. clearbody b b'.
    set (s1 := forget b s) in *. set (s1' := forget b' s') in *. clearbody s1 s1'. clear H0. set (rho1 := c_min _ _). rs. rewrite (hs_st _ _ H).
    assert (H1 : hs (set_sv_settings (set_st_rho rho1 (sv_settings s1)) s1) (set_sv_settings (set_st_rho rho1 (sv_settings s1)) s1')) by (apply hs_settings; auto).
    eapply both_bind with (R := fun a a' => tw (set_st_rho rho1 (sv_settings s1)) True True a a' /\ (w_last_rel_kkt a = w_last_rel_kkt (sv_work s1) /\ w_last_rel_kkt a' = w_last_rel_kkt (sv_work s1')) /\ w_data a = w_data (sv_work s1)).
    { pose proof (hs_w _ _ H1) as []. rs_in tw_c. destruct tw_c as []. rs. change (tr (st_rho_is_vec (set_st_rho rho1 (sv_settings s1)))) with (tr (st_rho_is_vec (sv_settings s1))) in *. destruct (tr (st_rho_is_vec (sv_settings s1))) eqn:Ev.
      - unfold refresh_rho_vec. rs_in ct_rv. rewrite ct_rv, (ct_riv eq_refl), (ct_ct eq_refl). rs. bb. bb. bb. bb. bb. apply both_ret. split; [|rs; auto]. constructor; rs; auto. constructor; rs; rewrite ?Ev; auto; intros; discriminate.
      - apply both_ret. split; [|rs; auto]. constructor; rs; auto. constructor; rs; rewrite ?Ev; auto; intros; discriminate. }
    intros w w' (TW1 & (K1 & K1') & D1). destruct (ct_ls _ _ _ (tw_c _ _ _ _ _ TW1)) as (ls & ls' & El & El' & LS). rewrite El, El', (ct_rv _ _ _ (tw_c _ _ _ _ _ TW1)).
    eapply both_bind; [apply (both_update_rho_vec E E' ES ls ls' _ _ LS)|]. intros [fl l] [fl' l'] (F & LS'). cbn [fst snd] in *. subst fl'.
    assert (H2 : hs (set_sv_work (set_w_linsys (Some l) w) (set_sv_settings (set_st_rho rho1 (sv_settings s1)) s1)) (set_sv_work (set_w_linsys (Some l') w') (set_sv_settings (set_st_rho rho1 (sv_settings s1)) s1'))).
    { apply hs_work; rs; auto; try congruence. destruct TW1. constructor; rs; auto. destruct tw_c. constructor; rs; auto. eauto. }
    rs. set (s2 := set_sv_work _ _) in *. set (s2' := set_sv_work (set_w_linsys (Some l') w') _) in *. clearbody s2 s2'. unfold toc.
    assert (H3 : forall (x y : bool), hs (if x then set_sv_info (set_i_update_time (nadd (i_update_time (sv_info s2)) (env_clock E (g_tocs (sv_world s2)))) (sv_info s2)) (set_sv_world (set_g_tocs (S (g_tocs (sv_world s2))) (sv_world s2)) s2) else s2)
       (if y then set_sv_info (set_i_update_time (nadd (i_update_time (sv_info s2')) (env_clock E' (g_tocs (sv_world s2')))) (sv_info s2')) (set_sv_world (set_g_tocs (S (g_tocs (sv_world s2'))) (sv_world s2')) s2') else s2')).
    { intros x y. pose proof (hs_world s2 s2' (set_g_tocs (S (g_tocs (sv_world s2))) (sv_world s2)) (sv_world s2') H2) as A1. pose proof (hs_world s2 s2' (sv_world s2) (set_g_tocs (S (g_tocs (sv_world s2'))) (sv_world s2')) H2) as A2.
      replace (set_sv_world (sv_world s2') s2') with s2' in A1 by (destruct s2'; reflexivity). replace (set_sv_world (sv_world s2) s2) with s2 in A2 by (destruct s2; reflexivity).
      destruct x, y; auto.
      - apply hs_info; [apply hs_world; auto|apply ti_utime, hs_i; auto].
      - replace s2' with (set_sv_info (set_i_update_time (i_update_time (sv_info s2')) (sv_info s2')) s2') by (destruct s2' as [? ? [] ? ?]; reflexivity). apply hs_info; auto. apply ti_utime, hs_i; auto.
      - replace s2 with (set_sv_info (set_i_update_time (i_update_time (sv_info s2)) (sv_info s2)) s2) at 1 by (destruct s2 as [? ? [] ? ?]; reflexivity). apply hs_info; auto. apply ti_utime, hs_i; auto. }
    apply both_ret. cbn [fst snd]. split; [reflexivity|]. apply H3.
  Qed.

  Lemma set_rho_vec_h s s' : hs s s' -> tr (st_rho_is_vec (sv_settings s)) = true -> both (set_rho_vec s) (set_rho_vec s') (fun r r' => fst r' = fst r /\ hs (snd r) (snd r')).
  Proof.
    intros H Ev. unfold set_rho_vec. rewrite (hs_st _ _ H). set (rho1 := c_min _ _). rs. pose proof (hs_w _ _ H) as TW. pose proof (tw_c _ _ _ _ _ TW) as C. rewrite (ct_ct _ _ _ C Ev), (ct_d _ _ _ C).
    bs. bs. destruct v0 as [ct ch]. cbn [fst snd]. eapply both_bind with (R := fun a b => exists rv ri, a = set_w_rho_vec (Some rv) (set_w_rho_inv_vec (Some ri) (set_w_constr_type (Some ct) (sv_work s))) /\ b = set_w_rho_vec (Some rv) (set_w_rho_inv_vec (Some ri) (set_w_constr_type (Some ct) (sv_work s')))).
    { unfold refresh_rho_vec. rs. rewrite (ct_rv _ _ _ C), (ct_riv _ _ _ C Ev). bs. bs. bs. bs. apply both_ret. eexists. eexists. split; reflexivity. }
    intros w w' (rv & ri & -> & ->). apply both_ret. cbn [fst snd]. split; auto.
    apply hs_work; rs; auto; [apply hs_settings; auto|]. assert (TW2 : tw (set_st_rho rho1 (sv_settings s)) True True (sv_work s) (sv_work s')) by (eapply tw_set; [| |exact TW]; reflexivity). destruct TW2 as []. constructor; rs; auto. destruct tw_c. constructor; rs; auto.
  Qed.
  Lemma update_rho_vec_h s s' : hs s s' -> tr (st_rho_is_vec (sv_settings s)) = true -> both (update_rho_vec E s) (update_rho_vec E' s') (fun r r' => fst r' = fst r /\ hs (snd r) (snd r')).
  Proof.
    intros H Ev. unfold update_rho_vec. eapply both_bind; [apply set_rho_vec_h; auto|]. intros [b s1] [b' s1'] (F & H1). cbn [fst snd] in *. subst b'. destruct b; [|apply both_ret; auto].
    pose proof (hs_w _ _ H1) as TW1. destruct (ct_ls _ _ _ (tw_c _ _ _ _ _ TW1)) as (ls & ls' & El & El' & LS). rewrite El, El', (ct_rv _ _ _ (tw_c _ _ _ _ _ TW1)), (hs_st _ _ H1).
    eapply both_bind; [apply (both_update_rho_vec E E' ES ls ls' _ _ LS)|]. intros [fl l] [fl' l'] (F & LS'). cbn [fst snd] in *. subst fl'. apply both_ret. cbn [fst snd]. split; auto.
    apply hs_work; rs; auto; try congruence. destruct TW1. constructor; rs; auto. destruct tw_c. constructor; rs; auto. eauto.
  Qed.

  Lemma load_h s s' (t t' : list K) new : hs s s' -> zlen t = d_m (w_data (sv_work s)) -> zlen t' = d_m (w_data (sv_work s)) -> (new = None -> t' = t) -> both (load_bound s t new) (load_bound s' t' new) eq.
  Proof.
    intros H L L' HN. unfold load_bound. destruct new as [a|]; [|rewrite HN by auto; apply both_ret; auto].
    eapply both_bind with (R := eq); [apply both_same; unfold vf_from_raw; congruence|]. intros v ? <-. rewrite (hs_st _ _ H). destruct (tr (st_scaling (sv_settings s))) eqn:Es; [|apply both_ret; auto].
    rewrite (ct_sc _ _ _ (tw_c _ _ _ _ _ (hs_w _ _ H)) Es). bs. apply both_v2; auto.
  Qed.

  (** osqp_update_data_vec *)
  Lemma update_data_vec_h s s' q l u : hs s s' -> Inv s -> Inv s' ->
    both (update_data_vec E s q l u) (update_data_vec E' s' q l u) (fun r r' => fst r' = fst r /\ hs (snd r) (snd r')).
  Proof.
    intros H0 HI HI'. unfold update_data_vec. rewrite !begin_update_forget. pose proof (hs_forget (w_clear_update_time (sv_work s) =? 1) (w_clear_update_time (sv_work s') =? 1) _ _ H0) as H.
    pose proof (begin_update_ok s HI) as O1. pose proof (begin_update_ok s' HI') as O1'. rewrite begin_update_forget in O1. rewrite begin_update_forget in O1'.
    set (s1 := forget _ s) in *. set (s1' := forget _ s') in *. clearbody s1 s1'. pose proof (proj1 (proj1 O1)) as I1. pose proof (proj1 (proj1 O1')) as I1'. clear H0 O1 O1' HI HI' s s'.
    pose proof (hs_w _ _ H) as TW. pose proof (tw_c _ _ _ _ _ TW) as C. pose proof (ct_d _ _ _ C) as Ed. pose proof (wo_len _ _ (iv_w _ I1)) as []. pose proof (wo_len _ _ (iv_w _ I1')) as L'. destruct (tw_b _ _ _ _ _ TW Logic.I) as (Edx & Edy).
    assert (LZ : zlen (w_z_prev (sv_work s1')) = d_m (w_data (sv_work s1))) by (rewrite <- Ed; apply L').
    assert (LD : zlen (w_delta_y (sv_work s1')) = d_m (w_data (sv_work s1))) by (rewrite <- Ed; apply L'). clear L'.
    eapply both_bind with (R := fun r r' => fst (fst r') = fst (fst r) /\ snd r' = snd r /\ hs (snd (fst r)) (snd (fst r')) /\ (snd r = false -> sv_settings (snd (fst r)) = sv_settings (snd (fst r)))).
    { assert (X : (l = None /\ u = None) \/ (l <> None \/ u <> None)) by (destruct l, u; auto; right; try (left; discriminate); right; discriminate). destruct X as [(-> & ->)|HX]; [apply both_ret; cbn [fst snd]; auto|].
      assert (Y : forall X (a b : X), match l, u with None, None => a | _, _ => b end = b) by (intros; destruct l, u; auto; destruct HX; congruence). rewrite !Y. clear Y.
      (* the scratch vector of the lower bound is only read when a lower bound is given *)
      assert (BL : both (load_bound s1 (w_z_prev (sv_work s1)) l) (load_bound s1' (w_z_prev (sv_work s1')) l) (fun a b => (l <> None -> b = a) /\ zlen a = d_m (w_data (sv_work s1)) /\ zlen b = d_m (w_data (sv_work s1)))).
      { destruct l as [a|]; [|cbn [load_bound]; apply both_ret; split; [congruence|auto]]. intros r r' Hr Hr'.
        assert (r = r') by (eapply (load_h s1 s1' _ _ (Some a) H); [exact ln_zp|exact LZ|discriminate|exact Hr|exact Hr']). subst r'. split; auto. rewrite <- (proj1 (conj ln_zp Logic.I)).
        assert (LL : zlen r = zlen (w_z_prev (sv_work s1))); [|auto]. clear - Hr. unfold load_bound, vf_from_raw in Hr. destruct (view a 0 (zlen (w_z_prev (sv_work s1)))) as [t|] eqn:Et; [|discriminate].
        assert (Lt : zlen t = zlen (w_z_prev (sv_work s1))). { unfold view in Et. destruct (_ && _) eqn:Eb; [|discriminate]. injection Et as <-. apply andb_prop in Eb as (E1 & E2). apply andb_prop in E1 as (E0 & E1). unfold zlen in *. rewrite firstn_length. cbn [Z.to_nat skipn]. lia. }
        destruct (tr _); [|congruence]. destruct (w_scaling _) as [sc|]; [|discriminate]. apply v2_len in Hr. lia. }
      eapply both_bind; [exact BL|]. intros lt lt' (HL & Ll & Ll'). eapply both_bind; [apply (load_h s1 s1'); auto|]. intros ut ? <-. rs. rewrite Ed.
      eapply both_bind with (R := eq).
      { apply both_same. destruct l, u; auto; rewrite HL by discriminate; auto. }
      intros ok ? <-. destruct ok; cbn [negb].
      - set (w1 := match u with Some _ => _ | None => _ end). set (w1' := match u with Some _ => _ | None => _ end).
        assert (W1 : tw (sv_settings s1) True True w1 w1' /\ w_last_rel_kkt w1 = w_last_rel_kkt (sv_work s1) /\ w_last_rel_kkt w1' = w_last_rel_kkt (sv_work s1') /\ d_n (w_data w1) = d_n (w_data (sv_work s1)) /\ d_m (w_data w1) = d_m (w_data (sv_work s1))).
        { subst w1 w1'. destruct l as [la|]; [rewrite HL by discriminate|]; destruct u as [ua|]; rs; (split; [|auto 6]); destruct TW; destruct C; constructor; rs; auto; try (constructor; rs; auto); rewrite ?Ed; auto. }
        clearbody w1 w1'. destruct W1 as (TW1 & KW1 & KW1' & N1 & M1).
        assert (H1 : hs (set_sv_work w1 s1) (set_sv_work w1' s1')) by (apply hs_work; auto).
        rs. rewrite (hs_st _ _ H). destruct (tr (st_rho_is_vec (sv_settings s1))) eqn:Ev; [|apply both_ret; cbn [fst snd]; auto].
        eapply both_bind; [apply (update_rho_vec_h _ _ H1); rs; exact Ev|]. intros [f a] [f' a'] (F & HA). cbn [fst snd] in *. subst f'. apply both_ret. cbn [fst snd]. auto.
      - apply both_ret. cbn [fst snd]. split; auto. split; auto. split; [|auto]. apply hs_work; rs; auto. destruct TW; destruct C; constructor; rs; auto; constructor; rs; auto. }
    intros [[fl s2] f] [[fl' s2'] f'] (F1 & F2 & H2 & _). cbn [fst snd] in *. subst fl' f'. destruct f; [apply both_ret; auto|].
    eapply both_bind with (R := hs).
    { destruct q as [a|]; [|apply both_ret; auto]. pose proof (hs_w _ _ H2) as TW2. pose proof (tw_c _ _ _ _ _ TW2) as C2. rewrite (ct_d _ _ _ C2), (hs_st _ _ H2). bs.
      eapply both_bind with (R := eq). { destruct (tr (st_scaling (sv_settings s2))) eqn:Es; [|apply both_ret; auto]. rewrite (ct_sc _ _ _ C2 Es). bs. bs. apply both_ret; auto. }
      intros qv ? <-. apply both_ret. apply hs_work; rs; auto. destruct TW2; destruct C2; constructor; rs; auto; constructor; rs; auto. }
    intros s3 s3' H3. eapply both_bind; [apply end_both; exact H3|]. intros s4 s4' H4. apply both_ret. auto.
  Qed.

  (** ** osqp_update_data_mat *)
  Lemma tw_data st b c (w w' : work K) d : tw st b c w w' -> d_m d = d_m (w_data w) -> tw st b c (set_w_data d w) (set_w_data d w').
  Proof. intros [] Hm. constructor; rs; auto; [destruct tw_c; constructor; rs; auto|rewrite Hm; auto]. Qed.
  Lemma tw_temp st b c (w w' : work K) t1 t2 t3 t1' t2' t3' : tw st b c w w' -> tw st b c (set_w_D_temp t1 (set_w_D_temp_A t2 (set_w_E_temp t3 w))) (set_w_D_temp t1' (set_w_D_temp_A t2' (set_w_E_temp t3' w'))).
  Proof. intros []. constructor; rs; auto; eapply ctw_core; [exact tw_c|reflexivity|reflexivity]. Qed.
  Lemma tw_scaling st b c (w w' : work K) sc : tw st b c w w' -> tw st b c (set_w_scaling sc w) (set_w_scaling sc w').
  Proof. intros []. constructor; rs; auto. destruct tw_c; constructor; rs; auto. Qed.

  (** The scratch vectors of the scaling: the same, or of the right lengths. *)
  Definition tmps (w w' : work K) : Prop :=
    (w_D_temp w' = w_D_temp w /\ w_D_temp_A w' = w_D_temp_A w /\ w_E_temp w' = w_E_temp w) \/
    let P := d_P (w_data w) in let A := d_A (w_data w) in
    (zlen (w_D_temp w) = cn P /\ zlen (w_D_temp w') = cn P) /\ (zlen (w_D_temp_A w) = cn A /\ zlen (w_D_temp_A w') = cn A) /\ (zlen (w_E_temp w) = cm A /\ zlen (w_E_temp w') = cm A).
  Lemma clear_eq (y : list K) n : zlen y = n -> vec_set_scalar y n0 n = Some (zrep n n0).
  Proof.
    intros L. pose proof (zlen_nonneg y). unfold vec_set_scalar. destruct (for_fill n0 (fun _ => n0) n y) as (y' & Ey & L' & V'); [lia|].
    rewrite Ey. f_equal. apply (list_ext_znth n0); [rewrite zlen_zrep; lia|]. intros i Hi. rewrite V', znth_zrep by lia. replace ((0 <=? i) && (i <? n)) with true by lia. auto.
  Qed.
  Lemma norms_eq (w w' : work K) : w_data w' = w_data w -> tmps w w' ->
    compute_inf_norm_cols_KKT (d_P (w_data w')) (d_A (w_data w')) (w_D_temp w') (w_D_temp_A w') (w_E_temp w') = compute_inf_norm_cols_KKT (d_P (w_data w)) (d_A (w_data w)) (w_D_temp w) (w_D_temp_A w) (w_E_temp w).
  Proof.
    intros Ed [(-> & -> & ->)|((A1 & A2) & (B1 & B2) & C1 & C2)]; rewrite Ed; auto. unfold compute_inf_norm_cols_KKT, csc_col_norm_inf, csc_row_norm_inf. rewrite !clear_eq by auto. reflexivity.
  Qed.
  (** What the scaling does not touch. *)
  Definition kc (w0 w : work K) : Prop := w_last_rel_kkt w = w_last_rel_kkt w0 /\ d_n (w_data w) = d_n (w_data w0) /\ d_m (w_data w) = d_m (w_data w0).
  Lemma kc_refl w : kc w w. Proof. repeat split. Qed.
  Lemma kc_trans a b c : kc a b -> kc b c -> kc a c. Proof. unfold kc. intuition congruence. Qed.

  Lemma scale_pass_h st (w w' : work K) sc : tw st True True w w' -> tmps w w' ->
    both (scale_pass w sc) (scale_pass w' sc) (fun r r' => tw st True True (fst r) (fst r') /\ snd r' = snd r /\ tmps (fst r) (fst r') /\ kc w (fst r) /\ kc w' (fst r')).
  Proof.
    intros TW TM. pose proof (ct_d _ _ _ (tw_c _ _ _ _ _ TW)) as Ed. unfold scale_pass. cbv zeta. rewrite (norms_eq _ _ Ed TM), Ed. bs. destruct v as [[Dt DtA] Et].
    bs. bs. bs. bs. bs. bs. bs. bs. bs. bs. bs. bs. bs. apply both_ret. cbn [fst snd]. split; [apply tw_data; [apply tw_temp; exact TW|reflexivity]|]. split; [reflexivity|]. split; [left; rs; auto|]. unfold kc. rs. rewrite Ed. auto 8.
  Qed.
  Lemma scale_data_h st (w w' : work K) : tr (st_scaling st) = true -> tw st True True w w' -> tmps w w' -> both (scale_data st w) (scale_data st w') (fun a b => tw st True True a b /\ kc w a /\ kc w' b).
  Proof.
    intros Es TW TM. unfold scale_data. rewrite (ct_sc _ _ _ (tw_c _ _ _ _ _ TW) Es). bs. cbv zeta.
    eapply both_bind with (R := fun r r' => tw st True True (fst r) (fst r') /\ snd r' = snd r /\ tmps (fst r) (fst r') /\ kc w (fst r) /\ kc w' (fst r')).
    { eapply both_weaken; [apply (both_for (fun _ r r' => tw st True True (fst r) (fst r') /\ snd r' = snd r /\ tmps (fst r) (fst r') /\ kc w (fst r) /\ kc w' (fst r')))|auto].
      - cbn [fst snd]. split; auto. split; auto. split; auto. split; apply kc_refl.
      - intros k [w1 s1] [w1' s1'] _ (A1 & A2 & A3 & A4 & A5). cbn [fst snd] in *. subst s1'. eapply both_weaken; [apply scale_pass_h; eauto|]. cbv beta. intros r r' (B1 & B2 & B3 & B4 & B5). split; auto. split; auto. split; auto. split; eapply kc_trans; eauto. }
    intros [w1 s1] [w1' s1'] (A1 & A2 & A3 & A4 & A5). cbn [fst snd] in *. subst s1'. bs. bs. rewrite (ct_d _ _ _ (tw_c _ _ _ _ _ A1)). bs. bs. apply both_ret. rs. split; [apply tw_data; [apply tw_scaling; exact A1|reflexivity]|].
    pose proof (ct_d _ _ _ (tw_c _ _ _ _ _ A1)) as Ed. unfold kc in *. rs. rewrite Ed in A5. auto.
  Qed.
  Lemma unscale_h st (w w' : work K) : tr (st_scaling st) = true -> tw st True True w w' -> both (unscale_data w) (unscale_data w') (fun a b => exists d, a = set_w_data d w /\ b = set_w_data d w' /\
    d_n d = d_n (w_data w) /\ d_m d = d_m (w_data w) /\ cn (d_P d) = cn (d_P (w_data w)) /\ cn (d_A d) = cn (d_A (w_data w)) /\ cm (d_A d) = cm (d_A (w_data w))).
  Proof.
    intros Es TW. unfold unscale_data. rewrite (ct_sc _ _ _ (tw_c _ _ _ _ _ TW) Es), (ct_d _ _ _ (tw_c _ _ _ _ _ TW)). bs. cbv zeta.
    assert (KB : forall {X} (e : option X), both e e (fun a b => b = a /\ e = Some a)) by (intros X e a b H H'; split; congruence).
    eapply both_bind; [apply KB|]. intros P1 ? (-> & Q1). eapply both_bind; [apply KB|]. intros P2 ? (-> & Q2). eapply both_bind; [apply KB|]. intros P3 ? (-> & Q3). bs. eapply both_bind; [apply KB|]. intros A1 ? (-> & Q4). eapply both_bind; [apply KB|]. intros A2 ? (-> & Q5). bs. bs. apply both_ret. eexists. split; [reflexivity|]. split; [reflexivity|].
    apply scale_qp in Q1. apply lmult_qp in Q2. apply rmult_qp in Q3. apply lmult_qp in Q4. apply rmult_qp in Q5. apply qp_eq in Q1, Q2, Q3, Q4, Q5. rs. intuition congruence.
  Qed.
  Lemma values_cn (M M' : csc K) v idx n : csc_update_values M v idx n = Some M' -> cm M' = cm M /\ cn M' = cn M.
  Proof. intros H. assert (HP : post (csc_update_values M v idx n) (fun M' => cm M' = cm M /\ cn M' = cn M)) by (unfold csc_update_values; destruct idx; walk1; apply post_ret; auto). exact (HP _ H). Qed.
  Lemma matrices_h ls ls' (P A : csc K) Pidx Pn Aidx An : lsim ls ls' ->
    both (update_linsys_matrices E ls P Pidx Pn A Aidx An) (update_linsys_matrices E' ls' P Pidx Pn A Aidx An) (fun a b => fst b = fst a /\ lsim (snd a) (snd b)).
  Proof.
    intros LS. unfold update_linsys_matrices. rewrite (lm_K _ _ LS), (lm_P _ _ LS), (lm_A _ _ LS), (lm_sigma _ _ LS). bs. bs. bs. apply both_ret. cbn [fst snd]. split; [rewrite (es_fac _ _ ES); auto|].
    destruct ls, ls', LS; cbn in *; subst; constructor; cbn; auto.
  Qed.

  Lemma update_data_mat_h s s' Px Pidx Pn Ax Aidx An : hs s s' -> Inv s -> Inv s' ->
    both (update_data_mat E s Px Pidx Pn Ax Aidx An) (update_data_mat E' s' Px Pidx Pn Ax Aidx An) (fun r r' => fst r' = fst r /\ hs (snd r) (snd r')).
  Proof.
    intros H0 HI HI'. unfold update_data_mat. rewrite !begin_update_forget. pose proof (hs_forget (w_clear_update_time (sv_work s) =? 1) (w_clear_update_time (sv_work s') =? 1) _ _ H0) as H.
    pose proof (begin_update_ok s HI) as O1. pose proof (begin_update_ok s' HI') as O1'. rewrite begin_update_forget in O1. rewrite begin_update_forget in O1'.
    set (s1 := forget _ s) in *. set (s1' := forget _ s') in *. clearbody s1 s1'. pose proof (proj1 (proj1 O1)) as I1. pose proof (proj1 (proj1 O1')) as I1'. clear H0 O1 O1' HI HI' s s'.
    pose proof (hs_w _ _ H) as TW. pose proof (tw_c _ _ _ _ _ TW) as C. pose proof (ct_d _ _ _ C) as Ed. pose proof (wo_len _ _ (iv_w _ I1)) as L. pose proof (wo_len _ _ (iv_w _ I1')) as L'. rewrite (hs_st _ _ H), Ed in L'. pose proof (wo_d _ _ (iv_w _ I1)) as D.
    cbv zeta. rewrite Ed, (hs_st _ _ H). bs. bs. destruct (_ || _); [apply both_ret; auto|]. destruct (_ && _); [apply both_ret; auto|]. destruct (_ || _); [apply both_ret; auto|]. destruct (_ && _); [apply both_ret; auto|].
    set (pn := if Pn =? 0 then _ else _). set (an := if An =? 0 then _ else _). clearbody pn an.
    set (okd := fun d : data K => d_n d = d_n (w_data (sv_work s1)) /\ d_m d = d_m (w_data (sv_work s1)) /\ cn (d_P d) = cn (d_P (w_data (sv_work s1))) /\ cn (d_A d) = cn (d_A (w_data (sv_work s1))) /\ cm (d_A d) = cm (d_A (w_data (sv_work s1)))).
    set (R := fun w w' => exists d, okd d /\ w = set_w_data d (sv_work s1) /\ w' = set_w_data d (sv_work s1')).
    assert (RR : R (sv_work s1) (sv_work s1')). { exists (w_data (sv_work s1)). split; [repeat split|]. split; [destruct (sv_work s1); reflexivity|]. rewrite <- Ed. destruct (sv_work s1'); reflexivity. }
    eapply both_bind with (R := R).
    { destruct (tr (st_scaling (sv_settings s1))) eqn:Es; [|apply both_ret; exact RR]. eapply both_weaken; [apply (unscale_h (sv_settings s1)); auto|]. cbv beta. intros a b (d & -> & -> & Hd). exists d. auto. }
    clear RR. intros ? ? (d & OD & -> & ->). rs. eapply both_bind with (R := R).
    { destruct Px as [x|]; [|apply both_ret; exists d; auto]. assert (KB : forall {X} (e : option X), both e e (fun a b => b = a /\ e = Some a)) by (intros X e a b HX HX'; split; congruence).
      eapply both_bind; [apply KB|]. intros P1 ? (-> & Q1). apply both_ret. exists (set_d_P P1 d). split; [|split; reflexivity]. apply values_cn in Q1. unfold okd in *. rs. intuition congruence. }
    clear d OD. intros ? ? (d & OD & -> & ->). rs. eapply both_bind with (R := R).
    { destruct Ax as [x|]; [|apply both_ret; exists d; auto]. assert (KB : forall {X} (e : option X), both e e (fun a b => b = a /\ e = Some a)) by (intros X e a b HX HX'; split; congruence).
      eapply both_bind; [apply KB|]. intros P1 ? (-> & Q1). apply both_ret. exists (set_d_A P1 d). split; [|split; reflexivity]. apply values_cn in Q1. unfold okd in *. rs. intuition congruence. }
    clear d OD. intros ? ? (d & OD & -> & ->).
    eapply both_bind with (R := fun a b => tw (sv_settings s1) True True a b /\ kc (sv_work s1) a /\ kc (sv_work s1') b).
    { assert (T2 : tw (sv_settings s1) True True (set_w_data d (sv_work s1)) (set_w_data d (sv_work s1'))) by (apply tw_data; [exact TW|apply OD]).
      assert (K2 : kc (sv_work s1) (set_w_data d (sv_work s1))) by (unfold kc; rs; split; auto; split; apply OD). assert (K2' : kc (sv_work s1') (set_w_data d (sv_work s1'))) by (unfold kc; rs; rewrite Ed; split; auto; split; apply OD).
      destruct (tr (st_scaling (sv_settings s1))) eqn:Es; [|apply both_ret; auto]. destruct L, L', D. destruct OD as (O1 & O2 & O3 & O4 & O5).
      eapply both_weaken; [apply (scale_data_h (sv_settings s1)); auto|]. { right. rs. rewrite O3, O4, O5. specialize (ln_D eq_refl). specialize (ln_D0 eq_refl). specialize (ln_DA eq_refl). specialize (ln_DA0 eq_refl). specialize (ln_E eq_refl). specialize (ln_E0 eq_refl). cbv zeta. intuition congruence. }
      cbv beta. intros a b (A1 & A2 & A3). split; auto. split; eapply kc_trans; eauto. }
    intros w w' (TW1 & KW & KW'). destruct (ct_ls _ _ _ (tw_c _ _ _ _ _ TW1)) as (ls & ls' & El & El' & LS). rewrite El, El', (ct_d _ _ _ (tw_c _ _ _ _ _ TW1)).
    eapply both_bind with (R := fun a b => fst b = fst a /\ lsim (snd a) (snd b)); [destruct (tr _); apply matrices_h; exact LS|]. intros [fl l] [fl' l'] (F & LS'). cbn [fst snd] in *. subst fl'.
    eapply both_bind; [apply end_both; apply (hs_work _ _ _ _ H)|].
    - destruct TW1. constructor; rs; auto. destruct tw_c. constructor; rs; auto. eauto.
    - apply KW.
    - apply KW'.
    - apply KW.
    - apply KW.
    - intros a b HA. apply both_ret. auto.
  Qed.

  (** ** The other calls *)
  Lemma settings_h s s' new : hs s s' -> both (osqp_update_settings (HSolver s) new) (osqp_update_settings (HSolver s') new) (fun r r' => fst r' = fst r /\ exists a b, snd r = HSolver a /\ snd r' = HSolver b /\ hs a b).
  Proof.
    intros H. unfold osqp_update_settings. destruct (validate_settings new false); [apply both_ret; cbn [fst snd]; eauto 6|]. bs. destruct (ct_ls _ _ _ (tw_c _ _ _ _ _ (hs_w _ _ H))) as (ls & ls' & -> & -> & _). apply both_ret. cbn [fst snd]. split; auto.
    eexists. eexists. split; [reflexivity|]. split; [reflexivity|]. rewrite (hs_st _ _ H). apply hs_settings; auto.
  Qed.
  Lemma tw_x1 st (w w' : work K) x : tw st True True w w' -> tw st True True (set_w_x x w) (set_w_x x w').
  Proof. intros []. constructor; rs; auto. destruct tw_c; constructor; rs; auto. Qed.
  Lemma tw_y1 st (w w' : work K) x : tw st True True w w' -> tw st True True (set_w_y x w) (set_w_y x w').
  Proof. intros []. constructor; rs; auto. destruct tw_c; constructor; rs; auto. Qed.
  Lemma tw_z1 st (w w' : work K) x : tw st True True w w' -> tw st True True (set_w_z x w) (set_w_z x w').
  Proof. intros []. constructor; rs; auto. destruct tw_c; constructor; rs; auto. Qed.
  Lemma warm_h s s' x y : hs s s' -> both (warm_start s x y) (warm_start s' x y) (fun r r' => fst r' = fst r /\ hs (snd r) (snd r')).
  Proof.
    intros H0. unfold warm_start. cbv zeta. set (s1 := if negb _ then _ else s). set (s1' := if negb _ then _ else s').
    assert (H : hs s1 s1'). { subst s1 s1'. rewrite (hs_st _ _ H0). destruct (negb _); auto. apply hs_settings; auto. } clearbody s1 s1'. clear H0 s s'.
    set (R := fun w w' => tw (sv_settings s1) True True w w' /\ kc (sv_work s1) w /\ kc (sv_work s1') w'). rewrite (hs_st _ _ H).
    eapply both_bind with (R := R).
    { pose proof (hs_w _ _ H) as TW. destruct x as [a|]; [|apply both_ret; split; [exact TW|split; apply kc_refl]]. rewrite (tw_x _ _ _ _ _ TW). bs. eapply both_bind with (R := eq).
      { destruct (tr (st_scaling _)) eqn:Es; [|apply both_ret; auto]. rewrite (ct_sc _ _ _ (tw_c _ _ _ _ _ TW) Es). bs. apply both_same; auto. }
      intros v2 ? <-. apply both_ret. split; [apply tw_x1; exact TW|split; unfold kc; rs; auto]. }
    intros w w' (TW & K1 & K1'). eapply both_bind with (R := R).
    { destruct y as [a|]; [|apply both_ret; split; auto]. rewrite (tw_y _ _ _ _ _ TW). bs. eapply both_bind with (R := eq).
      { destruct (tr (st_scaling _)) eqn:Es; [|apply both_ret; auto]. rewrite (ct_sc _ _ _ (tw_c _ _ _ _ _ TW) Es). bs. bs. apply both_ret; auto. }
      intros v2 ? <-. apply both_ret. split; [apply tw_y1; exact TW|split; unfold kc in *; rs; auto]. }
    clear w w' TW K1 K1'. intros w w' (TW & K1 & K1'). eapply both_bind with (R := R).
    { destruct x as [a|]; [|apply both_ret; split; auto]. rewrite (tw_x _ _ _ _ _ TW), (tw_z _ _ _ _ _ TW), (ct_d _ _ _ (tw_c _ _ _ _ _ TW)). bs. apply both_ret. split; [apply tw_z1; exact TW|split; unfold kc in *; rs; auto]. }
    clear w w' TW K1 K1'. intros w w' (TW & K1 & K1'). destruct (ct_ls _ _ _ (tw_c _ _ _ _ _ TW)) as (ls & ls' & -> & -> & _). apply both_ret. cbn [fst snd]. split; auto. apply hs_work; auto; try apply K1; apply K1'.
  Qed.
  Lemma cold_h st (w w' : work K) : tw st True True w w' -> both (cold_start w) (cold_start w') (fun a b => tw st True True a b /\ kc w a /\ kc w' b).
  Proof.
    intros TW. unfold cold_start. destruct (ct_ls _ _ _ (tw_c _ _ _ _ _ TW)) as (ls & ls' & -> & -> & _). rewrite (tw_x _ _ _ _ _ TW), (tw_y _ _ _ _ _ TW), (tw_z _ _ _ _ _ TW). apply both_ret. split; [apply tw_xyz; exact TW|unfold kc; rs; auto].
  Qed.

  Lemma block_h st first hit (w w' : work K) (o : solution K) : tw st True True w w' ->
    both (infeas_block first hit w o) (infeas_block first hit w' o) (fun a b => tw st True True (fst a) (fst b) /\ snd b = snd a /\ kc w (fst a) /\ kc w' (fst b)).
  Proof.
    intros T. destruct (tw_b _ _ _ _ _ T Logic.I) as (Edx & Edy). unfold infeas_block. destruct hit; [|apply both_ret; cbn [fst snd]; split; auto; split; auto; split; apply kc_refl].
    destruct first; rs; rewrite Edx, Edy; bs; bs; apply both_ret; cbn [fst snd]; (split; [first [apply tw_delta; exact T|apply tw_delta2; exact T]|]); (split; [reflexivity|]); unfold kc; rs; auto.
  Qed.
  Lemma store_h s s' so : hs s s' -> both (store_solution s so) (store_solution s' so) (fun r r' => hs (fst r) (fst r') /\ snd r' = snd r).
  Proof.
    intros H. pose proof (hs_w _ _ H) as TW. destruct so as [o|]; [|apply both_ret; auto].
    pose proof (ti_v _ _ _ _ _ _ _ (hs_i _ _ H)) as Ev. assert (Eh : has_solution (sv_info s') = has_solution (sv_info s)) by (unfold has_solution; rewrite Ev; reflexivity).
    destruct (has_solution (sv_info s)) eqn:Hs.
    - unfold store_solution. rewrite Hs, Eh, (hs_st _ _ H).
      eapply both_bind with (R := fun a b => fst b = fst a /\ tw (sv_settings s) True True (snd a) (snd b) /\ kc (sv_work s) (snd a) /\ kc (sv_work s') (snd b)).
      { rewrite (tw_x _ _ _ _ _ TW), (tw_y _ _ _ _ _ TW). destruct (tr (st_scaling (sv_settings s))) eqn:Es.
        - rewrite (ct_sc _ _ _ (tw_c _ _ _ _ _ TW) Es). bs. eapply both_bind with (R := eq).
          { unfold unscale_solution. eapply both_bind; [apply both_v2; reflexivity|]. intros a ? <-. eapply both_bind; [apply both_v2; reflexivity|]. intros b ? <-. apply both_ret; auto. }
          intros [a b] ? <-. cbn [fst snd]. rs. bs. bs. apply both_ret. cbn [fst snd]. split; auto. split; [apply tw_prev; exact TW|unfold kc; rs; auto].
        - bs. bs. apply both_ret. cbn [fst snd]. split; auto. split; [exact TW|split; apply kc_refl]. }
      intros [[x y] w] [[x' y'] w'] (F & TV & K1 & K1'). cbn [fst snd] in *. injection F as -> ->. destruct (tw_b _ _ _ _ _ TV Logic.I) as (Vx & Vy). rs. rewrite Vx, Vy. bs. bs. apply both_ret. cbn [fst snd]. split; [|reflexivity].
      apply hs_work; auto; rs; try apply K1; try apply K1'. apply tw_delta; exact TV.
    - rewrite (store_cold s o Hs), (store_cold s' o Eh), Ev, (tw_x _ _ _ _ _ TW), (tw_y _ _ _ _ _ TW). bs. bs.
      eapply both_bind; [apply (cold_h (sv_settings s)); apply tw_y1, tw_x1; exact TW|]. intros w w' (TV & K1 & K1'). eapply both_bind; [apply (block_h _ _ _ _ _ _ TV)|]. intros [w1 o1] [w1' o1'] (TV1 & F & K2 & K2'). cbn [fst snd] in *. subst o1'.
      eapply both_bind; [apply (block_h _ _ _ _ _ _ TV1)|]. intros [w2 o2] [w2' o2'] (TV2 & F & K3 & K3'). cbn [fst snd] in *. subst o2'. apply both_ret. cbn [fst snd]. split; [|reflexivity].
      assert (K4 : kc (sv_work s) w2) by (eapply kc_trans; [|eapply kc_trans; [exact K2|exact K3]]; exact K1). assert (K4' : kc (sv_work s') w2') by (eapply kc_trans; [|eapply kc_trans; [exact K2'|exact K3']]; exact K1').
      apply hs_work; auto; try apply K4; apply K4'.
  Qed.

  (** ** Whole sessions *)
  (** A call with what it hands back: the exit code, the structure filled by osqp_get_solution, the solver. *)
  Definition ask (e : Env K) (c : call K) (s : solver K) : option (Z * option (solution K) * handle K) :=
    match c with
    | CGetSol sol => r <- osqp_get_solution (HSolver s) sol ;; Some (fst (fst r), snd r, snd (fst r))
    | _ => r <- run e c s ;; Some (fst r, None, snd r)
    end.
  Lemma ask_run e c s : run e c s = (r <- ask e c s ;; Some (fst (fst r), snd r)).
  Proof.
    destruct c; cbn [ask]; try (destruct (run _ _ s) as [[? ?]|]; reflexivity). cbn [run]. destruct (osqp_get_solution (HSolver s) sol) as [[[? ?] ?]|]; reflexivity.
  Qed.

  (** No interrupt, no time limit reached and no interval taken from the clock in the solve to come. *)
  Definition untimed (e : Env K) (c : call K) (s : solver K) : Prop :=
    c = CSolve -> calm e s /\ (st_adaptive_rho (sv_settings s) <> ADAPTIVE_RHO_TIME \/ st_adaptive_rho_interval (sv_settings s) <> 0) /\ 1 <= st_max_iter (sv_settings s).

  Lemma te_weaken (s s' : solver K) (c d c' d' : Prop) : te True True True c d s s' -> (c' -> c) -> (d' -> d) -> te True True True c' d' s s'.
  Proof. intros [] H1 H2. constructor; auto; [eapply tw_mono; eauto|eapply ti_mono; eauto]. Qed.
  Lemma solr_eq (o o' : option (solution K)) (q : Prop) : solr q o o' -> q -> o' = o.
  Proof. destruct o as [[]|], o' as [[]|]; cbn; intros H Hq; try tauto; destruct H as (H1 & H2 & H3); destruct (H3 Hq); congruence. Qed.
  Lemma solr_refl (o : option (solution K)) : solr True o o. Proof. destruct o; cbn; auto. Qed.

  Lemma solve_h s s' : hs s s' -> Inv s -> Inv s' -> calm E s -> calm E' s' -> st_adaptive_rho (sv_settings s) <> ADAPTIVE_RHO_TIME \/ st_adaptive_rho_interval (sv_settings s) <> 0 -> 1 <= st_max_iter (sv_settings s) ->
    exists r r', solve E s = Some r /\ solve E' s' = Some r' /\ fst r' = fst r /\ hs (snd r) (snd r') /\ (fst r <= 0 -> i_rho_estimate (sv_info (snd r')) = i_rho_estimate (sv_info (snd r))).
  Proof.
    intros [T Hso] HI HI' C C' HT HM. destruct (solve_twin E E' ES EO EO' NZ True True True MM s s') as (r & r' & Er & Er' & SR); auto.
    { eapply te_weaken; [exact T|tauto|tauto]. }
    exists r, r'. split; auto. split; auto. destruct SR. split; [exact sr_flag|]. split.
    - split. { destruct sr_te as [X|(_ & X)]; eapply te_weaken; try exact X; tauto. }
      destruct (Z_le_gt_dec (fst r) 0) as [Hz|Hz]; [|destruct (sr_keep ltac:(lia)); congruence]. eapply solr_eq; [apply sr_sol; auto|]. right. rewrite Hso. apply solr_refl.
    - intros Hf. destruct sr_te as [X|(X & _)]; [|lia]. apply (ti_e _ _ _ _ _ _ _ (te_i _ _ _ _ _ _ _ X)). exact Logic.I.
  Qed.

  Theorem ask_both c s s' : hs s s' -> Inv s -> Inv s' -> args_ok c s -> untimed E c s -> untimed E' c s' ->
    exists fl o t t', ask E c s = Some (fl, o, HSolver t) /\ ask E' c s' = Some (fl, o, HSolver t') /\ hs t t' /\ (c = CSolve -> fl <= 0 -> i_rho_estimate (sv_info t') = i_rho_estimate (sv_info t)).
  Proof.
    intros H HI HI' HA U U'. pose proof (ct_d _ _ _ (tw_c _ _ _ _ _ (hs_w _ _ H))) as Ed.
    assert (HA' : args_ok c s') by (unfold args_ok in *; rewrite Ed; exact HA).
    destruct (run_safe E EO MM c s HI HA) as (r & Er & s1 & E1 & _). destruct (run_safe E' EO' MM c s' HI' HA') as (r' & Er' & s1' & E1' & _).
    destruct r as [fl h], r' as [fl' h']. cbn [snd] in *. subst h h'.
    assert (GO : forall (e : option (Z * solver K)) (e' : option (Z * solver K)), both e e' (fun r r' => fst r' = fst r /\ hs (snd r) (snd r')) -> (r <- e ;; Some (fst r, HSolver (snd r))) = Some (fl, HSolver s1) -> (r <- e' ;; Some (fst r, HSolver (snd r))) = Some (fl', HSolver s1') -> fl' = fl /\ hs s1 s1').
    { intros e e' HB X X'. destruct e as [[f t]|]; [|discriminate]. destruct e' as [[f' t']|]; [|discriminate]. injection X as <- <-. injection X' as <- <-. exact (HB _ _ eq_refl eq_refl). }
    destruct c; cbn [ask]; try rewrite Er; try rewrite Er'; cbn [fst snd].
    - destruct (U eq_refl) as (C & HT & HM). destruct (U' eq_refl) as (C' & _). destruct (solve_h s s') as ([f t] & [f' t'] & Es & Es' & F & HH & HE); auto. cbn [run] in Er, Er'. unfold osqp_solve, on_solver in Er, Er'. rewrite Es in Er. rewrite Es' in Er'. cbn [fst snd] in *. injection Er as <- <-. injection Er' as <- <-. subst f'. eauto 10.
    - destruct (GO _ _ (update_data_vec_h s s' q l u H HI HI') Er Er') as (-> & HH). exists fl, None, s1, s1'. split; auto. split; auto. split; auto. discriminate.
    - destruct (GO _ _ (update_data_mat_h s s' Px Pidx Pn Ax Aidx An H HI HI') Er Er') as (-> & HH). exists fl, None, s1, s1'. split; auto. split; auto. split; auto. discriminate.
    - destruct (GO _ _ (update_rho_h s s' rho H) Er Er') as (-> & HH). exists fl, None, s1, s1'. split; auto. split; auto. split; auto. discriminate.
    - cbn [run] in Er, Er'. destruct (settings_h s s' new H _ _ Er Er') as (F & a & b & X1 & X2 & HH). cbn [fst snd] in *. subst fl'. injection X1 as <-. injection X2 as <-. exists fl, None, s1, s1'. split; auto. split; auto. split; auto. discriminate.
    - destruct (GO _ _ (warm_h s s' x y H) Er Er') as (-> & HH). exists fl, None, s1, s1'. split; auto. split; auto. split; auto. discriminate.
    - cbn [run] in Er, Er'. unfold osqp_cold_start in Er, Er'. destruct (cold_start (sv_work s)) as [w|] eqn:C1; [|discriminate]. destruct (cold_start (sv_work s')) as [w'|] eqn:C2; [|discriminate]. injection Er as <- <-. injection Er' as <- <-.
      destruct (cold_h _ _ _ (hs_w _ _ H) _ _ C1 C2) as (TV & K1 & K1'). exists 0, None. eexists. eexists. split; [reflexivity|]. split; [reflexivity|]. split; [|discriminate]. apply hs_work; auto; try apply K1; apply K1'.
    - cbn [run] in Er, Er'. unfold osqp_get_solution in *. destruct sol as [o|].
      + destruct (store_solution s (Some o)) as [[t o1]|] eqn:S1; [|discriminate]. destruct (store_solution s' (Some o)) as [[t' o1']|] eqn:S2; [|discriminate]. destruct (store_h s s' (Some o) H _ _ S1 S2) as (HH & F). cbn [fst snd] in *. subst o1'. injection Er as <- <-. injection Er' as <- <-. eexists _, _, t, t'. split; [reflexivity|]. split; [reflexivity|]. split; auto. discriminate.
      + injection Er as <- <-. injection Er' as <- <-. cbn [fst snd]. eexists _, _, s, s'. split; [reflexivity|]. split; [reflexivity|]. split; auto. discriminate.
  Qed.
End Hist.
