(** osqp_setup establishes the invariant; its exit codes. *)
From Coq Require Import ZArith List Bool Lia String.
From Verif Require Import Num Arr ArrFacts Csc CscSpec CscFacts CscFacts2 Scatter Vec Types Kkt Linsys Scaling Validate Auxil Polish Api
  VecFacts LinsysFacts LinsysSolve Inv InvStep InvApi InvScale InvPolish RecSimp InvSolve ValidFacts InvUpd.
Import ListNotations.
Open Scope Z_scope.

Section Setup.
  Context {K : NumOps}.
  Variable E : Env K.
  Hypothesis EO : env_ok E.
  Hypothesis MM : nltb (OSQP_RHO_MIN K) (OSQP_RHO_MAX K) = true.
  Notation dn s := (d_n (w_data (sv_work s))).
  Notation dm s := (d_m (w_data (sv_work s))).

  Lemma csc_copy_wf (A : csc K) jz jx : wf A -> safe (csc_copy jz jx A) (fun B => cm B = cm A /\ cn B = cn A /\ wf B /\ nnz B = nnz A /\
    (triu A -> triu B) /\ (forall j, 0 <= j <= cn A -> colp B j = colp A j) /\
    (forall k, 0 <= k < nnz A -> rowi B k = rowi A k /\ znth n0 (cx B) k = znth n0 (cx A) k)).
  Proof.
    intros W. destruct (csc_copy_spec A jz jx n0 W) as (B & -> & E1 & E2 & L1 & L2 & L3 & _ & _ & HC & HR).
    pose proof W as []. apply safe_ret. assert (EN : nnz B = nnz A). { unfold nnz. rewrite E2. apply HC. lia. }
    repeat (split; [solve [auto]|]). split; [|split; [auto|split; [|auto]]].
    - constructor; rewrite ?E1, ?E2, ?EN; try lia.
      + rewrite HC by lia. auto.
      + intros j Hj. rewrite !HC by lia. auto.
      + intros k Hk. destruct (HR k Hk) as [-> _]. auto.
    - intros [HS HT]. split; [lia|]. rewrite E2. intros j k Hj Hk. rewrite !HC in Hk by lia.
      destruct (HR k) as [-> _]; [eapply slot_range; eauto|]. auto.
  Qed.

  Lemma vf_new_safe (a : option (list K)) n : 0 <= n -> (forall v, a = Some v -> n <= zlen v) -> (0 < n -> a <> None) ->
    safe (vf_new a n) (fun v => zlen v = n).
  Proof.
    intros Hn HV HN. unfold vf_new. destruct a as [v|].
    - apply safe_view; [lia|lia|]. specialize (HV v eq_refl). lia.
    - destruct (n =? 0) eqn:E0; [apply safe_ret; unfold zlen; cbn; lia|]. exfalso. apply HN; auto. lia.
  Qed.

  (** The stored problem and units are those of the copied arguments, scaled if scaling is on. *)
  Definition fresh_data (P : option (csc K)) (q : option (list K)) (A : option (csc K)) (l u : option (list K)) (m n : Z)
               (ust : settings K) (s : solver K) : Prop :=
    exists P0 A0 P1 q1 A1 l1 u1 w1, P = Some P0 /\ A = Some A0 /\
      csc_copy (env_jz E) (env_jx E) P0 = Some P1 /\ csc_copy (env_jz E) (env_jx E) A0 = Some A1 /\
      vf_new q n = Some q1 /\ vf_new l m = Some l1 /\ vf_new u m = Some u1 /\
      (if tr (st_scaling ust) then scale_data (copy_settings ust) (initial_work E P1 q1 A1 l1 u1 m n ust)
       else Some (initial_work E P1 q1 A1 l1 u1 m n ust)) = Some w1 /\
      w_data (sv_work s) = w_data w1 /\ w_scaling (sv_work s) = w_scaling w1.

  (** What a successful osqp_setup leaves behind, besides the invariant. *)
  Record fresh (P : option (csc K)) (q : option (list K)) (A : option (csc K)) (l u : option (list K)) (m n : Z)
               (ust : settings K) (s : solver K) : Prop := {
    fs_data : fresh_data P q A l u m n ust s;
    fs_settings : sv_settings s = setup_adaptive_rho (set_st_rho (clamp (st_rho ust)) (copy_settings ust));
    fs_types : tr (st_rho_is_vec ust) = true ->
      exists ct0 ct ch, vf_ew_bounds_type ct0 (d_l (w_data (sv_work s))) (d_u (w_data (sv_work s))) (OSQP_RHO_TOL K) infval = Some (ct, ch) /\
        w_constr_type (sv_work s) = Some ct;
    fs_rho_inv : tr (st_rho_is_vec ust) = false -> w_rho_inv (sv_work s) = ndiv n1 (st_rho ust);
    fs_x : w_x (sv_work s) = zrep n n0; fs_z : w_z (sv_work s) = zrep m n0; fs_y : w_y (sv_work s) = zrep m n0;
    fs_status : i_status_val (sv_info s) = OSQP_UNSOLVED;
    fs_first : w_first_run (sv_work s) = 1; fs_clear : w_clear_update_time (sv_work s) = 0;
    fs_rufs : w_rho_update_from_solve (sv_work s) = 0;
    fs_upd : i_update_time (sv_info s) = n0; fs_pol : i_polish_time (sv_info s) = n0;
    fs_rupd : i_rho_updates (sv_info s) = 0;
    fs_sol : sv_solution s = None <-> tr (st_allocate_solution ust) = false }.

  (** The four ways osqp_setup can end. *)
  Inductive setup_result (g : world) (P : option (csc K)) q A l u m n (st : option (settings K)) : Z -> option (solver K) -> world -> Prop :=
  | sr_data : ~ data_ok P q A l u m n -> setup_result g P q A l u m n st OSQP_DATA_VALIDATION_ERROR None g
  | sr_settings : data_ok P q A l u m n -> validate_settings st true = true ->
      setup_result g P q A l u m n st OSQP_SETTINGS_VALIDATION_ERROR None g
  | sr_noncvx : forall s g', data_ok P q A l u m n -> validate_settings st true = false ->
      w_linsys (sv_work s) = None -> i_status_val (sv_info s) = OSQP_NON_CVX -> sv_world s = g' ->
      g_sections g' = SEC_SETUP :: g_sections g -> g_handler g' = g_handler g ->
      (forall ust, st = Some ust -> fresh_data P q A l u m n ust s /\ sv_settings s = set_st_rho (clamp (st_rho ust)) (copy_settings ust) /\
         exists ls, wok (sv_settings s) (set_w_linsys (Some ls) (sv_work s)) /\ LDL_factor E (ls_fac ls) n < 0) ->
      setup_result g P q A l u m n st OSQP_NONCVX_ERROR (Some s) g'
  | sr_ok : forall s g', data_ok P q A l u m n -> validate_settings st true = false ->
      Inv s -> dn s = n -> dm s = m -> (forall ust, st = Some ust -> fresh P q A l u m n ust s) -> sv_world s = g' ->
      (exists ls, w_linsys (sv_work s) = Some ls /\ LDL_factor E (ls_fac ls) n = 0) ->
      g_sections g' = g_sections g -> g_handler g' = g_handler g ->
      setup_result g P q A l u m n st OSQP_NO_ERROR (Some s) g'.

  Lemma set_scalar_zrep (a : list K) n c : zlen a = n -> vf_set_scalar a c = zrep n c.
  Proof.
    intros <-. unfold vf_set_scalar, zrep, zlen. rewrite Nat2Z.id. induction a as [|x a IH]; cbn [map repeat length]; [reflexivity|]. rewrite IH. reflexivity.
  Qed.

  Theorem osqp_setup_safe g P q A l u m n st : data_readable P q A l u m n ->
    safe (osqp_setup E g P q A l u m n st) (fun r => setup_result g P q A l u m n st (fst (fst r)) (snd (fst r)) (snd r)).
  Proof.
    intros HR. unfold osqp_setup. destruct (validate_data_spec P q A l u m n HR) as (bad & -> & HV). destruct bad.
    { apply safe_ret. apply sr_data. intros H. apply HV in H. discriminate. }
    assert (HDO : data_ok P q A l u m n) by (apply HV; auto). clear HV.
    destruct (validate_settings st true) eqn:EV; [apply safe_ret; apply sr_settings; auto|].
    destruct st as [ust|]; [|discriminate EV].
    pose proof HDO as [Hn Hm Hq (P0 & -> & Pm & Pn & HT) (A0 & -> & Am & An) _].
    destruct HR as [HP HA Hqr Hl Hu Hl0 Hu0]. specialize (HP P0 eq_refl). specialize (HA A0 eq_refl).
    assert (HPt : triu P0) by (split; [lia|rewrite Pn; auto]).
    destruct (csc_copy_wf P0 (env_jz E) (env_jx E) HP) as (P1 & EP1 & P1m & P1n & WP1 & _ & TP1 & _). rewrite EP1. specialize (TP1 HPt).
    destruct (vf_new_safe q n) as (q1 & Eq1 & Lq1); [lia|auto|auto|]. rewrite Eq1.
    destruct (csc_copy_wf A0 (env_jz E) (env_jx E) HA) as (A1 & EA1 & A1m & A1n & WA1 & _). rewrite EA1.
    destruct (vf_new_safe l m) as (l1 & El1 & Ll1); [lia|auto|intros H0 ->; destruct (Hl H0) as (v & X & _); discriminate|]. rewrite El1.
    destruct (vf_new_safe u m) as (u1 & Eu1 & Lu1); [lia|auto|intros H0 ->; destruct (Hu H0) as (v & X & _); discriminate|]. rewrite Eu1.
    cbv zeta.
    set (w0 := initial_work _ _ _ _ _ _ _ _ _).
    set (st0 := copy_settings ust).
    assert (Est : forall (T : Type) (f : settings K -> T), f st0 = f ust) by (intros; subst st0; destruct ust; reflexivity).
    assert (HL0 : lens n m (tr (st_scaling ust)) w0).
    { subst w0. unfold initial_work. constructor; rs; rewrite ?zlen_zrep by lia; auto; intros ->; rewrite zlen_zrep by lia; auto. }
    assert (HD0 : dok (w_data w0)). { subst w0. unfold initial_work. constructor; rs; auto; try lia. }
    assert (Hdn : d_n (w_data w0) = n /\ d_m (w_data w0) = m) by (split; reflexivity). destruct Hdn as [Hdn Hdm].
    assert (HW1 : exists w1, (if tr (st_scaling ust) then scale_data st0 w0 else Some w0) = Some w1 /\
       dok (w_data w1) /\ d_n (w_data w1) = n /\ d_m (w_data w1) = m /\ lens n m (tr (st_scaling ust)) w1 /\ sc_ok ust w1 /\
       w_rho_vec w1 = w_rho_vec w0 /\ w_rho_inv_vec w1 = w_rho_inv_vec w0 /\ w_constr_type w1 = w_constr_type w0 /\ w_linsys w1 = None).
    { destruct (tr (st_scaling ust)) eqn:Es.
      - destruct (w_scaling w0) as [sc|] eqn:Esc; [|subst w0; unfold initial_work in Esc; rs_in Esc; rewrite Es in Esc; discriminate].
        destruct (scale_data_safe st0 w0 sc) as (w1 & -> & d & a & b & c & sc' & -> & HD & La & Lb & Lc & SC); auto.
        { destruct HL0. split; [|split]; rewrite ?Hdn, ?Hdm; auto. }
        { rewrite Hdn, Hdm. subst w0. unfold initial_work in Esc. rs_in Esc. rewrite Es in Esc. injection Esc as <-.
          constructor; rs; apply zlen_zrep; lia. }
        rewrite Hdn, Hdm in *. pose proof HD as [Dn Dm _ _ _ _ _]. destruct HL0.
        eexists. split; [reflexivity|]. unfold wscal. rs. split; [eapply drel_dok; eauto|]. rewrite Dn, Dm, Hdn, Hdm.
        repeat (split; [reflexivity|]). split; [lens_tac|]. split; [|repeat split; reflexivity]. intros _. exists sc'. rs. split; auto. rewrite Dn, Dm. auto.
      - exists w0. split; [reflexivity|]. repeat (split; [solve [auto]|]). split; [intros X; congruence|]. repeat split; reflexivity. }
    destruct HW1 as (w1 & EW1 & HD1 & Dn1 & Dm1 & HL1 & SC1 & R1 & R2 & R3 & R4).
    eapply safe_bind with (P := fun s => s = mksolver st0 None zero_info w1 (set_g_sections (SEC_SETUP :: g_sections g) g)).
    { destruct (tr (st_scaling ust)) eqn:Es.
      - unfold push_sec. rs. rewrite EW1. unfold pop_sec. rs. apply safe_ret. destruct g. reflexivity.
      - injection EW1 as <-. apply safe_ret. reflexivity. }
    intros s1 ->.
    eapply safe_bind with (P := fun s => exists w st2, s = mksolver st2 None zero_info w (set_g_sections (SEC_SETUP :: g_sections g) g) /\
       st2 = set_st_rho (clamp (st_rho ust)) st0 /\
       w_data w = w_data w1 /\ w_scaling w = w_scaling w1 /\ lens n m (tr (st_scaling ust)) w /\ rho_ok st2 m w /\ w_linsys w = None /\
       (tr (st_rho_is_vec ust) = true -> exists ct0 ct ch, vf_ew_bounds_type ct0 (d_l (w_data w)) (d_u (w_data w)) (OSQP_RHO_TOL K) infval = Some (ct, ch) /\
          w_constr_type w = Some ct) /\
       (tr (st_rho_is_vec ust) = false -> w_rho_inv w = ndiv n1 (st_rho ust))).
    { subst w0. unfold initial_work in R1, R2, R3. rs_in R1. rs_in R2. rs_in R3. pose proof HD1 as HD1'. destruct HD1. rewrite ?Dn1, ?Dm1 in *.
      destruct (tr (st_rho_is_vec ust)) eqn:Ev.
      - unfold set_rho_vec. cbv zeta. rs. rewrite R3.
        destruct (vf_ew_bounds_type (zrep m 0) (d_l (w_data w1)) (d_u (w_data w1)) (OSQP_RHO_TOL K) infval) as [[ct ch]|] eqn:Ebt.
        2:{ exfalso. unfold vf_ew_bounds_type in Ebt. rewrite v2_ok in Ebt by (rewrite ?zlen_zrep; lia). discriminate. }
        assert (Lct : zlen ct = m).
        { unfold vf_ew_bounds_type in Ebt. rewrite v2_ok in Ebt by (rewrite ?zlen_zrep; lia). injection Ebt as <- _. rewrite zlen_zip by lia. lia. }
        cbv beta iota. cbn [fst snd]. fold (clamp (st_rho st0)). rewrite (Est _ st_rho).
        set (w2 := set_w_constr_type (Some ct) w1).
        assert (HW2 : wok0 ust w2).
        { subst w2. constructor; rs; rewrite ?Dn1, ?Dm1; auto.
          - rewrite Ev. split; [eauto|]. rewrite R1, R2. split; eexists; (split; [reflexivity|apply zlen_zrep; lia]).
          - destruct HL1; lens_tac. }
        destruct (refresh_safe ust w2 (clamp (st_rho ust)) HW2 Ev) as (w3 & -> & ct0 & E0 & ->).
        subst w2. rs_in E0. inversion E0; subst ct0. cbv beta iota. apply safe_ret. cbn [snd].
        eexists. eexists. split; [reflexivity|]. split; [reflexivity|]. rs. repeat (split; [reflexivity|]). split; [destruct HL1; lens_tac|].
        split. { unfold rho_ok. rs. rewrite (Est _ st_rho_is_vec), Ev. exists ct. auto. }
        split; [exact R4|]. split; [|discriminate]. intros _. exists (zrep m 0), ct, ch. auto.
      - apply safe_ret. eexists. eexists. split; [reflexivity|]. split; [reflexivity|]. rs. repeat (split; [reflexivity|]). split; [destruct HL1; lens_tac|].
        split. { unfold rho_ok. rs. rewrite (Est _ st_rho_is_vec), Ev. auto. }
        split; [exact R4|]. split; [discriminate|auto]. }
    intros s2 (w2 & st2 & -> & Est2 & Ed2 & Esc2 & HL2 & HR2 & Els2 & Hct2 & Hri2). rs. rewrite Ed2. pose proof HD1 as [].
    destruct (init_linsys_spec E EO (d_P (w_data w1)) (d_A (w_data w1)) (w_rho_vec w2) st2) as (res & -> & HRes); auto; [lia| |].
    { intros v Ev. unfold rho_ok in HR2. destruct (tr (st_rho_is_vec st2)); [|congruence]. destruct HR2 as (ct & _ & Lc & Erv & _).
      rewrite Erv in Ev. injection Ev as <-. rewrite zlen_map. lia. }
    destruct HRes as (ls & HRes & Hri & Hrv & LO).
    assert (HW3 : wok st2 (set_w_linsys (Some ls) w2)).
    { assert (Est2' : forall (T : Type) (f : settings K -> T), (forall r s, f (set_st_rho r s) = f s) -> f st2 = f ust) by (intros; rewrite Est2, H, Est; auto).
      constructor; rs; rewrite ?Ed2, ?Dn1, ?Dm1; auto.
      - unfold sc_ok in *. rs. rewrite Ed2, Esc2, (Est2' _ st_scaling) by reflexivity. auto.
      - exists ls. eexists. rs. rewrite Ed2. split; [reflexivity|]. split; [exact LO|]. split; [intros; left; reflexivity|].
        unfold ls_rho, rho_ok in *. rs. destruct (tr (st_rho_is_vec st2)).
        + destruct HR2 as (ct & C1 & C2 & C3 & C4). exists ct. split; auto. rewrite C3 in Hrv. destruct Hrv as (x & -> & Lx & Hx). f_equal.
          apply (list_ext_znth n0); [rewrite zlen_map; lia|]. intros i Hi. rewrite Hx by lia. rewrite (znth_map n0 0), (znth_map n0 0) by lia. auto.
        + rewrite HR2 in Hrv. auto.
      - rewrite (Est2' _ st_scaling) by reflexivity. destruct HL2; lens_tac. }
    destruct HRes as [(-> & HLF)|(-> & HLF)].
    - eapply safe_bind with (P := fun i => i_status_val i = OSQP_NON_CVX).
      + change (OSQP_NONCVX_ERROR =? OSQP_NONCVX_ERROR) with true. cbv iota.
        eapply safe_weaken; [apply (status_safe _ OSQP_NON_CVX); unfold OSQP_NON_CVX; lia|]. intros i [_ Hi]. exact Hi.
      + intros i Hi. apply safe_ret. cbn [fst snd]. apply sr_noncvx; rs; auto. intros ust' [= <-]. split; [exists P0, A0, P1, q1, A1, l1, u1, w1; repeat (split; [solve [auto]|]); auto|].
        split; [exact Est2|]. exists ls. split; [exact HW3|]. replace n with (cn (d_P (w_data w1))) by lia. exact HLF.
    - unfold cold_start. rs. cbv beta iota.
      set (w3 := set_w_x _ _).
      assert (HK3 : keeps st2 (set_w_linsys (Some ls) w2) w3).
      { subst w3. split; [reflexivity|]. destruct (wo_len _ _ HW3). unfold vf_set_scalar. lens_tac. }
      pose proof (wok_keeps _ _ _ HW3 HK3) as HW4.
      assert (Ed3 : w_data w3 = w_data w1) by (subst w3; rs; exact Ed2).
      assert (Esc3 : w_scaling w3 = w_scaling w1) by (subst w3; rs; exact Esc2).
      assert (Ect3 : w_constr_type w3 = w_constr_type w2) by (subst w3; rs; reflexivity).
      assert (Eri3 : w_rho_inv w3 = w_rho_inv w2) by (subst w3; rs; reflexivity).
      assert (Els3 : w_linsys w3 = Some ls) by (subst w3; rs; reflexivity).
      assert (Ex3 : w_x w3 = zrep n n0 /\ w_z w3 = zrep m n0 /\ w_y w3 = zrep m n0).
      { subst w3. rs. destruct HL2. repeat split; apply set_scalar_zrep; auto. }
      destruct Ex3 as (Ex3 & Ez3 & Ey3). clearbody w3.
      set (s5 := if tr (st_allocate_solution ust) then _ else _).
      assert (E5 : exists so, s5 = mksolver st2 so zero_info w3 (set_g_sections (SEC_SETUP :: g_sections g) g) /\ (forall o, so = Some o -> solok n m o) /\ (so = None <-> tr (st_allocate_solution ust) = false)).
      { subst s5. destruct (tr (st_allocate_solution ust)); eexists; (split; [reflexivity|]); (split; [|split; [discriminate || auto|discriminate || auto]]); [|discriminate].
        intros o [= <-]. constructor; rs; rewrite zlen_zrep; lia. }
      clearbody s5. destruct E5 as (so & -> & Hso & Hso'). rs.
      eapply safe_bind; [apply (status_safe _ OSQP_UNSOLVED); unfold OSQP_UNSOLVED; lia|]. intros i [Hi Hv].
      unfold toc, pop_sec. rs. cbv beta iota. apply safe_ret. cbn [fst snd]. rs.
      apply sr_ok; rs; auto; try congruence.
      + assert (Hk : st_rho (setup_adaptive_rho st2) = st_rho st2 /\ st_sigma (setup_adaptive_rho st2) = st_sigma st2 /\
            st_scaling (setup_adaptive_rho st2) = st_scaling st2 /\ st_rho_is_vec (setup_adaptive_rho st2) = st_rho_is_vec st2).
        { unfold setup_adaptive_rho. repeat match goal with |- context [if ?b then _ else _] => destruct b end; auto. }
        destruct Hk as (K1 & K2 & K3 & K4).
        set (sx := mksolver st2 so i w3 g).
        assert (HIx : Inv sx).
        { subst sx. constructor; rs; auto; [rewrite Est2; rs; apply clamp_idem; auto|rewrite Ed3, Dn1, Dm1; auto]. }
        pose proof (proj1 (proj1 (oks_settings sx (setup_adaptive_rho st2) HIx K1 K2 K3 K4))) as HIy.
        match goal with |- Inv ?x => set (sf := x) end.
        assert (HO : oks (set_sv_settings (setup_adaptive_rho st2) sx) sf).
        { apply oks_keeps; subst sf sx; rs; auto; [|split; rs; auto; destruct g; auto].
          split; [reflexivity|]. destruct (wo_len _ _ HW4); rs. rewrite K3. lens_tac. }
        apply HO.
      + intros ust' [= <-]. constructor; rs; auto; try congruence.
        * exists P0, A0, P1, q1, A1, l1, u1, w1. repeat (split; [solve [auto]|]); auto.
        * rewrite Est2. reflexivity.
        * intros Ev. rewrite Ed3, <- Ed2. destruct (Hct2 Ev) as (a & b & c & X & Y). exists a, b, c. split; auto. congruence.
        * intros Ev. rewrite Eri3. auto.
      + exists ls. split; [exact Els3|]. replace n with (cn (d_P (w_data w1))) by lia. exact HLF.
  Qed.
End Setup.
