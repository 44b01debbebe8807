(** What osqp_update_data_mat stores in a scaled solver, in every number system: the scaling of a new problem is the one osqp_setup computes. *)
From Coq Require Import ZArith List Bool Lia String.
From Verif Require Import Num Arr ArrFacts Csc CscSpec CscFacts CscFacts2 Scatter Vec Types Kkt Linsys Scaling Validate Auxil Polish Api
  VecFacts LinsysFacts LinsysSolve Inv InvStep InvApi InvScale InvPolish InvSolve ValidFacts InvUpd InvSetup History RecSimp Frame FrameSolve FrameUpd DataFacts Mid Trace PassFacts SolveEnd AtyFacts
  MachineSpec MachineTerm MachineInfo MachineSolve MachineClaims TwinKer MachineFound MachineCalls CodegenReach.
Import ListNotations.
Open Scope Z_scope.
Local Open Scope opt_scope.

Section MatSpec.
  Context {K : NumOps}.
  Local Open Scope num_scope.
  (** The stored problem back in the user's units, src/scaling.c:169-192: every number of it, with the products in the order the library takes them. *)
  Record back_scaled (W : scaling K) (d d' : data K) : Prop := {
    bk_n : d_n d' = d_n d; bk_m : d_m d' = d_m d;
    bk_q : d_q d' = times (map (fun v => v * sc_cinv W) (d_q d)) (sc_Dinv W);
    bk_l : d_l d' = times (d_l d) (sc_Einv W); bk_u : d_u d' = times (d_u d) (sc_Einv W);
    bk_P : same_pat (d_P d) (d_P d') /\ forall j k, (0 <= j < cn (d_P d))%Z -> (colp (d_P d) j <= k < colp (d_P d) (j + 1))%Z ->
      znth n0 (cx (d_P d')) k = znth n0 (cx (d_P d)) k * sc_cinv W * znth n0 (sc_Dinv W) (rowi (d_P d) k) * znth n0 (sc_Dinv W) j;
    bk_A : same_pat (d_A d) (d_A d') /\ forall j k, (0 <= j < cn (d_A d))%Z -> (colp (d_A d) j <= k < colp (d_A d) (j + 1))%Z ->
      znth n0 (cx (d_A d')) k = znth n0 (cx (d_A d)) k * znth n0 (sc_Einv W) (rowi (d_A d) k) * znth n0 (sc_Dinv W) j }.

  (** osqp_update_data_mat with counts that are accepted in a scaled solver, src/osqp_api.c:1358-1384: the problem is taken back to the user's units, the entries named
      are replaced, and problem and scaling are afterwards those of any solver that osqp_setup makes of the result with the same number of scaling passes. *)
  Definition rescaled (Px : option (list K)) (Pidx : option (list Z)) (Pn : Z) (Ax : option (list K)) (Aidx : option (list Z)) (An : Z) (m n : Z) (s s' : solver K) : Prop :=
    exists W d P1 A1, SC s = Some W /\ back_scaled W (D s) d /\ entries_after (d_P d) P1 Px Pidx Pn /\ entries_after (d_A d) A1 Ax Aidx An /\
      forall E' g ust' t g', env_ok E' -> st_scaling ust' = st_scaling (st s) ->
        osqp_setup E' g (Some P1) (Some (d_q d)) (Some A1) (Some (d_l d)) (Some (d_u d)) m n (Some ust') = Some (0%Z, Some t, g') -> D s' = D t /\ SC s' = SC t.
End MatSpec.

Section Mat.
  Context {K : NumOps}.
  Variable E : Env K.
  Hypothesis EO : env_ok E.
  Hypothesis MM : nltb (OSQP_RHO_MIN K) (OSQP_RHO_MAX K) = true.
  Ltac bs := eapply both_bind; [apply both_same; reflexivity|]; let v := fresh "v" in intros v ? <-.

  Lemma clear_eq (y : list K) n : zlen y = n -> vec_set_scalar y n0 n = Some (zrep n n0).
  Proof.
    intros L. pose proof (zlen_nonneg y). unfold vec_set_scalar. destruct (for_fill n0 (fun _ => n0) n y) as (y' & Ey & L' & V'); [lia|].
    etransitivity; [exact Ey|]. f_equal. apply (list_ext_znth n0); [rewrite zlen_zrep; lia|]. intros i Hi. rewrite V'. replace ((0 <=? i) && (i <? n)) with true by lia. symmetry. apply znth_zrep. lia.
  Qed.
  Definition tmps (w w' : work K) : Prop :=
    (w_D_temp w' = w_D_temp w /\ w_D_temp_A w' = w_D_temp_A w /\ w_E_temp w' = w_E_temp w) \/
    let P := d_P (w_data w) in let A := d_A (w_data w) in
    (zlen (w_D_temp w) = cn P /\ zlen (w_D_temp w') = cn P) /\ (zlen (w_D_temp_A w) = cn A /\ zlen (w_D_temp_A w') = cn A) /\ (zlen (w_E_temp w) = cm A /\ zlen (w_E_temp w') = cm A).
  Lemma norms_eq (w w' : work K) : w_data w' = w_data w -> tmps w w' ->
    compute_inf_norm_cols_KKT (d_P (w_data w')) (d_A (w_data w')) (w_D_temp w') (w_D_temp_A w') (w_E_temp w') = compute_inf_norm_cols_KKT (d_P (w_data w)) (d_A (w_data w)) (w_D_temp w) (w_D_temp_A w) (w_E_temp w).
  Proof.
    intros Ed [(-> & -> & ->)|((A1 & A2) & (B1 & B2) & C1 & C2)]; rewrite Ed; auto. unfold compute_inf_norm_cols_KKT, csc_col_norm_inf, csc_row_norm_inf. rewrite !clear_eq by auto. reflexivity.
  Qed.
  Definition eqs (s s' : scaling K) : Prop := sc_c s' = sc_c s /\ sc_D s' = sc_D s /\ sc_E s' = sc_E s /\ sc_Dinv s' = sc_Dinv s /\ sc_Einv s' = sc_Einv s.
  Lemma scale_pass_eq (w w' : work K) sc sc' : w_data w' = w_data w -> tmps w w' -> eqs sc sc' ->
    both (scale_pass w sc) (scale_pass w' sc') (fun r r' => w_data (fst r') = w_data (fst r) /\ tmps (fst r) (fst r') /\ eqs (snd r) (snd r')).
  Proof.
    intros Ed TM (H1 & H2 & H3 & H4 & H5). unfold scale_pass. cbv zeta. rewrite (norms_eq _ _ Ed TM), Ed, H1, H2, H3. bs. destruct v as [[Dt DtA] Et].
    bs. bs. bs. bs. bs. bs. bs. bs. bs. bs. bs. bs. bs. apply both_ret. cbn [fst snd]. rs. split; [reflexivity|]. split; [left; rs; auto|]. unfold eqs. rs. auto 10.
  Qed.
  Lemma set_scalar_len (a b : list K) c : zlen b = zlen a -> vf_set_scalar b c = vf_set_scalar a c.
  Proof. intros H. unfold vf_set_scalar. rewrite !map_const, H. reflexivity. Qed.
  Lemma scale_data_eq st st' (w w' : work K) n m sc sc' : st_scaling st' = st_scaling st -> w_data w' = w_data w -> tmps w w' -> w_scaling w = Some sc -> w_scaling w' = Some sc' -> scok n m sc -> scok n m sc' ->
    both (scale_data st w) (scale_data st' w') (fun a b => w_data b = w_data a /\ w_scaling b = w_scaling a).
  Proof.
    intros Es Ed TM S1 S2 [L1 L2 L3 L4] [L1' L2' L3' L4']. unfold scale_data. rewrite S1, S2, Es. cbv zeta. rs.
    rewrite (set_scalar_len (sc_D sc) (sc_D sc')), (set_scalar_len (sc_E sc) (sc_E sc')), (set_scalar_len (sc_Dinv sc) (sc_Dinv sc')), (set_scalar_len (sc_Einv sc) (sc_Einv sc')) by congruence.
    eapply both_bind with (R := fun r r' => w_data (fst r') = w_data (fst r) /\ tmps (fst r) (fst r') /\ eqs (snd r) (snd r')).
    { eapply both_weaken; [apply (both_for (fun _ r r' => w_data (fst r') = w_data (fst r) /\ tmps (fst r) (fst r') /\ eqs (snd r) (snd r')))|auto].
      - cbn [fst snd]. split; [exact Ed|]. split; [exact TM|]. unfold eqs. rs. auto 10.
      - intros k [w1 s1] [w1' s1'] _ (A1 & A2 & A3). cbn [fst snd] in *. apply scale_pass_eq; auto. }
    intros [w1 s1] [w1' s1'] (A1 & A2 & B1 & B2 & B3 & B4 & B5). cbn [fst snd] in *. rs. rewrite A1, B1, B2, B3, B4, B5. bs. bs. bs. bs. apply both_ret. rs. split; [reflexivity|].
    f_equal. destruct s1, s1'; cbn in *; subst; reflexivity.
  Qed.

  (** Matrices that osqp_setup's copy leaves as they are. *)
  Definition tight (M : csc K) : Prop := exactm M /\ cnz M = -1.
  Lemma tight_same M M' : same_pat M M' -> tight M -> tight M'.
  Proof. intros HS [H1 H2]. split; [eapply exact_same; eauto|]. destruct HS as [-> _]. exact H2. Qed.
  Lemma copy_tight (A B : csc K) jz jx : wf A -> csc_copy jz jx A = Some B -> tight B.
  Proof. intros W HB. split; [eapply copy_exact; eauto|]. destruct (csc_copy_spec A jz jx n0 W) as (B' & EB & _ & _ & _ & _ & _ & _ & HH & _). rewrite HB in EB. injection EB as <-. exact HH. Qed.
  Lemma copy_id (M : csc K) jz jx : wf M -> tight M -> csc_copy jz jx M = Some M.
  Proof.
    intros W ((T1 & T2 & T3 & T4) & T5). destruct (csc_copy_spec M jz jx n0 W) as (B & -> & B1 & B2 & B3 & B4 & B5 & B6 & B7 & B8 & B9). f_equal.
    assert (X1 : cp B = cp M). { apply (list_ext_znth 0); [lia|]. intros i Hi. apply B8. lia. }
    assert (X2 : ci B = ci M). { apply (list_ext_znth 0); [lia|]. intros i Hi. apply B9. lia. }
    assert (X3 : cx B = cx M). { apply (list_ext_znth n0); [lia|]. intros i Hi. apply B9. lia. }
    destruct B, M; cbn in *; subst. congruence.
  Qed.

  Lemma setup_tight g P q A l u m n st s0 g' : data_readable P q A l u m n -> osqp_setup E g P q A l u m n st = Some (0, Some s0, g') ->
    tight (d_P (w_data (sv_work s0))) /\ tight (d_A (w_data (sv_work s0))).
  Proof.
    intros HDR HS. destruct (osqp_setup_safe E EO MM g P q A l u m n st HDR) as (r & Er & HRes). rewrite HS in Er. injection Er as <-. cbn [fst snd] in HRes.
    inversion HRes as [| |? ? ? ? ? ? ? ? ? ? EE|s1 g1 HDO HV HI Dn Dm HF Hw HLF Hsec Hhan EE]; subst; try discriminate.
    apply validate_settings_spec in HV as (ust & -> & HV). destruct (HF ust eq_refl) as [FD _ _ _ _ _ _ _ _ _ _ _ _ _].
    destruct FD as (P0 & A0 & P1 & q1 & A1 & l1 & u1 & w1 & EP & EA & CP & CA & Vq & Vl & Vu & EW & Ed & Esc). subst P A.
    destruct HDR as [HPw HAw Hqr Hlr Hur Hl0 Hu0]. specialize (HPw P0 eq_refl). specialize (HAw A0 eq_refl).
    pose proof (copy_tight _ _ _ _ HPw CP) as XP. pose proof (copy_tight _ _ _ _ HAw CA) as XA. rewrite Ed.
    destruct (tr (st_scaling ust)) eqn:Et; [|injection EW as <-; split; assumption].
    destruct (csc_copy_wf P0 (env_jz E) (env_jx E) HPw) as (P1' & EP1 & P1m & P1n & WP1 & NP1 & TP1 & C1 & C2). rewrite CP in EP1. injection EP1 as <-.
    destruct (csc_copy_wf A0 (env_jz E) (env_jx E) HAw) as (A1' & EA1 & A1m & A1n & WA1 & NA1 & _ & C3 & C4). rewrite CA in EA1. injection EA1 as <-.
    destruct HDO as [Hn Hm Hq (P0' & EQ & Pm & Pn & HT) (A0' & EQ' & Am & An) Hb]. injection EQ as <-. injection EQ' as <-.
    assert (TK : forall (o : option (list K)) k v, vf_new o k = Some v -> 0 <= k -> zlen v = k).
    { intros o k v Hv Hk. unfold vf_new in Hv. destruct o as [a|].
      - apply VecFacts.view_inv in Hv. lia.
      - destruct (k =? 0) eqn:E0; [|discriminate]. injection Hv as <-. unfold zlen; cbn; lia. }
    set (n := d_n (w_data (sv_work s0))) in *. set (m := d_m (w_data (sv_work s0))) in *.
    set (w0 := initial_work E P1 q1 A1 l1 u1 m n ust) in *.
    assert (Hd : dok (w_data w0)).
    { subst w0. unfold initial_work. rs. constructor; cbn [d_n d_m d_P d_A d_q d_l d_u]; auto; try lia; try (eapply TK; eauto; lia). apply TP1. split; [lia|rewrite Pn; auto]. }
    destruct (w_scaling w0) as [sc|] eqn:Esc0; [|subst w0; unfold initial_work in Esc0; rs_in Esc0; rewrite Et in Esc0; discriminate].
    assert (SC : scok n m sc).
    { subst w0. unfold initial_work in Esc0. rs_in Esc0. rewrite Et in Esc0. injection Esc0 as <-. constructor; rs; apply zlen_zrep; lia. }
    assert (HT0 : tmp_ok w0) by (subst w0; unfold initial_work; rewrite Et; split; [|split]; rs; apply zlen_zrep; lia).
    destruct (scale_data_safe (copy_settings ust) w0 sc Hd HT0 Esc0 SC) as (w' & Ew' & d' & a' & b' & c' & sc2 & E2 & [D1 D2 D3 D4 D5 D6 D7] & _).
    rewrite EW in Ew'. injection Ew' as <-. rewrite E2. unfold wscal. rs. split; [exact (tight_same _ _ D3 XP)|exact (tight_same _ _ D4 XA)].
  Qed.
  Lemma lives_tight P A q l u m n ust s : lives E P A q l u m n ust s -> tight (d_P (D s)) /\ tight (d_A (D s)).
  Proof.
    intros [g s0 g' HDR HS HR]. destruct (setup_tight _ _ _ _ _ _ _ _ _ _ _ HDR HS) as [T1 T2].
    destruct (osqp_setup_safe E EO MM g (Some P) q (Some A) l u m n (Some ust) HDR) as (r & Er & HRes). rewrite HS in Er. injection Er as <-. cbn [fst snd] in HRes.
    inversion HRes as [| |? ? ? ? ? ? ? ? ? ? EE|s1 g1 HDO HV HI Dn Dm HF Hw HLF Hsec Hhan EE]; subst; try discriminate.
    destruct (reach_inv E EO MM s0 s HI HR) as (_ & F & _). destruct F as [F1 F2 F3 F4 _ _ _]. split; eapply tight_same; eauto.
  Qed.

  (** unscale_data, number for number. *)
  Lemma unscale_numbers (w w' : work K) W : dok (w_data w) -> w_scaling w = Some W -> scok (d_n (w_data w)) (d_m (w_data w)) W -> unscale_data w = Some w' ->
    back_scaled W (w_data w) (w_data w') /\ w' = set_w_data (w_data w') w.
  Proof.
    intros Hd Esc [S1 S2 S3 S4] HU. destruct Hd. destruct do_Pt as (Hsq & _). unfold unscale_data in HU. rewrite Esc in HU. cbv zeta in HU.
    destruct (csc_scale_spec (d_P (w_data w)) n0 (sc_cinv W) do_P) as (P1 & EP1 & a1 & a2 & a3 & a4 & a5 & a6 & a7 & V1 & _). rewrite EP1 in HU.
    assert (SP1 : same_pat (d_P (w_data w)) P1) by (apply same_pat_intro; auto). pose proof (same_pat_wf _ _ SP1 do_P) as W1.
    destruct (csc_lmult_diag_spec P1 n0 (sc_Dinv W) W1) as (P2 & EP2 & b1 & b2 & b3 & b4 & b5 & b6 & b7 & V2 & _); [lia|]. rewrite EP2 in HU.
    assert (SP2 : same_pat P1 P2) by (apply same_pat_intro; auto). pose proof (same_pat_wf _ _ SP2 W1) as W2.
    destruct (csc_rmult_diag_spec P2 n0 (sc_Dinv W) W2) as (P3 & EP3 & c1 & c2 & c3 & c4 & c5 & c6 & c7 & V3 & _); [lia|]. rewrite EP3 in HU.
    assert (SP3 : same_pat P2 P3) by (apply same_pat_intro; auto).
    destruct (vf_ew_prod (vf_mult_scalar _ _) _ _) as [q1|] eqn:Eq in HU; [|discriminate]. apply ew_inv in Eq.
    destruct (csc_lmult_diag_spec (d_A (w_data w)) n0 (sc_Einv W) do_A) as (A2 & EA2 & e1 & e2 & e3 & e4 & e5 & e6 & e7 & V4 & _); [lia|]. rewrite EA2 in HU.
    assert (SA2 : same_pat (d_A (w_data w)) A2) by (apply same_pat_intro; auto). pose proof (same_pat_wf _ _ SA2 do_A) as W4.
    destruct (csc_rmult_diag_spec A2 n0 (sc_Dinv W) W4) as (A3 & EA3 & f1 & f2 & f3 & f4 & f5 & f6 & f7 & V5 & _); [lia|]. rewrite EA3 in HU.
    assert (SA3 : same_pat A2 A3) by (apply same_pat_intro; auto).
    destruct (vf_ew_prod (d_l _) _ _) as [l1|] eqn:El in HU; [|discriminate]. apply ew_inv in El.
    destruct (vf_ew_prod (d_u _) _ _) as [u1|] eqn:Eu in HU; [|discriminate]. apply ew_inv in Eu. injection HU as <-. rs. split; [|reflexivity].
    constructor; rs; auto.
    - split; [eapply same_pat_trans; [eapply same_pat_trans|]; eauto|]. intros j k Hj Hk. pose proof (slot_range _ j k do_P Hj Hk) as Hk'.
      assert (C1 : forall i, colp P2 i = colp (d_P (w_data w)) i) by (intros i; unfold colp; congruence).
      rewrite (V3 j k) by (rewrite ?C1; lia). assert (N1 : nnz P1 = nnz (d_P (w_data w))) by (apply same_pat_nnz; auto).
      rewrite V2 by lia. rewrite V1 by lia. unfold rowi. rewrite a4. reflexivity.
    - split; [eapply same_pat_trans; eauto|]. intros j k Hj Hk. pose proof (slot_range _ j k do_A Hj Hk) as Hk'.
      assert (C1 : forall i, colp A2 i = colp (d_A (w_data w)) i) by (intros i; unfold colp; congruence).
      rewrite (V5 j k) by (rewrite ?C1; lia). rewrite V4 by lia. reflexivity.
  Qed.

  Lemma vf_new_id (a : list K) k v : vf_new (Some a) k = Some v -> zlen a = k -> v = a.
  Proof. intros H HL. unfold vf_new in H. apply VecFacts.view_inv in H as (_ & _ & _ & H1 & H2). apply (list_ext_znth n0); [lia|]. intros i Hi. rewrite H2 by lia. reflexivity. Qed.

  Lemma call_mat_scaled P A q l u m n ust s : lives E P A q l u m n ust s -> is_scaled s = true -> forall Px Pidx Pn Ax Aidx An fl s',
    mat_arg (nnz (d_P (D s))) Pn Px Pidx -> mat_arg (nnz (d_A (D s))) An Ax Aidx -> bad_count (nnz (d_P (D s))) Pn Pidx = false -> bad_count (nnz (d_A (D s))) An Aidx = false ->
    osqp_update_data_mat E (HSolver s) Px Pidx Pn Ax Aidx An = Some (fl, HSolver s') -> rescaled Px Pidx Pn Ax Aidx An m n s s'.
  Proof.
    intros HL Hs Px Pidx Pn Ax Aidx An fl s' HP HA B1 B2 Er. pose proof (the_inv E EO MM _ _ _ _ _ _ _ _ _ HL) as HI. pose proof (dn_eq E EO MM _ _ _ _ _ _ _ _ _ HL) as En. pose proof (dm_eq E EO MM _ _ _ _ _ _ _ _ _ HL) as Em.
    pose proof (wo_d _ _ (iv_w _ HI)) as DO. destruct (wo_sc _ _ (iv_w _ HI) Hs) as (W & HW & WO). pose proof (the_lens E EO MM _ _ _ _ _ _ _ _ _ HL) as LN.
    destruct (lives_tight _ _ _ _ _ _ _ _ _ HL) as [TP TA].
    unfold osqp_update_data_mat, on_solver in Er. destruct (update_data_mat E s Px Pidx Pn Ax Aidx An) as [[f s1]|] eqn:Eu; [|discriminate]. injection Er as -> ->.
    destruct (update_data_mat_shape E s Px Pidx Pn Ax Aidx An _ Eu) as (nP & nA & ZP & ZA & HH). clear Eu. cbn [fst snd] in HH.
    apply (nnz_get _ _ (do_P _ DO)) in ZP. apply (nnz_get _ _ (do_A _ DO)) in ZA. subst nP nA. rewrite !bad_is, B1, B2 in HH.
    destruct HH as [([(HB & _)|(_ & HB & _)] & _)|(_ & _ & t & c & w1 & P2 & A2 & w4 & ls & ls' & i & g & HH)]; try discriminate.
    cbv zeta in HH. destruct HH as (G1 & G2 & G3 & G4 & _ & _ & -> & _). rewrite tr_scaled, Hs in *. rs.
    assert (KP : 0 <= Pn <= nnz (d_P (D s))) by (unfold bad_count in B1; lia). assert (KA : 0 <= An <= nnz (d_A (D s))) by (unfold bad_count in B2; lia).
    destruct (unscale_numbers (set_w_clear_update_time c (sv_work s)) w1 W ltac:(rs; exact DO) ltac:(rs; exact HW) ltac:(rs; exact WO) G1) as (BK & Ew1). rs_in BK. rewrite Ew1 in G4. set (d := w_data w1) in *. clearbody d. clear Ew1 G1 w1. rs_in G4.
    pose proof (bk_P _ _ _ BK) as (SP & _). pose proof (bk_A _ _ _ BK) as (SA & _). pose proof (same_pat_wf _ _ SP (do_P _ DO)) as WP. pose proof (same_pat_wf _ _ SA (do_A _ DO)) as WA.
    pose proof (same_pat_nnz _ _ SP) as NP. pose proof (same_pat_nnz _ _ SA) as NA.
    assert (R1 : entries_after (d_P d) P2 Px Pidx Pn). { destruct Px as [v|]; [|exact G2]. rewrite <- NP in *. eapply values_after; eauto. }
    assert (R2 : entries_after (d_A d) A2 Ax Aidx An). { destruct Ax as [v|]; [|exact G3]. rewrite <- NA in *. eapply values_after; eauto. }
    exists W, d, P2, A2. split; [exact HW|]. split; [exact BK|]. split; [exact R1|]. split; [exact R2|].
    assert (Q1 : same_pat (d_P d) P2). { unfold entries_after in R1. destruct Px; [apply R1|rewrite R1; apply same_pat_refl]. }
    assert (Q2 : same_pat (d_A d) A2). { unfold entries_after in R2. destruct Ax; [apply R2|rewrite R2; apply same_pat_refl]. }
    clear R1 R2 G2 G3 HP HA B1 B2 KP KA NP NA. pose proof (same_pat_wf _ _ Q1 WP) as WP2. pose proof (same_pat_wf _ _ Q2 WA) as WA2.
    pose proof (tight_same _ _ Q1 (tight_same _ _ SP TP)) as TP2. pose proof (tight_same _ _ Q2 (tight_same _ _ SA TA)) as TA2. destruct DO, BK, WO.
    assert (LT : forall a b : list K, zlen a = zlen b -> zlen (times a b) = zlen a) by (intros a b H; unfold times; apply zlen_zip; auto).
    assert (Lq : zlen (d_q d) = n). { rewrite bk_q0, LT; unfold zlen in *; rewrite map_length; lia. }
    assert (Ll : zlen (d_l d) = m) by (rewrite bk_l0, LT; lia). assert (Lu : zlen (d_u d) = m) by (rewrite bk_u0, LT; lia).
    intros E' g1 ust' t' g' EO' Es HS.
    assert (HDR : data_readable (Some P2) (Some (d_q d)) (Some A2) (Some (d_l d)) (Some (d_u d)) m n).
    { constructor; try (intros v [= <-]; first [lia|assumption]); try (intros _; eexists; split; [reflexivity|lia]). }
    destruct (osqp_setup_safe E' EO' MM g1 _ _ _ _ _ m n (Some ust') HDR) as (r & Er & HRes). rewrite HS in Er. injection Er as <-. cbn [fst snd] in HRes.
    inversion HRes as [| |? ? ? ? ? ? ? ? ? ? EE|s1 g2 HDO HV HI2 Dn Dm HF Hw HLF Hsec Hhan EE]; subst; try discriminate.
    destruct (HF ust' eq_refl) as [FD _ _ _ _ _ _ _ _ _ _ _ _ _]. destruct FD as (P0 & A0 & P1 & q1 & A1 & l1 & u1 & w2 & EP & EA & CP & CA & Vq & Vl & Vu & EW & -> & ->). injection EP as <-. injection EA as <-.
    rewrite (copy_id _ _ _ WP2 TP2) in CP. rewrite (copy_id _ _ _ WA2 TA2) in CA. injection CP as <-. injection CA as <-.
    apply vf_new_id in Vq, Vl, Vu; auto. subst q1 l1 u1.
    assert (Et : tr (st_scaling ust') = true) by (rewrite Es; rewrite tr_scaled; exact Hs). rewrite Et in EW.
    destruct (same_pat_fields _ _ Q1) as (x1 & x2 & _). destruct (same_pat_fields _ _ SP) as (x3 & x4 & _). destruct (same_pat_fields _ _ Q2) as (x5 & x6 & _). destruct (same_pat_fields _ _ SA) as (x7 & x8 & _).
    rs. clear bk_P0 bk_A0. rewrite ?Hs in LN. destruct LN as [].
    unfold initial_work in EW. rewrite Et in EW.
    eapply (scale_data_eq (copy_settings ust') (st s) _ _ (d_n (D s)) (d_m (D s)) _ W); [| | | | | | |exact EW|exact G4].
    - rewrite <- Es. reflexivity.
    - rs. destruct d; cbn in *; subst; reflexivity.
    - right. rs. cbv zeta. rewrite !zlen_zrep by lia. rewrite ln_D, ln_DA, ln_E by reflexivity. lia.
    - rs. reflexivity.
    - rs. exact HW.
    - constructor; rs; apply zlen_zrep; lia.
    - constructor; assumption.
  Qed.

  Lemma call_mat_full P A q l u m n ust s : lives E P A q l u m n ust s -> forall Px Pidx Pn Ax Aidx An,
    mat_arg (nnz (d_P (D s))) Pn Px Pidx -> mat_arg (nnz (d_A (D s))) An Ax Aidx ->
    exists fl s', osqp_update_data_mat E (HSolver s) Px Pidx Pn Ax Aidx An = Some (fl, HSolver s') /\ lives E P A q l u m n ust s' /\ mat_effect Px Pidx Pn Ax Aidx An s fl s' /\
      (is_scaled s = true -> bad_count (nnz (d_P (D s))) Pn Pidx || bad_count (nnz (d_A (D s))) An Aidx = false -> rescaled Px Pidx Pn Ax Aidx An m n s s').
  Proof.
    intros HL Px Pidx Pn Ax Aidx An HP HA. destruct (call_mat E EO MM _ _ _ _ _ _ _ _ _ HL Px Pidx Pn Ax Aidx An HP HA) as (fl & s' & H1 & H2 & H3). exists fl, s'. repeat (split; [assumption|]).
    intros Hs HB. apply orb_false_elim in HB as (B1 & B2). eapply call_mat_scaled; eauto.
  Qed.
End Mat.
