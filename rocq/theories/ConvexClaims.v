(** What acceptance of a problem says about its curvature (C65). *)
From Coq Require Import ZArith Reals List Bool Lia Lra String.
From Verif Require Import Num Arr ArrFacts RSum Csc CscSpec CscFacts CscFacts2 Scatter Vec VecFacts Types Kkt KktSpec KktDense Linsys LinsysFacts LinsysSolve Scaling Validate Auxil Polish Api
  Inv RecSimp InvStep InvApi InvScale InvSolve ValidFacts InvUpd InvSetup History RealVec RealStep Frame FrameSolve ProbSpec ScaleReal FrameUpd UserSpec Refine ExEnv Ldl LdlEnv Session.
Import ListNotations.
Open Scope Z_scope.

(** Specification. x'Px for the problem d, row k of Ax, and a direction other than 0. *)
Definition curvature (d : data Rops) (x : Z -> R) : R := zsum 0 (d_n d) (fun i => zsum 0 (d_n d) (fun j => sdns (d_P d) i j * x i * x j))%R.
Definition row_at (d : data Rops) (x : Z -> R) (k : Z) : R := zsum 0 (d_n d) (fun j => dns (d_A d) k j * x j)%R.
Definition direction (n : Z) (x : Z -> R) : Prop := exists i, 0 <= i < n /\ x i <> 0%R.
(** The allowance: sigma |x|^2 + sum rho_k (Ax)_k^2, measured in the solver's units. *)
Definition allowance (s : solver Rops) (d : data Rops) (x : Z -> R) : R :=
  ((st_sigma (sv_settings s) * zsum 0 (d_n d) (fun i => (x i / uD s i) * (x i / uD s i)) +
    zsum 0 (d_m d) (fun k => rho_at (sv_settings s) (sv_work s) k * ((uE s k * row_at d x k) * (uE s k * row_at d x k)))) / uc s)%R.
Definition nearly_convex (s : solver Rops) (d : data Rops) : Prop := forall x, direction (d_n d) x -> (- allowance s d x < curvature d x)%R.

Section Convex.
  Variable E : Env Rops.
  Hypothesis EO : env_ok E.
  Hypothesis EX : exact_ldl E.

  Lemma accepted_w st (w : work Rops) ls : wok st w -> (0 < st_rho st)%R -> w_linsys w = Some ls -> LDL_factor E (ls_fac ls) (d_n (w_data w)) = 0 ->
    forall x, direction (d_n (w_data w)) x ->
    (0 < curvature (w_data w) x + st_sigma st * zsum 0 (d_n (w_data w)) (fun i => x i * x i) +
         zsum 0 (d_m (w_data w)) (fun k => rho_at st w k * (row_at (w_data w) x k * row_at (w_data w) x k)))%R.
  Proof.
    intros H Hr El HF x Hx. destruct (wo_ls _ _ H) as (ls' & r & El' & LO & Hn & LR). rewrite El in El'. injection El' as <-.
    assert (Hp : forall j, 0 <= j < d_m (w_data w) -> (0 < rho_at st w j)%R).
    { intros j Hj. unfold rho_at. pose proof (wo_rho _ _ H) as HR. unfold rho_ok in HR. destruct (tr (st_rho_is_vec st)); [|rewrite HR; auto].
      destruct HR as (ct & _ & Lc & -> & _). unfold rnth. rewrite (znth_map 0%R 0) by lia. apply rho_of_pos; auto. }
    assert (Hrj : forall j, 0 <= j < d_m (w_data w) -> r j = (- / rho_at st w j)%R).
    { intros j Hj. specialize (Hn j Hj). rewrite (ls_rinv st w ls H El) in Hn by auto. destruct Hn as [-> | ->]; rewrite ?n0_R; cbn [nsub nopp Rops]; lra. }
    destruct (wo_d _ _ H). unfold curvature, row_at in *. rewrite <- do_Pn in *. rewrite <- do_Am in *.
    destruct (factor_convex E EX ls (d_P (w_data w)) (d_A (w_data w)) (st_sigma st) r) as (_ & F); auto.
    { intros j Hj. rewrite Hrj by auto. pose proof (Rinv_0_lt_compat _ (Hp j Hj)). lra. }
    specialize (F x Hx). unfold penalised, qform in F. eapply Rlt_le_trans; [exact F|]. apply Req_le. f_equal. apply zsum_ext. intros k Hk. rewrite Hrj by auto.
    specialize (Hp k Hk). field. lra.
  Qed.

  Lemma accepted_user (s : solver Rops) d ls : Inv s -> ref d s -> w_linsys (sv_work s) = Some ls -> LDL_factor E (ls_fac ls) (d_n d) = 0 -> nearly_convex s d.
  Proof.
    intros HI HR El HF x Hx. pose proof (units_pos _ _ HR) as (Pc & PD & PE). destruct HR as [Hu [Bn Bm BP BA _ _ _] _ _ _].
    pose proof (accepted_w _ _ ls (iv_w _ HI) (inv_rho_pos _ HI) El) as F. rewrite Bn in F. specialize (F HF (fun i => x i / uD s i)%R).
    destruct Hx as (i0 & Hi0 & Hx0).
    assert (HD : direction (d_n d) (fun i => x i / uD s i)%R).
    { exists i0. split; auto. specialize (PD i0 Hi0). intros E0. apply Hx0. replace (x i0) with (x i0 / uD s i0 * uD s i0)%R by (field; lra). rewrite E0. ring. }
    specialize (F HD). destruct Hu. rewrite Bm in F.
    assert (E1 : curvature (w_data (sv_work s)) (fun i => x i / uD s i)%R = (uc s * curvature d x)%R).
    { unfold curvature. rewrite Bn, <- zsum_scal. apply zsum_ext. intros i Hi. rewrite <- zsum_scal. apply zsum_ext. intros j Hj.
      rewrite (mscaled_sdns (uc s) (uD s) (d_P d) (d_P (w_data (sv_work s)))) by (auto; rewrite do_Pn; auto).
      pose proof (PD i Hi). pose proof (PD j Hj). field. lra. }
    assert (E2 : forall k, row_at (w_data (sv_work s)) (fun i => x i / uD s i)%R k = (uE s k * row_at d x k)%R).
    { intros k. unfold row_at. rewrite Bn, <- zsum_scal. apply zsum_ext. intros j Hj. rewrite (mscaled_dns 1 (uE s) (uD s) (d_A d) (d_A (w_data (sv_work s)))) by (auto; rewrite do_An; auto).
      pose proof (PD j Hj). field. lra. }
    rewrite E1 in F. erewrite (zsum_ext 0 (d_m d)) in F; [|intros k Hk; rewrite E2; reflexivity].
    unfold allowance. set (a := zsum 0 (d_n d) _) in *. set (b := zsum 0 (d_m d) _) in *. 
    apply Rmult_lt_reg_l with (uc s); auto. replace (uc s * - ((st_sigma (sv_settings s) * a + b) / uc s))%R with (- (st_sigma (sv_settings s) * a + b))%R by (field; lra). lra.
  Qed.

  (** osqp_setup returned 0. *)
  Theorem setup_accepted g P q A l u m n ust s g' d : data_readable (Some P) q (Some A) l u m n -> osqp_setup E g (Some P) q (Some A) l u m n (Some ust) = Some (0, Some s, g') ->
    user_init P A q l u m n d -> ref d s -> nearly_convex s d.
  Proof.
    intros HDR HS UI RF. destruct (osqp_setup_safe E EO MM_R g (Some P) q (Some A) l u m n (Some ust) HDR) as (r & Er & HRes). rewrite HS in Er. injection Er as <-. cbn [fst snd] in HRes.
    inversion HRes as [| |? ? ? ? ? ? ? ? ? ? EE|s1 g1 HDO HV HI Dn Dm HF Hw HLF Hsec Hhan EE]; subst; try discriminate.
    destruct HLF as (ls & El & HL). destruct UI as (U1 & _). eapply accepted_user; eauto. rewrite U1. exact HL.
  Qed.

  (** osqp_update_data_mat returned 0. *)
  Theorem update_accepted (s : solver Rops) d Px Pidx Pn Ax Aidx An s' d' : Inv s -> ref d s -> args_ok (CUpdMat Px Pidx Pn Ax Aidx An) s ->
    run E (CUpdMat Px Pidx Pn Ax Aidx An) s = Some (0, HSolver s') -> Inv s' -> ref d' s' -> nearly_convex s' d'.
  Proof.
    intros HI HR HA HC HI' HR'. cbn [run] in HC. unfold osqp_update_data_mat, on_solver in HC.
    destruct (update_data_mat E s Px Pidx Pn Ax Aidx An) as [[f s1]|] eqn:Er; [|discriminate]. injection HC as -> ->.
    destruct (update_data_mat_shape E s _ _ _ _ _ _ _ Er) as (nP & nA & _ & _ & [([(_ & X)|(_ & _ & X)] & _)|(_ & _ & t & c & w1 & P2 & A2 & w4 & ls & ls' & i & g & _ & _ & _ & _ & El & EU & Es & _)]); cbn [fst snd] in *; try discriminate.
    assert (EL : w_linsys (sv_work s') = Some ls') by (rewrite Es; reflexivity).
    assert (ED : w_data (sv_work s') = w_data w4) by (rewrite Es; reflexivity).
    pose proof (sb_n _ _ _ _ _ (rf_sb _ _ HR')) as Bn. pose proof (do_Pn _ (wo_d _ _ (iv_w _ HI'))) as Hn. rewrite ED in Bn, Hn.
    assert (HF : LDL_factor E (ls_fac ls') (d_n d') = 0).
    { assert (HG : exists x, (if env_fac E (ls_fac ls') =? cn (d_P (w_data w4)) then 0 else 1) = 0 /\ x = ls').
      { destruct (tr (st_scaling (sv_settings s))); unfold update_linsys_matrices in EU; repeat match type of EU with match ?e with Some _ => _ | None => _ end = _ => destruct e; [cbv beta iota zeta in EU|discriminate] end;
          cbv zeta in EU; injection EU as E1 E2; exists ls'; split; auto; rewrite <- E2; exact E1. }
      destruct HG as (_ & HG & _). destruct (Z.eqb_spec (env_fac E (ls_fac ls')) (cn (d_P (w_data w4)))) as [Hq|]; [|discriminate].
      unfold LDL_factor. rewrite Hq, Hn, Bn. pose proof (wf_n _ (do_P _ (wo_d _ _ (iv_w _ HI')))) as Hw. rewrite ED in Hw. destruct (Z.ltb_spec (d_n d') 0); [lia|]. rewrite Z.ltb_irrefl. auto. }
    eapply accepted_user; eauto.
  Qed.

  (** osqp_update_rho returned 0: no zero pivot, so later linear systems are solved exactly. *)
  Lemma update_rho_flag (s : solver Rops) rho fl s' : update_rho E s rho = Some (fl, s') -> (0 < rho)%R -> exists ls, w_linsys (sv_work s') = Some ls /\ fl = if env_fac E (ls_fac ls) <? 0 then 1 else 0.
  Proof.
    intros HU Hrho. unfold update_rho in HU. replace (nleb rho n0) with false in HU by (rewrite n0_R; cbn [nleb Rops]; unfold Rleb; destruct (Rle_dec rho 0); [lra|auto]).
    cbv zeta in HU. set (s1 := if _ && _ then _ else s) in HU. clearbody s1.
    match type of HU with match ?e with Some _ => _ | None => _ end = _ => destruct e as [w|]; [|discriminate] end.
    destruct (w_linsys w) as [ls|]; [|discriminate]. destruct (update_linsys_rho_vec E ls _ _) as [[f ls']|] eqn:EU; [|discriminate]. cbn [fst snd] in HU. injection HU as -> <-.
    exists ls'. split; [unfold toc; destruct (_ =? 0); reflexivity|]. unfold update_linsys_rho_vec in EU.
    repeat match type of EU with match ?e with Some _ => _ | None => _ end = _ => destruct e; [cbv beta iota zeta in EU|discriminate] end.
    cbv zeta in EU. injection EU as E1 E2. rewrite <- E2, <- E1. reflexivity.
  Qed.
  Theorem update_rho_exact (s : solver Rops) rho s' : Inv s -> (0 < rho)%R -> run E (CUpdRho rho) s = Some (0, HSolver s') -> exact E (sv_work s').
  Proof.
    intros HI Hrho HC. destruct (run_safe E EO MM_R (CUpdRho rho) s HI) as ([fl' h] & Er & s1 & Eh & HI' & _); [exact I|]. rewrite HC in Er. injection Er as <- <-. cbn [snd] in Eh. injection Eh as <-.
    cbn [run] in HC. unfold osqp_update_rho, on_solver in HC. destruct (update_rho E s rho) as [[f s1]|] eqn:Er; [|discriminate]. injection HC as -> ->.
    destruct (update_rho_flag _ _ _ _ Er Hrho) as (ls & El & HF). assert (HF' : 0 <= env_fac E (ls_fac ls)) by (destruct (Z.ltb_spec (env_fac E (ls_fac ls)) 0); [discriminate|auto]). intros ls0 El0. rewrite El in El0. injection El0 as <-.
    destruct (wo_ls _ _ (iv_w _ HI')) as (ls' & r & El' & LO & _ & _). rewrite El in El'. injection El' as <-.
    pose proof (fac_wf _ _ _ _ _ LO) as WF. pose proof (lo_triu _ _ _ _ _ LO) as TF.
    destruct (regular_dec (Z.to_nat (cn (ls_fac ls))) 0 (sdns (ls_fac ls))) as [HR|HR]; [apply (el_solve _ EX _ WF TF HR)|]. pose proof (el_zero _ EX _ WF TF HR). lia.
  Qed.

  Section Sess.
  Variables (P A : csc Rops) (q l u : option (list R)) (m n : Z) (ust : settings Rops).
  Theorem c65_setup g s g' : data_readable (Some P) q (Some A) l u m n -> osqp_setup E g (Some P) q (Some A) l u m n (Some ust) = Some (0, Some s, g') ->
    exists d, user_init P A q l u m n d /\ ref d s /\ nearly_convex s d.
  Proof.
    intros HDR HS. destruct (osqp_setup_safe E EO MM_R g (Some P) q (Some A) l u m n (Some ust) HDR) as (r & Er & HRes). rewrite HS in Er. injection Er as <-. cbn [fst snd] in HRes.
    inversion HRes as [| |? ? ? ? ? ? ? ? ? ? EE|s1 g1 HDO HV HI Dn Dm HF Hw HLF Hsec Hhan EE]; try clear Dn Dm; subst; try discriminate.
    destruct (HF ust eq_refl) as [FD Hst _ _ _ _ _ _ _ _ _ _ _ _].
    destruct (fresh_ref E (Some P) q (Some A) l u m n ust s HDR HDO FD) as (P0 & A0 & d0 & EP & EA & UI & RF & _).
    { rewrite Hst. unfold setup_adaptive_rho. repeat match goal with |- context [if ?b then _ else _] => destruct b end; destruct ust; reflexivity. }
    injection EP as <-. injection EA as <-. exists d0. split; auto. split; auto. eapply setup_accepted; eauto.
  Qed.
  Theorem c65_update s d Px Pidx Pn Ax Aidx An s' d' : session E P A q l u m n ust s d -> args_ok (CUpdMat Px Pidx Pn Ax Aidx An) s ->
    run E (CUpdMat Px Pidx Pn Ax Aidx An) s = Some (0, HSolver s') -> user_step (CUpdMat Px Pidx Pn Ax Aidx An) d 0 d' -> nearly_convex s' d'.
  Proof.
    intros HS HA HC HU. assert (HS' : session E P A q l u m n ust s' d') by (destruct HS as [g s0 g' d0 H1 H2 H3 H4 H5]; exact (session_intro _ _ _ _ _ _ _ _ _ _ _ g s0 g' d0 H1 H2 H3 H4 (hist_S _ _ _ _ _ _ _ _ _ H5 HA HC HU))).
    destruct (session_facts E EO _ _ _ _ _ _ _ _ _ _ HS) as (HI & HR & _). destruct (session_facts E EO _ _ _ _ _ _ _ _ _ _ HS') as (HI' & HR' & _). exact (update_accepted s d Px Pidx Pn Ax Aidx An s' d' HI HR HA HC HI' HR').
  Qed.
  (** Scaling off: a direction in the null space of A along which the curvature is -sigma or less makes osqp_setup refuse. *)
  Lemma c65_not0 g x fl so g' : data_readable (Some P) q (Some A) l u m n -> st_scaling ust = 0 -> direction n x ->
    (forall k, 0 <= k < m -> zsum 0 n (fun j => dns A k j * x j)%R = 0%R) ->
    (zsum 0 n (fun i => zsum 0 n (fun j => sdns P i j * x i * x j)) <= - st_sigma ust * zsum 0 n (fun i => x i * x i))%R ->
    osqp_setup E g (Some P) q (Some A) l u m n (Some ust) = Some (fl, so, g') -> fl <> 0.
  Proof.
    intros HDR Hsc Hx HA HP HS ->. destruct (osqp_setup_safe E EO MM_R g (Some P) q (Some A) l u m n (Some ust) HDR) as (r & Er & HRes). rewrite HS in Er. injection Er as <-. cbn [fst snd] in HRes.
    inversion HRes as [| |? ? ? ? ? ? ? ? ? ? EE|s1 g1 HDO HV HI Dn Dm HF Hw HLF Hsec Hhan EE E2 E3]; try clear Dn Dm; subst; try discriminate.
    destruct (HF ust eq_refl) as [FD Hst _ _ _ _ _ _ _ _ _ _ _ _]. destruct (c65_setup _ _ _ HDR HS) as (d & UI & RF & HN).
    destruct UI as (U1 & U2 & U3 & U4 & _). specialize (HN x). rewrite U1, <- U1 in HN. rewrite U1 in HN. specialize (HN Hx).
    pose proof (dr_P _ _ _ _ _ _ _ HDR P eq_refl) as WP. pose proof (dr_A _ _ _ _ _ _ _ HDR A eq_refl) as WA. destruct HDO as [_ _ _ (P' & EP & Pm & Pn & HT) (A' & EA & Am & An) _]. injection EP as <-. injection EA as <-.
    assert (Es : tr (st_scaling (sv_settings s1)) = false /\ st_sigma (sv_settings s1) = st_sigma ust).
    { rewrite Hst. unfold setup_adaptive_rho. repeat match goal with |- context [if ?b then _ else _] => destruct b end; destruct ust; cbn in Hsc |- *; rewrite ?Hsc; auto. }
    destruct Es as [Es Eg]. unfold allowance, curvature, uc, uD, uE, uscal, row_at in HN. rewrite Es, Eg, U1, U2 in HN.
    rewrite (zsum_ext 0 m _ (fun _ => 0%R)) in HN.
    2:{ intros k Hk. rewrite (zsum_ext 0 n _ (fun j => dns A k j * x j)%R); [rewrite HA by auto; ring|]. intros j Hj. rewrite (copy_dns A) by (auto; lia). auto. }
    rewrite (zsum_0 0 m (fun _ => 0%R)) in HN by auto.
    rewrite (zsum_ext 0 n (fun i => zsum 0 n (fun j => sdns (d_P d) i j * x i * x j)%R) (fun i => zsum 0 n (fun j => sdns P i j * x i * x j)%R)) in HN.
    2:{ intros i Hi. apply zsum_ext. intros j Hj. unfold sdns. destruct (i <=? j); rewrite (copy_dns P) by (auto; lia); auto. }
    rewrite (zsum_ext 0 n (fun i => x i / 1 * (x i / 1))%R (fun i => x i * x i)%R) in HN by (intros; field). lra.
  Qed.
  Theorem c65_refused g x : data_readable (Some P) q (Some A) l u m n -> data_ok (Some P) q (Some A) l u m n -> settings_ok true ust -> st_scaling ust = 0 -> direction n x ->
    (forall k, 0 <= k < m -> zsum 0 n (fun j => dns A k j * x j)%R = 0%R) ->
    (zsum 0 n (fun i => zsum 0 n (fun j => sdns P i j * x i * x j)) <= - st_sigma ust * zsum 0 n (fun i => x i * x i))%R ->
    exists s g', osqp_setup E g (Some P) q (Some A) l u m n (Some ust) = Some (OSQP_NONCVX_ERROR, Some s, g') /\ i_status_val (sv_info s) = OSQP_NON_CVX.
  Proof.
    intros HDR HDO HSO Hsc Hx HA HP. destruct (osqp_setup_safe E EO MM_R g (Some P) q (Some A) l u m n (Some ust) HDR) as ([[fl so] g'] & Er & HRes). cbn [fst snd] in HRes.
    assert (HV : validate_settings (Some ust) true = false) by (apply validate_settings_spec; eauto).
    pose proof (c65_not0 g x fl so g' HDR Hsc Hx HA HP Er) as Hne. inversion HRes as [Hno|_ Hno|s g1 _ _ Hls Hst Hw Hsec Hhan HF E1 E2 E3|s g1 _ _ HI Dn Dm HF Hw HLF Hsec Hhan E1 E2 E3].
    - contradiction. - congruence. - exists s, g'. subst. auto. - subst. contradiction Hne. reflexivity.
  Qed.
  (** osqp_update_data_mat with matching counts never refuses matrices that leave the problem convex. *)
  Theorem c63_update s d Px Pidx Pn Ax Aidx An fl s' d' : session E P A q l u m n ust s d -> args_ok (CUpdMat Px Pidx Pn Ax Aidx An) s ->
    run E (CUpdMat Px Pidx Pn Ax Aidx An) s = Some (fl, HSolver s') -> user_step (CUpdMat Px Pidx Pn Ax Aidx An) d fl d' ->
    count_ok (nnz (d_P d)) Pn Pidx -> count_ok (nnz (d_A d)) An Aidx -> convex d' -> fl = 0.
  Proof.
    intros HS HA HC HU KP KA HV. assert (HS' : session E P A q l u m n ust s' d') by (destruct HS as [g s0 g' d0 H1 H2 H3 H4 H5]; exact (session_intro _ _ _ _ _ _ _ _ _ _ _ g s0 g' d0 H1 H2 H3 H4 (hist_S _ _ _ _ _ _ _ _ _ H5 HA HC HU))).
    destruct (session_facts E EO _ _ _ _ _ _ _ _ _ _ HS) as (HI & HR & _). destruct (session_facts E EO _ _ _ _ _ _ _ _ _ _ HS') as (HI' & HR' & Hsg & _).
    cbn [run] in HC. unfold osqp_update_data_mat, on_solver in HC.
    destruct (update_data_mat E s Px Pidx Pn Ax Aidx An) as [[f s1]|] eqn:Er; [|discriminate]. injection HC as -> ->.
    destruct (rf_sb _ _ HR) as [_ _ (SP & _) (SA & _) _ _ _]. rewrite <- (same_pat_nnz _ _ SP) in KP. rewrite <- (same_pat_nnz _ _ SA) in KA. rewrite <- mat_bad_spec in KP, KA.
    destruct (update_data_mat_shape E s _ _ _ _ _ _ _ Er) as (nP & nA & EP & EA & HB). pose proof (wo_d _ _ (iv_w _ HI)) as Hd.
    rewrite zget_nnz in EP by (apply Hd). rewrite zget_nnz in EA by (apply Hd). injection EP as <-. injection EA as <-. rewrite KP, KA in HB.
    destruct HB as [([(X & _)|(_ & X & _)] & _)|(_ & _ & t & c & w1 & P2 & A2 & w4 & ls & ls' & i & g & _ & _ & _ & _ & El & EU & Es & _)]; try discriminate. cbn [fst snd] in *.
    assert (EL : w_linsys (sv_work s') = Some ls') by (rewrite Es; reflexivity).
    assert (ED : w_data (sv_work s') = w_data w4) by (rewrite Es; reflexivity).
    destruct (convex_exact_w E EX _ _ (iv_w _ HI') (inv_rho_pos _ HI') Hsg (ref_convex _ _ HR' HV) ls' EL) as (_ & HF & _).
    pose proof (do_Pn _ (wo_d _ _ (iv_w _ HI'))) as Hn. rewrite ED in Hn, HF.
    assert (HG : fl = if env_fac E (ls_fac ls') =? cn (d_P (w_data w4)) then 0 else 1).
    { destruct (tr (st_scaling (sv_settings s))); unfold update_linsys_matrices in EU; repeat match type of EU with match ?e with Some _ => _ | None => _ end = _ => destruct e; [cbv beta iota zeta in EU|discriminate] end;
          cbv zeta in EU; injection EU as E1 E2; rewrite <- E2, <- E1; reflexivity. }
    rewrite HG, HF, Hn, Z.eqb_refl. reflexivity.
  Qed.
  (** osqp_update_rho with a positive rho is never refused on a convex problem. *)
  Theorem c63_rho s d rho : session E P A q l u m n ust s d -> convex d -> (0 < rho)%R -> exists s', run E (CUpdRho rho) s = Some (0, HSolver s') /\ session E P A q l u m n ust s' d.
  Proof.
    intros HS HC Hrho. destruct (session_facts E EO _ _ _ _ _ _ _ _ _ _ HS) as (HI & HR & _).
    destruct (run_safe E EO MM_R (CUpdRho rho) s HI) as ([fl h] & Er & s' & Eh & HI' & _); [exact I|]. cbn [snd] in Eh. subst h.
    assert (HS' : session E P A q l u m n ust s' d) by (destruct HS as [g s0 g' d0 H1 H2 H3 H4 H5]; exact (session_intro _ _ _ _ _ _ _ _ _ _ _ g s0 g' d0 H1 H2 H3 H4 (hist_S _ _ _ _ _ (CUpdRho rho) _ _ _ H5 I Er eq_refl))).
    exists s'. split; [|exact HS']. rewrite Er. do 2 f_equal. destruct (session_facts E EO _ _ _ _ _ _ _ _ _ _ HS') as (_ & HR' & Hsg & _).
    cbn [run] in Er. unfold osqp_update_rho, on_solver in Er. destruct (update_rho E s rho) as [[f s1]|] eqn:EU; [|discriminate]. injection Er as -> ->.
    destruct (update_rho_flag _ _ _ _ EU Hrho) as (ls & El & ->).
    destruct (convex_exact_w E EX _ _ (iv_w _ HI') (inv_rho_pos _ HI') Hsg (ref_convex _ _ HR' HC) ls El) as (_ & HF & _). rewrite HF.
    pose proof (do_Pn _ (wo_d _ _ (iv_w _ HI'))) as Hn. pose proof (wf_n _ (do_P _ (wo_d _ _ (iv_w _ HI')))) as Hw. destruct (Z.ltb_spec (d_n (w_data (sv_work s'))) 0); [lia|auto].
  Qed.
  Theorem c77_exact s d rho s' : session E P A q l u m n ust s d -> (0 < rho)%R -> run E (CUpdRho rho) s = Some (0, HSolver s') -> exact E (sv_work s').
  Proof. intros HS. destruct (session_facts E EO _ _ _ _ _ _ _ _ _ _ HS) as (HI & _). apply update_rho_exact; auto. Qed.
  End Sess.
End Convex.

(** Examples: a saddle, minimise (x0^2 - x1^2)/2 over 0 <= x0 <= 1; the direction (0, 1) is free. *)
From Verif Require Import CscExamples ExReal SolveEx.
Definition sP : csc Rops := mkcsc (K := Rops) 2 2 [0; 1; 2] [0; 1] [1; -1]%R 2 (-1).
Definition sA : csc Rops := mkcsc (K := Rops) 1 2 [0; 1; 1] [0] [1]%R 1 (-1).
Lemma saddle_ex : data_readable (Some sP) (Some [0; 0]%R) (Some sA) (Some [0]%R) (Some [1]%R) 1 2 /\ data_ok (Some sP) (Some [0; 0]%R) (Some sA) (Some [0]%R) (Some [1]%R) 1 2 /\
  settings_ok true wst /\ st_scaling wst = 0 /\ direction 2 IZR /\ (forall k, 0 <= k < 1 -> zsum 0 2 (fun j => dns sA k j * IZR j)%R = 0%R) /\
  (zsum 0 2 (fun i => zsum 0 2 (fun j => sdns sP i j * IZR i * IZR j)) <= - st_sigma wst * zsum 0 2 (fun i => IZR i * IZR i))%R.
Proof.
  assert (S2 : forall f, zsum 0 2 f = (f 0%Z + f 1%Z)%R) by (intros f; rewrite (zsum_snoc 0 1), (zsum_snoc 0 0), zsum_nil by lia; cbn [Z.add]; idtac; ring).
  assert (S1 : forall a f, zsum a (a + 1) f = f a) by (intros a f; rewrite (zsum_snoc a a), zsum_nil by lia; lra).
  split; [|split; [|split; [apply wst_ok|split; [reflexivity|split; [|split]]]]].
  - constructor; try (intros v [= <-]; unfold zlen; cbn; lia); try (intros _; eexists; split; [reflexivity|unfold zlen; cbn; lia]); intros M [= <-]; apply wfb_ok; reflexivity.
  - constructor; [lia|lia|discriminate| | |].
    + exists sP. repeat split. intros j k Hj Hk. apply (triub_ok sP); [reflexivity|cbn [cn sP]; lia|auto].
    + exists sA. repeat split.
    + intros lv uv j [= <-] [= <-] Hj. assert (j = 0) as -> by lia. cbn [nltb Rops]; unfold Rltb; match goal with |- context [Rlt_dec ?a ?b] => destruct (Rlt_dec a b) as [H|] end; auto; exfalso; unfold znth in H; simpl in H; lra.
  - exists 1. split; [lia|lra].
  - intros k Hk. assert (k = 0) as -> by lia. rewrite S2. unfold dns. change (colp sA 1) with 1. change (colp sA (1 + 1)) with 1. rewrite (zsum_nil 1 1) by lia. ring.
  - rewrite !S2. unfold sdns. change (1 <=? 1) with true. change (1 <=? 0) with false. change (0 <=? 0) with true. change (0 <=? 1) with true. cbv iota.
    assert (D1 : dns sP 1 1 = (-1)%R) by (unfold dns; change (colp sP 1) with 1; change (colp sP (1 + 1)) with (1 + 1); rewrite S1; reflexivity). rewrite D1.
    change (st_sigma wst) with (Rlit 1 (-6)). assert (Rlit 1 (-6) <= 1)%R; [|lra]. unfold Rlit, powerRZ. change (Pos.to_nat 6) with 6%nat. replace (10 ^ 6)%R with 1000000%R by ring. lra.
Qed.
(** A matrix update of the example session that is accepted. *)
Lemma update_ex : exists s d s' d', session rE rP rA (Some rq) (Some rl) (Some ru) 3 2 rst s d /\ args_ok (CUpdMat (K := Rops) None None 0 (Some [2]%R) (Some [3]) 1) s /\
  run rE (CUpdMat None None 0 (Some [2]%R) (Some [3]) 1) s = Some (0, HSolver s') /\ user_step (CUpdMat None None 0 (Some [2]%R) (Some [3]) 1) d 0 d' /\
  count_ok (nnz (d_P d)) 0 None /\ count_ok (nnz (d_A d)) 1 (Some [3]) /\ convex d'.
Proof.
  destruct r_start as (s & d & H & U). destruct (session_facts rE rE_ok _ _ _ _ _ _ _ _ _ _ H) as (HI & HR & _). destruct (rf_sb _ _ HR) as [_ _ _ (SA & _) _ _ _].
  destruct U as (Un & _ & UP & UA & _). assert (NA : nnz (d_A d) = 4) by apply UA. assert (NP : nnz (d_P d) = 3) by apply UP.
  assert (HA : args_ok (CUpdMat (K := Rops) None None 0 (Some [2]%R) (Some [3]) 1) s).
  { cbn [args_ok]. split; [intros _; split; discriminate|]. rewrite (same_pat_nnz _ _ SA), NA.
    intros _. cbn [Z.eqb]. split; [intros v [= <-]; unfold zlen; cbn; lia|]. intros e [= <-]. split; [unfold zlen; cbn; lia|]. intros k Hk. assert (k = 0) as -> by lia. change (znth 0 [3] 0) with 3. lia. }
  destruct (session_step rE rE_ok _ _ _ _ _ _ _ _ _ _ _ H HA) as (fl & s1 & d1 & R1 & US & S1).
  assert (K1 : count_ok (nnz (d_P d)) 0 None) by (rewrite NP; split; [lia|auto]). assert (K2 : count_ok (nnz (d_A d)) 1 (Some [3])) by (rewrite NA; split; [lia|discriminate]).
  assert (HC : convex d1).
  { destruct US as [(_ & _ & P' & A' & N1 & _ & ->)|(X & _)]; [|tauto]. cbn [new_vals] in N1. subst P'. unfold convex. cbn. rewrite Un. intros x. pose proof (rP_psd x) as Hp.
    erewrite qform_ext_f; [exact Hp|]. intros i j Hi Hj. unfold sdns. destruct (i <=? j); apply copy_dns; auto using rP_wf; cbn; lia. }
  assert (fl = 0) as -> by exact (c63_update rE rE_ok rE_exact _ _ _ _ _ _ _ _ _ _ _ _ _ _ _ _ _ _ _ H HA R1 US K1 K2 HC).
  exists s, d, s1, d1. auto 10.
Qed.
Lemma rho_ex : exists s d s', session rE rP rA (Some rq) (Some rl) (Some ru) 3 2 rst s d /\ convex d /\ (0 < 5)%R /\ run rE (CUpdRho 5%R) s = Some (0, HSolver s').
Proof.
  destruct r_start as (s & d & H & U). destruct U as (Un & _ & UP & UA & _).
  assert (HC : convex d). { unfold convex. rewrite Un. intros x. pose proof (rP_psd x) as Hp. erewrite qform_ext_f; [exact Hp|]. intros i j Hi Hj. unfold sdns. destruct (i <=? j); apply copy_dns; auto using rP_wf; cbn; lia. }
  destruct (c63_rho rE rE_ok rE_exact _ _ _ _ _ _ _ _ s d 5%R H HC ltac:(lra)) as (s' & R1 & _). exists s, d, s'. split; [exact H|]. split; [exact HC|]. split; [lra|exact R1].
Qed.
