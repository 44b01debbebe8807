(** Sessions: a successful osqp_setup followed by any calls, in exact arithmetic. *)
From Coq Require Import ZArith Reals List Bool Lia Lra String.
From Verif Require Import Num Arr ArrFacts RSum Csc CscSpec CscFacts CscFacts2 Scatter Vec VecFacts Types Kkt KktSpec KktDense Linsys LinsysFacts LinsysSolve Scaling Validate Auxil Polish Api
  Inv RecSimp InvStep InvApi InvScale InvSolve ValidFacts InvUpd InvSetup History RealVec RealStep Frame FrameSolve ProbSpec ScaleReal FrameUpd UserSpec Refine ExEnv Ldl LdlEnv.
Import ListNotations.
Open Scope Z_scope.

(** s is the solver, and d the problem as the user knows it, after osqp_setup and a history of calls. *)
Inductive session (E : Env Rops) (P A : csc Rops) (q l u : option (list R)) (m n : Z) (ust : settings Rops) (s : solver Rops) (d : data Rops) : Prop :=
| session_intro : forall g s0 g' d0, data_readable (Some P) q (Some A) l u m n ->
    osqp_setup E g (Some P) q (Some A) l u m n (Some ust) = Some (0, Some s0, g') ->
    user_init P A q l u m n d0 -> ref d0 s0 -> hist E s0 d0 s d -> session E P A q l u m n ust s d.

Lemma rho_of_pos (r : R) t : (0 < r)%R -> (0 < @rho_of Rops r t)%R.
Proof.
  intros H. unfold rho_of. destruct (t =? 0); auto. destruct (0 <? t); [|rewrite rho_min_R; apply Rinv_0_lt_compat, pow_lt; lra].
  rewrite rho_eq_R. cbn [nmul Rops]. apply Rmult_lt_0_compat; auto. apply pow_lt. lra.
Qed.
Lemma clamp_range (r : R) : (/ 10 ^ 6 <= @clamp Rops r <= 10 ^ 6)%R.
Proof.
  unfold clamp. rewrite c_min_R, c_max_R, rho_min_R, rho_max_R.
  assert (/ 10 ^ 6 < 10 ^ 6)%R by (rewrite <- rho_min_R, <- rho_max_R; pose proof MM_R as H; cbn [nltb Rops] in H; apply Rltb_iff in H; auto).
  unfold Rmin, Rmax. repeat destruct (Rle_dec _ _); lra.
Qed.
Lemma inv_rho_range (s : solver Rops) : Inv s -> (/ 10 ^ 6 <= st_rho (sv_settings s) <= 10 ^ 6)%R.
Proof. intros H. rewrite <- (iv_rho _ H). apply clamp_range. Qed.
Lemma inv_rho_pos (s : solver Rops) : Inv s -> (0 < st_rho (sv_settings s))%R.
Proof. intros H. pose proof (inv_rho_range s H) as [H1 _]. eapply Rlt_le_trans; [|exact H1]. apply Rinv_0_lt_compat, pow_lt. lra. Qed.
Lemma rho_at_pos (s : solver Rops) i : Inv s -> 0 <= i < d_m (w_data (sv_work s)) -> (0 < rho_at (sv_settings s) (sv_work s) i)%R.
Proof.
  intros H Hi. pose proof (inv_rho_pos s H) as Hp. unfold rho_at. pose proof (wo_rho _ _ (iv_w _ H)) as HR. unfold rho_ok in HR.
  destruct (tr (st_rho_is_vec (sv_settings s))); [|rewrite HR; auto].
  destruct HR as (ct & _ & Lc & -> & _). unfold rnth. rewrite (znth_map 0%R 0) by lia. apply rho_of_pos; auto.
Qed.

(** Convexity of the stored problem is convexity of the user's. *)
Lemma psd_scaled c D (P P' : csc Rops) : wf P -> triu P -> (0 < c)%R -> mscaled c D D P P' -> psd (cn P) (sdns P) -> psd (cn P) (sdns P').
Proof.
  intros W T Hc HM HP x. specialize (HP (fun i => D i * x i)%R).
  assert (E : qform 0 (cn P) (sdns P') x = (c * qform 0 (cn P) (sdns P) (fun i => D i * x i))%R).
  { unfold qform. rewrite <- zsum_scal. apply zsum_ext. intros i Hi. rewrite <- zsum_scal. apply zsum_ext. intros j Hj.
    rewrite (mscaled_sdns c D P P' W T HM) by auto. ring. }
  rewrite E. apply Rmult_le_pos; auto. lra.
Qed.

Definition convex (d : data Rops) : Prop := psd (d_n d) (sdns (d_P d)).

Section Session.
  Variable E : Env Rops.
  Hypothesis EO : env_ok E.

  Lemma ref_convex u (s : solver Rops) : ref u s -> convex u -> psd (d_n (w_data (sv_work s))) (sdns (d_P (w_data (sv_work s)))).
  Proof.
    intros HR HC. pose proof (units_pos _ _ HR) as (Pc & _). destruct HR as [Hu [Bn Bm BP _ _ _ _] _ _ _]. destruct Hu. rewrite Bn. unfold convex in HC.
    rewrite <- do_Pn in *. eapply psd_scaled; eauto.
  Qed.

  (** Settings stay valid (rho and the adaptation interval apart, which the solver itself adjusts). *)
  Definition keep_settings (st : settings Rops) : settings Rops := set_st_rho 1%R (set_st_adaptive_rho_interval 1 st).
  Lemma keep_same st st' : same_st st st' -> keep_settings st' = keep_settings st.
  Proof. intros (r & t & ->). destruct st; reflexivity. Qed.

  Lemma run_settings c (s : solver Rops) fl s' : run E c s = Some (fl, HSolver s') -> settings_ok true (keep_settings (sv_settings s)) -> settings_ok true (keep_settings (sv_settings s')).
  Proof.
    intros HC HS. destruct c; cbn [run] in HC.
    - unfold osqp_solve, on_solver in HC. destruct (solve E s) as [[f s1]|] eqn:Er; [|discriminate]. injection HC as _ <-.
      pose proof (sf_st _ _ (solve_sfr E s _ Er)) as Hk. cbn [snd] in Hk. rewrite (keep_same _ _ Hk). auto.
    - unfold osqp_update_data_vec, on_solver in HC. destruct (update_data_vec E s q l u) as [[f s1]|] eqn:Er; [|discriminate]. injection HC as _ <-.
      destruct (update_data_vec_shape E s q l u _ Er) as (lt & ut & okb & H). destruct okb.
      + destruct (vs_acc _ _ _ _ _ _ _ _ H eq_refl) as (q' & _ & _ & _ & _ & _ & _ & _ & Es & _). cbn [snd] in Es. rewrite Es.
        destruct (_ && _); [|auto]. destruct (sv_settings s); exact HS.
      + destruct (vs_rej _ _ _ _ _ _ _ _ H eq_refl) as (_ & t & c & Es). cbn [snd] in Es. rewrite Es. exact HS.
    - unfold osqp_update_data_mat, on_solver in HC. destruct (update_data_mat E s Px Pidx Pn Ax Aidx An) as [[f s1]|] eqn:Er; [|discriminate]. injection HC as _ <-.
      destruct (update_data_mat_shape E s _ _ _ _ _ _ _ Er) as (nP & nA & _ & _ & [(_ & Es)|(_ & _ & t & c & w1 & P2 & A2 & w4 & ls & ls' & i & g & _ & _ & _ & _ & _ & _ & Es & _)]); cbn [snd] in Es; rewrite Es; [|exact HS].
      destruct (begin_update_eq s) as (t & c & ->). exact HS.
    - unfold osqp_update_rho, on_solver in HC. destruct (update_rho E s rho) as [[f s1]|] eqn:Er; [|discriminate]. injection HC as _ <-.
      pose proof (sf_st _ _ (proj1 (update_rho_post E s rho _ Er))) as Hk. cbn [snd] in Hk. rewrite (keep_same _ _ Hk). auto.
    - unfold osqp_update_settings in HC. destruct (validate_settings new false) eqn:EV; [injection HC as _ <-; auto|]. destruct new as [st|]; [|discriminate].
      destruct (w_linsys (sv_work s)); [|discriminate]. injection HC as _ <-. rs.
      apply validate_settings_spec in EV as (st' & [= <-] & HV). destruct HV, HS. constructor; unfold keep_settings, replace_settings in *; rs_all; auto.
    - unfold osqp_warm_start, on_solver in HC. destruct (warm_start s x y) as [[f s1]|] eqn:Er; [|discriminate]. injection HC as _ <-.
      assert (HP : post (warm_start s x y) (fun r => sv_settings (snd r) = sv_settings s \/ sv_settings (snd r) = set_st_warm_starting 1 (sv_settings s))).
      { unfold warm_start. cbv zeta. set (s1' := if negb _ then _ else s).
        assert (H1 : sv_settings s1' = sv_settings s \/ sv_settings s1' = set_st_warm_starting 1 (sv_settings s)) by (subst s1'; destruct (negb _); auto). clearbody s1'.
        do 4 (apply post_bind; intros ? ?). apply post_ret. cbn [snd]. rs. exact H1. }
      specialize (HP _ Er). cbn [snd] in HP. destruct HP as [-> | ->]; auto. destruct HS. constructor; unfold keep_settings in *; rs_all; auto.
    - unfold osqp_cold_start in HC. destruct (cold_start (sv_work s)); [|discriminate]. injection HC as _ <-. exact HS.
    - unfold osqp_get_solution in HC. destruct sol as [o|]; [|injection HC as _ <-; auto].
      destruct (store_solution s (Some o)) as [[s1 o1]|] eqn:Er; [|discriminate]. injection HC as _ <-. destruct (store_solution_post s (Some o) _ Er) as (A1 & _). cbn [fst] in A1. rewrite A1. auto.
  Qed.

  Theorem session_facts P A q l u m n ust s d : session E P A q l u m n ust s d ->
    Inv s /\ ref d s /\ (0 < st_sigma (sv_settings s))%R /\ settings_ok true (keep_settings (sv_settings s)) /\ d_n d = n /\ d_m d = m /\
    data_ok (Some P) q (Some A) l u m n /\ settings_ok true ust.
  Proof.
    intros [g s0 g' d0 HDR HS UI RF HH].
    destruct (osqp_setup_safe E EO MM_R g (Some P) q (Some A) l u m n (Some ust) HDR) as (r & Er & HRes). rewrite HS in Er. injection Er as <-. cbn [fst snd] in HRes.
    inversion HRes as [| |? ? ? ? ? ? ? ? ? ? EE|s1 g1 HDO HV HI Dn Dm HF Hw HLF Hsec Hhan EE]; subst; try discriminate.
    destruct (hist_ref E EO s0 d0 s d HI RF HH) as (HI' & HR' & RC).
    apply validate_settings_spec in HV as (st' & [= <-] & HV). destruct (HF ust eq_refl) as [_ Hst _ _ _ _ _ _ _ _ _ _ _ _].
    assert (HK0 : settings_ok true (keep_settings (sv_settings s0))).
    { assert (Ek : keep_settings (sv_settings s0) = keep_settings ust).
      { rewrite Hst. unfold setup_adaptive_rho. repeat match goal with |- context [if ?b then _ else _] => destruct b end; destruct ust; reflexivity. }
      rewrite Ek. destruct HV. constructor; unfold keep_settings in *; rs; auto; try lia.
      intros _. unfold gt_ok. rewrite n0_R. cbn [nleb Rops]. unfold Rleb. destruct (Rle_dec 1 0); [lra|auto]. }
    assert (HK : settings_ok true (keep_settings (sv_settings s))).
    { clear - HK0 HH. induction HH as [|s d c fl s' d' HH IH HA HC HS]; auto. eapply run_settings; eauto. }
    destruct (reach_inv E EO MM_R s0 s HI RC) as (_ & F & _).
    split; auto. split; auto. split.
    { pose proof (vs_sigma _ _ HK eq_refl) as H. unfold keep_settings in H. rs_in H. unfold gt_ok in H. rewrite n0_R in H. cbn [nleb Rops] in H. unfold Rleb in H.
      destruct (Rle_dec (st_sigma (sv_settings s)) 0); [discriminate|lra]. }
    split; auto. pose proof (rf_sb _ _ HR') as [Bn Bm _ _ _ _ _]. destruct F. split; [congruence|]. split; [congruence|]. split; auto.
  Qed.

  Section Exact.
  Hypothesis EX : exact_ldl E.

  (** A solver whose linear system holds the KKT matrix of a convex problem. *)
  Lemma convex_exact_w st (w : work Rops) : wok st w -> (0 < st_rho st)%R -> (0 < st_sigma st)%R -> psd (d_n (w_data w)) (sdns (d_P (w_data w))) ->
    forall ls, w_linsys w = Some ls -> LDL_factor E (ls_fac ls) (d_n (w_data w)) = 0 /\ env_fac E (ls_fac ls) = d_n (w_data w) /\ solves E (ls_fac ls).
  Proof.
    intros H Hr Hs HP ls El. destruct (wo_ls _ _ H) as (ls' & r & El' & LO & Hn & LR). rewrite El in El'. injection El' as <-.
    destruct (wo_d _ _ H). rewrite <- do_Pn in *.
    destruct (convex_factor E EX ls (d_P (w_data w)) (d_A (w_data w)) (st_sigma st) r) as (F1 & F2 & F3); auto.
    intros j Hj. assert (Hj' : 0 <= j < d_m (w_data w)) by lia. specialize (Hn j Hj'). rewrite (ls_rinv st w ls H El) in Hn by auto.
    assert (Hp : (0 < / rho_at st w j)%R).
    { apply Rinv_0_lt_compat. unfold rho_at. pose proof (wo_rho _ _ H) as HR. unfold rho_ok in HR. destruct (tr (st_rho_is_vec st)); [|rewrite HR; auto].
      destruct HR as (ct & _ & Lc & -> & _). unfold rnth. rewrite (znth_map 0%R 0) by lia. apply rho_of_pos; auto. }
    destruct Hn as [-> | ->]; rewrite ?n0_R; cbn [nsub nopp Rops]; lra.
  Qed.

  (** osqp_setup never refuses a convex problem. *)
  Theorem setup_convex g P q A l u m n ust : data_readable (Some P) q (Some A) l u m n -> data_ok (Some P) q (Some A) l u m n -> settings_ok true ust ->
    psd n (sdns P) -> exists s g', osqp_setup E g (Some P) q (Some A) l u m n (Some ust) = Some (0, Some s, g').
  Proof.
    intros HDR HDO HSO HP. destruct (osqp_setup_safe E EO MM_R g (Some P) q (Some A) l u m n (Some ust) HDR) as (r & Er & HRes).
    assert (HV : validate_settings (Some ust) true = false) by (apply validate_settings_spec; eauto).
    assert (Hs : (0 < st_sigma ust)%R).
    { pose proof (vs_sigma _ _ HSO eq_refl) as H. unfold gt_ok in H. rewrite n0_R in H. cbn [nleb Rops] in H. unfold Rleb in H. destruct (Rle_dec (st_sigma ust) 0); [discriminate|lra]. }
    destruct r as [[fl so] g']. cbn [fst snd] in HRes. inversion HRes as [Hno|_ Hno|s g1 _ _ Hls Hst Hw Hsec Hhan HF E1 E2 E3|s g1 _ _ HI Dn Dm HF Hw HLF Hsec Hhan E1 E2 E3]; subst.
    - contradiction. - congruence.
    - exfalso. destruct (HF ust eq_refl) as (FD & Est & ls & HW & HL).
      assert (Esc : st_scaling (sv_settings s) = st_scaling ust) by (rewrite Est; destruct ust; reflexivity).
      destruct (fresh_ref E (Some P) q (Some A) l u m n ust s HDR HDO FD Esc) as (P0 & A0 & d0 & EP & EA & UI & RF & _). injection EP as <-. injection EA as <-.
      destruct UI as (U1 & U2 & U3 & _). pose proof (dr_P _ _ _ _ _ _ _ HDR P eq_refl) as WP. destruct HDO as [Hn Hm Hq (P0' & EQ & Pm & Pn & HT) _ _]. injection EQ as <-.
      assert (HC : convex d0).
      { unfold convex. rewrite U1. intros x. specialize (HP x). erewrite qform_ext_f; [exact HP|]. intros i j Hi Hj. unfold sdns. destruct (i <=? j); apply copy_dns; auto; lia. }
      pose proof (ref_convex d0 s RF HC) as HC'. pose proof (sb_n _ _ _ _ _ (rf_sb _ _ RF)) as Bn. 
      destruct (convex_exact_w _ _ HW) with (ls := ls) as (F & _); rs; auto.
      { rewrite Est. rs. eapply Rlt_le_trans; [|apply clamp_range]. apply Rinv_0_lt_compat, pow_lt. lra. }
      { rewrite Est. destruct ust; exact Hs. }
      rs_in F. rewrite Bn, U1 in F. lia.
    - exists s, (sv_world s). exact Er.
  Qed.
  Lemma session_exact P A q l u m n ust s d : session E P A q l u m n ust s d -> convex d -> exact E (sv_work s).
  Proof.
    intros HS HC ls El. destruct (session_facts _ _ _ _ _ _ _ _ _ _ HS) as (HI & HR & Hsg & _).
    eapply convex_exact_w; eauto using iv_w, inv_rho_pos, ref_convex.
  Qed.
  End Exact.
End Session.
