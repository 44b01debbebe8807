(** Exit codes of the update functions, and the stored problem spelled out entry by entry. *)
From Coq Require Import ZArith Reals List Bool Lia Lra String.
From Verif Require Import Num Arr ArrFacts RSum Csc CscSpec CscFacts CscFacts2 Scatter Vec VecFacts Types Kkt KktSpec Linsys LinsysFacts LinsysSolve Scaling Validate Auxil Polish Api
  Inv RecSimp InvStep InvApi InvScale InvSolve ValidFacts InvUpd InvSetup History RealVec RealStep Frame FrameSolve ProbSpec ScaleReal FrameUpd UserSpec Refine ExEnv Ldl LdlEnv Session ExReal.
Import ListNotations.
Open Scope Z_scope.

Lemma post_for {S} (P : S -> Prop) lo hi (body : Z -> S -> option S) s0 :
  P s0 -> (forall i s, P s -> post (body i s) P) -> post (for_ lo hi body s0) P.
Proof.
  intros H0 HS. unfold for_. generalize (Z.to_nat (hi - lo)) as k. intros k. revert lo s0 H0. induction k as [|k IH]; intros lo s0 H0; cbn [for_aux]; [apply post_ret; auto|].
  eapply post_bindP; [apply (HS lo s0 H0)|]. intros s1 H1. apply IH; auto.
Qed.

Section Flags.
  Context {K : NumOps}.
  Variable E : Env K.
  (** Scaling the data again does not touch the iterates. *)
  Lemma scale_data_iter3 st (w : work K) : post (scale_data st w) (fun w' => iter3 w' = iter3 w).
  Proof.
    unfold scale_data. apply post_bind. intros sc _. cbv zeta.
    eapply post_bindP with (P := fun r => iter3 (fst r) = iter3 w).
    { apply post_for; [reflexivity|]. intros i [w1 s1] H1. cbn [fst snd] in *. unfold scale_pass. walk. exact H1. }
    intros [w1 s1] H1. cbn [fst] in H1. walk. exact H1.
  Qed.

  (** The exit code is 0, or 1 because the factorisation of the KKT matrix now in place failed. *)
  Definition facflag (s : solver K) (fl : Z) : Prop :=
    fl = 0 \/ fl = 1 /\ exists ls, w_linsys (sv_work s) = Some ls /\ env_fac E (ls_fac ls) < 0.

  Lemma linsys_rho_flag (ls : linsys K) rv r : post (update_linsys_rho_vec E ls rv r) (fun o => fst o = if env_fac E (ls_fac (snd o)) <? 0 then 1 else 0).
  Proof. unfold update_linsys_rho_vec. apply post_bind. intros ls' _. do 2 (apply post_bind; intros ? _). apply post_ret. reflexivity. Qed.
  Lemma linsys_mat_flag (ls : linsys K) P Pi Pn A Ai An : post (update_linsys_matrices E ls P Pi Pn A Ai An) (fun o => fst o = if env_fac E (ls_fac (snd o)) =? cn P then 0 else 1).
  Proof. unfold update_linsys_matrices. do 3 (apply post_bind; intros ? _). apply post_ret. reflexivity. Qed.

  Lemma update_rho_vec_flag (s : solver K) : post (update_rho_vec E s) (fun r => facflag (snd r) (fst r)).
  Proof.
    unfold update_rho_vec. apply post_bind. intros [ch s1] _. destruct ch; [|apply post_ret; left; auto].
    apply post_bind. intros ls _. eapply post_bindP; [apply linsys_rho_flag|]. intros [fl ls'] Hf. cbn [fst snd] in *. apply post_ret. cbn [fst snd].
    unfold facflag. rs. destruct (Z.ltb_spec (env_fac E (ls_fac ls')) 0); [right|left; auto]. split; auto. exists ls'. auto.
  Qed.
  Lemma end_update_linsys (s : solver K) : post (end_update E s) (fun s' => w_linsys (sv_work s') = w_linsys (sv_work s)).
  Proof. unfold end_update. apply post_bind. intros i _. unfold toc. apply post_ret. reflexivity. Qed.

  Definition crossed (s : solver K) l u : Prop := given l || given u = true /\ exists lt ut, load_bound s (w_z_prev (sv_work s)) l = Some lt /\
    load_bound s (w_delta_y (sv_work s)) u = Some ut /\ vf_all_leq (pick l lt (d_l (w_data (sv_work s)))) (pick u ut (d_u (w_data (sv_work s)))) = Some false.
  Lemma update_data_vec_flag (s : solver K) q l u : post (update_data_vec E s q l u) (fun r => crossed s l u \/ facflag (snd r) (fst r)).
  Proof.
    unfold update_data_vec. destruct (begin_update_eq s) as (t0 & c0 & E0). rewrite E0. clear E0. set (s0 := set_sv_info _ _).
    assert (LB : forall tmp a, load_bound s0 tmp a = load_bound s tmp a) by reflexivity.
    eapply post_bindP with (P := fun r => snd r = true /\ crossed s l u \/ snd r = false /\ facflag (snd (fst r)) (fst (fst r))).
    - assert (HB : forall s' w, post (if tr (st_rho_is_vec (sv_settings (set_sv_work w s'))) then match update_rho_vec E (set_sv_work w s') with Some r => Some (r, false) | None => None end
          else Some (0%Z, set_sv_work w s', false)) (fun r => snd r = true /\ crossed s l u \/ snd r = false /\ facflag (snd (fst r)) (fst (fst r)))).
      { intros s' w. destruct (tr _); [|apply post_ret; right; split; [reflexivity|left; reflexivity]].
        eapply post_bindP; [apply update_rho_vec_flag|]. intros r Hr. apply post_ret. cbn [fst snd]. auto. }
      destruct l as [l|]; [destruct u as [u|]|destruct u as [u|]; [|apply post_ret; right; split; [reflexivity|left; reflexivity]]];
        (apply post_bind; intros lt Hlt; apply post_bind; intros ut Hut; cbv zeta; apply post_bind; intros okb Hok; destruct okb; cbn [negb];
         [apply HB|apply post_ret; left; split; [reflexivity|]; split; [reflexivity|]; exists lt, ut; split; [exact Hlt|]; split; [exact Hut|]; exact Hok]).
    - intros [[fl s1] failed] HX; cbn [fst snd] in HX; destruct HX as [(-> & HX)|(-> & HF)]; [apply post_ret; auto|].
      eapply post_bindP with (P := fun s2 => w_linsys (sv_work s2) = w_linsys (sv_work s1)).
      { destruct q; [|apply post_ret; auto]. do 2 (apply post_bind; intros ? _). apply post_ret. reflexivity. }
      intros s2 E2. eapply post_bindP; [apply end_update_linsys|]. intros s3 E3. apply post_ret. right. unfold facflag in *. cbn [fst snd]. rewrite E3, E2. auto.
  Qed.
  Lemma update_rho_flag (s : solver K) r : post (update_rho E s r) (fun o => (nleb r n0 = true /\ o = (1, s)) \/ nleb r n0 = false /\ facflag (snd o) (fst o)).
  Proof.
    unfold update_rho. destruct (nleb r n0) eqn:Er; [apply post_ret; auto|]. cbv zeta. apply post_bind. intros w _. apply post_bind. intros ls _.
    eapply post_bindP; [apply linsys_rho_flag|]. intros [fl ls'] Hf. cbn [fst snd] in *. apply post_ret. right. split; auto. unfold facflag, toc.
    destruct (_ =? 0); cbn [fst snd]; rs; (destruct (Z.ltb_spec (env_fac E (ls_fac ls')) 0); [right|left; auto]; split; auto; exists ls'; auto).
  Qed.
  Lemma update_data_mat_flag (s : solver K) Px Pi Pn Ax Ai An : post (update_data_mat E s Px Pi Pn Ax Ai An) (fun r => fst r = 1 \/ fst r = 2 \/
    fst r = 0 /\ exists ls, w_linsys (sv_work (snd r)) = Some ls /\ env_fac E (ls_fac ls) = cn (d_P (w_data (sv_work (snd r))))).
  Proof.
    intros r Hr. destruct (update_data_mat_shape E s _ _ _ _ _ _ _ Hr) as (nP & nA & _ & _ & [([(_ & ->)|(_ & _ & ->)] & _)|(_ & _ & t & c & w1 & P2 & A2 & w4 & ls & ls' & i & g & _ & _ & _ & _ & _ & HU & Es & _)]); auto.
    assert (HF : fst r = if env_fac E (ls_fac ls') =? cn (d_P (w_data w4)) then 0 else 1).
    { destruct (tr _); exact (linsys_mat_flag _ _ _ _ _ _ _ _ HU). }
    rewrite Es. rs. destruct (Z.eqb_spec (env_fac E (ls_fac ls')) (cn (d_P (w_data w4)))) as [Ef|]; [|auto]. right; right. split; auto. exists ls'. auto.
  Qed.
End Flags.

(** The stored problem of s is d in the units given by positive factors: entry (i, j) of P is multiplied by
    c D_i D_j, of A by E_i D_j, q_i by c D_i, l_i and u_i by E_i. *)
Record stored (s : solver Rops) (d : data Rops) (c : R) (D E : Z -> R) : Prop := {
  sd_n : d_n (w_data (sv_work s)) = d_n d; sd_m : d_m (w_data (sv_work s)) = d_m d;
  sd_c : (0 < c)%R;
  sd_D : forall i, 0 <= i < d_n d -> (0 < D i)%R;
  sd_E : forall i, 0 <= i < d_m d -> (0 < E i)%R;
  sd_P : forall i j, 0 <= i < d_n d -> 0 <= j < d_n d -> sdns (d_P (w_data (sv_work s))) i j = (c * D i * sdns (d_P d) i j * D j)%R;
  sd_A : forall i j, 0 <= i < d_m d -> 0 <= j < d_n d -> dns (d_A (w_data (sv_work s))) i j = (E i * dns (d_A d) i j * D j)%R;
  sd_q : forall i, 0 <= i < d_n d -> rnth (d_q (w_data (sv_work s))) i = (c * D i * rnth (d_q d) i)%R;
  sd_l : forall i, 0 <= i < d_m d -> rnth (d_l (w_data (sv_work s))) i = (E i * rnth (d_l d) i)%R;
  sd_u : forall i, 0 <= i < d_m d -> rnth (d_u (w_data (sv_work s))) i = (E i * rnth (d_u d) i)%R }.

Lemma ref_stored d s : ref d s -> stored s d (uc s) (uD s) (uE s).
Proof.
  intros HR. pose proof (units_pos _ _ HR) as (P1 & P2 & P3). destruct HR as [Hd [Bn Bm BP BA [_ Bq] [_ Bl] [_ Bu]] _ _ _]. destruct Hd.
  constructor; auto.
  - intros i j Hi Hj. apply mscaled_sdns; auto; lia.
  - intros i j Hi Hj. rewrite (mscaled_dns 1 (uE s) (uD s) (d_A d)); auto; [ring|lia].
Qed.

(** Units after a session: what osqp_setup and the updates leave. *)
Section Units.
  Variable E : Env Rops.
  Hypothesis EO : env_ok E.

  Theorem session_stored P A q l u m n ust s d : session E P A q l u m n ust s d -> stored s d (uc s) (uD s) (uE s).
  Proof. intros HS. destruct (session_facts E EO _ _ _ _ _ _ _ _ _ _ HS) as (_ & HR & _). apply ref_stored; auto. Qed.

  (** The scaling factors. *)
  Theorem session_units P A q l u m n ust s d : session E P A q l u m n ust s d ->
    if st_scaling ust =? 0 then uc s = 1%R /\ (forall i, uD s i = 1%R) /\ (forall i, uE s i = 1%R)
    else exists sc, w_scaling (sv_work s) = Some sc /\ uc s = sc_c sc /\ (forall i, uD s i = rnth (sc_D sc) i) /\ (forall i, uE s i = rnth (sc_E sc) i) /\
      sc_cinv sc = (/ uc s)%R /\ (forall i, 0 <= i < n -> rnth (sc_Dinv sc) i = (/ uD s i)%R) /\ (forall i, 0 <= i < m -> rnth (sc_Einv sc) i = (/ uE s i)%R) /\
      let k := Z.to_nat (st_scaling ust) in
      ((/ 10 ^ 4) ^ k <= uc s <= (10 ^ 4) ^ k)%R /\
      (forall i, 0 <= i < n -> ((/ 10 ^ 2) ^ k <= uD s i <= (10 ^ 2) ^ k)%R) /\ (forall i, 0 <= i < m -> ((/ 10 ^ 2) ^ k <= uE s i <= (10 ^ 2) ^ k)%R).
  Proof.
    intros HS. destruct (session_facts E EO _ _ _ _ _ _ _ _ _ _ HS) as (HI & HR & _ & HK & En & Em & _).
    assert (Esc : st_scaling (sv_settings s) = st_scaling ust).
    { destruct HS as [g s0 g' d0 H1 H2 H3 H4 H5]. destruct (osqp_setup_safe E EO MM_R g (Some P) q (Some A) l u m n (Some ust) H1) as (r & Er & HRes). rewrite H2 in Er. injection Er as <-. cbn [fst snd] in HRes.
      inversion HRes as [| |? ? ? ? ? ? ? ? ? ? EE|s1 g1 HDO HV HI0 Dn Dm HF Hw HLF Hsec Hhan EE]; subst; try discriminate.
      destruct (hist_ref E EO s0 d0 s d HI0 H4 H5) as (_ & _ & RC). destruct (reach_inv E EO MM_R s0 s HI0 RC) as (_ & F & _).
      destruct (HF ust eq_refl) as [_ Hst _ _ _ _ _ _ _ _ _ _ _ _]. rewrite (fr_sc _ _ F), Hst. unfold setup_adaptive_rho.
      repeat match goal with |- context [if ?b then _ else _] => destruct b end; destruct ust; reflexivity. }
    pose proof (wo_sc _ _ (iv_w _ HI)) as HSC. pose proof (rf_sc _ _ HR) as HX. unfold uc, uD, uE, uscal in *. unfold tr in *. rewrite Esc in *.
    destruct (st_scaling ust =? 0) eqn:Ez; cbn [negb] in *; [auto|].
    unfold sc_ok, tr in HSC. rewrite Esc, Ez in HSC. cbn [negb] in HSC. destruct (HSC eq_refl) as (sc & Ew & _). rewrite Ew in *. exists sc. split; auto.
    destruct (HX sc eq_refl) as (_ & [G1 G2 G3] & [I1 I2 I3]). rewrite En, Em in *. repeat (split; [solve [auto]|]).
    pose proof (vs_scaling _ _ HK eq_refl) as Hp. unfold keep_settings in Hp. rs_in Hp. unfold st_passes in *. rewrite Esc in *. replace (Z.max 0 (st_scaling ust)) with (st_scaling ust) in * by lia. auto.
  Qed.
End Units.

(** The update calls. *)
Section Calls.
  Variable E : Env Rops.
  Hypothesis EO : env_ok E.

  Lemma session_call P A q l u m n ust s d c fl s' d' : session E P A q l u m n ust s d -> args_ok c s -> run E c s = Some (fl, HSolver s') -> user_step c d fl d' ->
    session E P A q l u m n ust s' d'.
  Proof. intros HS HA Er US. destruct HS as [g s0 g' d0 H1 H2 H3 H4 H5]. econstructor; eauto. econstructor; eauto. Qed.

  Theorem session_update_vec P A q0 l0 u0 m n ust s d q l u : session E P A q0 l0 u0 m n ust s d -> vec_arg n q -> vec_arg m l -> vec_arg m u ->
    exists fl s' q' l' u', osqp_update_data_vec E (HSolver s) q l u = Some (fl, HSolver s') /\
      new_vec n q (d_q d) q' /\ new_vec m l (d_l d) l' /\ new_vec m u (d_u d) u' /\
      (all_le m l' u' ->
         session E P A q0 l0 u0 m n ust s' (set_d_q q' (set_d_l l' (set_d_u u' d))) /\ iter3 (sv_work s') = iter3 (sv_work s) /\
         w_scaling (sv_work s') = w_scaling (sv_work s) /\ i_status_val (sv_info s') = OSQP_UNSOLVED /\ (exact_ldl E -> convex d -> fl = 0)) /\
      (~ all_le m l' u' -> fl = OSQP_DATA_VALIDATION_ERROR /\ session E P A q0 l0 u0 m n ust s' d /\
         exists t c lt ut, s' = set_sv_info (set_i_update_time t (sv_info s)) (set_sv_work (set_w_z_prev lt (set_w_delta_y ut (set_w_clear_update_time c (sv_work s)))) s)).
  Proof.
    intros HS Hq Hl Hu. destruct (session_facts E EO _ _ _ _ _ _ _ _ _ _ HS) as (HI & HR & _ & _ & En & Em & _).
    destruct (session_size E EO _ _ _ _ _ _ _ _ _ _ HS) as (En' & Em').
    assert (HA : args_ok (CUpdVec q l u) s) by (cbn [args_ok]; rewrite En', Em'; auto).
    destruct (run_safe E EO MM_R (CUpdVec q l u) s HI HA) as ([fl h] & Er & s' & Eh & _). cbn [snd] in Eh. subst h.
    destruct (run_ref E (CUpdVec q l u) d s fl s' HI HR HA Er) as (d' & US & HR').
    pose proof US as (q' & l' & u' & Q' & L' & U' & HD). rewrite En in *. rewrite Em in *.
    exists fl, s', q', l', u'. split; [exact Er|]. do 3 (split; [assumption|]).
    cbn [run] in Er. unfold osqp_update_data_vec, on_solver in Er. destruct (update_data_vec E s q l u) as [[f s1]|] eqn:Eu; [|discriminate]. injection Er as -> ->.
    assert (Er : run E (CUpdVec q l u) s = Some (fl, HSolver s')) by (cbn [run]; unfold osqp_update_data_vec, on_solver; rewrite Eu; auto).
    assert (HS' : session E P A q0 l0 u0 m n ust s' d') by (eapply session_call; eauto).
    destruct (update_data_vec_ref E d s q l u) as (r & Er2 & _ & lt & ut & okb & SH & Hok); auto; try (rewrite ?En', ?Em'; auto). rewrite Eu in Er2. injection Er2 as <-. rewrite Em in Hok.
    specialize (Hok _ _ L' U').
    destruct okb; (split; intros HL; [|]).
    - destruct HD as [(_ & ->)|(HN & _)]; [|contradiction]. split; auto. destruct (vs_acc _ _ _ _ _ _ _ _ SH eq_refl) as (q2 & _ & _ & F1 & _ & F2 & _ & _ & _ & _ & F3 & _). cbn [snd] in *.
      split; auto. split; auto. split; auto. intros EX HC.
      assert (HC' : convex (set_d_q q' (set_d_l l' (set_d_u u' d)))) by (unfold convex; rs; exact HC).
      assert (Hfac : forall ls, w_linsys (sv_work s') = Some ls -> 0 <= env_fac E (ls_fac ls)).
      { intros ls El. destruct (session_facts E EO _ _ _ _ _ _ _ _ _ _ HS') as (HI' & HR2 & Hsg & _).
        destruct (convex_exact_w E EX _ _ (iv_w _ HI')) with (ls := ls) as (_ & -> & _); eauto using inv_rho_pos, ref_convex. apply Z.lt_le_incl, (do_n _ (wo_d _ _ (iv_w _ HI'))). }
      destruct (update_data_vec_flag E s q l u _ Eu) as [(Hgv & lt2 & ut2 & E1 & E2 & E3)|[Hf|(Hf & ls & El & Hneg)]]; cbn [fst snd] in *; auto.
      + exfalso. destruct SH as [S1 S2 S3 _ _]. destruct S3 as [S3|(-> & -> & _)]; [congruence|discriminate].
      + specialize (Hfac ls El). lia.
    - exfalso. apply HL, Hok. auto.
    - exfalso. apply Hok in HL. discriminate.
    - destruct HD as [(HN & _)|(_ & -> & Hf)]; [contradiction|]. split; auto. split; auto. destruct (vs_rej _ _ _ _ _ _ _ _ SH eq_refl) as (_ & t & c & Es). cbn [snd] in Es. exists t, c, lt, ut. auto.
  Qed.

  Theorem session_update_mat P A q0 l0 u0 m n ust s d Px Pidx Pn Ax Aidx An : session E P A q0 l0 u0 m n ust s d ->
    mat_arg (nnz (d_P d)) Pn Px Pidx -> mat_arg (nnz (d_A d)) An Ax Aidx ->
    exists fl s', osqp_update_data_mat E (HSolver s) Px Pidx Pn Ax Aidx An = Some (fl, HSolver s') /\
      (count_ok (nnz (d_P d)) Pn Pidx -> count_ok (nnz (d_A d)) An Aidx ->
         exists P' A', new_vals (d_P d) P' Px Pidx Pn /\ new_vals (d_A d) A' Ax Aidx An /\
           session E P A q0 l0 u0 m n ust s' (set_d_A A' (set_d_P P' d)) /\ iter3 (sv_work s') = iter3 (sv_work s) /\ sv_settings s' = sv_settings s /\
           i_status_val (sv_info s') = OSQP_UNSOLVED /\ (exact_ldl E -> convex (set_d_A A' (set_d_P P' d)) -> fl = 0) /\
           units_for (d_q d) (set_d_A A' (set_d_P P' d)) s') /\
      (~ count_ok (nnz (d_P d)) Pn Pidx -> fl = 1) /\ (count_ok (nnz (d_P d)) Pn Pidx -> ~ count_ok (nnz (d_A d)) An Aidx -> fl = 2) /\
      (~ (count_ok (nnz (d_P d)) Pn Pidx /\ count_ok (nnz (d_A d)) An Aidx) -> session E P A q0 l0 u0 m n ust s' d /\
         exists t c, s' = set_sv_info (set_i_update_time t (sv_info s)) (set_sv_work (set_w_clear_update_time c (sv_work s)) s)).
  Proof.
    intros HS HP HA. destruct (session_facts E EO _ _ _ _ _ _ _ _ _ _ HS) as (HI & HR & _ & _ & En & Em & _).
    pose proof (rf_sb _ _ HR) as [Bn Bm [SP _] [SA _] _ _ _]. destruct (same_pat_geom _ _ SP) as (_ & _ & NP & _). destruct (same_pat_geom _ _ SA) as (_ & _ & NA & _).
    set (c := CUpdMat Px Pidx Pn Ax Aidx An).
    assert (HAr : args_ok c s) by (subst c; cbn [args_ok]; change (car Rops) with R in *; rewrite NP, NA; auto).
    destruct (run_safe E EO MM_R c s HI HAr) as ([fl h] & Er & s' & Eh & _). cbn [snd] in Eh. subst h.
    destruct (run_ref E c d s fl s' HI HR HAr Er) as (d' & US & HR').
    assert (HS' : session E P A q0 l0 u0 m n ust s' d') by (eapply session_call; eauto).
    assert (UF : count_ok (nnz (d_P d)) Pn Pidx -> count_ok (nnz (d_A d)) An Aidx -> units_for (d_q d') d' s').
    { cbn [args_ok c] in HAr. destruct HAr as (HA1 & HA2). destruct (update_data_mat_ref E d s Px Pidx Pn Ax Aidx An HI HR HA1 HA2) as ([f1 s1] & Eu1 & d1 & US1 & _ & UF1).
      subst c. cbn [run] in Er. unfold osqp_update_data_mat, on_solver in Er. rewrite Eu1 in Er. injection Er as <- <-. cbn [fst snd] in *.
      rewrite (user_step_unique (CUpdMat Px Pidx Pn Ax Aidx An) d f1 d' d1 US US1). exact UF1. }
    exists fl, s'. split; [exact Er|].
    subst c. cbn [run] in Er. unfold osqp_update_data_mat, on_solver in Er. destruct (update_data_mat E s Px Pidx Pn Ax Aidx An) as [[f s1]|] eqn:Eu; [|discriminate]. injection Er as -> ->.
    destruct (update_data_mat_shape E s _ _ _ _ _ _ _ Eu) as (nP & nA & ZP & ZA & SH). cbn [fst snd] in SH.
    pose proof (wo_d _ _ (iv_w _ HI)) as Hd. destruct Hd.
    rewrite (zget_nnz (d_P (w_data (sv_work s)))) in ZP by auto. rewrite (zget_nnz (d_A (w_data (sv_work s)))) in ZA by auto. injection ZP as <-. injection ZA as <-. rewrite NP, NA in SH.
    assert (BP : mat_bad (nnz (d_P d)) Pn Pidx = true <-> ~ count_ok (nnz (d_P d)) Pn Pidx) by (rewrite <- mat_bad_spec; clear; destruct (mat_bad _ _ _); split; congruence).
    assert (BA : mat_bad (nnz (d_A d)) An Aidx = true <-> ~ count_ok (nnz (d_A d)) An Aidx) by (rewrite <- mat_bad_spec; clear; destruct (mat_bad _ _ _); split; congruence).
    assert (BP' : mat_bad (nnz (d_P d)) Pn Pidx = false <-> count_ok (nnz (d_P d)) Pn Pidx) by apply mat_bad_spec.
    assert (BA' : mat_bad (nnz (d_A d)) An Aidx = false <-> count_ok (nnz (d_A d)) An Aidx) by apply mat_bad_spec.
    cbn [user_step] in US. split; [|split; [|split]].
    - intros C1 C2. destruct US as [(_ & _ & P' & A' & N1 & N2 & ->)|(HN & _)]; [|tauto]. exists P', A'. do 2 (split; [assumption|]). split; [exact HS'|].
      destruct SH as [([(H & _)|(_ & H & _)] & _)|(_ & _ & t & cc & w1 & P2 & A2 & w4 & ls & ls' & i & g & U1 & _ & _ & U4 & _ & U6 & Es & _)]; [tauto|tauto|].
      split; [|split; [rewrite Es; reflexivity|split; [rewrite Es; reflexivity|split; [|exact (UF C1 C2)]]]].
      + rewrite Es. rs. assert (I1 : iter3 w1 = iter3 (sv_work s)).
        { destruct (tr _); [|subst w1; reflexivity]. revert U1. generalize w1. change (post (unscale_data (set_w_clear_update_time cc (sv_work s))) (fun w1 => iter3 w1 = iter3 (sv_work s))).
          unfold unscale_data. walk. reflexivity. }
        assert (I4 : iter3 w4 = iter3 (sv_work s)); [|unfold iter3 in *; rs; exact I4].
        { rewrite <- I1. destruct (tr _); [|subst w4; reflexivity]. revert U4. clear. set (w := set_w_data _ _). assert (Ew : iter3 w1 = iter3 w) by reflexivity. rewrite Ew. clearbody w. revert w4.
          change (post (scale_data (sv_settings s) w) (fun w4 => iter3 w4 = iter3 w)). apply scale_data_iter3. }
      + intros EX HC. assert (HF : fl = if env_fac E (ls_fac ls') =? cn (d_P (w_data w4)) then 0 else 1) by (destruct (tr _); exact (linsys_mat_flag E _ _ _ _ _ _ _ _ U6)).
        destruct (session_facts E EO _ _ _ _ _ _ _ _ _ _ HS') as (HI' & HR2 & Hsg & _).
        assert (El : w_linsys (sv_work s') = Some ls') by (rewrite Es; reflexivity).
        destruct (convex_exact_w E EX _ _ (iv_w _ HI')) with (ls := ls') as (_ & Hfac & _); eauto using inv_rho_pos, ref_convex.
        pose proof (wo_d _ _ (iv_w _ HI')) as [_ _ _ _ Hcn _ _ _ _ _ _]. assert (Ed4 : w_data (sv_work s') = w_data w4) by (rewrite Es; reflexivity). rewrite Ed4 in Hfac, Hcn.
        rewrite HF, Hfac, Hcn, Z.eqb_refl. reflexivity.
    - intros C1. apply BP in C1. destruct SH as [([(H & ->)|(H & _)] & _)|(H & _)]; [auto|congruence|congruence].
    - intros C1 C2. apply BA in C2. apply BP' in C1. destruct SH as [([(H & ->)|(H & _ & ->)] & _)|(_ & H & _)]; [congruence|auto|congruence].
    - intros HN. destruct US as [(C1 & C2 & _)|(_ & -> & _)]; [tauto|]. split; [exact HS'|].
      destruct SH as [(_ & Es)|(H1 & H2 & _)]; [|tauto]. destruct (begin_update_eq s) as (t & cc & E0). exists t, cc. congruence.
  Qed.
End Calls.
