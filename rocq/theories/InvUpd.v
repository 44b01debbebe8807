(** The data updates, warm and cold start, settings updates and osqp_setup keep or establish the invariant. *)
From Coq Require Import ZArith List Bool Lia String.
From Verif Require Import Num Arr ArrFacts Csc CscSpec CscFacts CscFacts2 Scatter Vec Types Kkt Linsys Scaling Validate Auxil Polish Api
  VecFacts LinsysFacts LinsysSolve Inv InvStep InvApi InvScale InvPolish RecSimp InvSolve ValidFacts.
Import ListNotations.
Open Scope Z_scope.

Section Upd.
  Context {K : NumOps}.
  Variable E : Env K.
  Hypothesis EO : env_ok E.
  Hypothesis MM : nltb (OSQP_RHO_MIN K) (OSQP_RHO_MAX K) = true.
  Notation dn s := (d_n (w_data (sv_work s))).
  Notation dm s := (d_m (w_data (sv_work s))).
  Notation oks := (@oks K).

  Ltac scal_tac HI := apply oks_keeps; rs; auto; [split; [reflexivity|]; destruct (wo_len _ _ (iv_w _ HI)); lens_tac|apply HI|split; auto].

  Lemma begin_update_ok (s : solver K) : Inv s -> oks s (begin_update s).
  Proof. intros HI. unfold begin_update. destruct (_ =? 1); [|apply oks_refl; auto]. scal_tac HI. Qed.

  Lemma end_update_safe (s : solver K) : Inv s -> safe (end_update E s) (oks s).
  Proof.
    intros HI. unfold end_update, reset_info.
    eapply safe_bind with (P := fun i => stat_ok i).
    { eapply safe_bind; [apply (status_safe _ OSQP_UNSOLVED); unfold OSQP_UNSOLVED; lia|]. intros i [Hi _]. apply safe_ret. exact Hi. }
    intros i Hi. unfold toc. apply safe_ret. apply oks_keeps; rs; auto; [apply keeps_refl; apply HI|split; auto].
  Qed.

  Lemma load_bound_safe (s : solver K) tmp new : Inv s -> zlen tmp = dm s -> (forall v, new = Some v -> dm s <= zlen v) ->
    safe (load_bound s tmp new) (fun t => zlen t = dm s).
  Proof.
    intros HI HL HN. unfold load_bound. destruct new as [v|]; [|apply safe_ret; auto]. specialize (HN v eq_refl).
    eapply safe_bind; [apply safe_from_raw; lia|]. intros t Ht. cbv beta in Ht. destruct (tr _) eqn:Es; [|apply safe_ret; lia].
    destruct (wo_sc _ _ (iv_w _ HI) Es) as (sc & -> & [S1 S2 S3 S4]). unfold vf_ew_prod. eapply safe_weaken; [apply safe_v2; lia|]. cbv beta. intros; lia.
  Qed.

  (** Replacing vectors of the problem by vectors of the same length. *)
  Lemma ok_data (s : solver K) d' : Inv s -> drel (w_data (sv_work s)) d' -> d_P d' = d_P (w_data (sv_work s)) -> d_A d' = d_A (w_data (sv_work s)) ->
    forall w', w_data w' = d' -> w_linsys w' = w_linsys (sv_work s) -> w_rho_vec w' = w_rho_vec (sv_work s) ->
      w_rho_inv_vec w' = w_rho_inv_vec (sv_work s) -> w_constr_type w' = w_constr_type (sv_work s) -> w_scaling w' = w_scaling (sv_work s) ->
      lens (dn s) (dm s) (tr (st_scaling (sv_settings s))) w' -> oks s (set_sv_work w' s).
  Proof.
    intros HI HD EP EA w' E1 E2 E3 E4 E5 E6 HL. pose proof HD as [Dn Dm _ _ _ _ _]. destruct HI as [[H1 H2 H3 H4 H5] HR HS HT].
    split; [|reflexivity]. split; [|split].
    - constructor; rs; rewrite ?E1, ?Dn, ?Dm; auto. constructor; rewrite ?E1, ?Dn, ?Dm; auto.
      + eapply drel_dok; eauto.
      + unfold sc_ok in *. rewrite E1, E6, Dn, Dm. auto.
      + unfold rho_ok in *. rewrite E3, E4, E5. auto.
      + unfold ls_sync, ls_rho in *. rewrite E1, E2, E5, EP, EA, Dm. auto.
    - constructor; rs; auto; rewrite E1; apply HD.
    - split; auto.
  Qed.

  Definition vec_arg (n : Z) (a : option (list K)) : Prop := forall v, a = Some v -> n <= zlen v.

  Theorem update_data_vec_safe (s : solver K) q l u : Inv s -> vec_arg (dn s) q -> vec_arg (dm s) l -> vec_arg (dm s) u ->
    safe (update_data_vec E s q l u) (fun r => oks s (snd r)).
  Proof.
    intros HI Hq Hl Hu. unfold update_data_vec. pose proof (begin_update_ok s HI) as HO0. set (s0 := begin_update s) in *. clearbody s0.
    pose proof (proj1 (proj1 HO0)) as HI0. pose proof (proj1 (proj2 (proj1 HO0))) as HF0.
    assert (Hq' : vec_arg (dn s0) q) by (destruct HF0 as [-> _ _ _ _ _ _]; auto).
    assert (Hl' : vec_arg (dm s0) l) by (destruct HF0 as [_ -> _ _ _ _ _]; auto).
    assert (Hu' : vec_arg (dm s0) u) by (destruct HF0 as [_ -> _ _ _ _ _]; auto).
    eapply safe_bind with (P := fun r => oks s0 (snd (fst r))).
    - pose proof (wo_len _ _ (iv_w _ HI0)) as HL0. pose proof (wo_d _ _ (iv_w _ HI0)) as HD0.
      assert (HH : l = None /\ u = None \/ (exists x, l = Some x) \/ (exists x, u = Some x)) by (destruct l, u; eauto).
      assert (Hbody : safe (match load_bound s0 (w_z_prev (sv_work s0)) l with Some l_tmp =>
             match load_bound s0 (w_delta_y (sv_work s0)) u with Some u_tmp =>
             let w := set_w_z_prev l_tmp (set_w_delta_y u_tmp (sv_work s0)) in
             let d := w_data w in
             match match l, u with
                   | Some _, Some _ => vf_all_leq l_tmp u_tmp
                   | Some _, None => vf_all_leq l_tmp (d_u d)
                   | None, _ => vf_all_leq (d_l d) u_tmp
                   end with Some ok =>
             if negb ok then Some (OSQP_DATA_VALIDATION_ERROR, set_sv_work w s0, true) else
             let w := match l with
                      | Some _ => set_w_z_prev (d_l (w_data w)) (set_w_data (set_d_l (w_z_prev w) (w_data w)) w)
                      | None => w
                      end in
             let w := match u with
                      | Some _ => set_w_delta_y (d_u (w_data w)) (set_w_data (set_d_u (w_delta_y w) (w_data w)) w)
                      | None => w
                      end in
             let s := set_sv_work w s0 in
             if tr (st_rho_is_vec (sv_settings s)) then match update_rho_vec E s with Some r => Some (r, false) | None => None end
             else Some (0%Z, s, false) | None => None end | None => None end | None => None end) (fun r => oks s0 (snd (fst r)))).
      { destruct HL0, HD0.
        eapply safe_bind; [apply load_bound_safe; auto|]. intros lt Hlt. cbv beta in Hlt.
        eapply safe_bind; [apply load_bound_safe; auto|]. intros ut Hut. cbv beta in Hut. cbv zeta. rs.
        eapply safe_bind with (P := fun _ => True).
        { destruct l, u; apply safe_all_leq; lia. }
        intros okb _. destruct okb; cbn [negb].
        2:{ apply safe_ret. cbn [fst snd]. apply oks_keeps; rs; auto; [|apply HI0|split; auto]. split; [reflexivity|]. lens_tac. }
        set (w1 := match l with Some _ => _ | None => _ end).
        set (w2 := match u with Some _ => _ | None => _ end).
        assert (HO1 : oks s0 (set_sv_work w2 s0)).
        { apply ok_data with (d' := w_data w2); auto; subst w2 w1; destruct l, u; rs; try reflexivity; try apply drel_refl;
            first [solve [constructor; rs; auto using same_pat_refl; lia] | lens_tac]. }
        clearbody w2. clear w1. destruct (tr (st_rho_is_vec (sv_settings s0))) eqn:Ev.
        - eapply safe_bind; [apply update_rho_vec_safe; [apply HO1|exact Ev]|]. intros [fl s2] (HO2 & Es2 & _). cbn [snd] in *. apply safe_ret. cbn [fst snd].
          eapply oks_trans; [exact HO1|]. split; auto.
        - apply safe_ret. exact HO1. }
      destruct HH as [(-> & ->)|HH].
      + apply safe_ret. apply oks_refl; auto.
      + destruct HH as [(x & Ex)|(x & Ex)]; rewrite Ex in *; [|destruct l]; exact Hbody.
    - intros [[fl s1] failed] HO1. cbn [fst snd] in HO1. pose proof (oks_trans _ _ _ HO0 HO1) as HO2. pose proof (proj1 (proj1 HO2)) as HI1.
      destruct failed; [apply safe_ret; exact HO2|].
      pose proof (proj1 (proj2 (proj1 HO1))) as HF1. assert (Hq1 : vec_arg (dn s1) q) by (destruct HF1 as [-> _ _ _ _ _ _]; auto).
      eapply safe_bind with (P := oks s1).
      + destruct q as [qv|]; [|apply safe_ret, oks_refl; auto]. specialize (Hq1 qv eq_refl).
        pose proof (wo_d _ _ (iv_w _ HI1)) as []. pose proof (wo_len _ _ (iv_w _ HI1)) as HL1.
        eapply safe_bind; [apply safe_from_raw; lia|]. intros q1 Lq1. cbv beta in Lq1.
        eapply safe_bind with (P := fun q2 => zlen q2 = dn s1).
        { destruct (tr _) eqn:Es; [|apply safe_ret; lia]. destruct (wo_sc _ _ (iv_w _ HI1) Es) as (sc & -> & [S1 S2 S3 S4]).
          unfold vf_ew_prod. eapply safe_bind; [apply safe_v2; lia|]. intros q2 Lq2. cbv beta in Lq2. apply safe_ret. unfold vf_mult_scalar. rewrite zlen_map. lia. }
        intros q2 Lq2. apply safe_ret. apply ok_data with (d' := set_d_q q2 (w_data (sv_work s1))); rs; auto;
          [constructor; rs; auto using same_pat_refl; lia|destruct HL1; lens_tac].
      + intros s2 HO3. eapply safe_bind; [apply end_update_safe; apply HO3|]. intros s3 HO4. apply safe_ret. cbn [snd].
        eapply oks_trans; [exact HO2|]. eapply oks_trans; eauto.
  Qed.

  (** Any settings with the same rho, sigma, scaling and rho_is_vec. *)
  Lemma oks_settings (s : solver K) st : Inv s -> st_rho st = st_rho (sv_settings s) -> st_sigma st = st_sigma (sv_settings s) ->
    st_scaling st = st_scaling (sv_settings s) -> st_rho_is_vec st = st_rho_is_vec (sv_settings s) -> oks s (set_sv_settings st s).
  Proof.
    intros [[H1 H2 H3 H4 H5] HR HS HT] E1 E2 E3 E4. split; [|reflexivity]. split; [|split].
    - constructor; rs; auto; [|rewrite E1; auto]. constructor; rs; auto.
      + unfold sc_ok in *. rewrite E3. auto.
      + unfold rho_ok in *. rewrite E4, E1. auto.
      + unfold ls_sync, ls_rho in *. rewrite E4, E1, E2. auto.
      + rewrite E3. auto.
    - constructor; rs; auto using same_pat_refl.
    - split; auto.
  Qed.

  Theorem warm_start_safe (s : solver K) x y : Inv s -> vec_arg (dn s) x -> vec_arg (dm s) y ->
    safe (warm_start s x y) (fun r => oks s (snd r) /\ sv_info (snd r) = sv_info s).
  Proof.
    intros HI Hx Hy. unfold warm_start. cbv zeta.
    set (s1 := if negb _ then _ else s).
    assert (HO1 : oks s s1 /\ sv_work s1 = sv_work s /\ sv_info s1 = sv_info s).
    { subst s1. destruct (negb _); [|split; [apply oks_refl; auto|auto]]. split; [|auto]. apply oks_settings; auto. }
    clearbody s1. destruct HO1 as (HO1 & Ew & Ei). pose proof (proj1 (proj1 HO1)) as HI1. rewrite <- Ew in Hx, Hy.
    pose proof (iv_w _ HI1) as HW. set (w := sv_work s1) in *. set (st := sv_settings s1) in *.
    eapply safe_bind with (P := keeps st w).
    { destruct x as [v|]; [|apply safe_ret, keeps_refl; auto]. specialize (Hx v eq_refl). pose proof (wo_len _ _ HW) as HL. fold w in HL.
      eapply safe_bind; [apply safe_from_raw; destruct HL; lia|]. intros v1 L1. cbv beta in L1.
      eapply safe_bind with (P := fun v => zlen v = d_n (w_data w)).
      { destruct (tr _) eqn:Es; [|apply safe_ret; destruct HL; lia]. destruct (wo_sc _ _ HW Es) as (sc & -> & [S1 S2 S3 S4]).
        unfold vf_ew_prod. eapply safe_weaken; [apply safe_v2; destruct HL; lia|]. cbv beta. intros; destruct HL; lia. }
      intros v2 L2. cbv beta in L2. apply safe_ret. split; [reflexivity|]. destruct HL; lens_tac. }
    intros w1 HK1. pose proof (wok_keeps _ _ _ HW HK1) as HW1. assert (Ed1 : w_data w1 = w_data w) by (destruct HK1 as [C _]; apply core_eq in C; apply C).
    eapply safe_bind with (P := keeps st w).
    { destruct y as [v|]; [|apply safe_ret; auto]. specialize (Hy v eq_refl). pose proof (wo_len _ _ HW1) as HL. rewrite Ed1 in HL.
      eapply safe_bind; [apply safe_from_raw; destruct HL; lia|]. intros v1 L1. cbv beta in L1.
      eapply safe_bind with (P := fun v => zlen v = d_m (w_data w)).
      { destruct (tr _) eqn:Es; [|apply safe_ret; destruct HL; lia]. destruct (wo_sc _ _ HW1 Es) as (sc & -> & [S1 S2 S3 S4]). rewrite Ed1 in *.
        unfold vf_ew_prod. eapply safe_bind; [apply safe_v2; destruct HL; lia|]. intros v2 L2. cbv beta in L2. apply safe_ret.
        unfold vf_mult_scalar. rewrite zlen_map. destruct HL; lia. }
      intros v2 L2. cbv beta in L2. apply safe_ret. eapply keeps_trans; [exact HK1|]. split; [reflexivity|]. rewrite Ed1. destruct HL; lens_tac. }
    intros w2 HK2. pose proof (wok_keeps _ _ _ HW HK2) as HW2. assert (Ed2 : w_data w2 = w_data w) by (destruct HK2 as [C _]; apply core_eq in C; apply C).
    eapply safe_bind with (P := keeps st w).
    { destruct x as [v|]; [|apply safe_ret; auto]. pose proof (wo_len _ _ HW2) as HL. rewrite Ed2 in HL. pose proof (wo_d _ _ HW2) as []. rewrite Ed2 in *.
      eapply safe_bind; [apply safe_Axpy; destruct HL; auto; lia|]. intros z Lz. cbv beta in Lz. apply safe_ret.
      eapply keeps_trans; [exact HK2|]. split; [reflexivity|]. rewrite Ed2. destruct HL; lens_tac. }
    intros w3 HK3. pose proof (wok_keeps _ _ _ HW HK3) as HW3. destruct (wo_ls _ _ HW3) as (ls & r & -> & _).
    apply safe_ret. cbn [snd]. split; [|exact Ei]. eapply oks_trans; [exact HO1|]. apply oks_keeps; rs; auto; [apply HI1|split; auto].
  Qed.

  Theorem cold_start_api_safe (s : solver K) : Inv s -> safe (osqp_cold_start (HSolver s)) (fun h => exists s', h = HSolver s' /\ oks s s' /\ sv_info s' = sv_info s).
  Proof.
    intros HI. unfold osqp_cold_start. eapply safe_bind; [apply cold_start_safe with (st := sv_settings s); apply HI|]. intros w HK. apply safe_ret.
    eexists. split; [reflexivity|]. split; auto. apply oks_keeps; rs; auto; [apply HI|split; auto].
  Qed.

  Theorem update_settings_safe (s : solver K) new : Inv s ->
    safe (osqp_update_settings (HSolver s) new) (fun r => exists s', snd r = HSolver s' /\ oks s s' /\ sv_info s' = sv_info s).
  Proof.
    intros HI. unfold osqp_update_settings. destruct (validate_settings new false) eqn:EV.
    { apply safe_ret. exists s. split; auto. split; auto. apply oks_refl; auto. }
    destruct new as [st|]; [|discriminate EV]. destruct (wo_ls _ _ (iv_w _ HI)) as (ls & r & -> & _). apply safe_ret. eexists. split; [reflexivity|].
    split; auto. apply oks_settings; auto.
  Qed.

  Lemma touched_dec idx n k : touched idx n k \/ ~ touched idx n k.
  Proof.
    destruct idx as [d|]; cbn [touched]; [|lia].
    destruct (existsb (fun j => znth 0 d j =? k) (zseq 0 n)) eqn:Ex.
    - left. apply existsb_exists in Ex as (j & Hj & E1). exists j. apply In_zseq in Hj. split; [auto|lia].
    - right. intros (j & Hj & E1). assert (HT : existsb (fun j => znth 0 d j =? k) (zseq 0 n) = true); [|congruence].
      apply existsb_exists. exists j. rewrite In_zseq. split; [auto|lia].
  Qed.

  Lemma update_values_safe (M : csc K) new idx n : wf M -> 0 <= n -> n <= zlen new -> idx_ok idx n (nnz M) ->
    safe (csc_update_values M new idx n) (fun M' => same_pat M M' /\
      forall k, 0 <= k < nnz M -> touched idx n k \/ znth n0 (cx M') k = znth n0 (cx M) k).
  Proof.
    intros W H0 H1 HI. pose proof (wf_xlen _ W). destruct idx as [d|]; cbn [idx_ok] in HI.
    - destruct HI as [HL HR]. destruct (csc_update_values_idx M n0 new d n) as (M' & -> & E1 & E2 & E3 & E4 & E5 & E6 & E7 & _ & HV); auto.
      { intros i Hi. specialize (HR i Hi). lia. }
      apply safe_ret. split; [apply same_pat_intro; auto|]. intros k Hk. destruct (touched_dec (Some d) n k) as [HT|HT]; [auto|right].
      apply HV. intros i Hi Ei. apply HT. exists i. auto.
    - destruct (csc_update_values_all M n0 new n) as (M' & -> & E1 & E2 & E3 & E4 & E5 & E6 & E7 & HV); auto; [lia|].
      apply safe_ret. split; [apply same_pat_intro; auto|]. intros k Hk. rewrite HV. destruct (_ && _) eqn:Eb; [left; cbn [touched]; lia|auto].
  Qed.

  (** The arrays passed to osqp_update_data_mat for a matrix with nz stored entries; only needed when the
      count passes the function's own test, and a count of 0 means all entries. *)
  Definition mat_arg (nz n : Z) (x : option (list K)) (idx : option (list Z)) : Prop :=
    0 <= n <= nz -> let n' := if n =? 0 then nz else n in
    (forall v, x = Some v -> n' <= zlen v) /\
    (forall d, idx = Some d -> n' <= zlen d /\ forall j, 0 <= j < n' -> 0 <= znth 0 d j < nz).

  Lemma update_ls_ok (s : solver K) w ls : Inv s -> drel (w_data (sv_work s)) (w_data w) ->
    w_linsys (sv_work s) = Some ls ->
    w_rho_vec w = w_rho_vec (sv_work s) -> w_rho_inv_vec w = w_rho_inv_vec (sv_work s) -> w_constr_type w = w_constr_type (sv_work s) ->
    sc_ok (sv_settings s) w -> lens (dn s) (dm s) (tr (st_scaling (sv_settings s))) w ->
    forall Pidx Pn Aidx An, idx_ok Pidx Pn (nnz (d_P (w_data (sv_work s)))) -> idx_ok Aidx An (nnz (d_A (w_data (sv_work s)))) ->
    (forall k, 0 <= k < nnz (d_P (w_data (sv_work s))) -> touched Pidx Pn k \/ znth n0 (cx (d_P (w_data w))) k = znth n0 (cx (d_P (w_data (sv_work s)))) k) ->
    (forall k, 0 <= k < nnz (d_A (w_data (sv_work s))) -> touched Aidx An k \/ znth n0 (cx (d_A (w_data w))) k = znth n0 (cx (d_A (w_data (sv_work s)))) k) ->
    safe (update_linsys_matrices E ls (d_P (w_data w)) Pidx Pn (d_A (w_data w)) Aidx An) (fun r => oks s (set_sv_work (set_w_linsys (Some (snd r)) w) s)).
  Proof.
    intros HI HD Els E3 E4 E5 HSC HL Pidx Pn Aidx An IP IA TP TA. pose proof HD as [Dn Dm DP DA _ _ _].
    destruct HI as [[H1 H2 H3 (ls0 & r & F1 & F2 & F3 & F4) H5] HR HS HT]. assert (ls0 = ls) by congruence. subst ls0. clear F1.
    pose proof H1 as []. destruct do_Pt as [Hsq _].
    pose proof (proj1 DP) as EP. pose proof (proj1 DA) as EA. pose proof (proj2 DP). pose proof (proj2 DA).
    pose proof (wf_xlen _ do_P). pose proof (wf_xlen _ do_A).
    destruct (update_linsys_matrices_spec E ls _ _ (st_sigma (sv_settings s)) r (cx (d_P (w_data w))) (cx (d_A (w_data w))) Pidx Pn Aidx An do_P do_A) as (ls' & G1 & G2 & G3 & G4); auto; [lia|lia|lia|].
    rewrite <- EP, <- EA in G1, G2. rewrite G1. apply safe_ret. cbn [snd].
    split; [|reflexivity]. split; [|split].
    - constructor; rs; rewrite ?Dn, ?Dm; auto. constructor; rs; rewrite ?Dn, ?Dm; auto.
      + eapply drel_dok; eauto.
      + unfold rho_ok in *. rs. rewrite E3, E4, E5. auto.
      + exists ls', r. rs. split; auto. split; auto. split.
        * intros j Hj. unfold rinv. rewrite G3, G4. apply F3. lia.
        * unfold ls_rho in *. rs. rewrite G3, G4, E5. auto.
      + destruct HL; lens_tac.
    - constructor; rs; auto; apply HD.
    - split; auto.
  Qed.

  Theorem update_data_mat_safe (s : solver K) Px Pidx Pn Ax Aidx An : Inv s ->
    mat_arg (nnz (d_P (w_data (sv_work s)))) Pn Px Pidx -> mat_arg (nnz (d_A (w_data (sv_work s)))) An Ax Aidx ->
    safe (update_data_mat E s Px Pidx Pn Ax Aidx An) (fun r => oks s (snd r)).
  Proof.
    intros HI HP HA. unfold update_data_mat. pose proof (begin_update_ok s HI) as HO0.
    assert (Ed0 : w_data (sv_work (begin_update s)) = w_data (sv_work s)) by (unfold begin_update; destruct (_ =? 1); reflexivity).
    rewrite <- Ed0 in HP, HA. set (s0 := begin_update s) in *. clearbody s0. clear Ed0. pose proof (proj1 (proj1 HO0)) as HI0.
    pose proof (iv_w _ HI0) as HW0. pose proof (wo_d _ _ HW0) as HD0. pose proof HD0 as []. cbv zeta.
    set (w := sv_work s0) in *. set (d := w_data w) in *.
    rewrite (zget_nnz (d_P d)), (zget_nnz (d_A d)) by auto.
    pose proof (nnz_nonneg _ do_P) as NP. pose proof (nnz_nonneg _ do_A) as NA.
    destruct ((nnz (d_P d) <? Pn) || (Pn <? 0)) eqn:B1; [apply safe_ret; exact HO0|].
    destruct (_ && _ && _) eqn:B2; [apply safe_ret; exact HO0|].
    destruct ((nnz (d_A d) <? An) || (An <? 0)) eqn:B3; [apply safe_ret; exact HO0|].
    match goal with |- safe (if ?b then _ else _) _ => destruct b eqn:B4 end; [apply safe_ret; exact HO0|].
    destruct (HP ltac:(lia)) as [HPv HPi]. destruct (HA ltac:(lia)) as [HAv HAi]. clear HP HA.
    set (Pn' := if Pn =? 0 then _ else _) in *. set (An' := if An =? 0 then _ else _) in *.
    assert (RP : 0 <= Pn' <= nnz (d_P d)) by (subst Pn'; destruct (Pn =? 0); lia).
    assert (RA : 0 <= An' <= nnz (d_A d)) by (subst An'; destruct (An =? 0); lia).
    assert (IP : idx_ok Pidx Pn' (nnz (d_P d))). { destruct Pidx as [dd|]; cbn [idx_ok]; [apply HPi; auto|lia]. }
    assert (IA : idx_ok Aidx An' (nnz (d_A d))). { destruct Aidx as [dd|]; cbn [idx_ok]; [apply HAi; auto|lia]. }
    set (scaled := tr (st_scaling (sv_settings s0))) in *.
    pose proof (wo_len _ _ HW0) as HL0. fold w scaled in HL0. fold d in HL0.
    eapply safe_bind with (P := fun w1 => exists d1, w1 = set_w_data d1 w /\ drel d d1 /\ (scaled = false -> d1 = d)).
    { destruct scaled eqn:Es.
      - destruct (wo_sc _ _ HW0 Es) as (sc & E1 & SC). eapply safe_weaken; [apply (unscale_data_safe w sc); auto|].
        intros w1 (d1 & -> & HD). exists d1. split; auto. split; auto. discriminate.
      - apply safe_ret. exists d. split; [subst d; clear; destruct w; reflexivity|]. split; [apply drel_refl|auto]. }
    intros w1 (d1 & -> & HD1 & Ed1). pose proof (drel_dok _ _ HD1 HD0) as HDd1.
    assert (N1 : nnz (d_P d1) = nnz (d_P d) /\ nnz (d_A d1) = nnz (d_A d)) by (split; apply same_pat_nnz; apply HD1). destruct N1 as [N1 N1'].
    eapply safe_bind with (P := fun w2 => exists d2, w2 = set_w_data d2 w /\ drel d d2 /\
        (scaled = false -> d_A d2 = d_A d /\ forall k, 0 <= k < nnz (d_P d) -> touched Pidx Pn' k \/ znth n0 (cx (d_P d2)) k = znth n0 (cx (d_P d)) k)).
    { destruct Px as [v|].
      - eapply safe_bind; [apply update_values_safe with (n := Pn'); rs; [apply HDd1|lia|apply HPv; auto|rewrite N1; auto]|].
        intros P2 (HP2 & HT2). rs. rs_in HP2. rs_in HT2. apply safe_ret. exists (set_d_P P2 d1). split; [clear; destruct w; reflexivity|]. split.
        + eapply drel_trans; [exact HD1|]. constructor; rs; auto using same_pat_refl.
        + intros Es. specialize (Ed1 Es). subst d1. rs. split; auto.
      - apply safe_ret. exists d1. split; auto. split; auto. intros Es. rewrite (Ed1 Es). split; auto. }
    intros w2 (d2 & -> & HD2 & Ed2). pose proof (drel_dok _ _ HD2 HD0) as HDd2.
    assert (N2' : nnz (d_A d2) = nnz (d_A d)) by (apply same_pat_nnz; apply HD2).
    eapply safe_bind with (P := fun w3 => exists d3, w3 = set_w_data d3 w /\ drel d d3 /\
        (scaled = false -> (forall k, 0 <= k < nnz (d_P d) -> touched Pidx Pn' k \/ znth n0 (cx (d_P d3)) k = znth n0 (cx (d_P d)) k) /\
           forall k, 0 <= k < nnz (d_A d) -> touched Aidx An' k \/ znth n0 (cx (d_A d3)) k = znth n0 (cx (d_A d)) k)).
    { destruct Ax as [v|].
      - eapply safe_bind; [apply update_values_safe with (n := An'); rs; [apply HDd2|lia|apply HAv; auto|rewrite N2'; auto]|].
        intros A3 (HA3 & HT3). rs. rs_in HA3. rs_in HT3. apply safe_ret. exists (set_d_A A3 d2). split; [clear; destruct w; reflexivity|]. split.
        + eapply drel_trans; [exact HD2|]. constructor; rs; auto using same_pat_refl.
        + intros Es. destruct (Ed2 Es) as [E1 E2]. rs. split; auto. rewrite E1 in HT3. rewrite <- E1, N2', E1. auto.
      - apply safe_ret. exists d2. split; auto. split; auto. intros Es. destruct (Ed2 Es) as [E1 E2]. split; auto. rewrite E1. auto. }
    intros w3 (d3 & -> & HD3 & Ed3). pose proof (drel_dok _ _ HD3 HD0) as HDd3. pose proof HD3 as [Dn3 Dm3 _ _ _ _ _].
    destruct (wo_ls _ _ HW0) as (ls & rr & Els & _). fold w in Els.
    eapply safe_bind with (P := fun w4 => drel d (w_data w4) /\ (scaled = false -> w_data w4 = d3) /\ w_linsys w4 = w_linsys w /\
       w_rho_vec w4 = w_rho_vec w /\ w_rho_inv_vec w4 = w_rho_inv_vec w /\ w_constr_type w4 = w_constr_type w /\
       sc_ok (sv_settings s0) w4 /\ lens (d_n d) (d_m d) scaled w4).
    { destruct scaled eqn:Es.
      - destruct (wo_sc _ _ HW0 Es) as (sc & E1 & SC). destruct HL0.
        eapply safe_weaken; [apply (scale_data_safe (sv_settings s0) (set_w_data d3 w) sc); rs; [exact HDd3|split; [|split]; rs; rewrite ?Dn3, ?Dm3; auto|exact E1|rewrite Dn3, Dm3; exact SC]|].
        intros w4 (d4 & a & b & c & sc' & -> & HD4 & La & Lb & Lc & SC'). rs_in HD4. rs_in La. rs_in Lb. rs_in Lc. rs_in SC'. rewrite Dn3, Dm3 in *. unfold wscal. rs.
        pose proof (drel_trans _ _ _ HD3 HD4) as HD. pose proof HD as [Dn Dm _ _ _ _ _].
        split; [auto|]. split; [discriminate|]. repeat (split; [reflexivity|]). split.
        + unfold sc_ok. rs. intros _. exists sc'. split; auto. rewrite Dn, Dm. auto.
        + lens_tac.
      - apply safe_ret. rs. split; auto. split; auto. repeat (split; [reflexivity|]). split.
        + unfold sc_ok. intros X. unfold scaled in Es. congruence.
        + destruct HL0; lens_tac. }
    intros w4 (HD4 & Ed4 & F1 & F2 & F3 & F4 & HSC4 & HL4). rewrite F1, Els.
    eapply safe_bind with (P := fun r => oks s0 (set_sv_work (set_w_linsys (Some (snd r)) w4) s0)).
    { destruct scaled eqn:Es.
      - apply update_ls_ok; auto; cbn [idx_ok touched]; fold w; fold d; try lia; auto; unfold scaled in Es; rewrite Es; exact HL4.
      - specialize (Ed4 eq_refl). destruct (Ed3 eq_refl) as [TP TA].
        apply update_ls_ok; auto; try (rewrite Ed4; auto); unfold scaled in Es; rewrite Es; exact HL4. }
    intros [fl ls'] HO5. cbn [snd] in *. cbv beta in HO5.
    eapply safe_bind; [apply end_update_safe; apply HO5|]. intros s6 HO6. apply safe_ret. cbn [snd].
    eapply oks_trans; [exact HO0|]. eapply oks_trans; eauto.
  Qed.
End Upd.
