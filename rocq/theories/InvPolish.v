(** Solution polishing stays within its arrays and preserves the invariant. *)
From Coq Require Import ZArith List Bool Lia String.
From Verif Require Import Num Arr ArrFacts Csc CscSpec CscFacts CscFacts3 CscFacts4 Scatter Placed Vec Types Kkt KktFacts KktFacts2 KktFacts3 KktDense
  Linsys Scaling Validate Auxil Polish VecFacts LinsysFacts LinsysSolve Inv InvStep InvApi InvScale RecSimp.
Import ListNotations.
Open Scope Z_scope.

Section PolishInv.
  Context {K : NumOps}.
  Variable E : Env K.
  Hypothesis EO : env_ok E.

  (** The linear system solver built for polishing. *)
  Record pls_ok (ls : linsys K) (P A : csc K) (sigma : K) : Prop := {
    po_n : ls_n ls = cn P; po_m : ls_m ls = cm A; po_pol : ls_polishing ls = true;
    po_plen : zlen (ls_perm ls) = cm A + cn P; po_perm : perm_ok (Some (ls_perm ls)) (cm A + cn P);
    po_triu : triu (ls_fac ls); po_cn : cn (ls_fac ls) = cm A + cn P;
    po_fac : exists M q, placed (kcol P A false) (krow P A false) (kval P A sigma (fun _ => nsub n0 sigma)) (kitems P A false) (ksl P A false) M /\
      cn M = cm A + cn P /\ triu M /\ perm_ok (Some q) (cm A + cn P) /\
      (forall i, 0 <= i < cm A + cn P -> znth 0 (ls_perm ls) (znth 0 q i) = i) /\
      csc_symperm (env_jz E) (env_jx E) M (Some q) None = Some (ls_fac ls, None) }.

  Lemma init_polish_spec (P A : csc K) st : wf P -> triu P -> wf A -> cn A = cn P ->
    exists res, init_linsys_solver E P A None st true = Some res /\
      (res = (OSQP_NONCVX_ERROR, None) /\ (exists ls, LDL_factor E (ls_fac ls) (cn P) < 0 /\ pls_ok ls P A (st_sigma st)) \/
       exists ls, res = (OSQP_NO_ERROR, Some ls) /\ LDL_factor E (ls_fac ls) (cn P) = 0 /\ pls_ok ls P A (st_sigma st)).
  Proof.
    intros WP TP WA HnA. pose proof (wf_n _ WP) as HnP. pose proof (wf_m _ WA) as HmA.
    unfold init_linsys_solver. cbv zeta.
    destruct (form_KKT_spec P A WP WA (proj1 TP) HnA (env_jz E) (env_jx E) (st_sigma st) None (st_sigma st) None None None)
      as (M & mP & mA & mR & -> & PL & HcM & HnM & HnnM & _ & _ & _ & _ & MP & MA & MR); try discriminate.
    assert (TM : triu M).
    { eapply placed_triu; [exact PL|lia|]. apply kitems_triu; auto. }
    set (N := cm A + cn P) in *.
    unfold permute_KKT. destruct (eo_amd _ EO (cn M) (cp M) (ci M)) as (perm & -> & Lperm & Pperm); [unfold N in *; lia|].
    rewrite HnM in Lperm, Pperm |- *. destruct Pperm as (Pp1 & Pp2 & Pp3).
    destruct (csc_pinv_spec (env_jz E) perm N ltac:(unfold N; lia) ltac:(lia) Pp2 Pp3) as (q & -> & Lq & Vq1 & Vq2 & Pq).
    destruct (csc_symperm_spec M (env_jz E) (env_jx E) (Some q) None (pl_wf _ _ _ _ _ _ PL) (proj1 TM)) as (C & T & Es & WC & TC & HmC & HnC & _ & _ & _ & _ & _ & _ & _ & HM).
    { rewrite HnM. exact Pq. } { discriminate. }
    destruct T; [destruct HM|]. rewrite Es. cbn [fst snd].
    set (ls := mklinsys (cn P) (cm A) (st_sigma st) (n1 / st_rho st)%num None true perm None [] [] [] C).
    assert (PO : pls_ok ls P A (st_sigma st)).
    { constructor; cbn [ls ls_n ls_m ls_polishing ls_perm ls_fac]; auto.
      - split; auto.
      - rewrite HnC. auto.
      - exists M, q. split; [exact PL|]. split; auto. split; auto. split; auto. split; auto. intros i Hi. apply Vq2; auto. }
    destruct (Z.ltb_spec (LDL_factor E C (cn P)) 0) as [Hf|Hf].
    { eexists; split; [reflexivity|]. left. split; [reflexivity|]. exists ls. auto. }
    eexists; split; [reflexivity|]. right. exists ls. split; [reflexivity|]. split; [|auto]. cbn [ls ls_fac].
    unfold LDL_factor in *. destruct (env_fac E C <? 0) eqn:E1; [lia|]. destruct (env_fac E C <? cn P); lia.
  Qed.

  Lemma polish_solve_safe ls (P A : csc K) sigma b : wf P -> wf A -> pls_ok ls P A sigma -> zlen b = cn P + cm A ->
    safe (solve_linsys E ls b) (fun b' => zlen b' = zlen b).
  Proof.
    intros WP WA [H1 H2 H3 H4 H5 _ _ _] Hb. unfold solve_linsys. rewrite H3. pose proof (wf_n _ WP). pose proof (wf_m _ WA).
    destruct (LDLSolve_spec E EO ls b b (cm A + cn P)) as (bp & x & _ & _ & -> & HL & _); auto; try lia.
    apply safe_ret; auto.
  Qed.

  Lemma rank_succ rows t : 0 <= t -> rank rows (t + 1) = rank rows t + (if znth 0 rows t =? 0 then 0 else 1).
  Proof.
    intros Ht. unfold rank. rewrite zseq_snoc by lia. rewrite filter_app, zlen_app. cbn [filter]. unfold selb at 2. destruct (znth 0 rows t =? 0); cbn; reflexivity.
  Qed.

  (** Flags of the active constraints. *)
  Definition flags_of (w : work K) : list Z :=
    map (fun j => active_flag (znth n0 (w_z w) j) (znth n0 (d_l (w_data w)) j) (znth n0 (d_u (w_data w)) j) (znth n0 (w_y w) j)) (zseq 0 (d_m (w_data w))).

  Lemma form_Ared_safe st w : wok st w ->
    safe (form_Ared E w) (fun r => p_active_flags (fst r) = flags_of w /\ p_n_active (fst r) = rank (flags_of w) (d_m (w_data w)) /\
      fst r = set_p_active_flags (p_active_flags (fst r)) (set_p_n_active (p_n_active (fst r)) (w_pol w)) /\
      csc_submatrix_byrows (env_jz E) (env_jx E) (d_A (w_data w)) (flags_of w) = Some (snd r) /\
      wf (snd r) /\ cm (snd r) = rank (flags_of w) (d_m (w_data w)) /\ cn (snd r) = d_n (w_data w)).
  Proof.
    intros H. destruct H as [Hd _ _ _ Hl]. destruct Hd, Hl. unfold form_Ared.
    set (m := d_m (w_data w)) in *.
    assert (Lfl : zlen (flags_of w) = m) by (unfold flags_of; rewrite zlen_map, zlen_zseq; fold m; lia).
    assert (Vfl : forall j, 0 <= j < m -> znth 0 (flags_of w) j = active_flag (znth n0 (w_z w) j) (znth n0 (d_l (w_data w)) j) (znth n0 (d_u (w_data w)) j) (znth n0 (w_y w) j)).
    { intros j Hj. unfold flags_of. fold m. rewrite (znth_map 0 0) by (rewrite zlen_zseq; lia). rewrite znth_zseq by lia. auto. }
    loop_rule (fun t (s : list Z * Z) => zlen (fst s) = m /\ snd s = rank (flags_of w) t /\ forall j, 0 <= j < t -> znth 0 (fst s) j = znth 0 (flags_of w) j) HR.
    destruct HR as ([fl na] & -> & Lf & Hna & Vf); [auto| | |].
    - cbn [fst snd]. split; auto. split; auto. intros; lia.
    - intros j [fl c] Hj (Lf & Hc & Vf). cbn [fst snd] in *.
      rewrite (zget_Some n0 (w_z w)), (zget_Some n0 (d_l (w_data w))), (zget_Some n0 (d_u (w_data w))), (zget_Some n0 (w_y w)) by lia.
      rewrite <- (Vfl j) by lia. rewrite zset_Some by lia. eexists; split; [reflexivity|]. cbn [fst snd].
      rewrite zlen_upd. split; auto. split.
      + rewrite rank_succ by lia. subst c. destruct (znth 0 (flags_of w) j =? 0); lia.
      + intros i Hi. rewrite znth_upd by lia. destruct (Z.eqb_spec i j) as [->|]; auto. apply Vf. lia.
    - cbn [fst snd] in *. assert (Efl : fl = flags_of w) by (apply (list_ext_znth 0); [lia|intros; apply Vf; lia]). subst fl na.
      destruct (csc_submatrix_byrows_spec (d_A (w_data w)) (env_jz E) (env_jx E) (flags_of w)) as (R & ER & WR & HmR & HnR & _); auto; [lia|].
      rewrite ER. apply safe_ret. cbn [fst snd]. rs. split; auto. split; auto. split; [reflexivity|]. split; auto.
      split; auto. split; [rewrite HmR; congruence|congruence].
  Qed.

  Lemma rank_nonneg rows i : 0 <= rank rows i. Proof. apply zlen_nonneg. Qed.
  Lemma rank_le rows i j : 0 <= i <= j -> rank rows i <= rank rows j.
  Proof. intros H. unfold rank. rewrite (zseq_app 0 i j) by lia. rewrite filter_app, zlen_app. pose proof (zlen_nonneg (filter (selb rows) (zseq i j))). lia. Qed.

  Lemma form_rhs_safe w rhs : dok (w_data w) -> p_active_flags (w_pol w) = flags_of w ->
    zlen rhs = d_n (w_data w) + rank (flags_of w) (d_m (w_data w)) ->
    safe (form_rhs_red w rhs) (fun r => zlen r = zlen rhs).
  Proof.
    intros [] Hf Hr. unfold form_rhs_red. rewrite Hf. set (n := d_n (w_data w)) in *. set (m := d_m (w_data w)) in *.
    assert (Lfl : zlen (flags_of w) = m) by (unfold flags_of; rewrite zlen_map, zlen_zseq; fold m; lia).
    pose proof (rank_nonneg (flags_of w) m) as Hrk.
    eapply safe_bind.
    - apply (safe_for (fun r : list K => zlen r = zlen rhs)); auto.
      intros j r Hj Hl. rewrite (zget_Some n0) by lia. rewrite zset_Some by lia. apply safe_ret. rewrite zlen_upd. auto.
    - intros r1 L1. cbv beta in L1.
      loop_rule (fun t (s : list K * Z) => zlen (fst s) = zlen rhs /\ snd s <= rank (flags_of w) t /\ 0 <= snd s) HR.
      destruct HR as ([r2 c] & -> & L2 & _); [auto| | |].
      + cbn [fst snd]. pose proof (rank_nonneg (flags_of w) 0). lia.
      + intros j [r c] Hj (Lr & Hc & Hc0). cbn [fst snd] in *. rewrite (zget_Some 0) by lia. pose proof (rank_succ (flags_of w) j ltac:(lia)) as Hs.
        pose proof (rank_le (flags_of w) (j + 1) m ltac:(lia)) as Hle.
        destruct (Z.eqb_spec (znth 0 (flags_of w) j) (-1)) as [e|ne]; [|destruct (Z.eqb_spec (znth 0 (flags_of w) j) 1) as [e|ne1]].
        * rewrite e in Hs. cbn [Z.eqb] in Hs. rewrite (zget_Some n0) by lia. rewrite zset_Some by lia. eexists; split; [reflexivity|]. cbn [fst snd]. rewrite zlen_upd. lia.
        * rewrite e in Hs. cbn [Z.eqb] in Hs. rewrite (zget_Some n0) by lia. rewrite zset_Some by lia. eexists; split; [reflexivity|]. cbn [fst snd]. rewrite zlen_upd. lia.
        * eexists; split; [reflexivity|]. cbn [fst snd]. destruct (znth 0 (flags_of w) j =? 0); lia.
      + cbn [fst snd] in *. apply safe_ret. auto.
  Qed.

  Lemma refine_safe st w Ared p z b : dok (w_data w) -> wf Ared -> cn Ared = d_n (w_data w) -> pls_ok p (d_P (w_data w)) Ared (st_sigma st) ->
    zlen z = d_n (w_data w) + cm Ared -> zlen b = d_n (w_data w) + cm Ared ->
    safe (iterative_refinement E st w Ared p z b) (fun r => zlen r = zlen z).
  Proof.
    intros [] WA HnA HP Hz Hb. destruct do_Pt as (Hsq & _). pose proof (wf_m _ WA) as HmA. unfold iterative_refinement. destruct (_ <=? 0); [apply safe_ret; auto|].
    eapply safe_bind; [apply (safe_for (fun s : list K * list K => zlen (fst s) = zlen z /\ zlen (snd s) = zlen z))|].
    - cbn [fst snd]. split; auto. rewrite zlen_zrep; lia.
    - intros i [z1 rhs] _ (L1 & L2). cbn [fst snd] in *.
      bind. bind. bind. bind. bind. bind. bind. bind. bind. bind.
      eapply safe_bind; [eapply polish_solve_safe; [| |exact HP|]; auto; lia|]. intros r3 L3. cbv beta in L3. bind. apply safe_ret. cbn [fst snd]. lia.
    - intros [z1 rhs] (L1 & L2). apply safe_ret. auto.
  Qed.

  Lemma ypol_safe st w yred : wok st w -> p_active_flags (w_pol w) = flags_of w -> p_n_active (w_pol w) = rank (flags_of w) (d_m (w_data w)) ->
    zlen yred = rank (flags_of w) (d_m (w_data w)) ->
    safe (get_ypol_from_yred w yred) (fun r => zlen r = d_m (w_data w)).
  Proof.
    intros [Hd _ _ _ Hl] Hf Hn HL. destruct Hd, Hl. unfold get_ypol_from_yred. destruct (_ =? 0).
    { apply safe_ret. unfold vf_set_scalar. rewrite zlen_map. auto. }
    rewrite Hf. bind. set (m := d_m (w_data w)) in *.
    assert (Lfl : zlen (flags_of w) = m) by (unfold flags_of; rewrite zlen_map, zlen_zseq; fold m; lia).
    loop_rule (fun t (s : list K * Z) => zlen (fst s) = m /\ snd s = rank (flags_of w) t) HR.
    destruct HR as ([r2 c] & -> & L2 & _); [auto| | |].
    - cbn [fst snd]. split; auto; lia.
    - intros j [r c] Hj (Lr & Hc). cbn [fst snd] in *. rewrite (zget_Some 0) by lia. pose proof (rank_succ (flags_of w) j ltac:(lia)) as Hs.
      pose proof (rank_le (flags_of w) (j + 1) m ltac:(lia)) as Hle. pose proof (rank_nonneg (flags_of w) j).
      destruct (znth 0 (flags_of w) j =? 0).
      + rewrite zset_Some by lia. eexists; split; [reflexivity|]. cbn [fst snd]. rewrite zlen_upd. lia.
      + rewrite (zget_Some n0) by lia. rewrite zset_Some by lia. eexists; split; [reflexivity|]. cbn [fst snd]. rewrite zlen_upd. lia.
    - cbn [fst snd] in *. eapply safe_weaken; [apply safe_from_raw; lia|]. cbv beta. intros; lia.
  Qed.

  Lemma polish_safe s : Inv s -> safe (polish E s) (fun r => ok s (snd r) /\ sv_settings (snd r) = sv_settings s /\ sv_solution (snd r) = sv_solution s).
  Proof.
    intros HI. pose proof (iv_w _ HI) as HW. pose proof (iv_stat _ HI) as HSt. pose proof (wo_d _ _ HW) as Hd. pose proof Hd as [].
    unfold polish. eapply safe_bind; [eapply form_Ared_safe; eauto|]. intros [pl Ared] (F1 & F2 & F3 & F4 & F5 & F6 & F7). cbn [fst snd] in *. rs.
    set (w := sv_work s) in *. set (st := sv_settings s) in *. set (n := d_n (w_data w)) in *. set (m := d_m (w_data w)) in *.
    assert (Lfl : zlen (flags_of w) = m) by (unfold flags_of; rewrite zlen_map, zlen_zseq; fold m; lia).
    set (w1 := set_w_pol pl w).
    assert (HK1 : keeps st w w1).
    { subst w1. split; [reflexivity|]. pose proof (wo_len _ _ HW) as []. rewrite F3, F1, F2. lens_tac. }
    assert (Hok : forall w' i' g', keeps st w w' -> stat_ok i' -> g' = sv_world s -> ok s (set_sv_info i' (set_sv_work w' s))).
    { intros. apply ok_keeps; rs; auto. split; auto. }
    destruct (p_n_active pl =? 0).
    { apply safe_ret. cbn [snd]. rs. split; auto. apply ok_keeps; rs; auto. split; auto. }
    destruct (init_polish_spec (d_P (w_data w)) Ared st) as (res & -> & [(-> & _)|(ls & -> & _ & HP)]); auto; try lia.
    { apply safe_ret. cbn [snd]. rs. split; auto. apply ok_keeps; rs; auto. split; auto. }
    assert (Ef : flags_of w1 = flags_of w) by reflexivity.
    pose proof (rank_nonneg (flags_of w) m) as Hrk. pose proof (wok_keeps _ _ _ HW HK1) as HW1.
    assert (Fn : p_n_active pl = cm Ared) by lia.
    eapply safe_bind; [apply (form_rhs_safe w1); auto; rewrite zlen_zrep by lia; rewrite F2, Ef; reflexivity|].
    intros rhs Lr. rewrite zlen_zrep in Lr by lia. rewrite F2 in Lr.
    eapply safe_bind; [eapply polish_solve_safe; [| |exact HP|]; auto; lia|]. intros ps Lps. cbv beta in Lps.
    eapply safe_bind; [eapply refine_safe; eauto; subst w1; rs; fold n; lia|]. intros ps2 Lps2. cbv beta in Lps2.
    bind. bind.
    assert (LP : zlen (p_x pl) = n /\ zlen (p_z pl) = m /\ zlen (p_y pl) = m).
    { pose proof (wo_len _ _ HW) as []. rewrite F3. rs. auto. }
    destruct LP as (Lpx & Lpz & Lpy).
    bind. bind.
    eapply safe_bind; [eapply (ypol_safe st w1); [auto|exact F1|exact F2|rewrite Ef; subst w1; rs; fold m; lia]|]. intros y Ly. subst w1. rs_in Ly. fold m in Ly.
    bind. bind. bind.
    set (w2 := set_w_pol _ _).
    assert (HK2 : keeps st w w2).
    { subst w2. split; [reflexivity|]. assert (Lfa : zlen (p_active_flags pl) = m) by (rewrite F1; auto). pose proof (wo_len _ _ HW) as []. lens_tac. }
    clearbody w2. clear HK1 HW1 Ef.
    set (s2 := set_sv_work w2 (set_sv_work (set_w_pol pl w) s)).
    assert (HO2 : ok s s2).
    { subst s2. apply ok_keeps; rs; auto. split; auto. }
    eapply safe_bind; [apply update_info_polish_safe; apply HO2|]. intros s3 (HO3 & Est & Eso & HK3). cbv zeta.
    change (sv_settings s2) with st in HK3, Est. change (sv_work s2) with w2 in HK3. change (sv_solution s2) with (sv_solution s) in Eso.
    pose proof (keeps_trans _ _ _ _ HK2 HK3) as HK4. pose proof (proj1 HO3) as HI3. pose proof (ok_trans _ _ _ HO2 HO3) as HO4.
    assert (Hw3 : keeps st (sv_work s3) (sv_work s3)) by (apply keeps_refl; rewrite <- Est; apply HI3).
    destruct (polish_successful _ _).
    - destruct HK4 as [C4 []]. bind. bind. bind. apply safe_ret. cbn [snd]. rs. split; [|auto].
      eapply ok_trans; [exact HO4|]. apply ok_keeps; rs; auto; [|apply HI3|split; auto].
      rewrite Est. pose proof (core_eq _ _ C4) as (Ed & _). split; [reflexivity|]. rewrite Ed. lens_tac.
    - apply safe_ret. cbn [snd]. rs. split; [|auto].
      eapply ok_trans; [exact HO4|]. apply ok_keeps; rs; auto; [|apply HI3|split; auto]. rewrite Est. auto.
  Qed.
End PolishInv.
