(** The stored problem is the user's current problem in the solver's units, after any history of calls. *)
From Coq Require Import ZArith Reals List Bool Lia Lra String.
From Verif Require Import Num Arr ArrFacts RSum Csc CscSpec CscFacts CscFacts2 Scatter Vec VecFacts Types Linsys LinsysFacts Scaling Validate Auxil Polish Api
  Inv RecSimp InvStep InvApi InvScale InvSolve ValidFacts InvUpd InvSetup History RealVec RealStep Frame FrameSolve ProbSpec ScaleReal FrameUpd UserSpec.
Import ListNotations.
Open Scope Z_scope.

(** The units in force. *)
Definition uscal (s : solver Rops) : option (scaling Rops) := if tr (st_scaling (sv_settings s)) then w_scaling (sv_work s) else None.
Definition uc (s : solver Rops) : R := match uscal s with Some sc => sc_c sc | None => 1%R end.
Definition uD (s : solver Rops) (i : Z) : R := match uscal s with Some sc => rnth (sc_D sc) i | None => 1%R end.
Definition uE (s : solver Rops) (i : Z) : R := match uscal s with Some sc => rnth (sc_E sc) i | None => 1%R end.

(** The units in use are those that the equilibration passes compute for P, A and the linear cost qz. *)
Definition units_for (qz : list R) (u : data Rops) (s : solver Rops) : Prop := forall sc, uscal s = Some sc ->
  ruiz (d_n u) (d_m u) (d_P u) (d_A u) (rnth qz) (Z.to_nat (st_passes (sv_settings s))) (uc s) (uD s) (uE s).

Record ref (u : data Rops) (s : solver Rops) : Prop := {
  rf_dok : dok u;
  rf_sb : scaled_by (uc s) (uD s) (uE s) u (w_data (sv_work s));
  rf_le : all_le (d_m u) (d_l u) (d_u u);
  rf_sc : forall sc, uscal s = Some sc -> scok (d_n u) (d_m u) sc /\ sc_good (st_passes (sv_settings s)) (d_n u) (d_m u) sc /\ sc_inv (d_n u) (d_m u) sc;
  rf_ru : exists qz, units_for qz u s }.

Lemma ref_intro u s qz : dok u -> scaled_by (uc s) (uD s) (uE s) u (w_data (sv_work s)) -> all_le (d_m u) (d_l u) (d_u u) ->
  (forall sc, uscal s = Some sc -> scok (d_n u) (d_m u) sc /\ sc_good (st_passes (sv_settings s)) (d_n u) (d_m u) sc /\ sc_inv (d_n u) (d_m u) sc) ->
  units_for qz u s -> ref u s /\ units_for qz u s.
Proof. intros H1 H2 H3 H4 H5. split; [constructor; eauto|auto]. Qed.

Lemma sc_good_pos k n m sc : sc_good k n m sc -> (0 < sc_c sc)%R /\ (forall i, 0 <= i < n -> (0 < rnth (sc_D sc) i)%R) /\ (forall i, 0 <= i < m -> (0 < rnth (sc_E sc) i)%R).
Proof.
  intros [Gc GD GE]. assert (P0 : (0 < (/ 10 ^ 2) ^ Z.to_nat k)%R) by (apply pow_lt; lra). assert (P1 : (0 < (/ 10 ^ 4) ^ Z.to_nat k)%R) by (apply pow_lt; lra).
  split; [change (car Rops) with R in *; lra|]. split; intros i Hi; [specialize (GD i Hi)|specialize (GE i Hi)]; lra.
Qed.

Lemma units_pos u s : ref u s -> (0 < uc s)%R /\ (forall i, 0 <= i < d_n u -> (0 < uD s i)%R) /\ (forall i, 0 <= i < d_m u -> (0 < uE s i)%R).
Proof.
  intros [_ _ _ H _]. unfold uc, uD, uE. destruct (uscal s) as [sc|]; [|split; [lra|split; intros; lra]].
  destruct (H sc eq_refl) as (_ & G & _). eapply sc_good_pos; eauto.
Qed.

(** Same problem, same units. *)
Lemma ref_same u (s s' : solver Rops) : w_data (sv_work s') = w_data (sv_work s) -> w_scaling (sv_work s') = w_scaling (sv_work s) ->
  st_scaling (sv_settings s') = st_scaling (sv_settings s) -> ref u s -> ref u s'.
Proof.
  intros E1 E2 E3 [H1 H2 H3 H4 [qz H5]]. assert (Es : uscal s' = uscal s) by (unfold uscal; rewrite E2, E3; auto).
  constructor; auto.
  - unfold uc, uD, uE in *. rewrite Es, E1. auto.
  - rewrite Es. unfold st_passes in *. rewrite E3. auto.
  - exists qz. unfold units_for, uc, uD, uE, st_passes in *. rewrite Es, E3. auto.
Qed.

Section Refine.
  Variable E : Env Rops.
  Hypothesis EO : env_ok E.
  Notation dn s := (d_n (w_data (sv_work s))).
  Notation dm s := (d_m (w_data (sv_work s))).

  Lemma safe_some {A} (e : option A) (P : A -> Prop) a : safe e P -> e = Some a -> P a.
  Proof. intros (b & Eb & HP) Ea. congruence. Qed.

  Lemma all_leq_R (l u : list R) b : @vf_all_leq Rops l u = Some b -> rlen l = rlen u /\ (b = true <-> all_le (rlen l) l u).
  Proof.
    intros H. assert (HL : rlen l = rlen u).
    { unfold vf_all_leq, v2 in H. change (car Rops) with R in H. destruct ((zlen l =? zlen l) && (zlen l =? zlen u)) eqn:Eb; [|discriminate]. lia. }
    split; auto. destruct (vf_all_leq_spec l u HL) as (b' & Eb & Hb). rewrite Eb in H. injection H as <-. exact Hb.
  Qed.

  Lemma load_bound_real u (s : solver Rops) tmp new : Inv s -> ref u s -> rlen tmp = dm s -> vec_arg (dm s) new ->
    safe (load_bound s tmp new) (fun t => rlen t = dm s /\ match new with None => t = tmp | Some a => forall i, 0 <= i < dm s -> rnth t i = (uE s i * rnth a i)%R end).
  Proof.
    intros HI HR HL HN. unfold load_bound. destruct new as [v|]; [|apply safe_ret; auto]. specialize (HN v eq_refl).
    eapply safe_bind; [apply rs_from_raw; change (car Rops) with R in *; lia|]. cbv beta. intros t (Lt & Vt).
    unfold uE, uscal. destruct (tr _) eqn:Es.
    - destruct (wo_sc _ _ (iv_w _ HI) Es) as (sc & -> & [S1 S2 S3 S4]).
      eapply safe_weaken; [apply rs_v2; rsize|]. cbv beta. intros r (Lr & Vr). split; [rsize|]. intros i Hi. rewrite Vr by rsize. rewrite Vt by rsize. cbn [nmul Rops]. ring.
    - apply safe_ret. split; [rsize|]. intros i Hi. rewrite Vt by rsize. ring.
  Qed.

  Lemma view_take (a : list R) n : 0 <= n <= rlen a -> exists v, view a 0 n = Some v /\ taken n a v.
  Proof. intros H. destruct (view_ok 0%R a 0 n) as (v & Ev & L & V); [lia|lia|lia|]. exists v. split; auto. split; auto. Qed.

  Lemma scaled_units_eq c D E' u d c' D' E'' : dok u -> c = c' -> (forall i, 0 <= i < d_n u -> D i = D' i) -> (forall i, 0 <= i < d_m u -> E' i = E'' i) ->
    scaled_by c D E' u d -> scaled_by c' D' E'' u d.
  Proof.
    intros Hd -> HD HE [H1 H2 H3 H4 [H5 H5'] [H6 H6'] [H7 H7']]. destruct Hd. constructor; auto.
    - eapply mscaled_ext; [auto| | |exact H3]; intros; apply HD; destruct do_Pt; lia.
    - eapply mscaled_ext; [auto| | |exact H4]; intros; [apply HE|apply HD]; lia.
    - split; auto. intros i Hi. rewrite H5', HD by auto. auto.
    - split; auto. intros i Hi. rewrite H6', HE by auto. auto.
    - split; auto. intros i Hi. rewrite H7', HE by auto. auto.
  Qed.

  Theorem update_data_vec_ref u (s : solver Rops) q l v : Inv s -> ref u s -> vec_arg (dn s) q -> vec_arg (dm s) l -> vec_arg (dm s) v ->
    safe (update_data_vec E s q l v) (fun r => (exists u', user_vec u q l v (fst r) u' /\ ref u' (snd r)) /\
      exists lt vt okb, vec_shape s q l v r lt vt okb /\ forall l' v', new_vec (d_m u) l (d_l u) l' -> new_vec (d_m u) v (d_u u) v' -> (okb = true <-> all_le (d_m u) l' v')).
  Proof.
    intros HI HR Hq Hl Hv.
    eapply safe_weaken; [eapply safe_post; [apply update_data_vec_safe; auto using MM_R|apply update_data_vec_shape]|].
    cbv beta. intros [fl s'] (HO & lt & vt & okb & HSH). pose proof HSH as [VL VU VO VR VA]. cbn [fst snd] in *.
    pose proof (wo_d _ _ (iv_w _ HI)) as Hd. pose proof (wo_len _ _ (iv_w _ HI)) as HL. destruct Hd, HL.
    pose proof (safe_some _ _ _ (load_bound_real u s (w_z_prev (sv_work s)) l HI HR ln_zp Hl) VL) as (Llt & Vlt).
    pose proof (safe_some _ _ _ (load_bound_real u s (w_delta_y (sv_work s)) v HI HR ln_dy Hv) VU) as (Lvt & Vvt).
    pose proof HR as [Hu HS HLE HSC HRU]. pose proof (units_pos _ _ HR) as (Pc & PD & PE). pose proof HS as [Bn Bm BP BA [Lq Vq] [Lsl Vsl] [Lsu Vsu]].
    pose proof Hu as [un um uP uPt uPn uA uAm uAn uq ul uu]. change (car Rops) with R in *.
    set (d := w_data (sv_work s)) in *.
    (* the user's new bounds *)
    assert (HL' : exists l', new_vec (d_m u) l (d_l u) l' /\ rlen l' = d_m u /\ rlen (pick l lt (d_l d)) = d_m u /\ forall i, 0 <= i < d_m u -> rnth (pick l lt (d_l d)) i = (uE s i * rnth l' i)%R).
    { destruct l as [a|]; cbn [pick new_vec].
      - specialize (Hl a eq_refl). destruct (view_take a (d_m u)) as (l' & _ & T); [change (car Rops) with R in *; lia|]. exists l'. split; auto. destruct T as [T1 T2]. split; auto. split; [lia|].
        intros i Hi. rewrite Vlt by lia. rewrite T2 by lia. auto.
      - exists (d_l u). split; auto. split; auto. split; [lia|]. intros i Hi. apply Vsl; auto. }
    assert (HU' : exists v', new_vec (d_m u) v (d_u u) v' /\ rlen v' = d_m u /\ rlen (pick v vt (d_u d)) = d_m u /\ forall i, 0 <= i < d_m u -> rnth (pick v vt (d_u d)) i = (uE s i * rnth v' i)%R).
    { destruct v as [a|]; cbn [pick new_vec].
      - specialize (Hv a eq_refl). destruct (view_take a (d_m u)) as (v' & _ & T); [change (car Rops) with R in *; lia|]. exists v'. split; auto. destruct T as [T1 T2]. split; auto. split; [lia|].
        intros i Hi. rewrite Vvt by lia. rewrite T2 by lia. auto.
      - exists (d_u u). split; auto. split; auto. split; [lia|]. intros i Hi. apply Vsu; auto. }
    destruct HL' as (l' & NL & Ll' & Lpl & Vl'). destruct HU' as (v' & NU & Lv' & Lpv & Vv').
    assert (HQ : exists q', new_vec (d_n u) q (d_q u) q').
    { destruct q as [a|]; cbn [new_vec]; [|eauto]. specialize (Hq a eq_refl). destruct (view_take a (d_n u)) as (q' & _ & T); [change (car Rops) with R in *; lia|eauto]. }
    destruct HQ as (q' & NQ).
    assert (Hok : okb = true <-> all_le (d_m u) l' v').
    { destruct VO as [VO|(-> & -> & ->)].
      - apply all_leq_R in VO as [_ VO]. change (car Rops) with R in VO. rewrite VO, Lpl. split; intros H i Hi; specialize (H i Hi); specialize (PE i Hi).
        + rewrite Vl', Vv' in H by auto. apply Rmult_le_reg_l in H; auto.
        + rewrite Vl', Vv' by auto. apply Rmult_le_compat_l; lra.
      - cbn [new_vec] in NL, NU. subst. split; auto. }
    split; [|exists lt, vt, okb; split; [exact HSH|]; intros l2 v2 N2 N2'; rewrite (new_vec_unique _ _ _ _ _ N2 NL), (new_vec_unique _ _ _ _ _ N2' NU); exact Hok].
    destruct okb.
    - assert (HAL : all_le (d_m u) l' v') by (apply Hok; auto). destruct (VA eq_refl) as (qs & Hqs & Ed & Esc & _ & _ & _ & _ & Est & _).
      exists (set_d_q q' (set_d_l l' (set_d_u v' u))). split; [exists q', l', v'; repeat (split; auto)|].
      assert (Es : st_scaling (sv_settings s') = st_scaling (sv_settings s)) by (rewrite Est; destruct (_ && _); reflexivity).
      assert (Eu : uscal s' = uscal s) by (unfold uscal; rewrite Es, Esc; auto).
      assert (Lq' : rlen q' = d_n u /\ rlen qs = d_n u /\ forall i, 0 <= i < d_n u -> rnth qs i = (uc s * uD s i * rnth q' i)%R).
      { destruct q as [a|]; cbn [new_vec] in NQ.
        - destruct NQ as [N1 N2]. split; auto. specialize (Hq a eq_refl). destruct Hqs as (q1 & Hq1 & Hq2).
          assert (Hx : safe (@vf_from_raw Rops (d_q d) a) (fun r => rlen r = rlen (d_q d) /\ forall i, 0 <= i < rlen (d_q d) -> rnth r i = rnth a i)) by (apply rs_from_raw; change (car Rops) with R in *; lia).
          destruct (safe_some _ _ _ Hx Hq1) as [L1 V1]. unfold uc, uD, uscal. destruct (tr (st_scaling (sv_settings s))) eqn:Et.
          + destruct Hq2 as (sc & q2 & E1 & E2 & ->). rewrite E1. destruct (HSC sc) as ([S1 S2 S3 S4] & _); [unfold uscal; rewrite Et; auto|]. change (car Rops) with R in *.
            assert (Hy : safe (@vf_ew_prod Rops q1 q1 (sc_D sc)) (fun r => rlen r = rlen q1 /\ forall i, 0 <= i < rlen q1 -> rnth r i = (rnth q1 i * rnth (sc_D sc) i)%R)) by (apply rs_v2; rsize).
            destruct (safe_some _ _ _ Hy E2) as [L2 V2]. unfold vf_mult_scalar. rewrite zlen_map. split; [rsize|]. intros i Hi. rewrite rnth_map by rsize. rewrite V2 by rsize. rewrite V1 by rsize. rewrite N2 by lia. cbn [nmul Rops]. ring.
          + subst qs. split; [lia|]. intros i Hi. rewrite V1, N2 by lia. ring.
        - subst q' qs. fold d. split; auto. split; [lia|]. auto. }
      destruct Lq' as (Lq' & Lqs & Vqs).
      constructor; rs.
      + constructor; rs; auto.
      + unfold uc, uD, uE in *. rewrite Eu, Ed. fold d. constructor; rs; auto; change (car Rops) with R; split; auto; lia.
      + auto.
      + rewrite Eu. unfold st_passes in *. rewrite Es. auto.
      + destruct HRU as (qz & HRU). exists qz. unfold units_for, uc, uD, uE, st_passes in *. rewrite Eu, Es. rs. auto.
    - destruct (VR eq_refl) as (Hfl & t & c & Es'). exists u. split.
      + exists q', l', v'. repeat (split; auto). right. split; auto. intros HA. apply Hok in HA. discriminate.
      + eapply ref_same; [| | |exact HR]; rewrite Es'; reflexivity.
  Qed.

  Lemma unit_false (s : solver Rops) : tr (st_scaling (sv_settings s)) = false -> uscal s = None.
  Proof. unfold uscal. intros ->. auto. Qed.

  (** Without scaling the stored problem is the user's problem. *)
  Lemma scaled_by_id (u d : data Rops) : dok u -> scaled_by 1 (fun _ => 1%R) (fun _ => 1%R) u d -> d = u.
  Proof.
    intros [un um uP uPt uPn uA uAm uAn uq ul uu] [H1 H2 H3 H4 [H5 H5'] [H6 H6'] [H7 H7']].
    apply mscaled_id in H3; [|auto|intros; ring]. apply mscaled_id in H4; [|auto|intros; ring].
    assert (d_q d = d_q u) by (apply rlist_ext; [rsize|]; intros i Hi; rewrite H5' by rsize; ring).
    assert (d_l d = d_l u) by (apply rlist_ext; [rsize|]; intros i Hi; rewrite H6' by rsize; ring).
    assert (d_u d = d_u u) by (apply rlist_ext; [rsize|]; intros i Hi; rewrite H7' by rsize; ring).
    destruct d, u; cbn in *; congruence.
  Qed.

  Lemma mat_bad_spec nz n idx : mat_bad nz n idx = false <-> count_ok nz n idx.
  Proof. unfold mat_bad, count_ok. destruct idx; cbn [given negb andb]; split; intros H; try (split; [lia|discriminate]); try (destruct H; lia); [split; [lia|intros _; lia]|destruct H as [H1 H2]; specialize (H2 eq_refl); lia]. Qed.

  Lemma update_values_new (M : csc Rops) v idx n n' M' : wf M -> 0 <= n <= nnz M -> n' = (if n =? 0 then nnz M else n) -> mat_arg (nnz M) n (Some v) idx ->
    csc_update_values M v idx n' = Some M' -> new_vals M M' (Some v) idx n.
  Proof.
    intros W Hn -> HA. destruct (HA Hn) as [HV HI]. specialize (HV v eq_refl). cbv zeta in *. set (n' := if n =? 0 then nnz M else n) in *.
    assert (Hn' : 0 <= n' <= nnz M) by (subst n'; destruct (n =? 0); lia). pose proof (wf_xlen _ W) as HX.
    destruct idx as [e|]; cbn [new_vals]; fold n'.
    - destruct (HI e eq_refl) as [HE HR]. destruct (csc_update_values_idx M 0%R v e n') as (M1 & -> & E1 & E2 & E3 & E4 & E5 & E6 & E7 & V1 & U1); auto; try lia.
      { intros i Hi. specialize (HR i Hi). lia. }
      intros [= <-]. split; [apply same_pat_intro; auto|]. split; auto.
    - destruct (csc_update_values_all M 0%R v n') as (M1 & -> & E1 & E2 & E3 & E4 & E5 & E6 & E7 & V1); auto; try lia.
      intros [= <-]. split; [apply same_pat_intro; auto|]. auto.
  Qed.

  Lemma dok_upd (u : data Rops) P' A' : dok u -> same_pat (d_P u) P' -> same_pat (d_A u) A' -> dok (set_d_A A' (set_d_P P' u)).
  Proof.
    intros [] HP HA. destruct (same_pat_fields _ _ HP) as (F1 & F2 & _). destruct (same_pat_fields _ _ HA) as (G1 & G2 & _).
    constructor; rs; auto; try lia; [eapply same_pat_wf; eauto|eapply same_pat_triu; eauto|eapply same_pat_wf; eauto].
  Qed.

  Lemma new_vals_pat (M M' : csc Rops) x idx n : new_vals M M' x idx n -> same_pat M M'.
  Proof. destruct x; cbn [new_vals]; [intros [H _]; auto|intros ->; apply same_pat_refl]. Qed.

  Theorem update_data_mat_ref u (s : solver Rops) Px Pidx Pn Ax Aidx An : Inv s -> ref u s ->
    mat_arg (nnz (d_P (w_data (sv_work s)))) Pn Px Pidx -> mat_arg (nnz (d_A (w_data (sv_work s)))) An Ax Aidx ->
    safe (update_data_mat E s Px Pidx Pn Ax Aidx An) (fun r => exists u', user_mat u Px Pidx Pn Ax Aidx An (fst r) u' /\ ref u' (snd r) /\
      (count_ok (nnz (d_P u)) Pn Pidx -> count_ok (nnz (d_A u)) An Aidx -> units_for (d_q u') u' (snd r))).
  Proof.
    intros HI HR HP HA.
    eapply safe_weaken; [eapply safe_post; [apply update_data_mat_safe; auto using MM_R|apply update_data_mat_shape]|].
    cbv beta. intros [fl s'] (HO & nP & nA & EP & EA & HC). cbn [fst snd] in *.
    pose proof (wo_d _ _ (iv_w _ HI)) as Hd. pose proof (wo_len _ _ (iv_w _ HI)) as HL.
    pose proof HR as [Hu HS HLE HSC HRU]. pose proof (units_pos _ _ HR) as (Pc & PD & PE). pose proof HS as [Bn Bm BP BA _ _ _].
    assert (EnP : nnz (d_P (w_data (sv_work s))) = nnz (d_P u)) by (apply same_pat_nnz; apply BP).
    assert (EnA : nnz (d_A (w_data (sv_work s))) = nnz (d_A u)) by (apply same_pat_nnz; apply BA).
    rewrite zget_nnz in EP by (apply Hd). rewrite zget_nnz in EA by (apply Hd). injection EP as <-. injection EA as <-. rewrite EnP, EnA in *.
    destruct HC as [(HB & Es')|(B1 & B2 & t & c & w1 & P2 & A2 & w4 & ls & ls' & i & g & H1 & H2 & H3 & H4 & H5 & H6 & Es' & _)].
    - exists u. split.
      + right. split; [rewrite <- !mat_bad_spec; destruct HB as [(-> & _)|(_ & -> & _)]; intros [X Y]; congruence|]. split; auto. tauto.
      + split; [|rewrite <- !mat_bad_spec; destruct HB as [(-> & _)|(_ & -> & _)]; intros X Y; congruence]. rewrite Es'. destruct (begin_update_eq s) as (t & c & ->). eapply ref_same; [| | |exact HR]; reflexivity.
    - apply mat_bad_spec in B1 as C1. apply mat_bad_spec in B2 as C2. destruct C1 as [C1 C1'], C2 as [C2 C2'].
      assert (Hw1 : w1 = set_w_data u (set_w_clear_update_time c (sv_work s))).
      { destruct (tr (st_scaling (sv_settings s))) eqn:Et.
        - destruct (wo_sc _ _ (iv_w _ HI) Et) as (sc & Esc & SC).
          assert (Eus : uscal s = Some sc) by (unfold uscal; rewrite Et; auto). destruct (HSC sc Eus) as (SC' & G & SI). destruct (sc_good_pos _ _ _ _ G) as (Q1 & Q2 & Q3).
          assert (HX : safe (unscale_data (set_w_clear_update_time c (sv_work s))) (fun w' => w' = set_w_data u (set_w_clear_update_time c (sv_work s)))).
          { eapply (unscale_data_real _ sc u); rs; auto.
            - unfold uc, uD, uE in HS. rewrite Eus in HS. exact HS.
            - change (car Rops) with R in *; lra.
            - intros k Hk. specialize (Q2 k Hk). lra.
            - intros k Hk. specialize (Q3 k Hk). lra. }
          exact (safe_some _ _ _ HX H1).
        - subst w1. assert (Ed : w_data (sv_work s) = u).
          { apply scaled_by_id; auto. unfold uc, uD, uE in HS. rewrite unit_false in HS by auto. exact HS. }
          rewrite <- Ed. destruct (sv_work s); reflexivity. }
      subst w1. rs_all.
      assert (NP : new_vals (d_P u) P2 Px Pidx Pn). { destruct Px as [v|]; [|exact H2]. eapply update_values_new; eauto. apply Hu. }
      assert (NA : new_vals (d_A u) A2 Ax Aidx An). { destruct Ax as [v|]; [|exact H3]. eapply update_values_new; eauto. apply Hu. }
      pose proof (dok_upd u P2 A2 Hu (new_vals_pat _ _ _ _ _ NP) (new_vals_pat _ _ _ _ _ NA)) as Hu'.
      exists (set_d_A A2 (set_d_P P2 u)). split.
      + left. split; [split; auto|]. split; [split; auto|]. exists P2, A2. auto.
      + enough (HH : ref (set_d_A A2 (set_d_P P2 u)) s' /\ units_for (d_q u) (set_d_A A2 (set_d_P P2 u)) s') by (destruct HH; split; auto). destruct (tr (st_scaling (sv_settings s))) eqn:Et.
        * destruct (wo_sc _ _ (iv_w _ HI) Et) as (sc & Esc & SC). destruct HL.
          match type of H4 with scale_data _ ?w3 = _ => assert (HX := scale_data_real (sv_settings s) w3 sc); assert (HY := scale_data_safe (sv_settings s) w3 sc) end.
          rs_in HX. rs_in HY. rewrite Bn, Bm in *.
          assert (HT : tmp_ok (set_w_data (set_d_A A2 (set_d_P P2 u)) (set_w_data u (set_w_clear_update_time c (sv_work s))))) by (split; [|split]; rs; auto).
          destruct (safe_some _ _ _ (HX Hu' HT Esc SC) H4) as (sc' & E1 & S1 & S2 & S3 & S4).
          destruct (safe_some _ _ _ (HY Hu' HT Esc SC) H4) as (d' & a' & b' & c' & sc2 & E2 & _ & _ & _ & _ & SC2).
          assert (Eu : uscal s' = Some sc') by (unfold uscal; rewrite Es'; rs; rewrite Et; exact E1).
          assert (sc2 = sc') by (rewrite E2 in E1; unfold wscal in E1; rs_in E1; congruence). subst sc2.
          apply ref_intro; auto.
          { unfold uc, uD, uE. rewrite Eu, Es'. rs. exact S1. }
          { intros sc0 Esc0. rewrite Eu in Esc0. injection Esc0 as <-. rs. rewrite Es'. rs. auto. }
          { intros sc0 Esc0. unfold uc, uD, uE. rewrite Eu, Es'. rs. exact S4. }
        * subst w4. apply ref_intro; auto.
          { unfold uc, uD, uE. rewrite unit_false by (rewrite Es'; rs; exact Et). rewrite Es'. rs.
            constructor; rs; auto; try (split; auto; intros; ring); eapply mscaled_ext; try apply mscaled_refl; try (apply Hu'); auto. }
          { intros sc0 Esc0. rewrite unit_false in Esc0 by (rewrite Es'; rs; exact Et). discriminate. }
          { intros sc0 Esc0. rewrite unit_false in Esc0 by (rewrite Es'; rs; exact Et). discriminate. }
  Qed.

  Lemma same_st_scaling (a b : settings Rops) : same_st a b -> st_scaling b = st_scaling a.
  Proof. intros (r & t & ->). reflexivity. Qed.

  (** No other call touches the problem or the units. *)
  Lemma run_other c (s : solver Rops) fl s' : (match c with CUpdVec _ _ _ | CUpdMat _ _ _ _ _ _ => False | _ => True end) -> run E c s = Some (fl, HSolver s') ->
    w_data (sv_work s') = w_data (sv_work s) /\ w_scaling (sv_work s') = w_scaling (sv_work s) /\ st_scaling (sv_settings s') = st_scaling (sv_settings s).
  Proof.
    destruct c; cbn [run]; try contradiction; intros _.
    - unfold osqp_solve, on_solver. pose proof (solve_sfr E s) as HS. destruct (solve E s) as [[f s1]|]; [|discriminate]. intros [= _ <-].
      destruct (HS _ eq_refl) as [A1 A2 _ A3 _]. cbn [snd] in *. auto using same_st_scaling.
    - unfold osqp_update_rho, on_solver. pose proof (update_rho_post E s rho) as HS. destruct (update_rho E s rho) as [[f s1]|]; [|discriminate]. intros [= _ <-].
      destruct (HS _ eq_refl) as ([A1 A2 _ A3 _] & _). cbn [snd] in *. auto using same_st_scaling.
    - unfold osqp_update_settings. destruct (validate_settings new false); [intros [= _ <-]; auto|]. destruct new as [st|]; [|discriminate].
      destruct (w_linsys (sv_work s)); [|discriminate]. intros [= _ <-]. rs. auto.
    - intros H. revert H. unfold osqp_warm_start, on_solver.
      assert (HS : post (warm_start s x y) (fun r => w_data (sv_work (snd r)) = w_data (sv_work s) /\ w_scaling (sv_work (snd r)) = w_scaling (sv_work s) /\ st_scaling (sv_settings (snd r)) = st_scaling (sv_settings s))).
      { unfold warm_start. cbv zeta. set (s1 := if negb _ then _ else s).
        assert (H1 : sv_work s1 = sv_work s /\ st_scaling (sv_settings s1) = st_scaling (sv_settings s)) by (subst s1; destruct (negb _); auto). destruct H1 as [H1 H1']. clearbody s1.
        eapply post_bindP with (P := fun w => w_data w = w_data (sv_work s) /\ w_scaling w = w_scaling (sv_work s)).
        { destruct x; [do 2 walk1|]; apply post_ret; rs; rewrite H1; auto. }
        intros w1 [A1 A2]. eapply post_bindP with (P := fun w => w_data w = w_data (sv_work s) /\ w_scaling w = w_scaling (sv_work s)).
        { destruct y; [do 2 walk1|]; apply post_ret; rs; auto. }
        intros w2 [A3 A4]. eapply post_bindP with (P := fun w => w_data w = w_data (sv_work s) /\ w_scaling w = w_scaling (sv_work s)).
        { destruct x; [do 1 walk1|]; apply post_ret; rs; auto. }
        intros w3 [A5 A6]. walk1. apply post_ret. cbn [snd]. rs. auto. }
      destruct (warm_start s x y) as [[f s1]|]; [|discriminate]. intros [= _ <-]. exact (HS _ eq_refl).
    - unfold osqp_cold_start. pose proof (cold_start_post (sv_work s)) as HS. destruct (cold_start (sv_work s)) as [w|]; [|discriminate]. intros [= _ <-].
      rewrite (HS _ eq_refl). rs. auto.
    - unfold osqp_get_solution. destruct sol as [o|]; [|intros [= _ <-]; auto]. pose proof (store_solution_post s (Some o)) as HS.
      destruct (store_solution s (Some o)) as [[s1 o1]|]; [|discriminate]. intros [= _ <-]. destruct (HS _ eq_refl) as (A1 & _ & _ & _ & A2 & _). cbn [fst] in *.
      apply fixed_core, core_eq in A2. decompose [and] A2. rewrite A1. auto.
  Qed.

  Theorem run_ref c u (s : solver Rops) fl s' : Inv s -> ref u s -> args_ok c s -> run E c s = Some (fl, HSolver s') ->
    exists u', user_step c u fl u' /\ ref u' s'.
  Proof.
    intros HI HR HA HC. destruct c; cbn [args_ok] in HA;
      try (exists u; split; [reflexivity|]; pose proof (fun H => run_other _ _ _ _ H HC) as HX; destruct (HX I) as (A1 & A2 & A3); eapply ref_same; eauto).
    - cbn [run] in HC. unfold osqp_update_data_vec, on_solver in HC. destruct HA as (H1 & H2 & H3).
      destruct (update_data_vec_ref u s q l u0 HI HR H1 H2 H3) as ([f s1] & Er & (u' & U1 & U2) & _). rewrite Er in HC. injection HC as <- <-. exists u'. auto.
    - cbn [run] in HC. unfold osqp_update_data_mat, on_solver in HC. destruct HA as (H1 & H2).
      destruct (update_data_mat_ref u s Px Pidx Pn Ax Aidx An HI HR H1 H2) as ([f s1] & Er & u' & U1 & U2 & _). rewrite Er in HC. injection HC as <- <-. exists u'. auto.
  Qed.

  Theorem hist_ref s0 u0 s u : Inv s0 -> ref u0 s0 -> hist E s0 u0 s u -> Inv s /\ ref u s /\ reach E s0 s.
  Proof.
    intros HI HR HH. induction HH as [|s d c fl s' d' HH (I1 & R1 & RC) HA HC HS]; [split; [auto|split; [auto|constructor]]|].
    assert (RC' : reach E s0 s') by (econstructor; eauto).
    split; [apply (reach_inv E EO MM_R s0 s' HI RC')|]. split; [|exact RC'].
    destruct (run_ref c d s fl s' I1 R1 HA HC) as (d2 & S2 & R2). rewrite (user_step_unique c d fl d' d2 HS S2). auto.
  Qed.

  (** Every reachable solver belongs to a history of the user's problem. *)
  Theorem reach_hist s0 u0 s : Inv s0 -> ref u0 s0 -> reach E s0 s -> exists u, hist E s0 u0 s u.
  Proof.
    intros HI HR HH. induction HH as [|s c fl s' HH (u & IH) HA HC]; [exists u0; constructor|].
    destruct (hist_ref s0 u0 s u HI HR IH) as (I1 & R1 & _). destruct (run_ref c u s fl s' I1 R1 HA HC) as (u' & S' & R'). exists u'. econstructor; eauto.
  Qed.

  (** The stored problem of a fresh solver is the problem passed to osqp_setup. *)
  Theorem fresh_ref P q A l u m n ust (s0 : solver Rops) : data_readable P q A l u m n -> data_ok P q A l u m n ->
    fresh_data E P q A l u m n ust s0 -> st_scaling (sv_settings s0) = st_scaling ust ->
    exists P0 A0 d0, P = Some P0 /\ A = Some A0 /\ user_init P0 A0 q l u m n d0 /\ ref d0 s0 /\ units_for (d_q d0) d0 s0.
  Proof.
    intros HDR HDO (P0 & A0 & P1 & q1 & A1 & l1 & u1 & w1 & EP & EA & CP & CA & Vq & Vl & Vu & EW & Ed & Esc) Es.
    exists P0, A0, (mkdata n m P1 A1 q1 l1 u1). split; auto. split; auto. subst P A.
    destruct HDR as [HPw HAw Hqr Hlr Hur Hl0 Hu0]. specialize (HPw P0 eq_refl). specialize (HAw A0 eq_refl).
    destruct (csc_copy_wf P0 (env_jz E) (env_jx E) HPw) as (P1' & EP1 & P1m & P1n & WP1 & NP1 & TP1 & C1 & C2). rewrite CP in EP1. injection EP1 as <-.
    destruct (csc_copy_wf A0 (env_jz E) (env_jx E) HAw) as (A1' & EA1 & A1m & A1n & WA1 & NA1 & _ & C3 & C4). rewrite CA in EA1. injection EA1 as <-.
    destruct HDO as [Hn Hm Hq (P0' & EQ & Pm & Pn & HT) (A0' & EQ' & Am & An) Hb]. injection EQ as <-. injection EQ' as <-.
    assert (TK : forall o k v, vf_new o k = Some v -> 0 <= k -> rlen v = k /\ forall a, o = Some a -> taken k a v).
    { intros o k v Hv Hk. unfold vf_new in Hv. destruct o as [a|].
      - unfold view in Hv. destruct ((0 <=? 0) && (0 <=? k) && (0 + k <=? zlen a)) eqn:Eb; [|discriminate]. change (car Rops) with R in *.
        destruct (view_take a k) as (v' & Ev & T); [lia|]. unfold view in Ev. rewrite Eb in Ev. change (car Rops) with R in *. rewrite Hv in Ev. injection Ev as <-. split; [apply T|]. intros a' [= <-]. auto.
      - destruct (k =? 0) eqn:E0; [|discriminate]. injection Hv as <-. split; [unfold zlen; cbn; lia|]. discriminate. }
    destruct (TK _ _ _ Vq ltac:(lia)) as [Lq Tq]. destruct (TK _ _ _ Vl Hm) as [Ll Tl]. destruct (TK _ _ _ Vu Hm) as [Lu Tu].
    split.
    { unfold user_init, copy_of. cbn [d_n d_m d_P d_A d_q d_l d_u]. repeat match goal with |- _ /\ _ => split end; auto. }
    assert (Hd : dok (mkdata n m P1 A1 q1 l1 u1)).
    { constructor; cbn [d_n d_m d_P d_A d_q d_l d_u]; auto; try lia. apply TP1. split; [lia|rewrite Pn; auto]. }
    assert (HLE : all_le m l1 u1).
    { intros i Hi. destruct (Hlr ltac:(lia)) as (lv & -> & _). destruct (Hur ltac:(lia)) as (uv & -> & _).
      destruct (Tl lv eq_refl) as [_ T1]. destruct (Tu uv eq_refl) as [_ T2]. rewrite T1, T2 by auto.
      pose proof (Hb lv uv i eq_refl eq_refl Hi) as HB. rewrite n0_R in HB. cbn [nltb Rops] in HB. unfold Rltb in HB. destruct (Rlt_dec _ _) as [|HB']; [discriminate|].
      unfold rnth. apply Rnot_lt_le. exact HB'. }
    destruct (tr (st_scaling ust)) eqn:Et.
    - set (w0 := initial_work E P1 q1 A1 l1 u1 m n ust) in *.
      destruct (w_scaling w0) as [sc|] eqn:Esc0; [|subst w0; unfold initial_work in Esc0; rs_in Esc0; rewrite Et in Esc0; discriminate].
      assert (SC : scok n m sc).
      { subst w0. unfold initial_work in Esc0. rs_in Esc0. rewrite Et in Esc0. injection Esc0 as <-. constructor; rs; apply zlen_zrep; lia. }
      assert (HT0 : tmp_ok w0) by (subst w0; unfold initial_work; rewrite Et; split; [|split]; rs; apply zlen_zrep; lia).
      destruct (safe_some _ _ _ (scale_data_real (copy_settings ust) w0 sc Hd HT0 Esc0 SC) EW) as (sc' & E1 & S1 & S2 & S3 & S4).
      destruct (safe_some _ _ _ (scale_data_safe (copy_settings ust) w0 sc Hd HT0 Esc0 SC) EW) as (d' & a' & b' & c' & sc2 & E2 & _ & _ & _ & _ & SC2).
      assert (Eu : uscal s0 = Some sc') by (unfold uscal; rewrite Es, Et, Esc; auto).
      assert (sc2 = sc') by (rewrite E2 in E1; unfold wscal in E1; rs_in E1; congruence). subst sc2.
      change (w_data w0) with (mkdata n m P1 A1 q1 l1 u1) in *.
      apply ref_intro; auto.
      + unfold uc, uD, uE. rewrite Eu, Ed. exact S1.
      + intros sc0 E0. rewrite Eu in E0. injection E0 as <-. split; auto. split; auto.
        unfold st_passes in *. rewrite Es. exact S2.
      + intros sc0 E0. unfold uc, uD, uE, st_passes. rewrite Eu, Es. exact S4.
    - injection EW as <-. apply ref_intro; auto.
      + unfold uc, uD, uE. rewrite unit_false by (rewrite Es; auto). rewrite Ed. unfold initial_work. rs.
        constructor; cbn [d_n d_m d_P d_A d_q d_l d_u]; auto using mscaled_refl; split; auto; intros; ring.
      + intros sc0 E0. rewrite unit_false in E0 by (rewrite Es; auto). discriminate.
      + intros sc0 E0. rewrite unit_false in E0 by (rewrite Es; auto). discriminate.
  Qed.

  (** osqp_setup starts the history with the problem passed to it. *)
  Theorem setup_ref g P q A l u m n st s0 g' : data_readable P q A l u m n -> osqp_setup E g P q A l u m n st = Some (0, Some s0, g') ->
    Inv s0 /\ exists P0 A0 d0, P = Some P0 /\ A = Some A0 /\ user_init P0 A0 q l u m n d0 /\ ref d0 s0 /\ units_for (d_q d0) d0 s0.
  Proof.
    intros HDR HS. destruct (osqp_setup_safe E EO MM_R g P q A l u m n st HDR) as (r & Er & HRes). rewrite HS in Er. injection Er as <-. cbn [fst snd] in HRes.
    inversion HRes as [| |? ? ? ? ? ? ? ? ? ? EE|s1 g1 HDO HV HI Dn Dm HF Hw HLF Hsec Hhan EE]; subst; try discriminate.
    split; auto. destruct st as [ust|]; [|discriminate HV]. destruct (HF ust eq_refl) as [FD Hst _ _ _ _ _ _ _ _ _ _ _ _].
    eapply fresh_ref; eauto. rewrite Hst. unfold setup_adaptive_rho. repeat match goal with |- context [if ?b then _ else _] => destruct b end; destruct ust; reflexivity.
  Qed.
End Refine.
