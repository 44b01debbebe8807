(** Scaling and unscaling the data stays within the arrays and keeps all sizes and patterns. *)
From Coq Require Import ZArith List Bool Lia String.
From Verif Require Import Num Arr ArrFacts Csc CscSpec CscFacts Scatter Vec Types Kkt Linsys Scaling Validate Auxil
  VecFacts LinsysFacts LinsysSolve Inv InvStep InvApi RecSimp.
Import ListNotations.
Open Scope Z_scope.

Lemma safe_for {S} (P : S -> Prop) lo hi (body : Z -> S -> option S) s0 :
  P s0 -> (forall i s, lo <= i < hi -> P s -> safe (body i s) P) -> safe (for_ lo hi body s0) P.
Proof.
  intros H0 Hs. destruct (Z.le_gt_cases lo hi) as [Hle|Hgt].
  - destruct (for_rule (fun _ s => P s) lo hi body s0) as (s2 & -> & HP2); auto.
    apply safe_ret; auto.
  - unfold for_. replace (Z.to_nat (hi - lo)) with O by lia. apply safe_ret; auto.
Qed.

Section Scale.
  Context {K : NumOps}.

  (** Same sizes and patterns. *)
  Record drel (d d' : data K) : Prop := {
    dr_n : d_n d' = d_n d; dr_m : d_m d' = d_m d;
    dr_P : same_pat (d_P d) (d_P d'); dr_A : same_pat (d_A d) (d_A d');
    dr_q : zlen (d_q d') = zlen (d_q d); dr_l : zlen (d_l d') = zlen (d_l d); dr_u : zlen (d_u d') = zlen (d_u d) }.
  Lemma drel_refl d : drel d d. Proof. constructor; auto using same_pat_refl. Qed.
  Lemma drel_trans d1 d2 d3 : drel d1 d2 -> drel d2 d3 -> drel d1 d3.
  Proof. intros [] []. constructor; try congruence; eapply same_pat_trans; eauto. Qed.
  Lemma drel_dok d d' : drel d d' -> dok d -> dok d'.
  Proof.
    intros [] []. pose proof (same_pat_fields _ _ dr_P0) as (F1 & F2 & F3 & F4). pose proof (same_pat_fields _ _ dr_A0) as (G1 & G2 & G3 & G4).
    constructor; try lia.
    - eapply same_pat_wf; eauto.
    - eapply same_pat_triu; eauto.
    - eapply same_pat_wf; eauto.
  Qed.

  Definition wscal (w : work K) d a b c sc : work K :=
    set_w_data d (set_w_D_temp a (set_w_D_temp_A b (set_w_E_temp c (set_w_scaling sc w)))).

  Lemma wscal_set (w : work K) d a b c s d' s' :
    set_w_data d' (set_w_scaling s' (set_w_data d (set_w_D_temp a (set_w_D_temp_A b (set_w_E_temp c (set_w_scaling s w)))))) = wscal w d' a b c s'.
  Proof. destruct w; reflexivity. Qed.

  Lemma limit_safe (v : list K) : safe (limit_scaling_vector v) (fun r => zlen r = zlen v).
  Proof.
    unfold limit_scaling_vector, vf_set_scalar_if_lt, vf_set_scalar_if_gt. rewrite !v1_ok by (rewrite ?zlen_map; auto).
    apply safe_ret. rewrite !zlen_map. auto.
  Qed.

  Ltac matb H := eapply safe_bind; [leaf; [auto|size]|rs; intros ? H].

  Lemma scale_pass_safe (w : work K) s : dok (w_data w) -> zlen (w_D_temp w) = d_n (w_data w) -> zlen (w_D_temp_A w) = d_n (w_data w) ->
    zlen (w_E_temp w) = d_m (w_data w) -> scok (d_n (w_data w)) (d_m (w_data w)) s ->
    safe (scale_pass w s) (fun r => exists d a b c, fst r = wscal w d a b c (w_scaling w) /\ drel (w_data w) d /\
      d_l d = d_l (w_data w) /\ d_u d = d_u (w_data w) /\
      zlen a = d_n (w_data w) /\ zlen b = d_n (w_data w) /\ zlen c = d_m (w_data w) /\ scok (d_n (w_data w)) (d_m (w_data w)) (snd r)).
  Proof.
    intros Hd L1 L2 L3 [S1 S2 S3 S4]. destruct Hd. destruct do_Pt as (Hsq & Htri).
    unfold scale_pass, compute_inf_norm_cols_KKT.
    eapply safe_bind with (P := fun r => zlen (fst (fst r)) = d_n (w_data w) /\ zlen (snd (fst r)) = d_n (w_data w) /\ zlen (snd r) = d_m (w_data w)).
    { bind. bind. bind. bind. apply safe_ret. cbn [fst snd]. lia. }
    intros [[Dt DtA] Et] (M1 & M2 & M3). cbn [fst snd] in *.
    eapply safe_bind; [apply limit_safe|]. intros Dt1 N1. eapply safe_bind; [apply limit_safe|]. intros Et1 N2. cbv beta in N1, N2.
    bind. bind.
    unfold vf_ew_sqrt in *; rewrite ?zlen_map in *.
    eapply safe_bind; [apply safe_lmult; [auto|unfold vf_ew_sqrt in *; rewrite ?zlen_map in *; lia]|]. intros P1 HP1.
    pose proof (same_pat_fields _ _ HP1) as (F1 & F2 & _).
    eapply safe_bind; [apply safe_rmult; [eapply same_pat_wf; eauto|unfold vf_ew_sqrt in *; rewrite ?zlen_map in *; lia]|]. intros P2 HP2.
    pose proof (same_pat_fields _ _ HP2) as (F3 & F4 & _).
    eapply safe_bind; [apply safe_lmult; [auto|unfold vf_ew_sqrt in *; rewrite ?zlen_map in *; lia]|]. intros A1 HA1.
    pose proof (same_pat_fields _ _ HA1) as (G1 & G2 & _).
    eapply safe_bind; [apply safe_rmult; [eapply same_pat_wf; eauto|unfold vf_ew_sqrt in *; rewrite ?zlen_map in *; lia]|]. intros A2 HA2.
    unfold vf_ew_sqrt in *; rewrite ?zlen_map in *.
    bind. bind. bind.
    assert (WP2 : wf P2) by (eapply same_pat_wf; [exact HP2|]; eapply same_pat_wf; eauto).
    eapply safe_bind; [apply safe_col_norm; [auto|lia]|]. intros Dt2 N3. cbv beta in N3.
    eapply safe_bind; [apply safe_mscale; auto|]. intros P3 HP3. apply safe_ret.
    do 4 eexists. cbn [fst snd]. split; [destruct w; reflexivity|]. rs. repeat (split; [|try solve [auto]; try lia]).
    - constructor; rs; auto.
      + eapply same_pat_trans; [exact HP1|]. eapply same_pat_trans; eauto.
      + eapply same_pat_trans; eauto.
      + unfold vf_mult_scalar. rewrite zlen_map. lia.
    - auto.
    - auto.
    - lia.
    - lia.
    - lia.
    - constructor; rs; lia.
  Qed.

  (** The scratch vectors of scaling have the right sizes. *)
  Definition tmp_ok (w : work K) : Prop :=
    zlen (w_D_temp w) = d_n (w_data w) /\ zlen (w_D_temp_A w) = d_n (w_data w) /\ zlen (w_E_temp w) = d_m (w_data w).

  Lemma scale_data_safe st (w : work K) sc : dok (w_data w) -> tmp_ok w -> w_scaling w = Some sc -> scok (d_n (w_data w)) (d_m (w_data w)) sc ->
    safe (scale_data st w) (fun w' => exists d a b c sc', w' = wscal w d a b c (Some sc') /\ drel (w_data w) d /\
      zlen a = d_n (w_data w) /\ zlen b = d_n (w_data w) /\ zlen c = d_m (w_data w) /\ scok (d_n (w_data w)) (d_m (w_data w)) sc').
  Proof.
    intros Hd (T1 & T2 & T3) Esc [S1 S2 S3 S4]. unfold scale_data. rewrite Esc. rs.
    eapply safe_bind.
    - apply (safe_for (fun r => exists d a b c, fst r = wscal w d a b c (w_scaling w) /\ drel (w_data w) d /\
        d_l d = d_l (w_data w) /\ d_u d = d_u (w_data w) /\
        zlen a = d_n (w_data w) /\ zlen b = d_n (w_data w) /\ zlen c = d_m (w_data w) /\ scok (d_n (w_data w)) (d_m (w_data w)) (snd r))).
      + exists (w_data w), (w_D_temp w), (w_D_temp_A w), (w_E_temp w). cbn [fst snd]. split; [destruct w; reflexivity|].
        split; [apply drel_refl|]. repeat (split; auto); rs; unfold vf_set_scalar; rewrite ?zlen_map; auto.
      + intros i [w1 s1] _ (d & a & b & c & E1 & HD & El & Eu & La & Lb & Lc & HS). cbn [fst snd] in *. subst w1.
        pose proof HD as [Dn Dm _ _ _ _ _].
        eapply safe_weaken; [apply scale_pass_safe; unfold wscal; rs; rewrite ?Dn, ?Dm; auto; eapply drel_dok; eauto|].
        intros [w2 s2] (d2 & a2 & b2 & c2 & E2 & HD2 & El2 & Eu2 & La2 & Lb2 & Lc2 & HS2). unfold wscal in *. rs_all. cbn [fst snd] in *.
        exists d2, a2, b2, c2. split; [rewrite E2; destruct w; reflexivity|]. rs_in HD2. rewrite Dn, Dm in *. split; [eapply drel_trans; eauto|].
        repeat (split; [congruence|]). auto.
    - intros [w1 s1] (d & a & b & c & E1 & HD & El & Eu & La & Lb & Lc & HS). cbn [fst snd] in *. destruct HS as [U1 U2 U3 U4].
      pose proof (drel_dok _ _ HD Hd) as []. pose proof HD as [Dn Dm _ _ _ _ _]. subst w1. unfold wscal. rs. bind. bind. bind. bind. apply safe_ret.
      do 5 eexists. split; [apply wscal_set|]. split.
      + eapply drel_trans; [exact HD|]. constructor; rs; auto using same_pat_refl.
      + repeat (split; auto); rs; lia.
  Qed.

  Lemma unscale_data_safe (w : work K) sc : dok (w_data w) -> w_scaling w = Some sc -> scok (d_n (w_data w)) (d_m (w_data w)) sc ->
    safe (unscale_data w) (fun w' => exists d, w' = set_w_data d w /\ drel (w_data w) d).
  Proof.
    intros Hd Esc [S1 S2 S3 S4]. destruct Hd. destruct do_Pt as (Hsq & Htri). unfold unscale_data. rewrite Esc. rs.
    eapply safe_bind; [apply safe_mscale; auto|]. intros P1 HP1. pose proof (same_pat_fields _ _ HP1) as (F1 & F2 & _). pose proof (same_pat_wf _ _ HP1 do_P) as W1.
    eapply safe_bind; [apply safe_lmult; [auto|lia]|]. intros P2 HP2. pose proof (same_pat_fields _ _ HP2) as (F3 & F4 & _). pose proof (same_pat_wf _ _ HP2 W1) as W2.
    eapply safe_bind; [apply safe_rmult; [auto|lia]|]. intros P3 HP3.
    bind.
    eapply safe_bind; [apply safe_lmult; [auto|lia]|]. intros A2 HA2. pose proof (same_pat_fields _ _ HA2) as (G3 & G4 & _). pose proof (same_pat_wf _ _ HA2 do_A) as W3.
    eapply safe_bind; [apply safe_rmult; [auto|lia]|]. intros A3 HA3.
    bind. bind. apply safe_ret. eexists. split; [reflexivity|].
    unfold vf_mult_scalar in *. rewrite zlen_map in *.
    constructor; rs; auto; [eapply same_pat_trans; [exact HP1|]|]; eapply same_pat_trans; eauto.
  Qed.
End Scale.
