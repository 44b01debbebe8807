(** Residuals, tolerances and certificates computed by auxil.c, in exact arithmetic. *)
From Coq Require Import ZArith Reals List Bool Lia Lra String.
From Verif Require Import Num Arr ArrFacts RSum Csc CscSpec CscFacts CscFacts2 Scatter Vec VecFacts Types Kkt KktSpec KktDense Linsys LinsysFacts LinsysSolve Scaling Validate Auxil Polish Api
  Inv RecSimp InvStep InvApi InvScale InvSolve RealVec RealStep Frame FrameSolve ProbSpec ScaleReal Ldl QpSpec TermSpec.
Import ListNotations.
Open Scope Z_scope.

Lemma vnorm_ninf (v : list R) : @vf_norm_inf Rops v = ninf (rlen v) (rnth v).
Proof. apply ninf_unique. apply vf_norm_inf_spec. Qed.
Lemma rs_snorm (S v : list R) : rlen S = rlen v -> safe (@vf_scaled_norm_inf Rops S v) (fun r => r = ninf (rlen v) (fun i => rnth S i * rnth v i)%R).
Proof. intros H. eapply safe_weaken; [apply rs_scaled_norm; auto|]. intros r Hr. apply ninf_unique. exact Hr. Qed.

(** The test is made on problem Q, whose units are related by c, D, E to those of the stored problem. *)
Record tunits (st : settings Rops) (w : work Rops) (Q : qp) (c : R) (D E : Z -> R) : Prop := {
  tu_sq : scaled_qp c D E Q (qp_of (w_data w));
  tu_sc : unscaled_termination st = true -> exists sc, w_scaling w = Some sc /\ scok (d_n (w_data w)) (d_m (w_data w)) sc /\
            sc_c sc = c /\ sc_cinv sc = (/ c)%R /\
            (forall i, 0 <= i < d_n (w_data w) -> rnth (sc_D sc) i = D i) /\ (forall i, 0 <= i < d_n (w_data w) -> rnth (sc_Dinv sc) i = (/ D i)%R) /\
            (forall i, 0 <= i < d_m (w_data w) -> rnth (sc_E sc) i = E i) /\ (forall i, 0 <= i < d_m (w_data w) -> rnth (sc_Einv sc) i = (/ E i)%R);
  tu_id : unscaled_termination st = false -> c = 1%R /\ (forall i, D i = 1%R) /\ (forall i, E i = 1%R) }.
Lemma tunits_same st (w w' : work Rops) Q c D E : w_data w' = w_data w -> w_scaling w' = w_scaling w -> tunits st w Q c D E -> tunits st w' Q c D E.
Proof. intros H1 H2 [A B C]. constructor; rewrite ?H1, ?H2; auto. Qed.

Lemma infv_R : @infval Rops = (10 ^ 26)%R.
Proof. unfold infval. rewrite infty_R, min_scaling_R. cbn [nmul Rops]. replace (10 ^ 30)%R with (10 ^ 26 * 10 ^ 4)%R by ring. change (10 ^ 26 * 10 ^ 4 * / 10 ^ 4 = 10 ^ 26)%R. field. Qed.

Lemma znth_In {A} (d : A) (a : list A) i : 0 <= i < zlen a -> In (znth d a i) a.
Proof.
  intros Hi. pose proof (zget_Some d a i Hi) as Ev. unfold zget in Ev. destruct (i <? 0); [discriminate|]. eapply nth_error_In; eauto.
Qed.
(** vector.c:676-702 and 334-347 applied to one multiplier *)
Definition polar (l u y : R) : R :=
  if Rltb (10 ^ 26) u then (if Rltb l (- 10 ^ 26) then 0%R else Rmin y 0) else if Rltb l (- 10 ^ 26) then Rmax y 0 else y.
Definition cut (l u y : R) : R := if Rltb (Rabs (polar l u y)) (/ 10 ^ 15) then 0%R else polar l u y.
Lemma polar_drops l u y : drops l u y (polar l u y).
Proof.
  unfold drops, polar, no_upper, no_lower. destruct (Rltb (10 ^ 26) u) eqn:E1, (Rltb l (- 10 ^ 26)) eqn:E2;
    rewrite ?Rltb_iff in *; try (apply not_true_iff_false in E1; rewrite Rltb_iff in E1); try (apply not_true_iff_false in E2; rewrite Rltb_iff in E2); repeat split; intros; tauto || auto.
Qed.
Lemma cut_drops l u y : drops_small l u y (cut l u y).
Proof.
  exists (polar l u y). split; [apply polar_drops|]. unfold cut. destruct (Rltb _ _) eqn:E1; [apply Rltb_iff in E1|apply not_true_iff_false in E1; rewrite Rltb_iff in E1]; split; intros; auto; lra.
Qed.
Lemma rs_polar (y l u : list R) : rlen y = rlen l -> rlen l = rlen u ->
  safe (@vf_project_polar_reccone Rops y l u infval) (fun r => rlen r = rlen y /\ forall i, 0 <= i < rlen y -> rnth r i = polar (rnth l i) (rnth u i) (rnth y i)).
Proof.
  intros H1 H2. unfold vf_project_polar_reccone. eapply safe_weaken; [apply rs_v3; auto|]. intros r (L & V). split; [auto|].
  intros i Hi. rewrite V by rsize. unfold polar. rewrite infv_R, ?c_min_R, ?c_max_R, ?n0_R. reflexivity.
Qed.
Lemma rs_reccone (y l u : list R) (tol : R) : rlen y = rlen l -> rlen l = rlen u ->
  safe (@vf_in_reccone Rops y l u infval tol) (fun b => b = true <-> forall i, 0 <= i < rlen y ->
    (~ 10 ^ 26 <= rnth u i -> rnth y i <= tol)%R /\ (~ rnth l i <= - 10 ^ 26 -> - tol <= rnth y i)%R).
Proof.
  intros H1 H2. unfold vf_in_reccone.
  rewrite v3_ok by rsize. apply safe_ret. split.
  2:{ intros HF. apply forallb_forall. intros b Hb. apply (In_nth _ _ true) in Hb as (k & Hk & <-). match type of Hk with (_ < Datatypes.length ?z)%nat => set (zs := z) in * end. assert (Hz : zlen zs = rlen y) by (unfold zs; rewrite zlen_zip3; rsize).
    assert (Hk' : 0 <= Z.of_nat k < rlen y) by (rewrite <- Hz; unfold zlen; lia).
    replace (nth k zs true) with (znth true zs (Z.of_nat k)) by (unfold znth, zget; destruct (Z.of_nat k <? 0) eqn:Ek; [apply Z.ltb_lt in Ek; lia|]; rewrite Nat2Z.id; rewrite (nth_error_nth' _ true Hk); reflexivity).
    unfold zs. rewrite (znth_zip3 true 0%R 0%R 0%R) by rsize. fold (rnth u (Z.of_nat k)). fold (rnth y (Z.of_nat k)). fold (rnth l (Z.of_nat k)). destruct (HF _ Hk') as (HA & HB). rewrite infv_R in *.
    cbn [nltb Rops nopp] in *. apply negb_true_iff, orb_false_iff. split; apply andb_false_iff; rewrite <- !not_true_iff_false, !Rltb_iff.
    - destruct (Rlt_le_dec (rnth u (Z.of_nat k)) (10 ^ 26)); [right|left; lra]. assert (rnth y (Z.of_nat k) <= tol)%R by (apply HA; lra). lra.
    - destruct (Rlt_le_dec (- 10 ^ 26) (rnth l (Z.of_nat k))); [right|left; lra]. assert (- tol <= rnth y (Z.of_nat k))%R by (apply HB; lra). lra. }
  intros HF i Hi. rewrite forallb_forall in HF.
  assert (HI : In (znth true (zip3 (fun y l u : R => negb (Rltb u infval && Rltb tol y || Rltb (- infval) l && Rltb y (- tol))) y l u) i) (zip3 (fun y l u : R => negb (Rltb u infval && Rltb tol y || Rltb (- infval) l && Rltb y (- tol))) y l u)).
  { apply znth_In. rewrite zlen_zip3; rsize. }
  apply HF in HI. rewrite (znth_zip3 true 0%R 0%R 0%R) in HI by rsize. apply negb_true_iff, orb_false_iff in HI as (HA & HB). rewrite infv_R in *.
  fold (rnth u i) in *. fold (rnth y i) in *. fold (rnth l i) in *.
  apply andb_false_iff in HA. apply andb_false_iff in HB. split; intros HN.
  - destruct HA as [HA|HA]; apply not_true_iff_false in HA; rewrite Rltb_iff in HA; lra.
  - destruct HB as [HB|HB]; apply not_true_iff_false in HB; rewrite Rltb_iff in HB; lra.
Qed.

Lemma un_support c D E u s v : scaled_qp c D E u s -> support s v = (c * support u (uny c E v))%R.
Proof.
  intros H. unfold support. rewrite (sq_m _ _ _ _ _ H), <- sumn_scal. apply sumn_ext. intros i Hi. rewrite (sq_u _ _ _ _ _ H), (sq_l _ _ _ _ _ H) by auto.
  pose proof (sq_c _ _ _ _ _ H) as Hc. pose proof (sq_E _ _ _ _ _ H i Hi) as He. unfold uny. set (e := E i) in *. set (y := v i).
  assert (H1 : forall f : R -> R, True) by auto.
  assert (Hce : (0 < e / c)%R) by (apply Rdiv_lt_0_compat; auto).
  replace (e * y / c)%R with (e / c * y)%R by (field; lra).
  unfold Rmax, Rmin. destruct (Rle_dec y 0), (Rle_dec (e / c * y) 0); try (field; lra); exfalso.
  - assert (0 <= e / c * - y)%R by (apply Rmult_le_pos; lra). lra.
  - assert (0 < e / c * y)%R by (apply Rmult_lt_0_compat; lra). lra.
Qed.

Section Term.
  Variables (st : settings Rops) (Q : qp) (c : R) (D E : Z -> R).
  Notation tun w := (tunits st w Q c D E).
  Notation nn w := (d_n (w_data w)). Notation mm w := (d_m (w_data w)).
  Notation Ps w := (qp_of (w_data w)).
  Notation X x := (unx D (rnth x)). Notation Zv z := (unz E (rnth z)). Notation Y y := (uny c E (rnth y)).

  Ltac start w H := pose proof H as HW; destruct H as [Hd Hsc Hrho Hls Hlen]; destruct Hd, Hlen.

  Lemma q_dims (w : work Rops) : tun w -> q_n Q = nn w /\ q_m Q = mm w.
  Proof. intros [[H1 H2 _ _ _ _ _ _ _ _] _ _]. cbn [qp_of q_n q_m] in *. auto. Qed.

  (** Norms of row and column vectors, in the units of the test. *)
  Lemma row_norm (w : work Rops) (v : list R) : tun w -> rlen v = mm w ->
    safe (if unscaled_termination st then match w_scaling w with Some sc => @vf_scaled_norm_inf Rops (sc_Einv sc) v | None => None end else Some (@vf_norm_inf Rops v))
      (fun r => r = ninf (mm w) (fun i => (rnth v i / E i)%R)).
  Proof.
    intros [_ H2 H3] L. destruct (unscaled_termination st).
    - destruct (H2 eq_refl) as (sc & -> & [? ? ? ?] & _ & _ & _ & _ & _ & Ei). fix_R. eapply safe_weaken; [apply rs_snorm; fix_R; lia|]. intros r ->. rewrite L. apply ninf_ext. intros i Hi. rewrite Ei by auto. unfold Rdiv. ring.
    - destruct (H3 eq_refl) as (_ & _ & He). apply safe_ret. rewrite vnorm_ninf, L. apply ninf_ext. intros i Hi. rewrite He. field.
  Qed.
  Lemma col_norm (w : work Rops) (v : list R) : tun w -> rlen v = nn w ->
    safe (if unscaled_termination st then match w_scaling w with Some sc => @vf_scaled_norm_inf Rops (sc_Dinv sc) v | None => None end else Some (@vf_norm_inf Rops v))
      (fun r => r = ninf (nn w) (fun i => (rnth v i / D i)%R)).
  Proof.
    intros [_ H2 H3] L. destruct (unscaled_termination st).
    - destruct (H2 eq_refl) as (sc & -> & [? ? ? ?] & _ & _ & _ & Di & _ & _). fix_R. eapply safe_weaken; [apply rs_snorm; fix_R; lia|]. intros r ->. rewrite L. apply ninf_ext. intros i Hi. rewrite Di by auto. unfold Rdiv. ring.
    - destruct (H3 eq_refl) as (_ & Hd & _). apply safe_ret. rewrite vnorm_ninf, L. apply ninf_ext. intros i Hi. rewrite Hd. field.
  Qed.
  Lemma cpos (w : work Rops) : tun w -> (0 < c)%R. Proof. intros [[] _ _]. auto. Qed.
  Lemma Dpos (w : work Rops) i : tun w -> 0 <= i < nn w -> (0 < D i)%R.
  Proof. intros H Hi. pose proof (q_dims w H) as [Hn _]. destruct H as [[] _ _]. apply sq_D. lia. Qed.
  Lemma Epos (w : work Rops) i : tun w -> 0 <= i < mm w -> (0 < E i)%R.
  Proof. intros H Hi. pose proof (q_dims w H) as [_ Hm]. destruct H as [[] _ _]. apply sq_E. lia. Qed.
  Lemma Ax_units (w : work Rops) (x : Z -> R) i : tun w -> 0 <= i < mm w -> (Amul (Ps w) x i / E i = Amul Q (unx D x) i)%R.
  Proof. intros H Hi. pose proof (q_dims w H) as [_ Hm]. pose proof (Epos w i H Hi). rewrite (un_Ax _ _ _ _ _ (tu_sq _ _ _ _ _ _ H)) by lia. field. lra. Qed.
  Lemma Px_units (w : work Rops) (x : Z -> R) i : tun w -> 0 <= i < nn w -> (Pmul (Ps w) x i / D i = c * Pmul Q (unx D x) i)%R.
  Proof. intros H Hi. pose proof (q_dims w H) as [Hn _]. pose proof (Dpos w i H Hi). rewrite (un_Px _ _ _ _ _ (tu_sq _ _ _ _ _ _ H)) by lia. field. lra. Qed.
  Lemma Aty_units (w : work Rops) (y : Z -> R) i : tun w -> 0 <= i < nn w -> (Atmul (Ps w) y i / D i = c * Atmul Q (uny c E y) i)%R.
  Proof. intros H Hi. pose proof (q_dims w H) as [Hn _]. pose proof (Dpos w i H Hi). rewrite (un_Aty _ _ _ _ _ (tu_sq _ _ _ _ _ _ H)) by lia. field. lra. Qed.
  Lemma q_units (w : work Rops) i : tun w -> 0 <= i < nn w -> (rnth (d_q (w_data w)) i / D i = c * q_q Q i)%R.
  Proof. intros H Hi. pose proof (q_dims w H) as [Hn _]. pose proof (Dpos w i H Hi). pose proof (sq_q _ _ _ _ _ (tu_sq _ _ _ _ _ _ H) i ltac:(lia)) as Hq. cbn [qp_of q_q] in Hq. rewrite Hq. field. lra. Qed.

  Lemma prim_res_real (w : work Rops) (x z : list R) : wok st w -> tun w -> rlen x = nn w -> rlen z = mm w ->
    safe (compute_prim_res st w x z) (fun r =>
      fst r = ninf (mm w) (fun i => Amul Q (X x) i - Zv z i)%R /\
      (forall i, 0 <= i < mm w -> rnth (w_Ax (snd r)) i = Amul (Ps w) (rnth x) i) /\
      w_scaled_prim_res (snd r) = ninf (mm w) (fun i => Amul (Ps w) (rnth x) i - rnth z i)%R).
  Proof.
    intros H HT Hx Hz. start w H. unfold compute_prim_res. rbind Ax LA VA. rbind zp LZ VZ. rs.
    assert (VA' : forall i, 0 <= i < mm w -> rnth Ax i = Amul (Ps w) (rnth x) i).
    { intros i Hi. rewrite VA by lia. fix_R. unfold Amul, mulR, qp_of. cbn [q_n q_A]. rewrite do_An. ring. }
    assert (VZ' : forall i, 0 <= i < mm w -> rnth zp i = (Amul (Ps w) (rnth x) i - rnth z i)%R).
    { intros i Hi. rewrite VZ by (fix_R; lia). rewrite VA' by auto. reflexivity. }
    assert (LZ' : rlen zp = mm w) by (fix_R; lia).
    assert (E0 : @vf_norm_inf Rops zp = ninf (mm w) (fun i => Amul (Ps w) (rnth x) i - rnth z i)%R) by (rewrite vnorm_ninf, LZ'; apply ninf_ext; auto).
    assert (E1 : ninf (mm w) (fun i => (rnth zp i / E i)%R) = ninf (mm w) (fun i => Amul Q (X x) i - Zv z i)%R).
    { apply ninf_ext. intros i Hi. rewrite VZ' by auto. rewrite <- (Ax_units w) by auto. unfold unz. unfold Rdiv. ring. }
    pose proof (row_norm w zp HT LZ') as HN.
    destruct (unscaled_termination st) eqn:Eu.
    - destruct (tu_sc _ _ _ _ _ _ HT Eu) as (sc & Es & _). rewrite Es in HN |- *. eapply safe_bind; [exact HN|]. intros r ->. apply safe_ret. cbn [fst snd]. rs. auto.
    - destruct HN as (r & [= <-] & HN). apply safe_ret. cbn [fst snd]. rs. split; [congruence|auto].
  Qed.

  Lemma dual_res_real (w : work Rops) (x y : list R) : wok st w -> tun w -> rlen x = nn w -> rlen y = mm w ->
    safe (compute_dual_res st w x y) (fun r =>
      fst r = ninf (nn w) (fun i => q_q Q i + Pmul Q (X x) i + Atmul Q (Y y) i)%R /\
      (forall i, 0 <= i < nn w -> rnth (w_Px (snd r)) i = Pmul (Ps w) (rnth x) i) /\
      (0 < mm w -> forall i, 0 <= i < nn w -> rnth (w_Aty (snd r)) i = Atmul (Ps w) (rnth y) i) /\
      (mm w = 0 -> w_Aty (snd r) = w_Aty w) /\
      w_scaled_dual_res (snd r) = ninf (nn w) (fun i => q_q (Ps w) i + Pmul (Ps w) (rnth x) i + Atmul (Ps w) (rnth y) i)%R).
  Proof.
    intros H HT Hx Hy. start w H. pose proof do_Pt as (Hsq & Htri). unfold compute_dual_res, vf_copy.
    eapply safe_bind; [apply (rs_v1 0%R); rsize|]. intros r0 (L0 & V0). rbind Px LP VP.
    assert (VP' : forall i, 0 <= i < nn w -> rnth Px i = Pmul (Ps w) (rnth x) i).
    { intros i Hi. rewrite VP by lia. fix_R. unfold Pmul, mulR, qp_of. cbn [q_n q_P]. rewrite do_Pn. ring. }
    rbind r1 L1 V1.
    assert (V1' : forall i, 0 <= i < nn w -> rnth r1 i = (q_q (Ps w) i + Pmul (Ps w) (rnth x) i)%R).
    { intros i Hi. rewrite V1 by (fix_R; lia). rewrite V0, VP' by (fix_R; lia). reflexivity. }
    eapply safe_bind with (P := fun rw => rlen (fst rw) = nn w /\ (forall i, 0 <= i < nn w -> rnth (fst rw) i = (q_q (Ps w) i + Pmul (Ps w) (rnth x) i + Atmul (Ps w) (rnth y) i)%R) /\
      exists At, snd rw = set_w_Aty At (set_w_Px Px w) /\ (0 < mm w -> forall i, 0 <= i < nn w -> rnth At i = Atmul (Ps w) (rnth y) i) /\ (mm w = 0 -> At = w_Aty w)).
    { rs. unfold tr. destruct (mm w =? 0) eqn:Em; cbn [negb].
      - apply safe_ret. cbn [fst snd]. split; [fix_R; lia|]. split.
        + intros i Hi. rewrite V1' by auto. unfold Atmul, mulR, qp_of. cbn [q_m]. replace (mm w) with 0 by lia. rewrite zsum_nil by lia. lra.
        + exists (w_Aty w). split; [destruct w; reflexivity|]. split; [lia|auto].
      - rbind At LA VA. rbind r2 L2 V2. apply safe_ret. cbn [fst snd].
        assert (VA' : forall i, 0 <= i < nn w -> rnth At i = Atmul (Ps w) (rnth y) i).
        { intros i Hi. rewrite VA by lia. fix_R. unfold Atmul, mulR, tr_, qp_of. cbn [q_m q_A]. rewrite do_Am. ring. }
        split; [fix_R; lia|]. split.
        + intros i Hi. rewrite V2 by (fix_R; lia). rewrite V1', VA' by auto. reflexivity.
        + exists At. split; [destruct w; reflexivity|]. split; [auto|lia]. }
    intros [r2 w2] (L2 & V2 & At & Ew & HA1 & HA2). cbn [fst snd] in *. subst w2.
    assert (E0 : @vf_norm_inf Rops r2 = ninf (nn w) (fun i => q_q (Ps w) i + Pmul (Ps w) (rnth x) i + Atmul (Ps w) (rnth y) i)%R) by (rewrite vnorm_ninf, L2; apply ninf_ext; auto).
    assert (E1 : (/ c * ninf (nn w) (fun i => (rnth r2 i / D i)%R))%R = ninf (nn w) (fun i => q_q Q i + Pmul Q (X x) i + Atmul Q (Y y) i)%R).
    { pose proof (cpos w HT) as Hc. rewrite (ninf_ext (nn w) (fun i => (rnth r2 i / D i)%R) (fun i => (c * (q_q Q i + Pmul Q (X x) i + Atmul Q (Y y) i))%R)).
      - rewrite ninf_scal, Rabs_right by lra. field. lra.
      - intros i Hi. rewrite V2 by auto. unfold Rdiv. rewrite !Rmult_plus_distr_r. pose proof (q_units w i HT Hi) as U1. pose proof (Px_units w (rnth x) i HT Hi) as U2. pose proof (Aty_units w (rnth y) i HT Hi) as U3.
        unfold Rdiv in *. rewrite U2, U3. unfold qp_of at 1. cbn [q_q]. rewrite U1. ring. }
    pose proof (col_norm w r2 HT L2) as HN. rs. cbn [snd fst].
    destruct (unscaled_termination st) eqn:Eu.
    - destruct (tu_sc _ _ _ _ _ _ HT Eu) as (sc & Es & _ & _ & Hci & _). rewrite Es in HN |- *. eapply safe_bind; [exact HN|]. intros r ->. apply safe_ret. cbn [fst snd]. rs. fix_R. rewrite Hci. auto 10.
    - destruct HN as (r & [= <-] & HN). destruct (tu_id _ _ _ _ _ _ HT Eu) as (Hc1 & _). apply safe_ret. cbn [fst snd]. rs. split; [|auto 10]. rewrite <- E1, Hc1, <- HN. lra.
  Qed.

  (** The objective values and the gap; U, cu: the user's problem and cost scaling. *)
  Lemma obj_real (w : work Rops) (x y : list R) U cu Du Eu : wok st w -> rlen x = nn w -> rlen y = mm w ->
    (forall i, 0 <= i < nn w -> rnth (w_Px w) i = Pmul (Ps w) (rnth x) i) ->
    scaled_qp cu Du Eu U (Ps w) -> (tr (st_scaling st) = true -> exists sc, w_scaling w = Some sc /\ sc_cinv sc = (/ cu)%R) -> (tr (st_scaling st) = false -> cu = 1%R) ->
    safe (compute_obj_val_dual_gap st w x y) (fun r => let '(p, dv, g, w') := r in
      let V := fun i => cut (rnth (d_l (w_data w)) i) (rnth (d_u (w_data w)) i) (rnth y i) in
      let S := support U (uny cu Eu V) in
      p = objective U (unx Du (rnth x)) /\ dv = (- (/ 2) * quad U (unx Du (rnth x)) - S)%R /\ g = (quad U (unx Du (rnth x)) + lin U (unx Du (rnth x)) + S)%R /\
      w_xtPx w' = quad (Ps w) (rnth x) /\ w_qtx w' = lin (Ps w) (rnth x) /\ w_SC w' = support (Ps w) V /\ w_scaled_dual_gap w' = (quad (Ps w) (rnth x) + lin (Ps w) (rnth x) + support (Ps w) V)%R).
  Proof.
    intros H Hx Hy HP HU HS1 HS0. start w H. unfold compute_obj_val_dual_gap, vf_copy.
    eapply safe_bind; [apply rs_dot; rsize|]. intros qt Hqt. eapply safe_bind; [apply rs_dot; rsize|]. intros lt Hlt.
    eapply safe_bind; [apply (rs_v1 0%R); rsize|]. intros zp0 (L0 & V0). eapply safe_bind; [apply rs_polar; rsize|]. intros zp (L1 & V1). rs. cbv zeta.
    set (zr := @vf_round_to_zero Rops zp (OSQP_ZERO_DEADZONE Rops)).
    assert (Lr : rlen zr = mm w) by (subst zr; rsize).
    assert (Vr : forall i, 0 <= i < mm w -> rnth zr i = cut (rnth (d_l (w_data w)) i) (rnth (d_u (w_data w)) i) (rnth y i)).
    { intros i Hi. subst zr. unfold vf_round_to_zero. change (car Rops) with R in *. unfold rnth at 1. rewrite (znth_map 0%R 0%R) by lia. fold (rnth zp i). rewrite V1, V0 by lia. fold (rnth y i). rewrite c_absval_R, n0_R, deadzone_R. reflexivity. }
    clearbody zr.
    eapply safe_bind; [apply rs_dot_signed; rsize|]. intros su Hsu. eapply safe_bind; [apply rs_dot_signed; rsize|]. intros sl Hsl.
    change (1 =? 1) with true in Hsu. change (-1 =? 1) with false in Hsl. change (-1 =? -1) with true in Hsl. cbv iota in Hsu, Hsl.
    set (V := fun i => cut (rnth (d_l (w_data w)) i) (rnth (d_u (w_data w)) i) (rnth y i)).
    assert (EQ : qt = quad (Ps w) (rnth x)).
    { rewrite Hqt. unfold quad, sumn, qp_of at 1. cbn [q_n]. change (car Rops) with R in *. rewrite ln_Px. apply zsum_ext. intros i Hi. rewrite HP by auto. ring. }
    assert (EL : lt = lin (Ps w) (rnth x)).
    { rewrite Hlt. unfold lin, sumn, qp_of. cbn [q_n q_q]. change (car Rops) with R in *. rewrite do_q. auto. }
    assert (ES : (su + sl)%R = support (Ps w) V).
    { rewrite Hsu, Hsl. unfold support, sumn, qp_of. cbn [q_m q_u q_l]. change (car Rops) with R in *. rewrite do_u, do_l, <- zsum_plus. apply zsum_ext. intros i Hi. rewrite Vr by auto. reflexivity. }
    assert (H5 : @nlit Rops 5 (-1) = (/ 2)%R) by (rewrite lit_R; unfold powerRZ; cbn [Pos.to_nat Pos.iter_op pow]; change (Pos.to_nat 1) with 1%nat; cbn [pow]; lra).
    pose proof (un_quad _ _ _ _ _ HU (rnth x)) as U1. pose proof (un_lin _ _ _ _ _ HU (rnth x)) as U2. pose proof (un_support _ _ _ _ _ V HU) as U3. pose proof (sq_c _ _ _ _ _ HU) as Hc.
    eapply safe_bind with (P := fun r => let '(p, dv, g) := r in p = (objective U (unx Du (rnth x)))%R /\ dv = (- (/ 2) * quad U (unx Du (rnth x)) - support U (uny cu Eu V))%R /\ g = (quad U (unx Du (rnth x)) + lin U (unx Du (rnth x)) + support U (uny cu Eu V))%R).
    { unfold objective. rewrite H5. fix_R. rewrite EQ, EL, ES, U1, U2, U3. destruct (tr (st_scaling st)).
      - destruct (HS1 eq_refl) as (sc & -> & Hci). apply safe_ret. rewrite Hci. repeat split; field; lra.
      - rewrite (HS0 eq_refl). apply safe_ret. repeat split; ring. }
    intros [[p dv] g] (A1 & A2 & A3). apply safe_ret. fix_R. rs. repeat (split; [assumption|]). rewrite EQ, EL, ES. auto.
  Qed.

  Lemma prim_tol_real (w : work Rops) (ea er : R) (x : Z -> R) : wok st w -> tun w -> (forall i, 0 <= i < mm w -> rnth (w_Ax w) i = Amul (Ps w) x i) ->
    safe (compute_prim_tol st w ea er) (fun r => r = (ea + er * Rmax (ninf (mm w) (Zv (w_z w))) (ninf (mm w) (Amul Q (unx D x))))%R).
  Proof.
    intros H HT HA. start w H. unfold compute_prim_tol.
    pose proof (row_norm w (w_z w) HT ln_z) as N1. pose proof (row_norm w (w_Ax w) HT ln_Ax) as N2.
    assert (E2 : ninf (mm w) (fun i => (rnth (w_Ax w) i / E i)%R) = ninf (mm w) (Amul Q (unx D x))) by (apply ninf_ext; intros i Hi; rewrite HA by auto; apply Ax_units; auto).
    rewrite E2 in N2. change (fun i => (rnth (w_z w) i / E i)%R) with (Zv (w_z w)) in N1.
    destruct (unscaled_termination st) eqn:Eu.
    - destruct (tu_sc _ _ _ _ _ _ HT Eu) as (sc & Es & _). rewrite Es in N1, N2 |- *. destruct N1 as (a & -> & ->), N2 as (b & -> & ->). apply safe_ret. rewrite c_max_R. reflexivity.
    - destruct N1 as (a & [= <-] & N1), N2 as (b & [= <-] & N2). rewrite N1, N2. apply safe_ret. rewrite c_max_R. reflexivity.
  Qed.

  Lemma dual_tol_real (w : work Rops) (ea er : R) (x y : Z -> R) : wok st w -> tun w ->
    (forall i, 0 <= i < nn w -> rnth (w_Px w) i = Pmul (Ps w) x i) -> (forall i, 0 <= i < nn w -> rnth (w_Aty w) i = Atmul (Ps w) y i) ->
    safe (compute_dual_tol st w ea er) (fun r => r = (ea + er * Rmax (Rmax (ninf (nn w) (q_q Q)) (ninf (nn w) (Atmul Q (uny c E y)))) (ninf (nn w) (Pmul Q (unx D x))))%R).
  Proof.
    intros H HT HP HA. start w H. unfold compute_dual_tol.
    pose proof (col_norm w (d_q (w_data w)) HT do_q) as N1. pose proof (col_norm w (w_Aty w) HT ln_Aty) as N2. pose proof (col_norm w (w_Px w) HT ln_Px) as N3.
    pose proof (cpos w HT) as Hc.
    assert (E1 : ninf (nn w) (fun i => (rnth (d_q (w_data w)) i / D i)%R) = (c * ninf (nn w) (q_q Q))%R).
    { rewrite <- (Rabs_right c) at 1 by lra. rewrite <- ninf_scal. apply ninf_ext. intros i Hi. apply q_units; auto. }
    assert (E2 : ninf (nn w) (fun i => (rnth (w_Aty w) i / D i)%R) = (c * ninf (nn w) (Atmul Q (uny c E y)))%R).
    { rewrite <- (Rabs_right c) at 1 by lra. rewrite <- ninf_scal. apply ninf_ext. intros i Hi. rewrite HA by auto. apply Aty_units; auto. }
    assert (E3 : ninf (nn w) (fun i => (rnth (w_Px w) i / D i)%R) = (c * ninf (nn w) (Pmul Q (unx D x)))%R).
    { rewrite <- (Rabs_right c) at 1 by lra. rewrite <- ninf_scal. apply ninf_ext. intros i Hi. rewrite HP by auto. apply Px_units; auto. }
    rewrite E1 in N1. rewrite E2 in N2. rewrite E3 in N3.
    assert (HM : forall a b d, Rmax (Rmax (c * a) (c * b)) (c * d) = (c * Rmax (Rmax a b) d)%R).
    { intros. rewrite !RmaxRmult by lra. reflexivity. }
    destruct (unscaled_termination st) eqn:Eu.
    - destruct (tu_sc _ _ _ _ _ _ HT Eu) as (sc & Es & _ & _ & Hci & _). rewrite Es in N1, N2, N3 |- *. destruct N1 as (a1 & -> & ->), N2 as (a2 & -> & ->), N3 as (a3 & -> & ->).
      apply safe_ret. rewrite !c_max_R. fix_R. rewrite HM, Hci. field. lra.
    - destruct (tu_id _ _ _ _ _ _ HT Eu) as (Hc1 & _). destruct N1 as (a1 & [= <-] & N1), N2 as (a2 & [= <-] & N2), N3 as (a3 & [= <-] & N3). rewrite N1, N2, N3. apply safe_ret. rewrite !c_max_R. fix_R. rewrite HM, Hc1. ring.
  Qed.

  Lemma gap_tol_real (w : work Rops) (ea er : R) (x V : Z -> R) : tun w -> w_xtPx w = quad (Ps w) x -> w_qtx w = lin (Ps w) x -> w_SC w = support (Ps w) V ->
    safe (compute_duality_gap_tol st w ea er) (fun r => r = (ea + er * Rmax (Rmax (Rabs (quad Q (unx D x))) (Rabs (lin Q (unx D x)))) (Rabs (support Q (uny c E V))))%R).
  Proof.
    intros HT H1 H2 H3. unfold compute_duality_gap_tol. rewrite H1, H2, H3. pose proof (cpos w HT) as Hc. pose proof (tu_sq _ _ _ _ _ _ HT) as HU.
    rewrite (un_quad _ _ _ _ _ HU), (un_lin _ _ _ _ _ HU), (un_support _ _ _ _ _ V HU), !c_max_R, !c_absval_R, !Rabs_mult, (Rabs_right c) by lra. rewrite !RmaxRmult by lra.
    destruct (unscaled_termination st) eqn:Eu.
    - destruct (tu_sc _ _ _ _ _ _ HT Eu) as (sc & Es & _ & _ & Hci & _). rewrite Es. apply safe_ret. fix_R. rewrite Hci. field. lra.
    - destruct (tu_id _ _ _ _ _ _ HT Eu) as (Hc1 & _). apply safe_ret. fix_R. rewrite Hc1. ring.
  Qed.

  Lemma Ev_support (w : work Rops) (v : Z -> R) : tun w -> support Q (fun i => E i * v i)%R = support (Ps w) v.
  Proof.
    intros H. pose proof (q_dims w H) as [_ Hm]. unfold support. pose proof (tu_sq _ _ _ _ _ _ H) as HS. rewrite (sq_m _ _ _ _ _ HS). apply sumn_ext. intros i Hi. rewrite (sq_u _ _ _ _ _ HS), (sq_l _ _ _ _ _ HS) by auto.
    pose proof (sq_E _ _ _ _ _ HS i Hi) as He. set (e := E i) in *. set (y := v i).
    unfold Rmax, Rmin. destruct (Rle_dec y 0), (Rle_dec (e * y) 0); try ring; exfalso.
    - assert (0 <= e * - y)%R by (apply Rmult_le_pos; lra). lra.
    - assert (0 < e * y)%R by (apply Rmult_lt_0_compat; lra). lra.
  Qed.
  Lemma Ev_At (w : work Rops) (v : Z -> R) i : tun w -> 0 <= i < nn w -> (Atmul (Ps w) v i = D i * Atmul Q (fun i => E i * v i) i)%R.
  Proof.
    intros H Hi. pose proof (q_dims w H) as [Hn Hm]. rewrite (un_Aty _ _ _ _ _ (tu_sq _ _ _ _ _ _ H)) by lia. pose proof (cpos w H) as Hc.
    unfold uny, Atmul. rewrite (mulR_ext _ _ (fun i0 => (E i0 * v i0 / c)%R) (fun i0 => (/ c * (E i0 * v i0))%R)) by (intros; field; lra). rewrite mulR_scal. field. lra.
  Qed.

  Lemma prim_inf_real (w : work Rops) (e : R) : wok st w -> tun w ->
    safe (is_primal_infeasible st w e) (fun r => (forall i, 0 <= i < mm w -> rnth (w_delta_y (snd r)) i = polar (rnth (d_l (w_data w)) i) (rnth (d_u (w_data w)) i) (rnth (w_delta_y w) i)) /\
      (fst r = true <-> (/ 10 ^ 30 < ninf (mm w) (fun i => E i * rnth (w_delta_y (snd r)) i))%R /\ infeasible_within Q e (fun i => E i * rnth (w_delta_y (snd r)) i)%R)).
  Proof.
    intros H HT. pose proof (q_dims w HT) as [Hn Hm]. pose proof H as H0. start w H. unfold is_primal_infeasible.
    eapply safe_bind; [apply rs_polar; rsize|]. intros dy (Ly & Vy). change (car Rops) with R in *. assert (Ly' : rlen dy = mm w) by lia. rewrite <- Ly, Ly' in Vy. clear Ly.
    eapply safe_bind with (P := fun r => fst r = ninf (mm w) (fun i => E i * rnth dy i)%R /\ exists t, snd r = set_w_Adelta_x t (set_w_delta_y dy w)).
    { destruct (unscaled_termination st) eqn:Eu.
      - destruct (tu_sc _ _ _ _ _ _ HT Eu) as (sc & Es & [? ? ? ?] & _ & _ & _ & _ & HE & _). rs. rewrite Es. rbind t Lt Vt. apply safe_ret. cbn [fst snd]. split; [|exists t; reflexivity].
        assert (Lt' : rlen t = mm w) by (change (car Rops) with R in *; lia).
        change (car Rops) with R in *. rewrite vnorm_ninf, Lt'. apply ninf_ext. intros i Hi. rewrite Vt by rsize. rewrite HE by auto. reflexivity.
      - destruct (tu_id _ _ _ _ _ _ HT Eu) as (_ & _ & HE). apply safe_ret. cbn [fst snd]. split; [|exists (w_Adelta_x w); destruct w; reflexivity].
        rewrite vnorm_ninf, Ly'. apply ninf_ext. intros i Hi. rewrite HE. ring. }
    intros [nd w1] (End_ & t & Ew). cbn [fst snd] in *. subst w1. rs.
    destruct (nltb _ nd) eqn:E1; cycle 1.
    { apply safe_ret. cbn [fst snd]. rs. split; [exact Vy|]. split; [discriminate|]. intros (HH & _). apply not_true_iff_false in E1. exfalso. apply E1. cbn [nltb Rops]. apply Rltb_iff. rewrite div_tol_R, End_. exact HH. }
    cbn [nltb Rops] in E1. apply Rltb_iff in E1. rewrite div_tol_R in E1.
    eapply safe_bind; [apply rs_dot_signed; rsize|]. intros su Hsu. eapply safe_bind; [apply rs_dot_signed; rsize|]. intros sl Hsl.
    change (1 =? 1) with true in Hsu. change (-1 =? 1) with false in Hsl. change (-1 =? -1) with true in Hsl. cbv iota in Hsu, Hsl.
    assert (ES : (su + sl)%R = support (Ps w) (rnth dy)).
    { rewrite Hsu, Hsl. unfold support, sumn, qp_of. cbn [q_m q_u q_l]. change (car Rops) with R in *. rewrite do_u, do_l, <- zsum_plus. auto. }
    fix_R. rewrite ES. destruct (nltb _ _) eqn:E2; cycle 1.
    { apply safe_ret. cbn [fst snd]. rs. split; [exact Vy|]. split; [discriminate|]. intros (_ & [_ HH _]). apply not_true_iff_false in E2. exfalso. apply E2. cbn [nltb Rops]. apply Rltb_iff. rewrite Ev_support with (w := w) in HH by auto. exact HH. }
    cbn [nltb Rops] in E2. apply Rltb_iff in E2.
    rbind At LA VA.
    assert (VA' : forall i, 0 <= i < nn w -> rnth At i = (D i * Atmul Q (fun i => E i * rnth dy i) i)%R).
    { intros i Hi. rewrite <- Ev_At with (w := w) by auto. rewrite VA by lia. fix_R. unfold Atmul, mulR, tr_, qp_of. cbn [q_m q_A]. rewrite do_Am. ring. }
    eapply safe_bind with (P := fun t2 => @vf_norm_inf Rops t2 = ninf (nn w) (Atmul Q (fun i => E i * rnth dy i)%R)).
    { destruct (unscaled_termination st) eqn:Eu.
      - destruct (tu_sc _ _ _ _ _ _ HT Eu) as (sc & Es & [? ? ? ?] & _ & _ & _ & HD & _). rewrite Es. eapply safe_weaken; [rleaf; rsize|]. intros t2 (L2 & V2).
        assert (L2' : rlen t2 = nn w) by (change (car Rops) with R in *; lia). rewrite vnorm_ninf, L2'. apply ninf_ext. intros i Hi. rewrite V2 by rsize. rewrite VA', HD by auto. pose proof (Dpos w i HT Hi). fix_R. cbn [nmul Rops]. field. lra.
      - destruct (tu_id _ _ _ _ _ _ HT Eu) as (_ & HD & _). apply safe_ret. assert (LA' : rlen At = nn w) by (change (car Rops) with R in *; lia). rewrite vnorm_ninf, LA'. apply ninf_ext. intros i Hi. rewrite VA', HD by auto. ring. }
    intros t2 Ht2. apply safe_ret. cbn [fst snd]. rs. split; [exact Vy|]. rewrite Ht2. cbn [nltb Rops]. rewrite Rltb_iff. split; [intros E3|intros (_ & [_ _ HH]); rewrite Hn, Hm, <- End_ in HH; exact HH]. split; [rewrite <- End_; exact E1|]. constructor.
    - rewrite Hm, <- End_. eapply Rlt_trans; [|exact E1]. apply Rinv_0_lt_compat, pow_lt. lra.
    - rewrite Ev_support with (w := w) by auto. exact E2.
    - rewrite Hn, Hm, <- End_. exact E3.
  Qed.

  Lemma dual_inf_real (w : work Rops) (e : R) : wok st w -> tun w ->
    safe (is_dual_infeasible st w e) (fun r => fst r = true <-> (/ 10 ^ 30 < ninf (nn w) (fun i => D i * rnth (w_delta_x w) i))%R /\ unbounded_within (fun i => rnth (d_l (w_data w)) i <= - 10 ^ 26)%R (fun i => 10 ^ 26 <= rnth (d_u (w_data w)) i)%R Q e (fun i => D i * rnth (w_delta_x w) i)%R).
  Proof.
    intros H HT. pose proof (q_dims w HT) as [Hn Hm]. pose proof H as H0. start w H. pose proof do_Pt as (Hsq & Htri). unfold is_dual_infeasible. pose proof (cpos w HT) as Hc.
    set (dx := w_delta_x w) in *. change (car Rops) with R in *.
    eapply safe_bind with (P := fun r => fst r = ninf (nn w) (fun i => D i * rnth dx i)%R /\ snd r = c).
    { destruct (unscaled_termination st) eqn:Eu.
      - destruct (tu_sc _ _ _ _ _ _ HT Eu) as (sc & Es & [? ? ? ?] & Hcc & _ & HD & _). rewrite Es. eapply safe_bind; [apply rs_snorm; rsize|]. intros t ->. apply safe_ret. cbn [fst snd]. split; auto.
        change (car Rops) with R in *. rewrite ln_dx. apply ninf_ext. intros i Hi. rewrite HD by auto. reflexivity.
      - destruct (tu_id _ _ _ _ _ _ HT Eu) as (Hcc & HD & _). apply safe_ret. cbn [fst snd]. split; [|rewrite n1_R; auto]. rewrite vnorm_ninf. change (car Rops) with R in *. rewrite ln_dx. apply ninf_ext. intros i Hi. rewrite HD. ring. }
    intros [nd cs] (End_ & Ecs). cbn [fst snd] in *. rewrite Ecs. clear Ecs cs.
    change (fun i => (D i * rnth dx i)%R) with (unx D (rnth dx)) in *.
    destruct (nltb _ nd) eqn:E1; cycle 1.
    { apply safe_ret. cbn [fst]. split; [discriminate|]. intros (HH & _). apply not_true_iff_false in E1. exfalso. apply E1. cbn [nltb Rops]. apply Rltb_iff. rewrite div_tol_R, End_. exact HH. }
    cbn [nltb Rops] in E1. apply Rltb_iff in E1. rewrite div_tol_R in E1.
    eapply safe_bind; [apply rs_dot; rsize|]. intros a Ha.
    assert (EL : a = lin (Ps w) (rnth dx)).
    { rewrite Ha. unfold lin, sumn, qp_of. cbn [q_n q_q]. change (car Rops) with R in *. rewrite do_q. auto. }
    rewrite (un_lin _ _ _ _ _ (tu_sq _ _ _ _ _ _ HT)) in EL.
    destruct (nltb a _) eqn:E2; cycle 1.
    { apply safe_ret. cbn [fst]. split; [discriminate|]. intros (_ & [_ HH _ _]). apply not_true_iff_false in E2. exfalso. apply E2. cbn [nltb Rops]. apply Rltb_iff. rewrite n0_R, EL.
      assert (0 < c * - lin Q (unx D (rnth dx)))%R by (apply Rmult_lt_0_compat; lra). lra. }
    cbn [nltb Rops] in E2. apply Rltb_iff in E2. rewrite n0_R, EL in E2.
    assert (HL : (lin Q (unx D (rnth dx)) < 0)%R).
    { destruct (Rlt_le_dec (lin Q (unx D (rnth dx))) 0) as [|HH]; auto. assert (0 <= c * lin Q (unx D (rnth dx)))%R by (apply Rmult_le_pos; lra). lra. }
    rbind Pd LP VP.
    assert (VP' : forall i, 0 <= i < nn w -> rnth Pd i = (c * D i * Pmul Q (unx D (rnth dx)) i)%R).
    { intros i Hi. rewrite <- (un_Px _ _ _ _ _ (tu_sq _ _ _ _ _ _ HT)) by lia. rewrite VP by lia. fix_R. unfold Pmul, mulR, qp_of. cbn [q_n q_P]. rewrite do_Pn. ring. }
    eapply safe_bind with (P := fun t2 => @vf_norm_inf Rops t2 = (c * ninf (nn w) (Pmul Q (unx D (rnth dx))))%R).
    { rewrite <- (Rabs_right c) by lra. rewrite <- ninf_scal. destruct (unscaled_termination st) eqn:Eu.
      - destruct (tu_sc _ _ _ _ _ _ HT Eu) as (sc & Es & [? ? ? ?] & _ & _ & _ & HD & _). rewrite Es. eapply safe_weaken; [rleaf; rsize|]. intros t2 (L2 & V2).
        assert (L2' : rlen t2 = nn w) by (change (car Rops) with R in *; lia). rewrite vnorm_ninf, L2'. apply ninf_ext. intros i Hi. rewrite V2 by rsize. rewrite VP', HD by auto. pose proof (Dpos w i HT Hi). fix_R. cbn [nmul Rops]. field. lra.
      - destruct (tu_id _ _ _ _ _ _ HT Eu) as (_ & HD & _). apply safe_ret. assert (LP' : rlen Pd = nn w) by (change (car Rops) with R in *; lia). rewrite vnorm_ninf, LP'. apply ninf_ext. intros i Hi. rewrite VP', HD by auto. ring. }
    intros t2 Ht2. rewrite Ht2. destruct (nltb _ _) eqn:E3; cycle 1.
    { apply safe_ret. cbn [fst]. split; [discriminate|]. intros (_ & [_ _ HH _]). apply not_true_iff_false in E3. exfalso. apply E3. cbn [nltb nmul Rops]. apply Rltb_iff. rewrite Hn, <- End_ in HH.
      rewrite (Rmult_assoc c). apply Rmult_lt_compat_l; auto. }
    cbn [nltb nmul Rops] in E3. apply Rltb_iff in E3.
    assert (HP : (ninf (nn w) (Pmul Q (unx D (rnth dx))) < e * nd)%R) by (apply (Rmult_lt_reg_l c); auto; lra).
    rs. fold dx. rbind Ad LA VA.
    assert (VA' : forall i, 0 <= i < mm w -> rnth Ad i = (E i * Amul Q (unx D (rnth dx)) i)%R).
    { intros i Hi. rewrite <- (un_Ax _ _ _ _ _ (tu_sq _ _ _ _ _ _ HT)) by lia. rewrite VA by lia. fix_R. unfold Amul, mulR, qp_of. cbn [q_n q_A]. rewrite do_An. ring. }
    eapply safe_bind with (P := fun t3 => rlen t3 = mm w /\ forall i, 0 <= i < mm w -> rnth t3 i = Amul Q (unx D (rnth dx)) i).
    { destruct (unscaled_termination st) eqn:Eu.
      - destruct (tu_sc _ _ _ _ _ _ HT Eu) as (sc & Es & [? ? ? ?] & _ & _ & _ & _ & _ & HE). rewrite Es. eapply safe_weaken; [rleaf; rsize|]. intros t3 (L2 & V2).
        assert (L2' : rlen t3 = mm w) by (change (car Rops) with R in *; lia). split; auto. intros i Hi. rewrite V2 by rsize. rewrite VA', HE by auto. pose proof (Epos w i HT Hi). fix_R. cbn [nmul Rops]. field. lra.
      - destruct (tu_id _ _ _ _ _ _ HT Eu) as (_ & _ & HE). apply safe_ret. split; [change (car Rops) with R in *; lia|]. intros i Hi. rewrite VA', HE by auto. ring. }
    intros t3 (L3 & V3). eapply safe_bind; [apply rs_reccone; rsize|]. intros b Hb. apply safe_ret. cbn [fst nmul Rops] in *. change (car Rops) with R in *.
    split; cycle 1.
    { intros (_ & [_ _ _ HH]). apply Hb. intros i Hi. rewrite Hm, Hn, <- End_ in HH. rewrite V3 by lia. apply HH. lia. }
    intros Eb. rewrite Hb in Eb. split; [rewrite <- End_; exact E1|]. constructor.
    - rewrite Hn, <- End_. eapply Rlt_trans; [|exact E1]. apply Rinv_0_lt_compat, pow_lt. lra.
    - exact HL.
    - rewrite Hn, <- End_. exact HP.
    - intros i Hi. rewrite Hm in Hi. rewrite Hn, <- End_, <- V3 by auto. apply Eb. change (car Rops) with R in *. lia.
  Qed.
End Term.
