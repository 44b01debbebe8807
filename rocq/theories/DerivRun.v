(** adjoint_derivative_compute and the two read-out functions (Deriv.v): no access leaves an array. *)
From Coq Require Import ZArith Reals List Bool Lia Lra.
From Verif Require Import Num Arr ArrFacts RSum Csc CscSpec CscFacts CscFacts2 Scatter CscFacts3 CscFacts4 CscFacts5
  Vec Types Validate Linsys VecFacts LinsysFacts LinsysSolve Auxil Inv InvStep InvSetup RealVec Deriv DerivAsm DerivLin DerivRows.
Import ListNotations.
Open Scope Z_scope.
Local Open Scope opt_scope.

Section Run.
  Context {K : NumOps}.
  Variable E : Env K.
  Hypothesis EO : env_ok E.

  Lemma assign_spec (A b : list K) start len c : 0 <= start -> 0 <= len -> start + len <= zlen A -> len <= zlen b ->
    exists r, vf_subvector_assign A b start len c = Some r /\ zlen r = zlen A /\
      forall i, 0 <= i < zlen A -> znth n0 r i = if (start <=? i) && (i <? start + len) then nmul c (znth n0 b (i - start)) else znth n0 A i.
  Proof.
    intros H1 H2 H3 H4. unfold vf_subvector_assign. destruct (view_ok n0 b 0 len) as (v & -> & Lv & Vv); [lia|lia|lia|]. cbv beta iota.
    destruct (view_write_ok n0 A start len (map (fun v => nmul c v) v)) as (r & -> & Lr & Vr); [lia|lia|lia|rewrite zlen_map; auto|].
    exists r. split; auto. split; auto. intros i Hi. rewrite Vr by auto. destruct ((start <=? i) && (i <? start + len)) eqn:Eb; auto.
    rewrite (znth_map n0 n0) by lia. rewrite Vv by lia. reflexivity.
  Qed.

  Variables (l u y : list K) (n m : Z) (r : rowsets).
  Hypothesis (Hn : 0 <= n) (Hm : 0 <= m) (Hl : zlen l = m) (Hu : zlen u = m) (Hy : zlen y = m) (RO : rows_ok l u y m m r).
  Let sL := sel (fL l u) m.
  Let sU := sel (fU l u) m.
  Let sE := sel (fE l u) m.
  Let nl := zlen sL.
  Let nu := zlen sU.
  Let ne := zlen sE.
  Let N := n + nl + nu + ne.

  Lemma sets_dims : 0 <= nl /\ 0 <= nu /\ 0 <= ne /\ rs_nl r = nl /\ rs_nu r = nu /\ rs_ne r = ne /\ nl + ne <= m /\ nu + ne <= m.
  Proof.
    destruct RO. repeat (split; [solve [apply zlen_nonneg | auto]|]).
    assert (HC : forall f, (forall i, f i = true -> fE l u i = false) -> zlen (sel f m) + ne <= m).
    { intros f Hf. assert (HG : forall t, 0 <= t -> zlen (sel f t) + zlen (sel (fE l u) t) <= t).
      { apply natlike_ind; [unfold sel; rewrite zseq_nil by lia; cbn; lia|]. intros t Ht IH. unfold Z.succ. rewrite !zlen_sel_succ by auto.
        destruct (f t) eqn:Eft; [rewrite (Hf t Eft); lia|]. destruct (fE l u t); lia. }
      apply HG. auto. }
    split; apply HC; intros i Hi; unfold fL, fU, fE in *; destruct (nltb (znth n0 l i) (znth n0 u i)); auto; discriminate Hi.
  Qed.
  Lemma fl_L : flags (fL l u) m (rs_l r). Proof. destruct RO. auto. Qed.
  Lemma fl_U : flags (fU l u) m (rs_u r). Proof. destruct RO. auto. Qed.
  Lemma fl_E : flags (fE l u) m (rs_e r). Proof. destruct RO. auto. Qed.

  (** The weight an equality row gets: the sign of its multiplier decides. *)
  Definition nuw (dyl dyu : list K) (i : Z) : K := if nleb n0 (znth n0 y i) then znth n0 dyu i else nopp (znth n0 dyl i).
  Lemma nu_weights_spec (dyl dyu : list K) : zlen dyl = m -> zlen dyu = m ->
    exists d, nu_weights E r dyl dyu = Some d /\ zlen d = ne /\ forall a, 0 <= a < ne -> znth n0 d a = nuw dyl dyu (znth 0 sE a).
  Proof.
    intros H1 H2. pose proof sets_dims as (D1 & D2 & D3 & D4 & D5 & D6 & D7 & D8). unfold nu_weights. rewrite D6.
    rewrite (for_ext _ _ _ (fun j d => zset d j (nuw dyl dyu (znth 0 sE j)))).
    - destruct (for_fill n0 (fun j => nuw dyl dyu (znth 0 sE j)) ne (zrep ne (env_jx E))) as (d & -> & Ld & Vd); [rewrite zlen_zrep; lia|].
      rewrite zlen_zrep in Ld by lia. exists d. split; auto. split; auto. intros a Ha. rewrite Vd. replace ((0 <=? a) && (a <? ne)) with true by lia. auto.
    - intros j s Hj. destruct (ro_sg _ _ _ _ _ _ RO) as [Lsg Vsg]. destruct (ro_ei _ _ _ _ _ _ RO) as [Lei Vei]. fold sE in Vsg, Vei.
      rewrite (zget_Some 0 (rs_sg r)) by lia. rewrite Vsg by auto. rewrite (zget_Some 0 (rs_ei r)) by lia. rewrite Vei by auto.
      destruct (sel_in (fE l u) m j Hj) as [HI _]. fold sE in HI. unfold nuw. destruct (nleb n0 (znth n0 y (znth 0 sE j))) eqn:Ey.
      + change (1 =? 1) with true. cbv iota. rewrite (zget_Some n0 dyu) by lia. reflexivity.
      + change (-1 =? 1) with false. change (-1 =? -1) with true. cbv iota. rewrite (zget_Some n0 dyl) by lia. reflexivity.
  Qed.

  Lemma build_rhs_spec (dx dyl dyu rhs : list K) : n <= zlen dx -> zlen dyl = m -> zlen dyu = m -> 2 * N <= zlen rhs ->
    exists b, build_rhs E r n dx dyl dyu rhs = Some b /\ zlen b = zlen rhs /\
      (forall i, 0 <= i < n -> znth n0 b i = nmul (nopp n1) (znth n0 dx i)) /\
      (forall a, 0 <= a < nl -> znth n0 b (n + a) = nmul (nopp n1) (znth n0 dyl (znth 0 sL a))) /\
      (forall a, 0 <= a < nu -> znth n0 b (n + nl + a) = nmul (nopp n1) (znth n0 dyu (znth 0 sU a))) /\
      (forall a, 0 <= a < ne -> znth n0 b (n + nl + nu + a) = nmul (nopp n1) (nuw dyl dyu (znth 0 sE a))) /\
      (forall a, 0 <= a < N -> znth n0 b (N + a) = n0).
  Proof.
    intros Hdx Hdl Hdu HR. pose proof sets_dims as (D1 & D2 & D3 & D4 & D5 & D6 & D7 & D8). unfold build_rhs. rewrite D4, D5, D6.
    destruct (subvector_spec dyl (rs_l r) (fL l u) m Hdl fl_L) as (vl & -> & Lvl & Vvl). fold sL nl in Lvl, Vvl. cbv beta iota.
    destruct (subvector_spec dyu (rs_u r) (fU l u) m Hdu fl_U) as (vu & -> & Lvu & Vvu). fold sU nu in Lvu, Vvu. cbv beta iota.
    destruct (assign_spec rhs dx 0 n (nopp n1)) as (b1 & -> & L1 & V1); [lia|lia|unfold N in *; lia|lia|]. cbv beta iota.
    destruct (assign_spec b1 vl n nl (nopp n1)) as (b2 & -> & L2 & V2); [lia|lia|unfold N in *; lia|lia|]. cbv beta iota.
    destruct (assign_spec b2 vu (n + nl) nu (nopp n1)) as (b3 & -> & L3 & V3); [lia|lia|unfold N in *; lia|lia|]. cbv beta iota.
    destruct (nu_weights_spec dyl dyu Hdl Hdu) as (d & -> & Ld & Vd). cbv beta iota.
    destruct (assign_spec b3 d (n + nl + nu) ne (nopp n1)) as (b4 & -> & L4 & V4); [lia|lia|unfold N in *; lia|lia|]. cbv beta iota.
    unfold vf_subvector_assign_scalar. fold N.
    destruct (view_write_ok n0 b4 N N (zrep N n0)) as (b5 & -> & L5 & V5); [unfold N in *; lia|unfold N in *; lia|lia|apply zlen_zrep; unfold N; lia|].
    exists b5. split; auto. split; [lia|].
    assert (HB : forall i, 0 <= i < N -> znth n0 b5 i = znth n0 b4 i) by (intros i Hi; rewrite V5 by lia; replace ((N <=? i) && (i <? N + N)) with false by lia; auto).
    split; [|split; [|split; [|split]]].
    - intros i Hi. rewrite HB, V4, V3, V2, V1 by (unfold N in *; lia).
      replace ((n + nl + nu <=? i) && (i <? n + nl + nu + ne)) with false by lia. replace ((n + nl <=? i) && (i <? n + nl + nu)) with false by lia.
      replace ((n <=? i) && (i <? n + nl)) with false by lia. replace ((0 <=? i) && (i <? 0 + n)) with true by lia. replace (i - 0) with i by lia. auto.
    - intros a Ha. rewrite HB, V4, V3, V2 by (unfold N in *; lia).
      replace ((n + nl + nu <=? n + a) && (n + a <? n + nl + nu + ne)) with false by lia. replace ((n + nl <=? n + a) && (n + a <? n + nl + nu)) with false by lia.
      replace ((n <=? n + a) && (n + a <? n + nl)) with true by lia. replace (n + a - n) with a by lia. rewrite Vvl by auto. auto.
    - intros a Ha. rewrite HB, V4, V3 by (unfold N in *; lia).
      replace ((n + nl + nu <=? n + nl + a) && (n + nl + a <? n + nl + nu + ne)) with false by lia. replace ((n + nl <=? n + nl + a) && (n + nl + a <? n + nl + nu)) with true by lia.
      replace (n + nl + a - (n + nl)) with a by lia. rewrite Vvu by auto. auto.
    - intros a Ha. rewrite HB, V4 by (unfold N in *; lia). replace ((n + nl + nu <=? n + nl + nu + a) && (n + nl + nu + a <? n + nl + nu + ne)) with true by lia.
      replace (n + nl + nu + a - (n + nl + nu)) with a by lia. rewrite Vd by auto. auto.
    - intros a Ha. rewrite V5 by lia. replace ((N <=? N + a) && (N + a <? N + N)) with true by lia. replace (N + a - N) with a by lia. apply znth_zrep. lia.
  Qed.

  (** scatter to the selected rows *)
  Lemma scatter_spec f (idx : list Z) (v : Z -> K) (a0 : list K) : lists m f m idx -> zlen a0 = m ->
    exists r', for_ 0 (zlen (sel f m)) (fun j s => i <- zget idx j ;; zset s i (v j)) a0 = Some r' /\ zlen r' = m /\
      forall i, 0 <= i < m -> znth n0 r' i = if f i then v (zlen (sel f i)) else znth n0 a0 i.
  Proof.
    intros [Li Vi] La. pose proof (zlen_sel_le f m Hm) as Hle. pose proof (zlen_nonneg (sel f m)).
    loop_rule (fun t s => zlen s = m /\ forall i, 0 <= i < m -> znth n0 s i = if f i && (zlen (sel f i) <? t) then v (zlen (sel f i)) else znth n0 a0 i) HI.
    destruct HI as (r' & -> & Lr & Vr); [lia| | |].
    - split; auto. intros i Hi. pose proof (zlen_nonneg (sel f i)). replace (zlen (sel f i) <? 0) with false by lia. rewrite andb_false_r. auto.
    - intros j s Hj [Ls Vs]. rewrite (zget_Some 0 idx) by lia. rewrite Vi by auto. destruct (sel_in f m j Hj) as [HI Hf]. pose proof (sel_rank f m j Hm Hj) as HR.
      rewrite zset_Some by lia. eexists. split; [reflexivity|]. split; [rewrite zlen_upd; auto|]. intros i Hi. rewrite znth_upd by lia.
      destruct (Z.eqb_spec i (znth 0 (sel f m) j)) as [->|Hne].
      + rewrite Hf, HR. replace (j <? j + 1) with true by lia. reflexivity.
      + rewrite Vs by auto. destruct (f i) eqn:Ei; cbn [andb]; auto. destruct (rank_sel f m i Hi Ei) as [H1 H2].
        destruct (Z.eq_dec (zlen (sel f i)) j) as [e|]; [exfalso; apply Hne; rewrite <- e, H2; auto|].
        replace (zlen (sel f i) <? j + 1) with (zlen (sel f i) <? j) by lia. auto.
    - exists r'. split; auto. split; auto. intros i Hi. rewrite Vr by auto. destruct (f i) eqn:Ei; cbn [andb]; auto.
      destruct (rank_sel f m i Hi Ei) as [H1 _]. replace (zlen (sel f i) <? zlen (sel f m)) with true by lia. auto.
  Qed.

  Lemma split_rhs_spec (rhs : list K) : 2 * N <= zlen rhs ->
    exists ryl ryu, split_rhs r n m rhs y = Some (ryl, ryu) /\ zlen ryl = m /\ zlen ryu = m /\
      forall i, 0 <= i < m ->
        (fL l u i = true -> znth n0 ryl i = nopp (znth n0 rhs (N + n + zlen (sel (fL l u) i)))) /\
        (fU l u i = true -> znth n0 ryu i = znth n0 rhs (N + n + nl + zlen (sel (fU l u) i))) /\
        (fE l u i = true -> nleb n0 (znth n0 y i) = true -> znth n0 ryl i = n0 /\ znth n0 ryu i = ndiv (znth n0 rhs (N + n + nl + nu + zlen (sel (fE l u) i))) (znth n0 y i)) /\
        (fE l u i = true -> nleb n0 (znth n0 y i) = false -> znth n0 ryu i = n0 /\ znth n0 ryl i = ndiv (nopp (znth n0 rhs (N + n + nl + nu + zlen (sel (fE l u) i)))) (znth n0 y i)) /\
        (fL l u i = false -> fE l u i = false -> znth n0 ryl i = n0) /\
        (fU l u i = false -> fE l u i = false -> znth n0 ryu i = n0).
  Proof.
    intros HR. pose proof sets_dims as (D1 & D2 & D3 & D4 & D5 & D6 & D7 & D8). unfold split_rhs. rewrite D4, D5, D6. fold N. cbv zeta.
    rewrite (for_ext _ _ _ (fun j s => i <- zget (rs_li r) j ;; zset s i (nopp (znth n0 rhs (N + n + j))))).
    2:{ intros j s Hj. rewrite (zget_Some n0 rhs) by (unfold N in *; lia). reflexivity. }
    destruct (scatter_spec (fL l u) (rs_li r) (fun j => nopp (znth n0 rhs (N + n + j))) (zrep m n0)) as (ryl & E1 & L1 & V1); [apply RO|apply zlen_zrep; auto|].
    fold sL nl in E1. rewrite E1. cbv beta iota.
    rewrite (for_ext _ _ _ (fun j s => i <- zget (rs_ui r) j ;; zset s i (znth n0 rhs (N + n + nl + j)))).
    2:{ intros j s Hj. rewrite (zget_Some n0 rhs) by (unfold N in *; lia). reflexivity. }
    destruct (scatter_spec (fU l u) (rs_ui r) (fun j => znth n0 rhs (N + n + nl + j)) (zrep m n0)) as (ryu & E2 & L2 & V2); [apply RO|apply zlen_zrep; auto|].
    fold sU nu in E2. rewrite E2. cbv beta iota.
    set (w := fun j => znth n0 rhs (N + n + nl + nu + j)).
    set (ps := fun i => nleb n0 (znth n0 y i)).
    destruct (ro_sg _ _ _ _ _ _ RO) as [Lsg Vsg]. destruct (ro_ei _ _ _ _ _ _ RO) as [Lei Vei]. fold sE in Vsg, Vei.
    set (f := fE l u) in *.
    loop_rule (fun t (s : list K * list K) => zlen (fst s) = m /\ zlen (snd s) = m /\ forall i, 0 <= i < m ->
      znth n0 (fst s) i = (if f i && (zlen (sel f i) <? t) then (if ps i then n0 else ndiv (nopp (w (zlen (sel f i)))) (znth n0 y i)) else znth n0 ryl i) /\
      znth n0 (snd s) i = (if f i && (zlen (sel f i) <? t) then (if ps i then ndiv (w (zlen (sel f i))) (znth n0 y i) else n0) else znth n0 ryu i)) HI.
    destruct HI as ([rl ru] & -> & Ll & Lu & V); [lia| | |].
    - cbn [fst snd]. split; auto. split; auto. intros i Hi. pose proof (zlen_nonneg (sel f i)). replace (zlen (sel f i) <? 0) with false by lia. rewrite andb_false_r. auto.
    - intros j [s1 s2] Hj (Ls1 & Ls2 & Vs). cbn [fst snd] in *. fold sE in Hj.
      destruct (sel_in f m j Hj) as [HI Hf]. pose proof (sel_rank f m j Hm Hj) as HRk. fold sE in HI, Hf, HRk.
      rewrite (zget_Some 0 (rs_sg r)) by lia. rewrite (zget_Some 0 (rs_ei r)) by lia. rewrite (zget_Some n0 rhs) by (unfold N in *; lia).
      rewrite Vsg, Vei by auto. rewrite (zget_Some n0 y) by lia. fold (w j). fold (ps (znth 0 sE j)).
      assert (HU : forall i, 0 <= i < m -> i <> znth 0 sE j -> (f i && (zlen (sel f i) <? j + 1)) = (f i && (zlen (sel f i) <? j))).
      { intros i Hi Hne. destruct (f i) eqn:Ei; auto. cbn [andb]. destruct (rank_sel f m i Hi Ei) as [H1 H2]. fold sE in H2.
        assert (zlen (sel f i) <> j) by (intros e; apply Hne; rewrite <- e, H2; auto). lia. }
      destruct (ps (znth 0 sE j)) eqn:Ep.
      + change (1 =? 1) with true. cbv iota. rewrite !zset_Some by lia. eexists. split; [reflexivity|]. cbn [fst snd]. split; [rewrite zlen_upd; auto|]. split; [rewrite zlen_upd; auto|].
        intros i Hi. rewrite !znth_upd by lia. destruct (Z.eqb_spec i (znth 0 sE j)) as [->|Hne].
        * rewrite Hf, HRk, Ep. replace (j <? j + 1) with true by lia. auto.
        * rewrite HU by auto. apply Vs. auto.
      + change (-1 =? 1) with false. cbv iota. rewrite !zset_Some by lia. eexists. split; [reflexivity|]. cbn [fst snd]. split; [rewrite zlen_upd; auto|]. split; [rewrite zlen_upd; auto|].
        intros i Hi. rewrite !znth_upd by lia. destruct (Z.eqb_spec i (znth 0 sE j)) as [->|Hne].
        * rewrite Hf, HRk, Ep. replace (j <? j + 1) with true by lia. auto.
        * rewrite HU by auto. apply Vs. auto.
    - cbn [fst snd] in *. exists rl, ru. split; auto. split; auto. split; auto. intros i Hi. destruct (V i Hi) as [Va Vb]. specialize (V1 i Hi). specialize (V2 i Hi).
      assert (HX : f i = true -> (zlen (sel f i) <? ne) = true) by (intros Ei; destruct (rank_sel f m i Hi Ei) as [H1 _]; fold sE ne in H1; lia).
      assert (HLE : fL l u i = true -> f i = false) by (unfold f, fL, fE; destruct (nltb (znth n0 l i) (znth n0 u i)); auto; intros e; discriminate e).
      assert (HUE : fU l u i = true -> f i = false) by (unfold f, fU, fE; destruct (nltb (znth n0 l i) (znth n0 u i)); auto; intros e; discriminate e).
      rewrite znth_zrep in V1, V2 by auto.
      split; [|split; [|split; [|split; [|split]]]].
      + intros e. rewrite Va, (HLE e). cbn [andb]. rewrite V1, e. auto.
      + intros e. rewrite Vb, (HUE e). cbn [andb]. rewrite V2, e. auto.
      + intros e e2. rewrite Va, Vb, e, (HX e). cbn [andb]. unfold ps. rewrite e2. auto.
      + intros e e2. rewrite Va, Vb, e, (HX e). cbn [andb]. unfold ps. rewrite e2. auto.
      + intros e e2. rewrite Va, e2. cbn [andb]. rewrite V1, e. auto.
      + intros e e2. rewrite Vb, e2. cbn [andb]. rewrite V2, e. auto.
  Qed.
End Run.

(** ** derivative.c:117-327 once P, A, l, u and the solution are in the user's units *)
Section Core.
  Context {K : NumOps}.
  Variable E : Env K.
  Hypothesis EO : env_ok E.

  (** The results kept from the solution (r1,r2) of the linear system. *)
  Definition dcore_tail (r : rowsets) (dd : deriv K) (y y_l y_u : list K) (n m : Z) (rhs : list K) : option (Z * deriv K) :=
    ry <- split_rhs r n m rhs y ;;
    ryl <- vf_from_raw (dv_ryl dd) (fst ry) ;;
    ryl <- vf_ew_prod ryl ryl y_l ;;
    ryu <- vf_from_raw (dv_ryu dd) (snd ry) ;;
    ryu <- vf_ew_prod ryu ryu y_u ;;
    Some (0, mkderiv (rs_nl r) (rs_nu r) (rs_ne r) y_l y_u (vf_mult_scalar ryl (nopp n1)) ryu rhs).
  Definition dcore (P A : csc K) (l u x y : list K) (n m : Z) (dd : deriv K) (dx dyl dyu : list K) : option (Z * deriv K) :=
    r <- classify E l u y m ;;
    A_l <- csc_submatrix_byrows (env_jz E) (env_jx E) A (rs_l r) ;;
    A_l <- csc_scale A_l (nopp n1) ;;
    A_u <- csc_submatrix_byrows (env_jz E) (env_jx E) A (rs_u r) ;;
    G <- vstack (env_jz E) (env_jx E) A_l A_u ;;
    G <- G ;;
    A_eq <- csc_submatrix_byrows (env_jz E) (env_jx E) A (rs_e r) ;;
    y_u <- vf_ew_max_vec (dv_y_u dd) y (zrep m n0) ;;
    y_l <- vf_ew_min_vec (dv_y_l dd) y (zrep m n0) ;;
    let y_l := vf_mult_scalar y_l (nopp n1) in
    y_l_ineq <- vf_subvector_byrows y_l (rs_l r) ;;
    y_u_ineq <- vf_subvector_byrows y_u (rs_u r) ;;
    let lambda := vf_concat y_l_ineq y_u_ineq in
    l_ineq <- vf_subvector_byrows l (rs_l r) ;;
    let l_ineq := vf_mult_scalar l_ineq (nopp n1) in
    u_ineq <- vf_subvector_byrows u (rs_u r) ;;
    let h := vf_concat l_ineq u_ineq in
    slacks <- csc_Axpy G x h n1 (nopp n1) ;;
    GDiagLambda <- csc_copy (env_jz E) (env_jx E) G ;;
    GDiagLambda <- csc_lmult_diag GDiagLambda lambda ;;
    rhs <- build_rhs E r n dx dyl dyu (dv_rhs dd) ;;
    P_full <- triu_to_csc (env_jz E) (env_jx E) P ;;
    P_full <- P_full ;;
    a <- adjoint_derivative_qdldl E P_full G A_eq GDiagLambda slacks rhs ;;
    dcore_tail r dd y y_l y_u n m (snd a).

  (** Everything before the linear system: what each matrix and vector is. *)
  Record stage (P A : csc K) (l u x y : list K) (n m : Z) (dd : deriv K) (dx dyl dyu : list K)
    (r : rowsets) (Al0 Al Au G Ae PF G' H : csc K) (y_u y_m y_l lam h sl rhs : list K) : Prop := {
    sg_rows : rows_ok l u y m m r;
    sg_Al0 : csc_submatrix_byrows (env_jz E) (env_jx E) A (rs_l r) = Some Al0;
    sg_Al : csc_scale Al0 (nopp n1) = Some Al;
    sg_Au : csc_submatrix_byrows (env_jz E) (env_jx E) A (rs_u r) = Some Au;
    sg_G : vstack (env_jz E) (env_jx E) Al Au = Some (Some G);
    sg_Ae : csc_submatrix_byrows (env_jz E) (env_jx E) A (rs_e r) = Some Ae;
    sg_PF : triu_to_csc (env_jz E) (env_jx E) P = Some (Some PF);
    sg_G' : csc_copy (env_jz E) (env_jx E) G = Some G';
    sg_H : csc_lmult_diag G' lam = Some H;
    sg_wAl0 : wf Al0; sg_wAl : wf Al; sg_wAu : wf Au; sg_wG : wf G; sg_wAe : wf Ae; sg_wPF : wf PF; sg_wG' : wf G'; sg_wH : wf H;
    sg_mAl : cm Al = zlen (sel (fL l u) m); sg_mAu : cm Au = zlen (sel (fU l u) m); sg_mG : cm G = zlen (sel (fL l u) m) + zlen (sel (fU l u) m);
    sg_mAe : cm Ae = zlen (sel (fE l u) m); sg_mPF : cm PF = n; sg_nPF : cn PF = n; sg_nAl : cn Al = n; sg_nAu : cn Au = n; sg_nG : cn G = n; sg_nAe : cn Ae = n;
    sg_mH : cm H = cm G; sg_nH : cn H = n; sg_zH : nnz H = nnz G; sg_zAl : nnz Al <= cnzmax Al; sg_zAu : nnz Au <= cnzmax Au;
    sg_copy : cm G' = cm G /\ cn G' = cn G /\ nnz G' = nnz G /\ (forall j, 0 <= j <= cn G -> colp G' j = colp G j) /\
      (forall k, 0 <= k < nnz G -> rowi G' k = rowi G k /\ znth n0 (cx G') k = znth n0 (cx G) k);
    sg_yu : vf_ew_max_vec (dv_y_u dd) y (zrep m n0) = Some y_u; sg_ym : vf_ew_min_vec (dv_y_l dd) y (zrep m n0) = Some y_m; sg_yl : y_l = vf_mult_scalar y_m (nopp n1);
    sg_Lyu : zlen y_u = m; sg_Lyl : zlen y_l = m;
    sg_Llam : zlen lam = zlen (sel (fL l u) m) + zlen (sel (fU l u) m);
    sg_laml : forall a, 0 <= a < zlen (sel (fL l u) m) -> znth n0 lam a = znth n0 y_l (znth 0 (sel (fL l u) m) a);
    sg_lamu : forall a, 0 <= a < zlen (sel (fU l u) m) -> znth n0 lam (zlen (sel (fL l u) m) + a) = znth n0 y_u (znth 0 (sel (fU l u) m) a);
    sg_Lh : zlen h = zlen (sel (fL l u) m) + zlen (sel (fU l u) m);
    sg_hl : forall a, 0 <= a < zlen (sel (fL l u) m) -> znth n0 h a = nmul (znth n0 l (znth 0 (sel (fL l u) m) a)) (nopp n1);
    sg_hu : forall a, 0 <= a < zlen (sel (fU l u) m) -> znth n0 h (zlen (sel (fL l u) m) + a) = znth n0 u (znth 0 (sel (fU l u) m) a);
    sg_sl : csc_Axpy G x h n1 (nopp n1) = Some sl; sg_Lsl : zlen sl = zlen h;
    sg_rhs : build_rhs E r n dx dyl dyu (dv_rhs dd) = Some rhs; sg_Lrhs : zlen rhs = zlen (dv_rhs dd) }.

  Variables (P A : csc K) (l u x y : list K) (n m : Z) (dd : deriv K) (dx dyl dyu : list K).
  Hypothesis (WP : wf P) (HmP : cm P = cn P) (HnP : cn P = n) (WA : wf A) (HmA : cm A = m) (HnA : cn A = n).
  Hypothesis (Hl : zlen l = m) (Hu : zlen u = m) (Hx : zlen x = n) (Hy : zlen y = m) (Hdx : n <= zlen dx) (Hdl : zlen dyl = m) (Hdu : zlen dyu = m).
  Hypothesis (D1 : zlen (dv_y_l dd) = m) (D2 : zlen (dv_y_u dd) = m) (D3 : zlen (dv_ryl dd) = m) (D4 : zlen (dv_ryu dd) = m) (D5 : 2 * (n + 2 * m) <= zlen (dv_rhs dd)).

  Lemma concat_nth (a b : list K) : zlen (vf_concat a b) = zlen a + zlen b /\
    (forall i, 0 <= i < zlen a -> znth n0 (vf_concat a b) i = znth n0 a i) /\ (forall i, 0 <= i < zlen b -> znth n0 (vf_concat a b) (zlen a + i) = znth n0 b i).
  Proof. unfold vf_concat. split; [apply zlen_app|]. split; intros i Hi; [apply znth_app_l|rewrite znth_app_r by lia; f_equal]; lia. Qed.

  Lemma dcore_run : exists r Al0 Al Au G Ae PF G' H y_u y_m y_l lam h sl rhs,
    stage P A l u x y n m dd dx dyl dyu r Al0 Al Au G Ae PF G' H y_u y_m y_l lam h sl rhs /\
    dcore P A l u x y n m dd dx dyl dyu = (a <- adjoint_derivative_qdldl E PF G Ae H sl rhs ;; dcore_tail r dd y y_l y_u n m (snd a)).
  Proof.
    assert (Hn : 0 <= n) by (rewrite <- HnP; apply (wf_n _ WP)). assert (Hm : 0 <= m) by (rewrite <- HmA; apply (wf_m _ WA)).
    destruct (classify_spec E l u y m Hm Hl Hu Hy) as (r & ER & RO).
    pose proof (sets_dims l u y n m r Hm RO) as (N1 & N2 & N3 & N4 & N5 & N6 & N7 & N8).
    unfold dcore. rewrite ER. cbv beta iota.
    destruct (submatrix_spec A (env_jz E) (env_jx E) (rs_l r) (fL l u) WA) as (Al0 & EAl0 & WAl0 & mAl0 & nAl0 & zAl0); [rewrite HmA; apply (fl_L l u y m r RO)|].
    rewrite EAl0. cbv beta iota.
    destruct (safe_mscale Al0 (nopp n1) WAl0) as (Al & EAl & SP). rewrite EAl. cbv beta iota.
    destruct (same_pat_fields _ _ SP) as (F1 & F2 & F3 & F4). pose proof (same_pat_wf _ _ SP WAl0) as WAl. pose proof (same_pat_nnz _ _ SP) as F5.
    assert (F6 : cnzmax Al = cnzmax Al0) by (destruct SP as [-> _]; reflexivity).
    destruct (submatrix_spec A (env_jz E) (env_jx E) (rs_u r) (fU l u) WA) as (Au & EAu & WAu & mAu & nAu & zAu); [rewrite HmA; apply (fl_U l u y m r RO)|].
    rewrite EAu. cbv beta iota.
    destruct (vstack_spec Al Au (env_jz E) (env_jx E) WAl WAu) as (G & EG & WG & mG & nG & _); [lia|lia|lia|]. rewrite EG. cbv beta iota.
    destruct (submatrix_spec A (env_jz E) (env_jx E) (rs_e r) (fE l u) WA) as (Ae & EAe & WAe & mAe & nAe & _); [rewrite HmA; apply (fl_E l u y m r RO)|].
    rewrite EAe. cbv beta iota.
    assert (Lz : zlen (zrep m (n0 : K)) = m) by (apply zlen_zrep; auto).
    destruct (safe_v2 (dv_y_u dd) c_max y (zrep m n0)) as (y_u & Eyu & Lyu); [lia|lia|]. unfold vf_ew_max_vec in *. rewrite Eyu. cbv beta iota.
    destruct (safe_v2 (dv_y_l dd) c_min y (zrep m n0)) as (y_m & Eym & Lym); [lia|lia|]. unfold vf_ew_min_vec in *. rewrite Eym. cbv beta iota zeta.
    set (y_l := vf_mult_scalar y_m (nopp n1)). assert (Lyl : zlen y_l = m) by (unfold y_l, vf_mult_scalar; rewrite zlen_map; lia).
    destruct (subvector_spec y_l (rs_l r) (fL l u) m) as (v1' & E1 & L1 & V1); [auto|apply (fl_L l u y m r RO)|]. rewrite E1. cbv beta iota.
    destruct (subvector_spec y_u (rs_u r) (fU l u) m) as (v2' & E2 & L2 & V2); [lia|apply (fl_U l u y m r RO)|]. rewrite E2. cbv beta iota.
    destruct (subvector_spec l (rs_l r) (fL l u) m) as (v3' & E3 & L3 & V3); [auto|apply (fl_L l u y m r RO)|]. rewrite E3. cbv beta iota.
    destruct (subvector_spec u (rs_u r) (fU l u) m) as (v4' & E4 & L4 & V4); [auto|apply (fl_U l u y m r RO)|]. rewrite E4. cbv beta iota.
    set (lam := vf_concat v1' v2'). set (h := vf_concat (vf_mult_scalar v3' (nopp n1)) v4').
    assert (L3' : zlen (vf_mult_scalar v3' (nopp n1)) = zlen v3') by (unfold vf_mult_scalar; rewrite zlen_map; auto).
    destruct (concat_nth v1' v2') as (Llam & La1 & La2). fold lam in Llam, La1, La2.
    destruct (concat_nth (vf_mult_scalar v3' (nopp n1)) v4') as (Lh & Lh1 & Lh2). fold h in Lh, Lh1, Lh2.
    rewrite HmA in *.
    destruct (safe_Axpy G x h n1 (nopp n1) WG) as (sl & Esl & Lsl); [lia|lia|]. rewrite Esl. cbv beta iota.
    destruct (csc_copy_wf G (env_jz E) (env_jx E) WG) as (G' & EG' & mG' & nG' & WG' & zG' & _ & cG' & vG'). rewrite EG'. cbv beta iota.
    destruct (safe_lmult G' lam WG') as (H & EH & SPH); [lia|]. rewrite EH. cbv beta iota.
    destruct (same_pat_fields _ _ SPH) as (H1 & H2 & H3 & H4).
    destruct (build_rhs_spec E l u y n m r Hn Hm RO dx dyl dyu (dv_rhs dd)) as (rhs & Erhs & Lrhs & _); [auto|auto|auto|lia|]. rewrite Erhs. cbv beta iota.
    destruct (triu_to_csc_spec P (env_jz E) (env_jx E) WP HmP) as (PF & EPF & WPF & mPF & nPF & _). rewrite EPF. cbv beta iota.
    exists r, Al0, Al, Au, G, Ae, PF, G', H, y_u, y_m, y_l, lam, h, sl, rhs. split; [|reflexivity].
    constructor; auto; try lia.
    - apply (same_pat_wf _ _ SPH WG').
    - rewrite (same_pat_nnz _ _ SPH). lia.
    - intros a Ha. rewrite La1, V1 by lia. auto.
    - intros a Ha. rewrite <- L1. rewrite La2, V2 by lia. auto.
    - intros a Ha. rewrite Lh1 by lia. unfold vf_mult_scalar. rewrite (znth_map n0 n0) by lia. rewrite V3 by lia. auto.
    - intros a Ha. rewrite <- L3, <- L3'. rewrite Lh2, V4 by lia. auto.
  Qed.

  Lemma dcore_tail_safe r (y_l y_u rhs : list K) : rows_ok l u y m m r -> zlen y_l = m -> zlen y_u = m -> 2 * (n + 2 * m) <= zlen rhs ->
    safe (dcore_tail r dd y y_l y_u n m rhs) (fun o => fst o = 0 /\ zlen (dv_y_l (snd o)) = m /\ zlen (dv_y_u (snd o)) = m /\ zlen (dv_ryl (snd o)) = m /\
      zlen (dv_ryu (snd o)) = m /\ dv_rhs (snd o) = rhs /\ 0 <= dv_n_ineq_l (snd o) /\ 0 <= dv_n_ineq_u (snd o) /\ 0 <= dv_n_eq (snd o) /\
      dv_n_ineq_l (snd o) + dv_n_ineq_u (snd o) + dv_n_eq (snd o) <= 2 * m).
  Proof.
    intros RO Ll Lu LR. assert (Hn : 0 <= n) by (rewrite <- HnP; apply (wf_n _ WP)). assert (Hm : 0 <= m) by (rewrite <- HmA; apply (wf_m _ WA)).
    pose proof (sets_dims l u y n m r Hm RO) as (N1 & N2 & N3 & N4 & N5 & N6 & N7 & N8). unfold dcore_tail.
    destruct (split_rhs_spec l u y n m r Hn Hm Hy RO rhs) as (ryl & ryu & -> & L1 & L2 & _); [lia|]. cbv beta iota. cbn [fst snd].
    eapply safe_bind; [apply safe_from_raw; lia|]. intros a La. cbv beta in La.
    eapply safe_bind; [unfold vf_ew_prod; apply safe_v2; lia|]. intros b Lb. cbv beta in Lb.
    eapply safe_bind; [apply safe_from_raw; lia|]. intros c Lc. cbv beta in Lc.
    eapply safe_bind; [unfold vf_ew_prod; apply safe_v2; lia|]. intros d Ld. cbv beta in Ld.
    apply safe_ret. cbn [fst snd dv_y_l dv_y_u dv_ryl dv_ryu dv_rhs dv_n_ineq_l dv_n_ineq_u dv_n_eq]. unfold vf_mult_scalar. rewrite zlen_map.
    repeat (split; [lia || reflexivity|]). lia.
  Qed.

  Lemma dcore_safe : safe (dcore P A l u x y n m dd dx dyl dyu) (fun o => fst o = 0 /\ zlen (dv_y_l (snd o)) = m /\ zlen (dv_y_u (snd o)) = m /\ zlen (dv_ryl (snd o)) = m /\
      zlen (dv_ryu (snd o)) = m /\ zlen (dv_rhs (snd o)) = zlen (dv_rhs dd) /\ 0 <= dv_n_ineq_l (snd o) /\ 0 <= dv_n_ineq_u (snd o) /\ 0 <= dv_n_eq (snd o) /\
      dv_n_ineq_l (snd o) + dv_n_ineq_u (snd o) + dv_n_eq (snd o) <= 2 * m).
  Proof.
    assert (Hm : 0 <= m) by (rewrite <- HmA; apply (wf_m _ WA)).
    destruct dcore_run as (r & Al0 & Al & Au & G & Ae & PF & G' & H & y_u & y_m & y_l & lam & h & sl & rhs & ST & ->). destruct ST.
    pose proof (sets_dims l u y n m r Hm sg_rows0) as (N1 & N2 & N3 & N4 & N5 & N6 & N7 & N8).
    eapply safe_bind; [apply (adj_safe E EO PF G Ae H sl); auto; lia|]. intros [st rhs'] [HS HL]. cbn [fst snd] in *.
    eapply safe_weaken; [apply (dcore_tail_safe r y_l y_u rhs'); auto; lia|]. intros o (O1 & O2 & O3 & O4 & O5 & O6 & O7). rewrite O6. repeat (split; [solve [auto]|]). split; [lia|]. auto.
  Qed.
End Core.
