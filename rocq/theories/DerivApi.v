(** The three derivative functions on a solver: no access leaves an array, and what the compute step works on are the user's data. *)
From Coq Require Import ZArith Reals List Bool Lia Lra.
From Verif Require Import Num Arr ArrFacts RSum Csc CscSpec CscFacts CscFacts2 Scatter CscFacts3 CscFacts4 CscFacts5
  Vec Types Validate Linsys VecFacts LinsysFacts LinsysSolve Auxil Inv InvStep InvSetup InvApi RealVec ProbSpec ScaleReal Refine UserSpec Deriv DerivAsm DerivLin DerivRows DerivRun.
Import ListNotations.
Open Scope Z_scope.
Local Open Scope opt_scope.

Section Api.
  Context {K : NumOps}.
  Variable E : Env K.
  Hypothesis EO : env_ok E.
  Notation dn s := (d_n (w_data (sv_work s))).
  Notation dm s := (d_m (w_data (sv_work s))).

  (** derivative.c:114-124 *)
  Definition prep (s : solver K) : option ((csc K * csc K) * (list K * list K)) :=
    P <- csc_copy (env_jz E) (env_jx E) (d_P (w_data (sv_work s))) ;;
    A <- csc_copy (env_jz E) (env_jx E) (d_A (w_data (sv_work s))) ;;
    if tr (st_scaling (sv_settings s)) then
      sc <- w_scaling (sv_work s) ;;
      PA <- unscale_PA sc P A ;;
      lu <- unscale_lu sc (d_l (w_data (sv_work s))) (d_u (w_data (sv_work s))) ;;
      Some (PA, lu)
    else Some ((P, A), (d_l (w_data (sv_work s)), d_u (w_data (sv_work s)))).

  Lemma compute_dcore s dd dx dy_l dy_u so P A l u x y dyl dyu : sv_solution s = Some so -> prep s = Some ((P, A), (l, u)) ->
    view (so_x so) 0 (dn s) = Some x -> view (so_y so) 0 (dm s) = Some y -> view dy_l 0 (dm s) = Some dyl -> view dy_u 0 (dm s) = Some dyu ->
    adjoint_derivative_compute E s dd dx dy_l dy_u = dcore E P A l u x y (dn s) (dm s) dd dx dyl dyu.
  Proof.
    intros ES EP Ex Ey El Eu. unfold prep in EP. unfold adjoint_derivative_compute. cbv zeta.
    destruct (csc_copy (env_jz E) (env_jx E) (d_P (w_data (sv_work s)))) as [P0|]; [|discriminate EP].
    destruct (csc_copy (env_jz E) (env_jx E) (d_A (w_data (sv_work s)))) as [A0|]; [|discriminate EP]. rewrite ES, Ex, Ey.
    match goal with |- match ?e with Some _ => _ | None => None end = _ => replace e with (Some ((P, A), (l, u))) end. cbv beta iota. rewrite El, Eu. reflexivity.
  Qed.

  Lemma prep_safe s : Inv s -> safe (prep s) (fun o => let '((P, A), (l, u)) := o in
    wf P /\ triu P /\ cn P = dn s /\ wf A /\ cm A = dm s /\ cn A = dn s /\ zlen l = dm s /\ zlen u = dm s).
  Proof.
    intros HI. destruct (iv_w _ HI) as [Hd Hs _ _ _]. destruct Hd. unfold prep.
    eapply safe_bind; [apply csc_copy_wf; auto|]. intros P (P1 & P2 & P3 & P4 & P5 & _).
    eapply safe_bind; [apply csc_copy_wf; auto|]. intros A (A1 & A2 & A3 & A4 & _). cbv beta in *.
    destruct (tr (st_scaling (sv_settings s))) eqn:Et.
    - destruct (Hs Et) as (sc & -> & [S1 S2 S3 S4]). cbv beta iota. unfold unscale_PA, unscale_lu.
      eapply (safe_bind _ _ (fun o : csc K * csc K => let '(P, A) := o in wf P /\ triu P /\ cn P = dn s /\ wf A /\ cm A = dm s /\ cn A = dn s)).
      + eapply safe_bind; [apply safe_mscale; auto|]. intros Pa SPa. destruct (same_pat_fields _ _ SPa) as (Fa1 & Fa2 & _). pose proof (same_pat_wf _ _ SPa P3) as Wa.
        assert (Ta : triu Pa) by (eapply same_pat_triu; eauto).
        eapply safe_bind; [apply safe_lmult; [auto|rewrite Fa1, P1; destruct do_Pt; lia]|]. intros Pb SPb. destruct (same_pat_fields _ _ SPb) as (Fb1 & Fb2 & _). pose proof (same_pat_wf _ _ SPb Wa) as Wb.
        eapply safe_bind; [apply safe_rmult; [auto|rewrite Fb2, Fa2, P2; lia]|]. intros Pc SPc. destruct (same_pat_fields _ _ SPc) as (Fc1 & Fc2 & _). pose proof (same_pat_wf _ _ SPc Wb) as Wc.
        eapply safe_bind; [apply safe_lmult; [auto|lia]|]. intros Ab SAb. destruct (same_pat_fields _ _ SAb) as (Gb1 & Gb2 & _). pose proof (same_pat_wf _ _ SAb A3) as Wd.
        eapply safe_bind; [apply safe_rmult; [auto|lia]|]. intros Ac SAc. destruct (same_pat_fields _ _ SAc) as (Gc1 & Gc2 & _). pose proof (same_pat_wf _ _ SAc Wd) as We.
        apply safe_ret. repeat (split; [solve [auto | lia | eapply same_pat_triu; [eassumption|]; eapply same_pat_triu; eauto]|]). lia.
      + intros [P' A'] HPA. eapply (safe_bind _ _ (fun o : list K * list K => zlen (fst o) = dm s /\ zlen (snd o) = dm s)).
        * eapply safe_bind; [unfold vf_ew_prod; apply safe_v2; lia|]. intros l Ll. eapply safe_bind; [unfold vf_ew_prod; apply safe_v2; lia|]. intros u Lu. apply safe_ret. cbn [fst snd] in *. lia.
        * intros [l u] [Ll Lu]. cbn [fst snd] in *. apply safe_ret. destruct HPA as (H1 & H2 & H3 & H4 & H5 & H6). repeat (split; [solve [auto]|]). auto.
    - apply safe_ret. repeat (split; [solve [auto | lia]|]). auto.
  Qed.

  (** The buffers of the derivative data have the sizes given by osqp_setup (osqp_api.c:608-618). *)
  Record dv_ok (n m : Z) (dd : deriv K) : Prop := {
    dk_yl : zlen (dv_y_l dd) = m; dk_yu : zlen (dv_y_u dd) = m; dk_ryl : zlen (dv_ryl dd) = m; dk_ryu : zlen (dv_ryu dd) = m;
    dk_rhs : zlen (dv_rhs dd) = 2 * (n + 2 * m);
    dk_nl : 0 <= dv_n_ineq_l dd; dk_nu : 0 <= dv_n_ineq_u dd; dk_ne : 0 <= dv_n_eq dd; dk_sum : dv_n_ineq_l dd + dv_n_ineq_u dd + dv_n_eq dd <= 2 * m }.

  Lemma compute_safe s dd dx dy_l dy_u so : Inv s -> sv_solution s = Some so -> dv_ok (dn s) (dm s) dd -> dn s <= zlen dx -> dm s <= zlen dy_l -> dm s <= zlen dy_u ->
    safe (adjoint_derivative_compute E s dd dx dy_l dy_u) (fun o => fst o = 0 /\ dv_ok (dn s) (dm s) (snd o)).
  Proof.
    intros HI ES DK Lx Ll Lu. destruct (iv_sol _ HI so ES) as [Sx Sy _ _]. pose proof (wo_d _ _ (iv_w _ HI)) as Hd. pose proof (do_n _ Hd) as Hn. pose proof (do_m _ Hd) as Hm.
    destruct (prep_safe s HI) as ([[P A] [l u]] & EP & WP & TP & nP & WA & mA & nA & Lll & Llu).
    destruct (safe_view (so_x so) 0 (dn s)) as (x & Ex & Lxx); [lia|lia|lia|]. destruct (safe_view (so_y so) 0 (dm s)) as (y & Ey & Lyy); [lia|lia|lia|].
    destruct (safe_view dy_l 0 (dm s)) as (dyl & El & Ldl); [lia|lia|lia|]. destruct (safe_view dy_u 0 (dm s)) as (dyu & Eu & Ldu); [lia|lia|lia|].
    rewrite (compute_dcore s dd dx dy_l dy_u so P A l u x y dyl dyu) by auto. destruct DK.
    eapply safe_weaken; [apply (dcore_safe E EO P A l u x y (dn s) (dm s) dd dx dyl dyu); auto; try lia; apply TP|].
    intros o (O1 & O2 & O3 & O4 & O5 & O6 & O7 & O8 & O9 & O10). split; auto. constructor; auto. lia.
  Qed.

  Lemma fill_range (v : Z -> K) lo hi (s0 : list K) : 0 <= lo -> lo <= hi -> hi <= zlen s0 ->
    exists r, for_ lo hi (fun p s => zset s p (v p)) s0 = Some r /\ zlen r = zlen s0 /\ forall k, znth n0 r k = if (lo <=? k) && (k <? hi) then v k else znth n0 s0 k.
  Proof.
    intros H1 H2 H3. loop_rule (fun t s => zlen s = zlen s0 /\ forall k, znth n0 s k = if (lo <=? k) && (k <? t) then v k else znth n0 s0 k) HI.
    destruct HI as (r & -> & L & V); [lia| | |].
    - split; auto. intros k. replace ((lo <=? k) && (k <? lo)) with false by lia. auto.
    - intros j s Hj [Ls Vs]. rewrite zset_Some by lia. eexists. split; [reflexivity|]. split; [rewrite zlen_upd; auto|]. intros k. rewrite znth_upd by lia. rewrite Vs.
      destruct (Z.eqb_spec k j) as [->|Hne]; [replace ((lo <=? j) && (j <? j + 1)) with true by lia; auto|]. replace ((lo <=? k) && (k <? j + 1)) with ((lo <=? k) && (k <? j)) by lia. auto.
    - eauto.
  Qed.

  (** osqp_adjoint_derivative_get_mat writes the stored entries of dP and dA. *)
  Lemma get_mat_spec s dd so (dP dA : csc K) : Inv s -> sv_solution s = Some so -> dv_ok (dn s) (dm s) dd ->
    wf dP -> cm dP = dn s -> cn dP = dn s -> wf dA -> cm dA = dm s -> cn dA = dn s ->
    let N := dn s + dv_n_ineq_l dd + dv_n_ineq_u dd + dv_n_eq dd in
    let rx := fun i => znth n0 (dv_rhs dd) (N + i) in
    let x := fun i => znth n0 (so_x so) i in
    exists px ax, adjoint_derivative_get_mat s dd dP dA = Some (px, ax) /\ zlen px = zlen (cx dP) /\ zlen ax = zlen (cx dA) /\
      (forall j k, 0 <= j < dn s -> colp dP j <= k < colp dP (j + 1) ->
         znth n0 px k = nmul (nlit 5 (-1)) (nadd (nmul (rx (rowi dP k)) (x j)) (nmul (rx j) (x (rowi dP k))))) /\
      (forall j k, 0 <= j < dn s -> colp dA j <= k < colp dA (j + 1) ->
         znth n0 ax k = nadd (nmul (nsub (znth n0 (dv_y_u dd) (rowi dA k)) (znth n0 (dv_y_l dd) (rowi dA k))) (rx j))
                             (nmul (nsub (znth n0 (dv_ryu dd) (rowi dA k)) (znth n0 (dv_ryl dd) (rowi dA k))) (x j))).
  Proof.
    intros HI ES DK WP mP nP WA mA nA N rx x. destruct (iv_sol _ HI so ES) as [Sx Sy _ _]. pose proof (wo_d _ _ (iv_w _ HI)) as Hd. pose proof (do_n _ Hd) as Hn. pose proof (do_m _ Hd) as Hm. destruct DK.
    unfold adjoint_derivative_get_mat. cbv zeta. rewrite ES. destruct (view_ok n0 (so_x so) 0 (dn s)) as (xv & -> & Lx & Vx); [lia|lia|lia|]. cbv beta iota.
    unfold rx_view. fold N. destruct (view_ok n0 (dv_rhs dd) N (dn s)) as (rv & -> & Lr & Vr); [unfold N; lia|lia|unfold N; lia|]. cbv beta iota.
    set (vP := fun j k => nmul (nlit 5 (-1)) (nadd (nmul (rx (rowi dP k)) (x j)) (nmul (rx j) (x (rowi dP k))))).
    set (vA := fun j k => nadd (nmul (nsub (znth n0 (dv_y_u dd) (rowi dA k)) (znth n0 (dv_y_l dd) (rowi dA k))) (rx j))
                             (nmul (nsub (znth n0 (dv_ryu dd) (rowi dA k)) (znth n0 (dv_ryl dd) (rowi dA k))) (x j))).
    loop_rule (fun t (st : list K * list K) => zlen (fst st) = zlen (cx dP) /\ zlen (snd st) = zlen (cx dA) /\
      (forall j k, 0 <= j < t -> colp dP j <= k < colp dP (j + 1) -> znth n0 (fst st) k = vP j k) /\
      (forall j k, 0 <= j < t -> colp dA j <= k < colp dA (j + 1) -> znth n0 (snd st) k = vA j k)) HI'.
    destruct HI' as ([px ax] & -> & L1 & L2 & V1 & V2); [lia| | |].
    - cbn [fst snd]. repeat (split; [solve [auto]|]). split; intros; lia.
    - intros j [p a] Hj (Lp & La & Vp & Va). cbn [fst snd] in *.
      rewrite (zget_colp dP j), (zget_colp dP (j + 1)), (zget_colp dA j), (zget_colp dA (j + 1)) by (auto; lia). cbv beta iota.
      pose proof (colp_range dP j WP ltac:(lia)). pose proof (colp_range dP (j + 1) WP ltac:(lia)). pose proof (wf_mono _ WP j ltac:(lia)). pose proof (wf_ilen _ WP). pose proof (wf_xlen _ WP).
      pose proof (colp_range dA j WA ltac:(lia)). pose proof (colp_range dA (j + 1) WA ltac:(lia)). pose proof (wf_mono _ WA j ltac:(lia)). pose proof (wf_ilen _ WA). pose proof (wf_xlen _ WA).
      rewrite (for_ext (colp dP j) (colp dP (j + 1)) _ (fun k s => zset s k (vP j k))).
      2:{ intros k s' Hk. rewrite (zget_Some 0 (ci dP)) by lia. pose proof (wf_rows _ WP k ltac:(lia)) as HR. unfold rowi in HR.
          rewrite (zget_Some n0 rv (znth 0 (ci dP) k)), (zget_Some n0 xv j), (zget_Some n0 rv j), (zget_Some n0 xv (znth 0 (ci dP) k)) by lia. rewrite !Vx, !Vr by lia. reflexivity. }
      destruct (fill_range (vP j) (colp dP j) (colp dP (j + 1)) p) as (p' & -> & Lp' & Vp'); [lia|lia|lia|]. cbv beta iota.
      rewrite (for_ext (colp dA j) (colp dA (j + 1)) _ (fun k s => zset s k (vA j k))).
      2:{ intros k s' Hk. rewrite (zget_Some 0 (ci dA)) by lia. pose proof (wf_rows _ WA k ltac:(lia)) as HR. unfold rowi in HR. cbv beta iota.
          rewrite (zget_Some n0 (dv_y_u dd)), (zget_Some n0 (dv_y_l dd)), (zget_Some n0 (dv_ryu dd)), (zget_Some n0 (dv_ryl dd)), (zget_Some n0 rv j), (zget_Some n0 xv j) by lia.
          rewrite !Vx, !Vr by lia. reflexivity. }
      destruct (fill_range (vA j) (colp dA j) (colp dA (j + 1)) a) as (a' & -> & La' & Va'); [lia|lia|lia|]. cbv beta iota.
      eexists. split; [reflexivity|]. cbn [fst snd]. split; [lia|]. split; [lia|]. split.
      + intros j' k Hj' Hk. rewrite Vp'. destruct (Z.eq_dec j' j) as [->|Hne].
        * replace ((colp dP j <=? k) && (k <? colp dP (j + 1))) with true by lia. auto.
        * pose proof (colp_mono dP WP (j' + 1) j ltac:(lia) ltac:(lia)). replace ((colp dP j <=? k) && (k <? colp dP (j + 1))) with false by lia. apply Vp; auto; lia.
      + intros j' k Hj' Hk. rewrite Va'. destruct (Z.eq_dec j' j) as [->|Hne].
        * replace ((colp dA j <=? k) && (k <? colp dA (j + 1))) with true by lia. auto.
        * pose proof (colp_mono dA WA (j' + 1) j ltac:(lia) ltac:(lia)). replace ((colp dA j <=? k) && (k <? colp dA (j + 1))) with false by lia. apply Va; auto; lia.
    - cbn [fst snd] in *. exists px, ax. repeat (split; [solve [auto]|]). auto.
  Qed.

  (** osqp_adjoint_derivative_get_vec *)
  Lemma get_vec_spec s dd (dq dl du : list K) : dv_ok (dn s) (dm s) dd -> 0 <= dn s -> 0 <= dm s -> dn s <= zlen dq -> dm s <= zlen dl -> dm s <= zlen du ->
    let N := dn s + dv_n_ineq_l dd + dv_n_ineq_u dd + dv_n_eq dd in
    exists dq' dl' du', adjoint_derivative_get_vec s dd dq dl du = Some (dq', dl', du') /\ zlen dq' = zlen dq /\ zlen dl' = zlen dl /\ zlen du' = zlen du /\
      (forall i, 0 <= i < zlen dq -> znth n0 dq' i = if i <? dn s then znth n0 (dv_rhs dd) (N + i) else znth n0 dq i) /\
      (forall i, 0 <= i < zlen dl -> znth n0 dl' i = if i <? dm s then znth n0 (dv_ryl dd) i else znth n0 dl i) /\
      (forall i, 0 <= i < zlen du -> znth n0 du' i = if i <? dm s then nopp (znth n0 (dv_ryu dd) i) else znth n0 du i).
  Proof.
    intros DK Hn Hm Lq Ll Lu N. destruct DK. unfold adjoint_derivative_get_vec, rx_view, vf_to_raw. fold N.
    destruct (view_ok n0 (dv_rhs dd) N (dn s)) as (rv & -> & Lr & Vr); [unfold N; lia|lia|unfold N; lia|]. cbv beta iota. rewrite Lr, dk_ryl0, dk_ryu0.
    destruct (view_write_ok n0 dq 0 (dn s) rv) as (dq' & -> & Lq' & Vq); [lia|lia|lia|lia|]. cbv beta iota.
    destruct (view_write_ok n0 dl 0 (dm s) (dv_ryl dd)) as (dl' & -> & Ll' & Vl); [lia|lia|lia|lia|]. cbv beta iota.
    destruct (view_write_ok n0 du 0 (dm s) (dv_ryu dd)) as (du1 & -> & Lu' & Vu); [lia|lia|lia|lia|]. cbv beta iota.
    destruct (for_map n0 (fun _ => nopp) (dm s) du1) as (du' & EF & LF & VF); [lia|]. rewrite EF. cbv beta iota.
    exists dq', dl', du'. repeat (split; [solve [auto | lia]|]). split; [|split].
    - intros i Hi. rewrite Vq by auto. replace (0 <=? i) with true by lia. cbn [andb]. replace (i <? 0 + dn s) with (i <? dn s) by lia. destruct (i <? dn s) eqn:Ei; auto. rewrite Vr by lia. f_equal. lia.
    - intros i Hi. rewrite Vl by auto. replace (0 <=? i) with true by lia. cbn [andb]. replace (i <? 0 + dm s) with (i <? dm s) by lia. destruct (i <? dm s) eqn:Ei; auto. f_equal. lia.
    - intros i Hi. rewrite VF. rewrite Vu by lia. replace (0 <=? i) with true by lia. cbn [andb]. replace (i <? 0 + dm s) with (i <? dm s) by lia. destruct (i <? dm s) eqn:Ei; auto. do 2 f_equal. lia.
  Qed.
End Api.

(** Over the reals the unscaled copies are the user's data again. *)
Lemma prep_user (E : Env Rops) (s : solver Rops) (d : data Rops) : Inv s -> ref d s ->
  exists P A l u, prep E s = Some ((P, A), (l, u)) /\ wf P /\ triu P /\ cn P = d_n d /\ wf A /\ cm A = d_m d /\ cn A = d_n d /\ zlen l = d_m d /\ zlen u = d_m d /\
    (forall i j, 0 <= i < d_n d -> 0 <= j < d_n d -> sdns P i j = sdns (d_P d) i j) /\
    (forall i j, 0 <= i < d_m d -> 0 <= j < d_n d -> dns A i j = dns (d_A d) i j) /\
    (forall i, 0 <= i < d_m d -> rnth l i = rnth (d_l d) i /\ rnth u i = rnth (d_u d) i).
Proof.
  intros HI [HD HSB _ HSC _]. destruct (iv_w _ HI) as [Hd Hs _ _ _]. destruct HSB as [Bn Bm BP BA _ [Bl1 Bl2] [Bu1 Bu2]].
  destruct Hd as [On Om OP OT OPn OA OAm OAn _ Ol Ou]. destruct HD as [Un Um UP UT UPn UA UAm UAn _ Ul Uu]. unfold prep.
  destruct (csc_copy_wf (d_P (w_data (sv_work s))) (env_jz E) (env_jx E) OP) as (P & EP & P1 & P2 & P3 & P4 & P5 & P6 & P7). rewrite EP. cbv beta iota.
  destruct (csc_copy_wf (d_A (w_data (sv_work s))) (env_jz E) (env_jx E) OA) as (A & EA & A1 & A2 & A3 & A4 & _ & A6 & A7). rewrite EA. cbv beta iota.
  assert (CP : forall i j, 0 <= j < cn (d_P (w_data (sv_work s))) -> dns P i j = dns (d_P (w_data (sv_work s))) i j) by (apply copy_dns; auto; repeat (split; [solve [auto]|]); auto).
  assert (CA : forall i j, 0 <= j < cn (d_A (w_data (sv_work s))) -> dns A i j = dns (d_A (w_data (sv_work s))) i j) by (apply copy_dns; auto; repeat (split; [solve [auto]|]); auto).
  unfold uc, uD, uE, uscal in *. destruct (tr (st_scaling (sv_settings s))) eqn:Et.
  - destruct (Hs Et) as (sc & Esc & _). rewrite Esc in *. destruct (HSC sc eq_refl) as (HK & HG & HV). cbv beta iota. destruct HK as [K1 K2 K3 K4].
    destruct (sc_good_pos _ _ _ _ HG) as (Gc & GD & GE). destruct HV as [Vc VD VE]. unfold unscale_PA, unscale_lu. change (car Rops) with R in *.
    destruct (rs_mscale P (sc_cinv sc) P3) as (Pa & EPa & MPa). rewrite EPa. cbv beta iota. pose proof (mscaled_wf _ _ _ _ _ MPa P3) as WPa. destruct (mscaled_dims _ _ _ _ _ MPa) as (mPa & nPa).
    destruct (rs_lmult Pa (sc_Dinv sc) WPa) as (Pb & EPb & MPb); [destruct OT; change (car Rops) with R in *; lia|]. rewrite EPb. cbv beta iota. pose proof (mscaled_wf _ _ _ _ _ MPb WPa) as WPb. destruct (mscaled_dims _ _ _ _ _ MPb) as (mPb & nPb).
    destruct (rs_rmult Pb (sc_Dinv sc) WPb) as (Pc & EPc & MPc); [change (car Rops) with R in *; lia|]. rewrite EPc. cbv beta iota. pose proof (mscaled_wf _ _ _ _ _ MPc WPb) as WPc. destruct (mscaled_dims _ _ _ _ _ MPc) as (mPc & nPc).
    destruct (rs_lmult A (sc_Einv sc) A3) as (Ab & EAb & MAb); [change (car Rops) with R in *; lia|]. rewrite EAb. cbv beta iota. pose proof (mscaled_wf _ _ _ _ _ MAb A3) as WAb. destruct (mscaled_dims _ _ _ _ _ MAb) as (mAb & nAb).
    destruct (rs_rmult Ab (sc_Dinv sc) WAb) as (Ac & EAc & MAc); [change (car Rops) with R in *; lia|]. rewrite EAc. cbv beta iota. pose proof (mscaled_wf _ _ _ _ _ MAc WAb) as WAc. destruct (mscaled_dims _ _ _ _ _ MAc) as (mAc & nAc).
    destruct (rs_v2 (d_l (w_data (sv_work s))) Rmult (d_l (w_data (sv_work s))) (sc_Einv sc)) as (l & El & Ll & Vl); [auto|change (car Rops) with R in *; lia|].
    destruct (rs_v2 (d_u (w_data (sv_work s))) Rmult (d_u (w_data (sv_work s))) (sc_Einv sc)) as (u & Eu & Lu & Vu); [auto|change (car Rops) with R in *; lia|].
    assert (El' : @vf_ew_prod Rops (d_l (w_data (sv_work s))) (d_l (w_data (sv_work s))) (sc_Einv sc) = Some l) by exact El.
    assert (Eu' : @vf_ew_prod Rops (d_u (w_data (sv_work s))) (d_u (w_data (sv_work s))) (sc_Einv sc) = Some u) by exact Eu.
    rewrite El'. cbv beta iota. rewrite Eu'. cbv beta iota.
    assert (TPc : triu Pc). { apply (same_pat_triu Pb); [apply MPc|]. apply (same_pat_triu Pa); [apply MPb|]. apply (same_pat_triu P); [apply MPa|]. auto. }
    exists Pc, Ac, l, u. split; [reflexivity|]. split; [auto|]. split; [auto|]. split; [change (car Rops) with R in *; lia|]. split; [auto|]. split; [change (car Rops) with R in *; lia|]. split; [change (car Rops) with R in *; lia|].
    split; [change (car Rops) with R in *; lia|]. split; [change (car Rops) with R in *; lia|].
    assert (QP : forall i j, 0 <= i < d_n d -> 0 <= j < d_n d -> dns Pc i j = dns (d_P d) i j).
    { intros i j Hi Hj. rewrite (mscaled_dns _ _ _ _ _ WPb MPc) by lia. rewrite (mscaled_dns _ _ _ _ _ WPa MPb) by lia. rewrite (mscaled_dns _ _ _ _ _ P3 MPa) by lia. rewrite CP by lia.
      rewrite (mscaled_dns _ _ _ _ _ UP BP) by lia. rewrite Vc, !VD by auto. pose proof (GD i Hi). pose proof (GD j Hj). field. lra. }
    split; [intros i j Hi Hj; unfold sdns; destruct (i <=? j); apply QP; auto|]. split.
    + intros i j Hi Hj. rewrite (mscaled_dns _ _ _ _ _ WAb MAc) by lia. rewrite (mscaled_dns _ _ _ _ _ A3 MAb) by lia. rewrite CA by lia. rewrite (mscaled_dns _ _ _ _ _ UA BA) by lia.
      rewrite VE, VD by auto. pose proof (GE i Hi). pose proof (GD j Hj). field. lra.
    + intros i Hi. rewrite Vl, Vu by (change (car Rops) with R in *; lia). rewrite Bl2, Bu2, VE by auto. pose proof (GE i Hi). split; field; lra.
  - exists P, A, (d_l (w_data (sv_work s))), (d_u (w_data (sv_work s))). split; [reflexivity|]. split; [auto|]. split; [auto|]. split; [change (car Rops) with R in *; lia|]. split; [auto|]. split; [change (car Rops) with R in *; lia|]. split; [change (car Rops) with R in *; lia|].
    split; [change (car Rops) with R in *; lia|]. split; [change (car Rops) with R in *; lia|].
    assert (QP : forall i j, 0 <= i < d_n d -> 0 <= j < d_n d -> dns P i j = dns (d_P d) i j).
    { intros i j Hi Hj. rewrite CP by lia. rewrite (mscaled_dns _ _ _ _ _ UP BP) by lia. ring. }
    split; [intros i j Hi Hj; unfold sdns; destruct (i <=? j); apply QP; auto|]. split.
    + intros i j Hi Hj. rewrite CA by lia. rewrite (mscaled_dns _ _ _ _ _ UA BA) by lia. ring.
    + intros i Hi. rewrite Bl2, Bu2 by auto. split; ring.
Qed.
