(** One ADMM iteration over the reals, component by component. *)
From Coq Require Import ZArith Reals List Bool Lia Lra.
From Verif Require Import Num Arr ArrFacts RSum Csc CscSpec CscFacts CscFacts2 Scatter Vec VecFacts Types Kkt KktSpec
  Linsys LinsysFacts LinsysSolve Scaling Validate Auxil Polish Api Inv RecSimp InvStep InvApi RealVec.
Import ListNotations.
Open Scope Z_scope.

Lemma safe_and {A} (e : option A) (P Q : A -> Prop) : safe e P -> safe e Q -> safe e (fun a => P a /\ Q a).
Proof. intros (a & E & Pa) (b & E' & Qb). rewrite E in E'. inversion E'; subst. exists b; auto. Qed.

Ltac rleaf :=
  first [ apply rs_v2 | apply rs_v3 | apply rs_add_scaled | apply rs_add_scaled3 | apply rs_view | apply rs_view_write
        | apply rs_dot | apply rs_dot_signed | apply rs_scaled_norm | apply rs_Axpy | apply rs_Atxpy | apply rs_symv | apply rs_from_raw ].
Ltac rsize := rs; unfold vf_mult_scalar, vf_set_scalar, vf_round_to_zero, vf_ew_sqrt; change (car Rops) with R in *; rewrite ?zlen_map;
  first [assumption | lia | solve [auto]].
Ltac fix_R := change (car Rops) with R in *; change (@nadd Rops) with Rplus in *; change (@nsub Rops) with Rminus in *; change (@nmul Rops) with Rmult in *;
  change (@ndiv Rops) with Rdiv in *; change (@nopp Rops) with Ropp in *; rewrite ?n1_R, ?n0_R in *.
Tactic Notation "rbind" simple_intropattern(v) simple_intropattern(L) simple_intropattern(V) :=
  eapply safe_bind; [rleaf; rsize|rs; cbv beta; intros v (L & V)].

Section RealSteps.
  Variable E : Env Rops.
  Hypothesis EO : env_ok E.
  Variable st : settings Rops.
  Notation vec := (tr (st_rho_is_vec st)).

  (** The rho of constraint i and the reciprocal the iteration uses for it. *)
  Definition rho_at (w : work Rops) (i : Z) : R :=
    match w_rho_vec w with Some v => rnth v i | None => st_rho st end.
  Definition rinv_at (w : work Rops) (i : Z) : R :=
    if vec then match w_rho_inv_vec w with Some v => rnth v i | None => 0%R end else w_rho_inv w.

  Ltac start w H := pose proof H as HW; destruct H as [Hd Hsc Hrho Hls Hlen]; destruct Hd, Hlen.
  Notation nn w := (d_n (w_data w)). Notation mm w := (d_m (w_data w)).
  Notation "'Pw' w" := (d_P (w_data w)) (at level 5, w at level 0).
  Notation "'Aw' w" := (d_A (w_data w)) (at level 5, w at level 0).

  Lemma rinv_vec (w : work Rops) : wok st w -> vec = true -> exists rv ri, w_rho_vec w = Some rv /\ w_rho_inv_vec w = Some ri /\ rlen rv = mm w /\ rlen ri = mm w /\
    forall i, 0 <= i < mm w -> rnth ri i = (/ rnth rv i)%R.
  Proof.
    intros H Hv. destruct (rho_vecs st w H Hv) as (ct & E1 & E2 & E3 & E4). eexists _, _. split; [exact E3|]. split; [exact E4|].
    rewrite !zlen_map. do 2 (split; auto). intros i Hi. unfold rnth.
    rewrite (znth_map 0%R 0), (znth_map 0%R 0) by lia. fix_R. unfold Rdiv. lra.
  Qed.

  Lemma write_xtilde_real (v : list R) (w : work Rops) : dok (w_data w) -> rlen (w_xz_tilde w) = nn w + mm w -> rlen v = nn w ->
    safe (write_xtilde v w) (fun w' => exists t : list R, w' = set_w_xz_tilde t w /\ rlen t = nn w + mm w /\
      (forall i, 0 <= i < nn w -> rnth t i = rnth v i) /\ (forall i, 0 <= i < mm w -> rnth t (nn w + i) = rnth (w_xz_tilde w) (nn w + i))).
  Proof.
    intros [] H1 H2. unfold write_xtilde. rbind t Lt Vt. apply safe_ret. exists t. split; auto. split; [rsize|]. split.
    - intros i Hi. rewrite Vt by rsize. replace ((0 <=? i) && (i <? 0 + nn w)) with true by lia. f_equal; lia.
    - intros i Hi. rewrite Vt by rsize. replace ((0 <=? nn w + i) && (nn w + i <? 0 + nn w)) with false by lia. auto.
  Qed.
  Lemma write_ztilde_real (v : list R) (w : work Rops) : dok (w_data w) -> rlen (w_xz_tilde w) = nn w + mm w -> rlen v = mm w ->
    safe (write_ztilde v w) (fun w' => exists t : list R, w' = set_w_xz_tilde t w /\ rlen t = nn w + mm w /\
      (forall i, 0 <= i < nn w -> rnth t i = rnth (w_xz_tilde w) i) /\ (forall i, 0 <= i < mm w -> rnth t (nn w + i) = rnth v i)).
  Proof.
    intros [] H1 H2. unfold write_ztilde. rbind t Lt Vt. apply safe_ret. exists t. split; auto. split; [rsize|]. split.
    - intros i Hi. rewrite Vt by rsize. replace ((nn w <=? i) && (i <? nn w + mm w)) with false by lia. auto.
    - intros i Hi. rewrite Vt by rsize. replace ((nn w <=? nn w + i) && (nn w + i <? nn w + mm w)) with true by lia. f_equal; lia.
  Qed.

  (** auxil.c:136-158 computes  sigma x - q  and  z - y / rho. *)
  Lemma compute_rhs_real (w : work Rops) : wok st w ->
    safe (compute_rhs st w) (fun w' => exists t : list R, w' = set_w_xz_tilde t w /\ rlen t = nn w + mm w /\
      (forall i, 0 <= i < nn w -> rnth t i = (st_sigma st * rnth (w_x_prev w) i - rnth (d_q (w_data w)) i)%R) /\
      (forall i, 0 <= i < mm w -> rnth t (nn w + i) = (rnth (w_z_prev w) i - rinv_at w i * rnth (w_y w) i)%R)).
  Proof.
    intros H. pose proof (wo_d _ _ H) as Hdok. start w H. unfold compute_rhs, xtilde, ztilde. rs.
    rbind xt Lx Vx. rbind v Lv Vv.
    eapply safe_bind; [apply write_xtilde_real; rsize|]. intros w1 (t & -> & Lt & Vt1 & Vt2). rs.
    rbind zt Lz Vz. unfold rinv_at. destruct vec eqn:Ev.
    - destruct (rinv_vec w HW Ev) as (rv & ri & E3 & E4 & Lrv & Lri & _). rs. rewrite E4. rbind v2 Lv2 Vv2. rbind v3 Lv3 Vv3.
      eapply safe_weaken; [apply write_ztilde_real; rsize|]. intros w2 (t2 & -> & Lt2 & V1 & V2). rs_in Lt2. rs_in V1. rs_in V2.
      exists t2. split; [reflexivity|]. split; auto. split.
      + intros i Hi. rewrite V1, Vt1, Vv by rsize. fix_R. ring.
      + intros i Hi. rewrite V2, Vv3, Vv2 by rsize. fix_R. ring.
    - rbind v2 Lv2 Vv2.
      eapply safe_weaken; [apply write_ztilde_real; rsize|]. intros w2 (t2 & -> & Lt2 & V1 & V2). rs_in Lt2. rs_in V1. rs_in V2.
      exists t2. split; [reflexivity|]. split; auto. split.
      + intros i Hi. rewrite V1, Vt1, Vv by rsize. fix_R. ring.
      + intros i Hi. rewrite V2, Vv2 by rsize. fix_R. ring.
  Qed.

  (** The linear solver factors and solves the KKT system exactly. *)
  Definition exact (w : work Rops) : Prop := forall ls, w_linsys w = Some ls -> solves E (ls_fac ls).

  (** The reciprocals used by the linear system are those of rho. *)
  Lemma ls_rinv (w : work Rops) ls : wok st w -> w_linsys w = Some ls -> forall i, 0 <= i < mm w -> @rinv Rops ls i = (/ rho_at w i)%R.
  Proof.
    intros H El i Hi. destruct (wo_ls _ _ H) as (ls' & r & El' & _ & _ & LR). rewrite El in El'. injection El' as <-.
    unfold ls_rho in LR. unfold rinv, rho_at. destruct vec eqn:Ev.
    - destruct (rho_vecs st w H Ev) as (ct & E1 & E2 & E3 & E4). destruct LR as (ct' & E1' & ->). rewrite E1 in E1'. injection E1' as <-.
      rewrite E3. unfold rnth. rewrite (znth_map n0 0), (znth_map 0%R 0) by lia. fix_R. unfold Rdiv. lra.
    - destruct LR as [-> ->]. pose proof (wo_rho _ _ H) as HR. unfold rho_ok in HR. rewrite Ev in HR. rewrite HR. fix_R. unfold Rdiv. lra.
  Qed.

  (** The matrix handed to the factorisation is the KKT matrix of the stored problem and rho. *)
  Lemma fac_dense (w : work Rops) : wok st w -> exists ls, w_linsys w = Some ls /\ perm_ok (Some (ls_perm ls)) (nn w + mm w) /\
    cn (ls_fac ls) = nn w + mm w /\ cm (ls_fac ls) = nn w + mm w /\ triu (ls_fac ls) /\
    forall a b, 0 <= a < nn w + mm w -> 0 <= b < nn w + mm w ->
      sdns (ls_fac ls) a b = kktS (nn w) (sdns (Pw w)) (dns (Aw w)) (st_sigma st) (fun i => / rho_at w i)%R
                               (znth 0 (ls_perm ls) a) (znth 0 (ls_perm ls) b).
  Proof.
    intros H. destruct (wo_ls _ _ H) as (ls & r & El & LO & Hr & _). exists ls. split; auto.
    pose proof (wo_d _ _ H) as [].
    assert (EN : cm (Aw w) + cn (Pw w) = nn w + mm w) by lia.
    split. { rewrite <- EN. exact (lo_perm _ _ _ _ _ LO). }
    split. { rewrite <- EN. exact (lo_cn _ _ _ _ _ LO). }
    split. { rewrite <- EN. exact (lo_cm _ _ _ _ _ LO). }
    split. { exact (lo_triu _ _ _ _ _ LO). }
    intros a b Ha Hb. rewrite (ls_fac_dense ls (Pw w) (Aw w) (st_sigma st) r) by (auto; lia).
    pose proof (lo_perm _ _ _ _ _ LO) as HP. destruct HP as (_ & HP' & _).
    unfold kktS. rewrite do_Pn.
    destruct (znth 0 (ls_perm ls) a <? nn w) eqn:Ea; auto. destruct (znth 0 (ls_perm ls) b <? nn w) eqn:Eb; auto.
    destruct (znth 0 (ls_perm ls) a =? znth 0 (ls_perm ls) b); auto.
    assert (Hi : 0 <= znth 0 (ls_perm ls) a - nn w < mm w).
    { specialize (HP' a ltac:(lia)). cbn [pm] in HP'. lia. }
    specialize (Hr _ Hi). rewrite (ls_rinv w ls H El _ Hi) in Hr. unfold negd in Hr. fix_R. lra.
  Qed.

  (** auxil.c:160-170: with an exact solver, the x part of xz_tilde minimises the augmented Lagrangian and the z part is A x~. *)
  Lemma update_xz_tilde_real (w : work Rops) : wok st w -> exact w ->
    safe (update_xz_tilde E st w) (fun w' => exists t nu : list R, w' = set_w_xz_tilde t w /\ rlen t = nn w + mm w /\
      (forall i, 0 <= i < nn w ->
         (zsum 0 (nn w) (fun j => sdns (Pw w) i j * rnth t j) + st_sigma st * rnth t i + zsum 0 (mm w) (fun k => dns (Aw w) k i * rnth nu k) =
          st_sigma st * rnth (w_x_prev w) i - rnth (d_q (w_data w)) i)%R) /\
      (forall i, 0 <= i < mm w -> rnth t (nn w + i) = zsum 0 (nn w) (fun j => (dns (Aw w) i j * rnth t j)%R)) /\
      (forall i, 0 <= i < mm w -> rnth t (nn w + i) = (rnth (w_z_prev w) i - rinv_at w i * rnth (w_y w) i + / rho_at w i * rnth nu i)%R)).
  Proof.
    intros H HX. unfold update_xz_tilde. eapply safe_bind; [apply compute_rhs_real; auto|]. intros w1 (t & -> & Lt & V1 & V2). rs.
    destruct (wo_ls _ _ H) as (ls & r & El & LO & Hr & LR). rewrite El. pose proof (HX ls El) as HS.
    pose proof (ls_rinv w ls H El) as HRI. start w H.
    destruct (solve_linsys_exact E ls (Pw w) (Aw w) (st_sigma st) r t) as (b' & nu & -> & Lb & B1 & B2 & B3); auto; try rsize.
    { intros j Hj. specialize (Hr j ltac:(lia)). unfold negd in Hr. fix_R. lra. }
    apply safe_ret. exists b', nu. rewrite do_Pn, do_Am in *. split; [reflexivity|]. split; [rsize|]. split; [|split].
    - intros i Hi. rewrite B1 by lia. rewrite V1 by lia. auto.
    - intros i Hi. apply B2; lia.
    - intros i Hi. rewrite B3 by lia. rewrite HRI, V2 by lia. auto.
  Qed.

  (** auxil.c:172-184 *)
  Lemma update_x_real (w : work Rops) : wok st w ->
    safe (update_x st w) (fun w' => exists x dx : list R, w' = set_w_delta_x dx (set_w_x x w) /\
      (forall i, 0 <= i < nn w -> rnth x i = (st_alpha st * rnth (w_xz_tilde w) i + (1 - st_alpha st) * rnth (w_x_prev w) i)%R) /\
      (forall i, 0 <= i < nn w -> rnth dx i = (rnth x i - rnth (w_x_prev w) i)%R)).
  Proof.
    intros H. start w H. unfold update_x, xtilde. rbind xt Lx Vx. rbind x Lx' Vx'. rbind dx Ldx Vdx.
    apply safe_ret. exists x, dx. split; auto. split; intros i Hi.
    - rewrite Vx', Vx by rsize. fix_R. auto.
    - rewrite Vdx by rsize. auto.
  Qed.

  (** auxil.c:186-208: relaxation, dual shift and projection onto [l, u] *)
  Lemma update_z_real (w : work Rops) : wok st w ->
    safe (update_z st w) (fun w' => exists z : list R, w' = set_w_z z w /\ rlen z = mm w /\
      (forall i, 0 <= i < mm w -> rnth z i =
         Rmin (Rmax (st_alpha st * rnth (w_xz_tilde w) (nn w + i) + (1 - st_alpha st) * rnth (w_z_prev w) i + rinv_at w i * rnth (w_y w) i)
                    (rnth (d_l (w_data w)) i)) (rnth (d_u (w_data w)) i))).
  Proof.
    intros H. start w H. unfold update_z, ztilde. rbind zt Lz Vz.
    eapply safe_bind with (P := fun z : list R => rlen z = mm w /\ forall i, 0 <= i < mm w ->
      rnth z i = (st_alpha st * rnth (w_xz_tilde w) (nn w + i)%Z + (1 - st_alpha st) * rnth (w_z_prev w) i + rinv_at w i * rnth (w_y w) i)%R).
    - unfold rinv_at. destruct vec eqn:Ev.
      + destruct (rinv_vec w HW Ev) as (rv & ri & E3 & E4 & Lrv & Lri & _). rewrite E4. rbind z Lz' Vz'.
        eapply safe_weaken; [rleaf; rsize|]. cbv beta. intros z2 (L2 & V2). split; [rsize|]. intros i Hi.
        rewrite V2, Vz', Vz by rsize. fix_R. ring.
      + eapply safe_weaken; [rleaf; rsize|]. cbv beta. intros z2 (L2 & V2). split; [rsize|]. intros i Hi.
        rewrite V2, Vz by rsize. fix_R. ring.
    - intros z (Lz' & Vz'). rbind z2 Lz2 Vz2. apply safe_ret. exists z2. split; auto. split; [rsize|]. intros i Hi. rewrite Vz2 by rsize.
      rewrite c_min_R, c_max_R. rewrite Vz' by auto. auto.
  Qed.

  (** auxil.c:210-229 *)
  Lemma update_y_real (w : work Rops) : wok st w ->
    safe (update_y st w) (fun w' => exists y dy : list R, w' = set_w_y y (set_w_delta_y dy w) /\
      (forall i, 0 <= i < mm w -> rnth dy i =
         (rho_at w i * (st_alpha st * rnth (w_xz_tilde w) (nn w + i)%Z + (1 - st_alpha st) * rnth (w_z_prev w) i - rnth (w_z w) i))%R) /\
      (forall i, 0 <= i < mm w -> rnth y i = (rnth (w_y w) i + rnth dy i)%R)).
  Proof.
    intros H. start w H. unfold update_y, ztilde. rbind zt Lz Vz. rbind dy Ldy Vdy.
    eapply safe_bind with (P := fun z : list R => rlen z = mm w /\ forall i, 0 <= i < mm w ->
      rnth z i = (rho_at w i * (st_alpha st * rnth (w_xz_tilde w) (nn w + i)%Z + (1 - st_alpha st) * rnth (w_z_prev w) i - rnth (w_z w) i))%R).
    - unfold rho_at. destruct vec eqn:Ev.
      + destruct (rinv_vec w HW Ev) as (rv & ri & E3 & E4 & Lrv & Lri & _). rewrite E3.
        eapply safe_weaken; [rleaf; rsize|]. cbv beta. intros z2 (L2 & V2). split; [rsize|]. intros i Hi.
        rewrite V2, Vdy, Vz by rsize. fix_R. ring.
      + unfold rho_ok in Hrho. rewrite Ev in Hrho. rewrite Hrho.
        apply safe_ret. unfold vf_mult_scalar. rewrite zlen_map. split; [rsize|]. intros i Hi. rewrite rnth_map by rsize.
        rewrite Vdy, Vz by rsize. fix_R. ring.
    - intros z (Lz' & Vz'). rbind y Ly Vy. apply safe_ret. exists y, z. split; auto. split; auto. intros i Hi. rewrite Vy by rsize. auto.
  Qed.
End RealSteps.

(** ** One iteration *)

(** Entries of a matrix-vector product. *)
Definition mulR (c : Z) (M : Z -> Z -> R) (v : Z -> R) (i : Z) : R := zsum 0 c (fun j => (M i j * v j)%R).
(** Projection onto [l, u]. *)
Definition clipR (l u v : R) : R := Rmin (Rmax v l) u.

(** One iteration of ADMM for  min 1/2 x'Px + q'x,  l <= Ax <= u  with step sizes sigma, rho_i and relaxation alpha,
    applied to (x, z, y): x~ minimises the augmented Lagrangian, z~ = A x~, then relaxation, projection and dual step. *)
Record admm1 (n m : Z) (P A : Z -> Z -> R) (q l u : Z -> R) (sigma alpha : R) (rho : Z -> R)
             (x z y x' z' y' : Z -> R) (xt zt : Z -> R) : Prop := {
  a1_xt : forall i, 0 <= i < n ->
    (mulR n P xt i + sigma * xt i + mulR m (fun a b => A b a) (fun k => rho k * zt k) i =
     sigma * x i - q i + mulR m (fun a b => A b a) (fun k => rho k * z k - y k) i)%R;
  a1_zt : forall i, 0 <= i < m -> zt i = mulR n A xt i;
  a1_x : forall i, 0 <= i < n -> x' i = (alpha * xt i + (1 - alpha) * x i)%R;
  a1_z : forall i, 0 <= i < m -> z' i = clipR (l i) (u i) (alpha * zt i + (1 - alpha) * z i + / rho i * y i);
  a1_y : forall i, 0 <= i < m -> y' i = (y i + rho i * (alpha * zt i + (1 - alpha) * z i - z' i))%R }.

(** The reciprocal used by the iteration is that of rho. *)
Definition rho_sync (st : settings Rops) (w : work Rops) : Prop :=
  tr (st_rho_is_vec st) = false -> w_rho_inv w = (/ st_rho st)%R.

Section RealAdmm.
  Variable E : Env Rops.
  Hypothesis EO : env_ok E.

  Lemma rinv_at_rho st (w : work Rops) i : wok st w -> rho_sync st w -> 0 <= i < d_m (w_data w) -> rinv_at st w i = (/ rho_at st w i)%R.
  Proof.
    intros H HS Hi. unfold rinv_at, rho_at. destruct (tr (st_rho_is_vec st)) eqn:Ev.
    - destruct (rinv_vec st w H Ev) as (rv & ri & -> & -> & _ & _ & V). auto.
    - rewrite (HS Ev). pose proof (wo_rho _ _ H) as HR. unfold rho_ok in HR. rewrite Ev in HR. rewrite HR. auto.
  Qed.

  (** osqp_api.c:701-731 *)
  Definition step_rel (st : settings Rops) (w w' : work Rops) : Prop :=
    let d := w_data w in
    exists xt zt,
      admm1 (d_n d) (d_m d) (sdns (d_P d)) (dns (d_A d)) (rnth (d_q d)) (rnth (d_l d)) (rnth (d_u d)) (st_sigma st) (st_alpha st) (rho_at st w)
        (rnth (w_x w)) (rnth (w_z w)) (rnth (w_y w)) (rnth (w_x w')) (rnth (w_z w')) (rnth (w_y w')) xt zt /\
      w_x_prev w' = w_x w /\ w_z_prev w' = w_z w /\
      (forall i, 0 <= i < d_n d -> rnth (w_delta_x w') i = (rnth (w_x w') i - rnth (w_x w) i)%R) /\
      (forall i, 0 <= i < d_m d -> rnth (w_delta_y w') i = (rnth (w_y w') i - rnth (w_y w) i)%R).

  Definition work_step (st : settings Rops) (w : work Rops) : option (work Rops) :=
    match update_xz_tilde E st (swap_iterates w) with Some w => 
    match update_x st w with Some w => match update_z st w with Some w => update_y st w | None => None end | None => None end | None => None end.

  Lemma work_step_real st (w : work Rops) : wok st w -> rho_sync st w -> exact E w -> (forall i, 0 <= i < d_m (w_data w) -> rho_at st w i <> 0%R) ->
    safe (work_step st w) (step_rel st w).
  Proof.
    intros H HS HX HNZ. unfold work_step.
    pose proof (swap_safe st w H) as HK0. pose proof (wok_keeps _ _ _ H HK0) as H0.
    eapply safe_bind; [apply safe_and; [apply (update_xz_tilde_safe E EO st _ H0)|apply update_xz_tilde_real; auto]|].
    cbv beta. intros w1 (HK1 & t & nu & E1 & Lt & T1 & T2 & T3). pose proof (wok_keeps _ _ _ H0 HK1) as H1.
    eapply safe_bind; [apply safe_and; [apply (update_x_safe st _ H1)|apply update_x_real; auto]|].
    cbv beta. intros w2 (HK2 & x & dx & E2 & X1 & X2). pose proof (wok_keeps _ _ _ H1 HK2) as H2.
    eapply safe_bind; [apply safe_and; [apply (update_z_safe st _ H2)|apply update_z_real; auto]|].
    cbv beta. intros w3 (HK3 & z & E3 & Lz & Z1). pose proof (wok_keeps _ _ _ H2 HK3) as H3.
    eapply safe_weaken; [apply update_y_real; auto|].
    intros w4 (y & dy & E4 & Y1 & Y2).
    assert (HRI : forall i, 0 <= i < d_m (w_data w) -> rinv_at st w i = (/ rho_at st w i)%R) by (intros; apply rinv_at_rho; auto).
    subst w4 w3 w2 w1. clear H1 H2 H3 HK1 HK2 HK3 HK0 H0. unfold swap_iterates in *. unfold rho_at, rinv_at in *. rs_all.
    exists (rnth t), (fun i => rnth t (d_n (w_data w) + i)). rs. split; [|split; [reflexivity|split; [reflexivity|split; auto]]].
    - constructor; unfold mulR, clipR; rs.
      + intros i Hi. rewrite <- (T1 i Hi).
        enough (HN : forall k, 0 <= k < d_m (w_data w) -> rnth nu k = (rho_at st w k * rnth t (d_n (w_data w) + k) - (rho_at st w k * rnth (w_z w) k - rnth (w_y w) k))%R).
        { rewrite (zsum_ext 0 (d_m (w_data w)) (fun k => dns (d_A (w_data w)) k i * rnth nu k)%R
            (fun k => dns (d_A (w_data w)) k i * (rho_at st w k * rnth t (d_n (w_data w) + k)%Z) - dns (d_A (w_data w)) k i * (rho_at st w k * rnth (w_z w) k - rnth (w_y w) k))%R).
          2:{ intros k Hk. rewrite HN by auto. ring. }
          rewrite zsum_minus. unfold rho_at. ring. }
        intros k Hk. rewrite T3 by auto. rewrite HRI by auto. unfold rho_at. field. apply HNZ. auto.
      + intros i Hi. apply T2; auto.
      + intros i Hi. apply X1; auto.
      + intros i Hi. rewrite Z1 by auto. rewrite HRI by auto. reflexivity.
      + intros i Hi. rewrite Y2, Y1 by auto. reflexivity.
    - intros i Hi. rewrite Y2 by auto. ring.
  Qed.

  Lemma admm_step_work (s s' : solver Rops) : admm_step E s = Some s' -> work_step (sv_settings s) (sv_work s) = Some (sv_work s') /\
     sv_settings s' = sv_settings s /\ sv_info s' = sv_info s /\ sv_solution s' = sv_solution s.
  Proof.
    unfold admm_step, work_step, push_sec, pop_sec. rs.
    destruct (update_xz_tilde _ _ _) as [w1|]; [|discriminate]. rs.
    destruct (update_x _ _) as [w2|]; [|discriminate]. rs. destruct (update_z _ _) as [w3|]; [|discriminate]. rs.
    destruct (update_y _ _) as [w4|]; [|discriminate]. intros H. injection H as <-. auto.
  Qed.
End RealAdmm.
