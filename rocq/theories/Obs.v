(** The iterate in the user's units, and the calls that write or read it (exact arithmetic). *)
From Coq Require Import ZArith Reals List Bool Lia Lra String.
From Verif Require Import Num Arr ArrFacts RSum Csc CscSpec CscFacts CscFacts2 Scatter Vec VecFacts Types Kkt KktSpec Linsys LinsysFacts LinsysSolve Scaling Validate Auxil Polish Api
  Inv RecSimp InvStep InvApi InvScale InvSolve ValidFacts InvUpd InvSetup History RealVec RealStep Frame FrameSolve ProbSpec ScaleReal FrameUpd UserSpec Refine ExEnv Ldl LdlEnv Session ExReal DataFacts.
Import ListNotations.
Open Scope Z_scope.

(** The iterate of the solver in the user's units: x = D xs, y = E ys / c, z = zs / E. *)
Definition ux (s : solver Rops) (i : Z) : R := (uD s i * rnth (w_x (sv_work s)) i)%R.
Definition uy (s : solver Rops) (i : Z) : R := (uE s i * rnth (w_y (sv_work s)) i / uc s)%R.
Definition uz (s : solver Rops) (i : Z) : R := (rnth (w_z (sv_work s)) i / uE s i)%R.

(** The statuses for which a solution is reported. *)
Definition reports (st : Z) : Prop := ~ (st = OSQP_PRIMAL_INFEASIBLE \/ st = OSQP_PRIMAL_INFEASIBLE_INACCURATE \/ st = OSQP_DUAL_INFEASIBLE \/ st = OSQP_DUAL_INFEASIBLE_INACCURATE \/ st = OSQP_NON_CVX).

(** OSQP_NAN, the value written where there is nothing to report (include/private/glob_opts.h): the integer constant 0x7fc00000 as a number. *)
Definition marker : R := 2143289344%R.

(** The first n components of an array are given by f, the others are as before. *)
Definition filled (n : Z) (f : Z -> R) (old new : list R) : Prop :=
  rlen new = rlen old /\ (forall i, 0 <= i < n -> rnth new i = f i) /\ (forall i, n <= i < rlen old -> rnth new i = rnth old i).

(** What the user's solution structure o becomes. *)
Record shown (s : solver Rops) (o o' : solution Rops) : Prop := {
  sh_sol : reports (i_status_val (sv_info s)) ->
    filled (d_n (w_data (sv_work s))) (ux s) (so_x o) (so_x o') /\ filled (d_m (w_data (sv_work s))) (uy s) (so_y o) (so_y o') /\
    filled (d_m (w_data (sv_work s))) (fun _ => marker) (so_prim_inf_cert o) (so_prim_inf_cert o') /\
    filled (d_n (w_data (sv_work s))) (fun _ => marker) (so_dual_inf_cert o) (so_dual_inf_cert o');
  sh_none : ~ reports (i_status_val (sv_info s)) ->
    filled (d_n (w_data (sv_work s))) (fun _ => marker) (so_x o) (so_x o') /\ filled (d_m (w_data (sv_work s))) (fun _ => marker) (so_y o) (so_y o');
  sh_pinf : i_status_val (sv_info s) = OSQP_PRIMAL_INFEASIBLE \/ i_status_val (sv_info s) = OSQP_PRIMAL_INFEASIBLE_INACCURATE ->
    filled (d_n (w_data (sv_work s))) (fun _ => marker) (so_dual_inf_cert o) (so_dual_inf_cert o') /\
    exists e, is_maxabs (vals (d_m (w_data (sv_work s))) (rnth (w_delta_y (sv_work s)))) e /\
      filled (d_m (w_data (sv_work s))) (fun i => rnth (w_delta_y (sv_work s)) i / e)%R (so_prim_inf_cert o) (so_prim_inf_cert o');
  sh_dinf : i_status_val (sv_info s) = OSQP_DUAL_INFEASIBLE \/ i_status_val (sv_info s) = OSQP_DUAL_INFEASIBLE_INACCURATE ->
    filled (d_m (w_data (sv_work s))) (fun _ => marker) (so_prim_inf_cert o) (so_prim_inf_cert o') /\
    exists e, is_maxabs (vals (d_n (w_data (sv_work s))) (rnth (w_delta_x (sv_work s)))) e /\
      filled (d_n (w_data (sv_work s))) (fun i => rnth (w_delta_x (sv_work s)) i / e)%R (so_dual_inf_cert o) (so_dual_inf_cert o');
  sh_ncvx : i_status_val (sv_info s) = OSQP_NON_CVX -> so_prim_inf_cert o' = so_prim_inf_cert o /\ so_dual_inf_cert o' = so_dual_inf_cert o }.

(** The iterate after a read: unchanged when a solution is reported, reset to zero otherwise. *)
Definition after_read (s s' : solver Rops) : Prop :=
  (reports (i_status_val (sv_info s)) -> iter3 (sv_work s') = iter3 (sv_work s)) /\
  (~ reports (i_status_val (sv_info s)) -> (forall i, ux s' i = 0%R) /\ (forall i, uy s' i = 0%R) /\ (forall i, uz s' i = 0%R)).

Lemma rs_to_raw (b a : list R) : rlen a <= rlen b -> safe (@vf_to_raw Rops b a) (fun r => filled (rlen a) (rnth a) b r).
Proof.
  intros H. pose proof (zlen_nonneg a). unfold vf_to_raw. change (car Rops) with R in *. eapply safe_weaken; [apply rs_view_write; lia|]. intros r (L & V). split; auto. split.
  - intros i Hi. rewrite V by lia. replace ((0 <=? i) && (i <? 0 + zlen a)) with true by lia. f_equal. lia.
  - intros i Hi. rewrite V by lia. replace ((0 <=? i) && (i <? 0 + zlen a)) with false by lia. auto.
Qed.
Lemma filled_eq n n' f g (a b : list R) : filled n f a b -> n = n' -> (forall i, 0 <= i < n -> f i = g i) -> filled n' g a b.
Proof. intros (H1 & H2 & H3) <- HE. split; auto. split; auto. intros i Hi. rewrite H2, HE; auto. Qed.

Lemma has_solution_iff (i : info Rops) : has_solution i = true <-> reports (i_status_val i).
Proof. unfold has_solution, reports. rewrite !andb_true_iff, !negb_true_iff, !Z.eqb_neq. tauto. Qed.
Lemma map_const_zero (l : list R) i : rnth (map (fun _ => n0) l) i = 0%R.
Proof.
  unfold rnth, znth, zget. rewrite n0_R. destruct (i <? 0); auto. generalize (Z.to_nat i). induction l; intros [|k]; cbn; auto.
Qed.

Section Obs.
  Notation dn s := (d_n (w_data (sv_work s))).
  Notation dm s := (d_m (w_data (sv_work s))).

  Theorem store_solution_real d (s : solver Rops) (o : solution Rops) : Inv s -> ref d s -> solok (dn s) (dm s) o ->
    exists s' o', store_solution s (Some o) = Some (s', Some o') /\ Inv s' /\ ref d s' /\ shown s o o' /\ after_read s s' /\
      sv_settings s' = sv_settings s /\ sv_info s' = sv_info s /\ solok (dn s) (dm s) o'.
  Proof.
    intros HI HR HO. 
    assert (HOall : forall o1 : solution Rops, Some o = Some o1 -> solok (dn s) (dm s) o1) by (intros ? [= <-]; auto).
    destruct (safe_post _ _ _ (store_solution_safe s (Some o) HI HOall) (store_solution_post s (Some o))) as ([s' so] & Er & ((HI' & _) & _ & _ & HN & HSO) & Hst & Hin & _ & _ & Hfx & _ & _ & Hit).
    cbn [fst snd] in *. destruct so as [o'|]; [|exfalso; destruct HN as [_ HN]; discriminate HN; auto].
    exists s', o'. split; [exact Er|]. split; [exact HI'|].
    assert (Hc : core (sv_work s') = core (sv_work s)) by (apply fixed_core; auto). apply core_eq in Hc as (Ed & _ & _ & _ & _ & Esc & _).
    split; [eapply ref_same; eauto; congruence|].
    cut (shown s o o' /\ (~ reports (i_status_val (sv_info s)) -> forall i, rnth (w_x (sv_work s')) i = 0%R /\ rnth (w_y (sv_work s')) i = 0%R /\ rnth (w_z (sv_work s')) i = 0%R)).
    { intros (H1 & H2). split; auto. split; [|auto]. split; [intros Hr; apply Hit, has_solution_iff; auto|].
      intros Hr. unfold ux, uy, uz. split; [|split]; intros i; destruct (H2 Hr i) as (Zx & Zy & Zz); rewrite ?Zx, ?Zy, ?Zz; unfold Rdiv; ring. }
    clear Hit. revert Er. clear HI' HN HSO Hst Hin Hfx Ed Esc. intros Er.
    pose proof (wo_sc _ _ (iv_w _ HI)) as HSC. pose proof (wo_len _ _ (iv_w _ HI)) as Hlen. destruct HO as [O1 O2 O3 O4]. destruct Hlen.
    pose proof (rf_sc _ _ HR) as HX. pose proof (rf_sb _ _ HR) as [Bn Bm _ _ _ _ _].
    change (car Rops) with R in *.
    assert (HS : safe (store_solution s (Some o)) (fun r => forall o2, snd r = Some o2 -> shown s o o2 /\ (~ reports (i_status_val (sv_info s)) -> forall i, rnth (w_x (sv_work (fst r))) i = 0%R /\ rnth (w_y (sv_work (fst r))) i = 0%R /\ rnth (w_z (sv_work (fst r))) i = 0%R))); [|destruct HS as (r & Er' & HS); rewrite Er in Er'; injection Er' as <-; auto].
    clear s' o' Er. unfold store_solution. destruct (has_solution (sv_info s)) eqn:Eh.
    - assert (Hrep : reports (i_status_val (sv_info s))) by (apply has_solution_iff; auto).
      eapply safe_bind with (P := fun r => filled (dn s) (ux s) (so_x o) (fst (fst r)) /\ filled (dm s) (uy s) (so_y o) (snd (fst r)) /\
        rlen (w_delta_y (snd r)) = dm s /\ rlen (w_delta_x (snd r)) = dn s).
      + unfold ux, uy, uc, uD, uE, uscal in *. destruct (tr (st_scaling (sv_settings s))) eqn:Es.
        * destruct (HSC Es) as (sc & Ew & [? ? ? ?]). rewrite Ew in *. destruct (HX sc eq_refl) as (_ & _ & [I1 I2 I3]).
          eapply safe_bind with (P := fun r : list R * list R => rlen (fst r) = dn s /\ (forall i, 0 <= i < dn s -> rnth (fst r) i = (rnth (sc_D sc) i * rnth (w_x (sv_work s)) i)%R) /\
             rlen (snd r) = dm s /\ (forall i, 0 <= i < dm s -> rnth (snd r) i = (rnth (sc_E sc) i * rnth (w_y (sv_work s)) i / sc_c sc)%R)).
          { unfold unscale_solution. change (car Rops) with R in *. rbind vx Lx Vx. rbind vy Ly Vy. apply safe_ret. cbn [fst snd]. unfold vf_mult_scalar. change (car Rops) with R in *. rewrite zlen_map. split; [lia|]. split; [intros; rewrite Vx by lia; fix_R; ring|]. split; [lia|].
            intros i Hi. rewrite rnth_map by lia. rewrite Vy by lia. rewrite I1. fix_R. unfold Rdiv. ring. }
          intros [vx vy] (L1 & V1 & L2 & V2). cbn [fst snd] in *. rs.
          eapply safe_bind; [apply rs_to_raw; rsize|]. intros rx Hx. eapply safe_bind; [apply rs_to_raw; rsize|]. intros ry Hy. apply safe_ret. cbn [fst snd]. rs.
          split; [eapply filled_eq; [exact Hx|auto|intros i Hi; apply V1; lia]|]. split; [eapply filled_eq; [exact Hy|auto|intros i Hi; apply V2; lia]|]. split; rsize.
        * eapply safe_bind; [apply rs_to_raw; rsize|]. intros rx Hx. eapply safe_bind; [apply rs_to_raw; rsize|]. intros ry Hy. apply safe_ret. cbn [fst snd]. rs.
          split; [eapply filled_eq; [exact Hx|rsize|intros i Hi; ring]|]. split; [eapply filled_eq; [exact Hy|rsize|intros i Hi; unfold Rdiv; field]|]. split; rsize.
      + intros [[x y] w1] (F1 & F2 & L1 & L2). cbn [fst snd] in *. rs.
        eapply safe_bind; [apply rs_to_raw; rsize|]. intros pc Hp. eapply safe_bind; [apply rs_to_raw; rsize|]. intros dc Hd. apply safe_ret. cbn [fst snd]. intros o2 [= <-].
        split; [|tauto]. constructor; try (intros H; exfalso; unfold reports in Hrep; tauto). intros _. rs.
        unfold vf_set_scalar in *. change (car Rops) with R in *. rewrite zlen_map in *. split; [exact F1|]. split; [exact F2|].
        split; (eapply filled_eq; [eassumption|rsize|]); intros i Hi; rewrite rnth_map by auto; apply nofZ_R.
    - assert (Hrep : ~ reports (i_status_val (sv_info s))) by (rewrite <- has_solution_iff; congruence).
      eapply safe_bind; [apply rs_to_raw; rsize|]. intros rx Hx. eapply safe_bind; [apply rs_to_raw; rsize|]. intros ry Hy.
      cbv beta in Hx, Hy. rs_in Hx. rs_in Hy.
      eapply safe_bind with (P := fun w1 => (forall i, rnth (w_x w1) i = 0%R /\ rnth (w_y w1) i = 0%R /\ rnth (w_z w1) i = 0%R) /\ w_delta_y w1 = w_delta_y (sv_work s) /\ w_delta_x w1 = w_delta_x (sv_work s)).
      { unfold cold_start. rs. destruct (wo_ls _ _ (iv_w _ HI)) as (ls & r & El & _). rewrite El. apply safe_ret. rs. split; [|auto].
        intros i; unfold vf_set_scalar; split; [|split]; apply map_const_zero. }
      intros w1 (Z1 & Y1 & X1).
      assert (Fx : filled (dn s) (fun _ => marker) (so_x o) rx /\ filled (dm s) (fun _ => marker) (so_y o) ry).
      { unfold vf_set_scalar in *. change (car Rops) with R in *. rewrite zlen_map in *. split; (eapply filled_eq; [eassumption|rsize|]); intros i Hi; rewrite rnth_map by auto; apply nofZ_R. }
      clear Hx Hy.
      destruct ((i_status_val (sv_info s) =? OSQP_PRIMAL_INFEASIBLE) || (i_status_val (sv_info s) =? OSQP_PRIMAL_INFEASIBLE_INACCURATE)) eqn:Ep.
      + assert (Ed : (i_status_val (sv_info s) =? OSQP_DUAL_INFEASIBLE) || (i_status_val (sv_info s) =? OSQP_DUAL_INFEASIBLE_INACCURATE) = false) by (unfold OSQP_PRIMAL_INFEASIBLE, OSQP_PRIMAL_INFEASIBLE_INACCURATE, OSQP_DUAL_INFEASIBLE, OSQP_DUAL_INFEASIBLE_INACCURATE in *; lia).
        rewrite Ed.
        eapply safe_bind with (P := fun r => r = r /\ (forall i, rnth (w_x (fst r)) i = 0%R /\ rnth (w_y (fst r)) i = 0%R /\ rnth (w_z (fst r)) i = 0%R) /\ so_x (snd r) = rx /\ so_y (snd r) = ry /\
          filled (dn s) (fun _ => marker) (so_dual_inf_cert o) (so_dual_inf_cert (snd r)) /\
          exists e, is_maxabs (vals (dm s) (rnth (w_delta_y (sv_work s)))) e /\ filled (dm s) (fun i => rnth (w_delta_y (sv_work s)) i / e)%R (so_prim_inf_cert o) (so_prim_inf_cert (snd r))).
        { rs. rewrite Y1, X1. eapply safe_bind; [apply rs_to_raw; rsize|]. intros pc Hp. rs. eapply safe_bind; [apply rs_to_raw; rsize|]. intros dc Hd. apply safe_ret. cbn [fst snd]. rs.
          split; [reflexivity|]. split; [exact Z1|]. do 2 (split; [reflexivity|]). unfold vf_set_scalar, vf_mult_scalar in *. change (car Rops) with R in *. rewrite zlen_map in *.
          split; [eapply filled_eq; [eassumption|rsize|]; intros i Hi; rewrite rnth_map by auto; apply nofZ_R|].
          pose proof (vf_norm_inf_spec (w_delta_y (sv_work s))) as HN. change (car Rops) with R in HN. rewrite ln_dy in HN.
          eexists. split; [exact HN|]. eapply filled_eq; [eassumption|rsize|]. intros i Hi. rewrite rnth_map by auto. fix_R. unfold Rdiv. ring. }
        intros [w2 o1] (_ & Z2 & G1 & G2 & G3 & G4). cbn [fst snd] in *. apply safe_ret. cbn [fst snd]. rs. intros o2 [= <-]. split; [|intros _; exact Z2].
        constructor; try (intros H; exfalso; unfold reports, OSQP_PRIMAL_INFEASIBLE, OSQP_PRIMAL_INFEASIBLE_INACCURATE, OSQP_DUAL_INFEASIBLE, OSQP_DUAL_INFEASIBLE_INACCURATE, OSQP_NON_CVX in *; lia).
        all: first [tauto | rewrite G1, G2; auto | auto].
      + destruct ((i_status_val (sv_info s) =? OSQP_DUAL_INFEASIBLE) || (i_status_val (sv_info s) =? OSQP_DUAL_INFEASIBLE_INACCURATE)) eqn:Ed.
        * eapply safe_bind with (P := fun r => r = r /\ (forall i, rnth (w_x (fst r)) i = 0%R /\ rnth (w_y (fst r)) i = 0%R /\ rnth (w_z (fst r)) i = 0%R) /\ so_x (snd r) = rx /\ so_y (snd r) = ry /\
            filled (dm s) (fun _ => marker) (so_prim_inf_cert o) (so_prim_inf_cert (snd r)) /\
            exists e, is_maxabs (vals (dn s) (rnth (w_delta_x (sv_work s)))) e /\ filled (dn s) (fun i => rnth (w_delta_x (sv_work s)) i / e)%R (so_dual_inf_cert o) (so_dual_inf_cert (snd r))).
          { rs. rewrite Y1, X1. eapply safe_bind; [apply rs_to_raw; rsize|]. intros pc Hp. rs. eapply safe_bind; [apply rs_to_raw; rsize|]. intros dc Hd. apply safe_ret. cbn [fst snd]. rs.
            split; [reflexivity|]. split; [exact Z1|]. do 2 (split; [reflexivity|]). unfold vf_set_scalar, vf_mult_scalar in *. change (car Rops) with R in *. rewrite zlen_map in *.
            split; [eapply filled_eq; [eassumption|rsize|]; intros i Hi; rewrite rnth_map by auto; apply nofZ_R|].
            pose proof (vf_norm_inf_spec (w_delta_x (sv_work s))) as HN. change (car Rops) with R in HN. rewrite ln_dx in HN.
            eexists. split; [exact HN|]. eapply filled_eq; [eassumption|rsize|]. intros i Hi. rewrite rnth_map by auto. fix_R. unfold Rdiv. ring. }
          intros [w2 o1] (_ & Z2 & G1 & G2 & G3 & G4). cbn [fst snd] in *. apply safe_ret. cbn [fst snd]. rs. intros o2 [= <-]. split; [|intros _; exact Z2].
          constructor; try (intros H; exfalso; unfold reports, OSQP_PRIMAL_INFEASIBLE, OSQP_PRIMAL_INFEASIBLE_INACCURATE, OSQP_DUAL_INFEASIBLE, OSQP_DUAL_INFEASIBLE_INACCURATE, OSQP_NON_CVX in *; lia).
          all: first [tauto | rewrite G1, G2; auto | auto].
        * apply safe_ret. cbn [fst snd]. intros o2 [= <-]. rs. split; [|auto].
          constructor; try (intros H; exfalso; unfold reports, OSQP_PRIMAL_INFEASIBLE, OSQP_PRIMAL_INFEASIBLE_INACCURATE, OSQP_DUAL_INFEASIBLE, OSQP_DUAL_INFEASIBLE_INACCURATE, OSQP_NON_CVX in *; lia).
          all: first [tauto | auto].
  Qed.

  (** osqp_warm_start, in the user's units: x is taken as given and z becomes A x; y is taken as given. *)
  Record warmed (d : data Rops) (x y : option (list R)) (s s' : solver Rops) : Prop := {
    wm_x : forall a, x = Some a -> forall i, 0 <= i < d_n d -> ux s' i = rnth a i;
    wm_z : forall a, x = Some a -> forall i, 0 <= i < d_m d -> uz s' i = zsum 0 (d_n d) (fun j => dns (d_A d) i j * rnth a j)%R;
    wm_y : forall a, y = Some a -> forall i, 0 <= i < d_m d -> uy s' i = rnth a i;
    wm_nox : x = None -> w_x (sv_work s') = w_x (sv_work s) /\ w_z (sv_work s') = w_z (sv_work s);
    wm_noy : y = None -> w_y (sv_work s') = w_y (sv_work s);
    wm_rest : exists vx vy vz, sv_work s' = set_w_x vx (set_w_y vy (set_w_z vz (sv_work s)));
    wm_info : sv_info s' = sv_info s; wm_sol : sv_solution s' = sv_solution s;
    wm_st : sv_settings s' = set_st_warm_starting (if st_warm_starting (sv_settings s) =? 0 then 1 else st_warm_starting (sv_settings s)) (sv_settings s) }.

  Theorem warm_start_real d (s : solver Rops) x y : Inv s -> ref d s -> vec_arg (dn s) x -> vec_arg (dm s) y ->
    exists s', warm_start s x y = Some (0, s') /\ warmed d x y s s'.
  Proof.
    intros HI HR Hx Hy. cut (safe (warm_start s x y) (fun r => fst r = 0 /\ warmed d x y s (snd r))).
    { intros ([fl s'] & -> & E0 & H). cbn [fst snd] in *. subst fl. eauto. }
    pose proof (units_pos _ _ HR) as (PC & PD & PE). pose proof (rf_sc _ _ HR) as HX. pose proof (ref_stored _ _ HR) as ST.
    pose proof (sd_n _ _ _ _ _ ST) as Bn. pose proof (sd_m _ _ _ _ _ ST) as Bm.
    pose proof (iv_w _ HI) as HW. pose proof (wo_d _ _ HW) as Hd. destruct HW as [_ Hsc _ Hls Hlen]. destruct Hlen, Hd.
    unfold warm_start. cbv zeta.
    set (s1 := if negb _ then _ else s).
    assert (H1 : sv_settings s1 = set_st_warm_starting (if st_warm_starting (sv_settings s) =? 0 then 1 else st_warm_starting (sv_settings s)) (sv_settings s) /\
      sv_work s1 = sv_work s /\ sv_info s1 = sv_info s /\ sv_solution s1 = sv_solution s).
    { subst s1. unfold tr. rewrite negb_involutive. destruct (st_warm_starting (sv_settings s) =? 0) eqn:Ez; rs; auto. split; [|auto]. destruct (sv_settings s); reflexivity. }
    clearbody s1. destruct H1 as (Est & Ew & Ei & Eso).
    assert (Esc : st_scaling (sv_settings s1) = st_scaling (sv_settings s)) by (rewrite Est; reflexivity). rewrite Esc, Ew.
    assert (SX : forall v : list R, rlen v = dn s -> safe (if tr (st_scaling (sv_settings s)) then match w_scaling (sv_work s) with Some sc => vf_ew_prod (K := Rops) v v (sc_Dinv sc) | None => None end else Some v)
               (fun v' : list R => rlen v' = dn s /\ forall i, 0 <= i < dn s -> rnth v' i = (rnth v i / uD s i)%R)).
    { intros v Lv. unfold uD, uscal in *. destruct (tr _) eqn:Es; [|apply safe_ret; split; auto; intros; field].
      destruct (Hsc Es) as (sc & Esx & [? ? ? ?]). rewrite Esx in *. destruct (HX sc eq_refl) as (_ & _ & [I1 I2 I3]).
      unfold vf_ew_prod. eapply safe_weaken; [apply rs_v2; rsize|]. intros r (L & V). change (car Rops) with R in *. split; [rsize|]. intros i Hi. rewrite V by lia. rewrite I2 by lia. fix_R. unfold Rdiv. ring. }
    assert (SY : forall v : list R, rlen v = dm s -> safe (if tr (st_scaling (sv_settings s)) then match w_scaling (sv_work s) with Some sc => match vf_ew_prod (K := Rops) v v (sc_Einv sc) with Some v => Some (vf_mult_scalar (K := Rops) v (sc_c sc)) | None => None end | None => None end else Some v)
               (fun v' : list R => rlen v' = dm s /\ forall i, 0 <= i < dm s -> rnth v' i = (uc s * rnth v i / uE s i)%R)).
    { intros v Lv. unfold uE, uc, uscal in *. destruct (tr _) eqn:Es; [|apply safe_ret; split; auto; intros; field].
      destruct (Hsc Es) as (sc & Esx & [? ? ? ?]). rewrite Esx in *. destruct (HX sc eq_refl) as (_ & _ & [I1 I2 I3]).
      unfold vf_ew_prod. eapply safe_bind; [apply rs_v2; rsize|]. intros r (L & V). apply safe_ret. unfold vf_mult_scalar. change (car Rops) with R in *. rewrite zlen_map. split; [rsize|]. intros i Hi. rewrite rnth_map by lia. rewrite V by lia. rewrite I3 by lia. fix_R. unfold Rdiv. ring. }
    eapply safe_bind with (P := fun w => exists v, w = set_w_x v (sv_work s) /\ rlen v = dn s /\ match x with None => v = w_x (sv_work s) | Some a => forall i, 0 <= i < dn s -> rnth v i = (rnth a i / uD s i)%R end).
    { destruct x as [a|]; [|apply safe_ret; exists (w_x (sv_work s)); split; auto; destruct (sv_work s); reflexivity]. specialize (Hx a eq_refl).
      eapply safe_bind; [apply rs_from_raw; change (car Rops) with R in *; lia|]. intros v (Lv & Vv). change (car Rops) with R in *. eapply safe_bind; [apply SX; lia|]. intros v' (L' & V'). apply safe_ret.
      exists v'. split; auto. split; auto. intros i Hi. rewrite V', Vv by lia. auto. }
    intros w1 (vx & -> & Lx & Vx). rs.
    eapply safe_bind with (P := fun w => exists v, w = set_w_y v (set_w_x vx (sv_work s)) /\ rlen v = dm s /\ match y with None => v = w_y (sv_work s) | Some a => forall i, 0 <= i < dm s -> rnth v i = (uc s * rnth a i / uE s i)%R end).
    { destruct y as [a|]; [|apply safe_ret; exists (w_y (sv_work s)); split; auto; destruct (sv_work s); reflexivity]. specialize (Hy a eq_refl).
      eapply safe_bind; [apply rs_from_raw; change (car Rops) with R in *; lia|]. intros v (Lv & Vv). change (car Rops) with R in *. eapply safe_bind; [apply SY; lia|]. intros v' (L' & V'). apply safe_ret.
      exists v'. split; auto. split; auto. intros i Hi. rewrite V', Vv by lia. auto. }
    intros w2 (vy & -> & Ly & Vy). rs.
    eapply safe_bind with (P := fun w => exists v, w = set_w_x vx (set_w_y vy (set_w_z v (sv_work s))) /\ match x with None => v = w_z (sv_work s) | Some a => forall i, 0 <= i < dm s -> rnth v i = zsum 0 (dn s) (fun j => dns (d_A (w_data (sv_work s))) i j * rnth vx j)%R end).
    { destruct x as [a|]; [|apply safe_ret; exists (w_z (sv_work s)); split; auto; destruct (sv_work s); reflexivity].
      eapply safe_bind; [apply rs_Axpy; rsize|]. intros v (Lv & Vv). apply safe_ret. exists v. split; auto. intros i Hi. rewrite Vv by lia. rewrite do_An. fix_R. ring. }
    intros w3 (vz & -> & Vz). rs. destruct Hls as (ls & r & El & _). rewrite El. apply safe_ret. cbn [fst snd]. split; [reflexivity|].
    set (s2 := set_sv_work _ s1).
    assert (Us : uscal s2 = uscal s) by (unfold uscal; subst s2; rs; rewrite Esc; reflexivity).
    assert (Uc : uc s2 = uc s) by (unfold uc; rewrite Us; auto). assert (UD : forall i, uD s2 i = uD s i) by (intros; unfold uD; rewrite Us; auto). assert (UE : forall i, uE s2 i = uE s i) by (intros; unfold uE; rewrite Us; auto).
    constructor.
    - intros a -> i Hi. unfold ux. rewrite UD. subst s2. rs. rewrite Vx by lia. pose proof (PD i Hi). field. lra.
    - intros a -> i Hi. unfold uz. rewrite UE. subst s2. rs. rewrite Vz by lia.
      pose proof (PE i Hi). rewrite Bn. unfold Rdiv. rewrite Rmult_comm, <- zsum_scal. apply zsum_ext. intros j Hj. rewrite Vx by lia. rewrite (sd_A _ _ _ _ _ ST) by lia. pose proof (PD j Hj). field. lra.
    - intros a -> i Hi. unfold uy. rewrite UE, Uc. subst s2. rs. rewrite Vy by lia. pose proof (PE i Hi). field. lra.
    - intros ->. subst s2. rs. auto.
    - intros ->. subst s2. rs. auto.
    - exists vx, vy, vz. reflexivity.
    - subst s2. rs. auto.
    - subst s2. rs. auto.
    - subst s2. rs. auto.
  Qed.
End Obs.

(** The same for a solver after any history of calls. *)
Section ObsSession.
  Variable E : Env Rops.
  Hypothesis EO : env_ok E.
  Variables (P A : csc Rops) (q0 l0 u0 : option (list R)) (m n : Z) (ust : settings Rops).
  Notation ses := (session E P A q0 l0 u0 m n ust).

  Theorem session_get_solution s d (o : solution Rops) : ses s d -> solok n m o ->
    exists s' o', osqp_get_solution (HSolver s) (Some o) = Some (0, HSolver s', Some o') /\ ses s' d /\ shown s o o' /\ after_read s s' /\
      sv_settings s' = sv_settings s /\ sv_info s' = sv_info s /\ solok n m o'.
  Proof.
    intros HS HO. destruct (session_facts E EO _ _ _ _ _ _ _ _ _ _ HS) as (HI & HR & _). destruct (session_size E EO _ _ _ _ _ _ _ _ _ _ HS) as (En & Em).
    rewrite <- En, <- Em in HO. destruct (store_solution_real d s o HI HR HO) as (s' & o' & Er & _ & _ & H1 & H2 & H3 & H4 & H5).
    assert (EG : osqp_get_solution (HSolver s) (Some o) = Some (0, HSolver s', Some o')) by (unfold osqp_get_solution; rewrite Er; reflexivity).
    exists s', o'. split; auto. split; [|rewrite <- En, <- Em; auto 10].
    apply (session_call E P A q0 l0 u0 m n ust s d (CGetSol (Some o)) 0 s' d); auto; [cbn [run]; rewrite EG; reflexivity|reflexivity].
  Qed.

  Theorem session_warm_start s d x y : ses s d -> vec_arg n x -> vec_arg m y ->
    exists s', osqp_warm_start (HSolver s) x y = Some (0, HSolver s') /\ ses s' d /\ warmed d x y s s'.
  Proof.
    intros HS Hx Hy. destruct (session_facts E EO _ _ _ _ _ _ _ _ _ _ HS) as (HI & HR & _). destruct (session_size E EO _ _ _ _ _ _ _ _ _ _ HS) as (En & Em).
    rewrite <- En in Hx. rewrite <- Em in Hy. destruct (warm_start_real d s x y HI HR Hx Hy) as (s' & Er & HW).
    assert (EG : osqp_warm_start (HSolver s) x y = Some (0, HSolver s')) by (unfold osqp_warm_start, on_solver; rewrite Er; reflexivity).
    exists s'. split; auto. split; auto. apply (session_call E P A q0 l0 u0 m n ust s d (CWarm x y) 0 s' d); auto; [split; auto|reflexivity].
  Qed.

  (** The point passed to osqp_warm_start is the point osqp_get_solution returns, whatever happened before. *)
  Theorem warm_start_round_trip s d a b o : ses s d -> n <= rlen a -> m <= rlen b -> solok n m o -> reports (i_status_val (sv_info s)) ->
    exists s1 s2 o', osqp_warm_start (HSolver s) (Some a) (Some b) = Some (0, HSolver s1) /\ osqp_get_solution (HSolver s1) (Some o) = Some (0, HSolver s2, Some o') /\
      filled n (rnth a) (so_x o) (so_x o') /\ filled m (rnth b) (so_y o) (so_y o').
  Proof.
    intros HS Ha Hb HO HR. destruct (session_warm_start s d (Some a) (Some b) HS) as (s1 & E1 & HS1 & W); [intros ? [= <-]; auto|intros ? [= <-]; auto|].
    destruct (session_get_solution s1 d o HS1 HO) as (s2 & o' & E2 & _ & SH & _). exists s1, s2, o'. split; auto. split; auto.
    destruct (session_size E EO _ _ _ _ _ _ _ _ _ _ HS1) as (En & Em). destruct (session_facts E EO _ _ _ _ _ _ _ _ _ _ HS1) as (_ & _ & _ & _ & Dn & Dm & _).
    destruct (sh_sol _ _ _ SH) as (F1 & F2 & _); [rewrite (wm_info _ _ _ _ _ W); auto|]. rewrite En in F1. rewrite Em in F2.
    split; eapply filled_eq; eauto; intros i Hi; [apply (wm_x _ _ _ _ _ W a); auto; lia|apply (wm_y _ _ _ _ _ W b); auto; lia].
  Qed.

  (** Reading the solution twice gives the same arrays. *)
  Theorem get_solution_twice s d o : ses s d -> solok n m o -> reports (i_status_val (sv_info s)) ->
    exists s1 s2 o1, osqp_get_solution (HSolver s) (Some o) = Some (0, HSolver s1, Some o1) /\
      osqp_get_solution (HSolver s1) (Some o1) = Some (0, HSolver s2, Some o1).
  Proof.
    intros HS HO HR. destruct (session_get_solution s d o HS HO) as (s1 & o1 & E1 & HS1 & SH1 & AR & Est & Ein & HO1).
    destruct (session_get_solution s1 d o1 HS1 HO1) as (s2 & o2 & E2 & HS2 & SH2 & _). exists s1, s2, o1. split; auto.
    assert (HR1 : reports (i_status_val (sv_info s1))) by (rewrite Ein; auto).
    destruct (session_size E EO _ _ _ _ _ _ _ _ _ _ HS) as (En & Em). destruct (session_size E EO _ _ _ _ _ _ _ _ _ _ HS1) as (En1 & Em1).
    destruct (sh_sol _ _ _ SH1 HR) as (F1 & F2 & F3 & F4). destruct (sh_sol _ _ _ SH2 HR1) as (G1 & G2 & G3 & G4). rewrite En, Em, En1, Em1 in *.
    assert (U : uscal s1 = uscal s /\ iter3 (sv_work s1) = iter3 (sv_work s)).
    { split; [|apply AR; auto]. unfold uscal. rewrite Est. destruct (store_solution s (Some o)) as [[s1' so]|] eqn:Eq; unfold osqp_get_solution in E1; rewrite Eq in E1; [|discriminate].
      injection E1 as -> ->. destruct (store_solution_post s (Some o) _ Eq) as (_ & _ & _ & _ & Hfx & _). cbn [fst] in Hfx. apply fixed_core, core_eq in Hfx as (_ & _ & _ & _ & _ & Esc & _). rewrite Esc. auto. }
    destruct U as (U & I3). injection I3 as X Y Z0.
    assert (Hx : forall i, ux s1 i = ux s i) by (intros i; unfold ux, uD; rewrite U, X; auto).
    assert (Hy : forall i, uy s1 i = uy s i) by (intros i; unfold uy, uE, uc; rewrite U, Y; auto).
    assert (FE : forall k f g (v0 v1 v2 : list R), filled k f v0 v1 -> filled k g v1 v2 -> (forall i, g i = f i) -> v2 = v1).
    { intros k f g v0 v1 v2 (A1 & A2 & A3) (B1 & B2 & B3) HE. apply rlist_ext; auto. intros i Hi. destruct (Z.lt_ge_cases i k); [rewrite B2, A2, HE by lia; auto|apply B3; lia]. }
    assert (Eo : o2 = o1); [|rewrite <- Eo at 2; exact E2]. destruct o1, o2. rs_all. f_equal; eapply FE; eauto.
  Qed.

  Theorem session_cold_start s d : ses s d -> exists s', osqp_cold_start (HSolver s) = Some (HSolver s') /\ ses s' d /\
    (forall i, ux s' i = 0%R) /\ (forall i, uy s' i = 0%R) /\ (forall i, uz s' i = 0%R) /\ sv_settings s' = sv_settings s /\ sv_info s' = sv_info s /\ sv_solution s' = sv_solution s /\
    exists vx vy vz, sv_work s' = set_w_x vx (set_w_y vy (set_w_z vz (sv_work s))).
  Proof.
    intros HS. destruct (session_facts E EO _ _ _ _ _ _ _ _ _ _ HS) as (HI & HR & _).
    destruct (cold_start_api_safe s HI) as (h & Er & s' & -> & _). exists s'. split; auto.
    split. { apply (session_call E P A q0 l0 u0 m n ust s d CCold 0 s' d); auto; [exact I|cbn [run]; rewrite Er; reflexivity|reflexivity]. }
    unfold osqp_cold_start in Er. destruct (cold_start (sv_work s)) as [w|] eqn:Ew; [|discriminate]. injection Er as <-. rewrite (cold_start_post _ _ Ew). unfold ux, uy, uz. rs.
    split; [intros i; rewrite map_const_zero; ring|]. split; [intros i; rewrite map_const_zero; unfold Rdiv; ring|]. split; [intros i; rewrite map_const_zero; unfold Rdiv; ring|].
    do 3 (split; [reflexivity|]). eexists _, _, _. reflexivity.
  Qed.

  (** osqp_update_settings: all or nothing, and only the replaceable fields. *)
  Theorem session_update_settings s d new : ses s d -> exists fl s', osqp_update_settings (HSolver s) new = Some (fl, HSolver s') /\ ses s' d /\
    ((exists st, new = Some st /\ settings_ok false st) /\ fl = 0 /\ (forall st, new = Some st -> s' = set_sv_settings (replace_settings (sv_settings s) st) s) \/
     ~ (exists st, new = Some st /\ settings_ok false st) /\ fl = OSQP_SETTINGS_VALIDATION_ERROR /\ s' = s).
  Proof.
    intros HS. destruct (session_facts E EO _ _ _ _ _ _ _ _ _ _ HS) as (HI & HR & _).
    destruct (update_settings_safe s new HI) as ([fl h] & Er & s' & Eh & _). cbn [snd] in Eh. subst h. exists fl, s'. split; auto.
    split. { apply (session_call E P A q0 l0 u0 m n ust s d (CUpdSettings new) fl s' d); auto; [exact I|reflexivity]. }
    pose proof (validate_settings_spec new false) as HV. unfold osqp_update_settings in Er. destruct (validate_settings new false).
    - right. injection Er as <- <-. split; auto. intros HN. apply HV in HN. discriminate.
    - left. destruct new as [st|]; [|discriminate]. destruct (w_linsys (sv_work s)); [|discriminate]. injection Er as <- <-. split; [apply HV; auto|]. split; auto. intros st' [= <-]. auto.
  Qed.

  Lemma update_rho_value s r : (0 < r)%R -> post (update_rho E s r) (fun o => st_rho (sv_settings (snd o)) = clamp r).
  Proof.
    intros Hr. unfold update_rho. assert (El : nleb r n0 = false) by (rewrite n0_R; cbn [nleb Rops]; unfold Rleb; destruct (Rle_dec r 0); auto; lra). rewrite El. cbv zeta.
    set (s1 := if _ && _ then _ else s). clearbody s1. apply post_bind. intros w _. apply post_bind. intros ls _. apply post_bind. intros [fl ls'] _. apply post_ret. unfold toc. cbn [snd]. rs.
    destruct (_ =? 0); rs; reflexivity.
  Qed.

  (** osqp_update_rho. *)
  Theorem session_update_rho s d r : ses s d -> exists fl s', osqp_update_rho E (HSolver s) r = Some (fl, HSolver s') /\ ses s' d /\
    ((r <= 0)%R -> fl = 1 /\ s' = s) /\
    ((0 < r)%R -> st_rho (sv_settings s') = Rmin (Rmax r (/ 10 ^ 6)) (10 ^ 6) /\ (exists r', sv_settings s' = set_st_rho r' (sv_settings s)) /\
       w_data (sv_work s') = w_data (sv_work s) /\ w_scaling (sv_work s') = w_scaling (sv_work s) /\ iter3 (sv_work s') = iter3 (sv_work s) /\ (exists t, sv_info s' = set_i_update_time t (sv_info s)) /\
       (exact_ldl E -> convex d -> fl = 0)).
  Proof.
    intros HS. destruct (session_facts E EO _ _ _ _ _ _ _ _ _ _ HS) as (HI & HR & _).
    destruct (update_rho_safe E MM_R s r HI) as ([fl s'] & Er & _). exists fl, s'.
    assert (EG : osqp_update_rho E (HSolver s) r = Some (fl, HSolver s')) by (unfold osqp_update_rho, on_solver; rewrite Er; reflexivity). split; auto.
    assert (HS' : ses s' d) by (apply (session_call E P A q0 l0 u0 m n ust s d (CUpdRho r) fl s' d); auto; [exact I|reflexivity]). split; auto.
    split.
    - intros Hr. unfold update_rho in Er. assert (El : nleb r n0 = true) by (rewrite n0_R; cbn [nleb Rops]; unfold Rleb; destruct (Rle_dec r 0); auto; lra). rewrite El in Er. injection Er as <- <-. auto.
    - intros Hr. destruct (update_rho_post E s r _ Er) as (HF & _ & I3 & _ & _ & _ & _ & _ & Hin & Hst & _). cbn [snd] in *.
      split. { pose proof (update_rho_value s r Hr _ Er) as Ev. cbn [snd] in Ev. rewrite Ev. unfold clamp. rewrite c_min_R, c_max_R, rho_min_R, rho_max_R. auto. }
      split; auto. split; [apply HF|]. split; [apply HF|]. split; auto. split; auto. intros EX HC.
      destruct (update_rho_flag E s r _ Er) as [(El & _)|(_ & [Hf|(Hf & ls & Els & Hneg)])]; cbn [fst snd] in *; auto.
      + exfalso. rewrite n0_R in El. cbn [nleb Rops] in El. unfold Rleb in El. destruct (Rle_dec r 0); [lra|discriminate].
      + exfalso. destruct (session_facts E EO _ _ _ _ _ _ _ _ _ _ HS') as (HI' & HR' & Hsg & _).
        destruct (convex_exact_w E EX _ _ (iv_w _ HI')) with (ls := ls) as (_ & Hfac & _); eauto using inv_rho_pos, ref_convex.
        pose proof (do_n _ (wo_d _ _ (iv_w _ HI'))). lia.
  Qed.
End ObsSession.
