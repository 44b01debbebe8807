(** The solver-level functions of Auxil.v stay within their arrays and preserve the invariant. *)
From Coq Require Import ZArith List Bool Lia String.
From Verif Require Import Num Arr ArrFacts Csc CscSpec CscFacts Scatter Vec Types Kkt Linsys Scaling Validate Auxil
  VecFacts LinsysFacts LinsysSolve Inv InvStep RecSimp.
Import ListNotations.
Open Scope Z_scope.

(** The text of each status, include/public/osqp_api_constants.h:20-50. *)
Definition status_text (v : Z) : string :=
  if v =? 1 then "solved"%string else if v =? 2 then "solved inaccurate"%string else
  if v =? 3 then "primal infeasible"%string else if v =? 4 then "primal infeasible inaccurate"%string else
  if v =? 5 then "dual infeasible"%string else if v =? 6 then "dual infeasible inaccurate"%string else
  if v =? 7 then "maximum iterations reached"%string else if v =? 8 then "run time limit reached"%string else
  if v =? 9 then "problem non convex"%string else if v =? 10 then "interrupted"%string else "unsolved"%string.

Section Solver.
  Context {K : NumOps}.

  Record solok (n m : Z) (so : solution K) : Prop := {
    sk_x : n <= zlen (so_x so); sk_y : m <= zlen (so_y so);
    sk_pc : m <= zlen (so_prim_inf_cert so); sk_dc : n <= zlen (so_dual_inf_cert so) }.

  (** The status text belongs to the status value. *)
  Definition stat_ok (i : info K) : Prop := 1 <= i_status_val i <= 11 /\ i_status i = status_text (i_status_val i).

  Notation dn s := (d_n (w_data (sv_work s))).
  Notation dm s := (d_m (w_data (sv_work s))).

  (** osqp_api.c:1437, auxil.c:83: rho within its limits *)
  Definition clamp (r : K) : K := c_min (c_max r (OSQP_RHO_MIN K)) (OSQP_RHO_MAX K).

  Record Inv (s : solver K) : Prop := {
    iv_w : wok (sv_settings s) (sv_work s);
    iv_rho : clamp (st_rho (sv_settings s)) = st_rho (sv_settings s);
    iv_sol : forall so, sv_solution s = Some so -> solok (dn s) (dm s) so;
    iv_stat : stat_ok (sv_info s) }.

  (** What no function changes. *)
  Record fr (s s' : solver K) : Prop := {
    fr_n : dn s' = dn s; fr_m : dm s' = dm s;
    fr_P : same_pat (d_P (w_data (sv_work s))) (d_P (w_data (sv_work s')));
    fr_A : same_pat (d_A (w_data (sv_work s))) (d_A (w_data (sv_work s')));
    fr_sc : st_scaling (sv_settings s') = st_scaling (sv_settings s);
    fr_vec : st_rho_is_vec (sv_settings s') = st_rho_is_vec (sv_settings s);
    fr_sg : st_sigma (sv_settings s') = st_sigma (sv_settings s) }.

  Lemma fr_refl s : fr s s. Proof. constructor; auto using same_pat_refl. Qed.
  Lemma fr_trans s1 s2 s3 : fr s1 s2 -> fr s2 s3 -> fr s1 s3.
  Proof. intros [] []. constructor; try congruence; eapply same_pat_trans; eauto. Qed.

  (** The signal handlers and the profiler sections are as before. *)
  Definition wfr (s s' : solver K) : Prop :=
    g_sections (sv_world s') = g_sections (sv_world s) /\ g_handler (sv_world s') = g_handler (sv_world s) /\
    g_oact (sv_world s') = g_oact (sv_world s).
  Lemma wfr_refl s : wfr s s. Proof. split; auto. Qed.
  Lemma wfr_trans s1 s2 s3 : wfr s1 s2 -> wfr s2 s3 -> wfr s1 s3.
  Proof. intros (A1 & A2 & A3) (B1 & B2 & B3). repeat split; congruence. Qed.

  Definition ok (s s' : solver K) : Prop := Inv s' /\ fr s s' /\ wfr s s'.
  Lemma ok_refl s : Inv s -> ok s s. Proof. split; auto using fr_refl, wfr_refl. Qed.
  Lemma ok_trans s1 s2 s3 : ok s1 s2 -> ok s2 s3 -> ok s1 s3.
  Proof. intros (A1 & A2 & A3) (B1 & B2 & B3). split; eauto using fr_trans, wfr_trans. Qed.

  (** A step that only touches scratch vectors, the information and the clock. *)
  Lemma ok_keeps s s' : Inv s -> sv_settings s' = sv_settings s -> sv_solution s' = sv_solution s ->
    keeps (sv_settings s) (sv_work s) (sv_work s') -> stat_ok (sv_info s') -> wfr s s' -> ok s s'.
  Proof.
    intros [HW HRho HS HI] E1 E2 HK HSt HWf. pose proof (core_eq _ _ (proj1 HK)) as (Ed & _).
    split; [|split; auto].
    - constructor; auto.
      + rewrite E1. eapply wok_keeps; eauto.
      + rewrite E1. auto.
      + rewrite Ed, E2. auto.
    - constructor; rewrite ?Ed, ?E1; auto using same_pat_refl.
  Qed.

  Lemma status_safe i v : 1 <= v <= 11 ->
    safe (update_status i v) (fun i' => stat_ok i' /\ i_status_val i' = v).
  Proof.
    intros Hv. unfold update_status. eapply safe_bind with (P := fun m => m = status_text v).
    - assert (Hc : v = 1 \/ v = 2 \/ v = 3 \/ v = 4 \/ v = 5 \/ v = 6 \/ v = 7 \/ v = 8 \/ v = 9 \/ v = 10 \/ v = 11) by lia.
      repeat destruct Hc as [->|Hc]; try subst v; apply safe_ret; reflexivity.
    - intros m ->. apply safe_ret. unfold stat_ok. rs. auto.
  Qed.

  Variable E : Env K.
  Hypothesis EO : env_ok E.

  Lemma toc_ok s : Inv s -> ok s (snd (toc E s)).
  Proof.
    intros H. unfold toc. cbn [snd]. apply ok_keeps; rs; auto; [apply keeps_refl; apply H|apply H|split; auto].
  Qed.

  Lemma store_solution_safe s so : Inv s -> (forall o, so = Some o -> solok (dn s) (dm s) o) ->
    safe (store_solution s so) (fun r => ok s (fst r) /\ sv_solution (fst r) = sv_solution s /\ sv_info (fst r) = sv_info s /\
       (so = None <-> snd r = None) /\ forall o, snd r = Some o -> solok (dn s) (dm s) o).
  Proof.
    intros HI HS. pose proof (iv_w _ HI) as HW. pose proof HW as HW0. unfold store_solution. destruct so as [so|].
    2:{ apply safe_ret. cbn [fst snd]. split; [apply ok_refl; auto|]. repeat (split; auto); discriminate. }
    destruct (HS so eq_refl) as [S1 S2 S3 S4]. clear HS.
    set (st := sv_settings s) in *. set (w := sv_work s) in *. destruct HW as [Hd Hsc Hrho Hls Hlen]. destruct Hd, Hlen.
    assert (HOK : forall w' o, keeps st w w' -> solok (d_n (w_data w)) (d_m (w_data w)) o ->
       ok s (set_sv_work w' s) /\ sv_solution (set_sv_work w' s) = sv_solution s /\ sv_info (set_sv_work w' s) = sv_info s /\
       (Some so = None <-> Some o = None) /\ (forall o', Some o = Some o' -> solok (d_n (w_data w)) (d_m (w_data w)) o')).
    { intros w' o HK Ho. split; [apply ok_keeps; rs; auto; [apply HI|split; auto]|]. split; auto. split; auto.
      split; [split; discriminate|]. intros o' Eo. inversion Eo; subst; auto. }
    destruct (has_solution (sv_info s)).
    - eapply safe_bind with (P := fun r => zlen (fst (fst r)) = zlen (so_x so) /\ zlen (snd (fst r)) = zlen (so_y so) /\ keeps st w (snd r)).
      + destruct (tr (st_scaling st)) eqn:Es.
        * destruct (Hsc Es) as (sc & -> & [? ? ? ?]). unfold unscale_solution.
          eapply safe_bind with (P := fun r => zlen (fst r) = d_n (w_data w) /\ zlen (snd r) = d_m (w_data w)).
          { bind. bind. apply safe_ret. cbn [fst snd]. split; size. }
          intros [ux uy] (L1 & L2). cbn [fst snd] in *. rs. bind. bind. apply safe_ret. cbn [fst snd].
          split; [auto|split; [auto|]]. split; auto. lens_tac.
        * bind. bind. apply safe_ret. cbn [fst snd]. split; auto. split; auto. apply keeps_refl; auto.
      + intros [[x y] w1] (L1 & L2 & HK). cbn [fst snd] in *. rs. destruct HK as [C1 []]. 
        bind. bind. apply safe_ret. cbn [fst snd]. apply HOK.
        * split; [exact C1|]. lens_tac.
        * constructor; rs; lia.
    - rs. bind. bind.
      eapply safe_bind; [eapply cold_start_safe with (st := st); eapply wok_keeps; [exact HW0|]; split; [reflexivity|lens_tac]|].
      intros w1 HK. assert (HK1 : keeps st w w1).
      { eapply keeps_trans; [|exact HK]. split; [reflexivity|]. lens_tac. }
      clear HK. 
      set (so1 := set_so_x a (set_so_y a0 so)).
      assert (HS1 : solok (d_n (w_data w)) (d_m (w_data w)) so1) by (subst so1; constructor; rs; lia).
      clearbody so1.
      eapply safe_bind with (P := fun r => keeps st w (fst r) /\ solok (d_n (w_data w)) (d_m (w_data w)) (snd r)).
      + destruct (_ || _); [|apply safe_ret; auto].
        destruct HK1 as [C1 []]. destruct HS1. bind. bind. apply safe_ret. cbn [fst snd]. split.
        * split; [exact C1|]. lens_tac.
        * constructor; rs; lia.
      + intros [w2 so2] (HK2 & HS2). cbn [fst snd] in *.
        eapply safe_bind with (P := fun r => keeps st w (fst r) /\ solok (d_n (w_data w)) (d_m (w_data w)) (snd r)).
        * destruct (_ || _); [|apply safe_ret; auto].
          destruct HK2 as [C2 []]. destruct HS2. bind. bind. apply safe_ret. cbn [fst snd]. split.
          -- split; [exact C2|]. lens_tac.
          -- constructor; rs; lia.
        * intros [w3 so3] (HK3 & HS3). cbn [fst snd] in *. apply safe_ret. cbn [fst snd]. apply HOK; auto.
  Qed.

  Lemma update_info_safe s iter : Inv s -> safe (update_info E s iter) (fun s' => ok s s' /\ keeps (sv_settings s) (sv_work s) (sv_work s')
     /\ sv_settings s' = sv_settings s /\ sv_solution s' = sv_solution s).
  Proof.
    intros HI. pose proof (iv_w _ HI) as HW. pose proof (wo_len _ _ HW) as []. pose proof (iv_stat _ HI) as HSt. unfold update_info. rs.
    eapply safe_bind; [apply residuals_safe; auto|]. intros [[[[[pr dr] p] dv] g] w] HK. cbn [snd] in HK.
    unfold toc. rs. apply safe_ret. rs.
    assert (HK' : keeps (sv_settings s) (sv_work s) (set_w_summary_printed 0 w)).
    { destruct HK as [C []]. split; [exact C|]. lens_tac. }
    split; [|auto]. apply ok_keeps; rs; auto. split; auto.
  Qed.

  Lemma update_info_polish_safe s : Inv s -> safe (update_info_polish E s) (fun s' => ok s s' /\ sv_settings s' = sv_settings s /\ sv_solution s' = sv_solution s /\ keeps (sv_settings s) (sv_work s) (sv_work s')).
  Proof.
    intros HI. pose proof (iv_w _ HI) as HW. pose proof (wo_len _ _ HW) as []. pose proof (iv_stat _ HI) as HSt. unfold update_info_polish. rs.
    eapply safe_bind; [apply residuals_safe; auto|]. intros [[[[[pr dr] p] dv] g] w] HK. cbn [snd] in HK.
    unfold toc. rs. apply safe_ret. rs.
    match goal with |- _ /\ _ /\ _ /\ keeps _ _ ?x => assert (HK' : keeps (sv_settings s) (sv_work s) x) end.
    { destruct HK as [C []]. split; [exact C|]. lens_tac. }
    split; [|auto]. apply ok_keeps; rs; auto. split; auto.
  Qed.

  Lemma check_termination_safe s ap : Inv s -> safe (check_termination s ap) (fun r => ok s (snd r) /\
     sv_settings (snd r) = sv_settings s /\ sv_solution (snd r) = sv_solution s).
  Proof.
    intros HI. pose proof (iv_w _ HI) as HW. pose proof (iv_stat _ HI) as HSt. unfold check_termination.
    set (st := sv_settings s) in *. set (w := sv_work s) in *.
    destruct (_ || _).
    { eapply safe_bind; [apply (status_safe _ OSQP_NON_CVX); unfold OSQP_NON_CVX; lia|]. intros i [Hi _]. apply safe_ret. cbn [snd]. rs.
      split; [|auto]. apply ok_keeps; rs; auto; [apply keeps_refl; auto|split; auto]. }
    pose proof (keeps_refl st w HW) as HKr. pose proof (wo_d _ _ HW) as Hdok.
    eapply safe_bind with (P := fun r => keeps st w (snd r)).
    { destruct (d_m (w_data w) =? 0); [apply safe_ret; auto|].
      eapply safe_bind; [apply prim_tol_safe; auto|]. intros ep _. destruct (_ <? _)%num; [apply safe_ret; auto|].
      eapply safe_bind; [apply prim_inf_safe; auto|]. intros [b w1] HK. apply safe_ret. auto. }
    intros [[prc pic] w1] HK1. cbn [snd] in HK1. pose proof (wok_keeps _ _ _ HW HK1) as HW1.
    eapply safe_bind; [apply dual_tol_safe; auto|]. intros ed _.
    eapply safe_bind with (P := fun r => keeps st w (snd r)).
    { destruct (_ <? _)%num; [apply safe_ret; auto|].
      eapply safe_bind; [apply dual_inf_safe; auto|]. intros [b w2] HK. apply safe_ret. cbn [fst snd] in *. eapply keeps_trans; eauto. }
    intros [[drc dic] w2] HK2. cbn [snd] in HK2. pose proof (wok_keeps _ _ _ HW HK2) as HW2.
    eapply safe_bind with (P := fun _ => True).
    { destruct (tr (st_check_dualgap st)); [|apply safe_ret; auto].
      eapply safe_bind; [apply gap_tol_safe; auto|]. intros eg _. apply safe_ret; auto. }
    intros dgc _. pose proof (core_eq _ _ (proj1 HK2)) as (Ed & _ & _ & _ & _ & Es & _).
    assert (Hfin : forall w' i', keeps st w w' -> stat_ok i' -> ok s (set_sv_info i' (set_sv_work w' s))).
    { intros w' i' HK' Hi'. apply ok_keeps; rs; auto. split; auto. }
    destruct (_ && _).
    { eapply safe_bind; [apply status_safe; destruct ap; unfold OSQP_SOLVED, OSQP_SOLVED_INACCURATE; lia|]. intros i [Hi _].
      apply safe_ret. cbn [snd]. rs. split; [apply Hfin; auto|auto]. }
    destruct pic.
    { eapply safe_bind; [apply status_safe; destruct ap; unfold OSQP_PRIMAL_INFEASIBLE, OSQP_PRIMAL_INFEASIBLE_INACCURATE; lia|]. intros i [Hi _].
      eapply safe_bind with (P := fun r => zlen r = d_m (w_data w)).
      - destruct HK2 as [C2 []]. destruct (unscaled_termination st) eqn:Eu; [|apply safe_ret; auto].
        apply uterm_scd in Eu. destruct (wo_sc _ _ HW Eu) as (sc & Esc & [? ? ? ?]). rewrite Es, Esc. eapply safe_weaken; [leaf; size|]. cbv beta; lia.
      - intros dy Hdy. apply safe_ret. cbn [snd]. rs. split; [|auto].
        apply Hfin; [|auto]. destruct HK2 as [C2 []]. split; [exact C2|]. lens_tac. }
    destruct dic.
    { eapply safe_bind; [apply status_safe; destruct ap; unfold OSQP_DUAL_INFEASIBLE, OSQP_DUAL_INFEASIBLE_INACCURATE; lia|]. intros i [Hi _].
      eapply safe_bind with (P := fun r => zlen r = d_n (w_data w)).
      - destruct HK2 as [C2 []]. destruct (unscaled_termination st) eqn:Eu; [|apply safe_ret; auto].
        apply uterm_scd in Eu. destruct (wo_sc _ _ HW Eu) as (sc & Esc & [? ? ? ?]). rewrite Es, Esc. eapply safe_weaken; [leaf; size|]. cbv beta; lia.
      - intros dy Hdy. apply safe_ret. cbn [snd]. rs. split; [|auto].
        apply Hfin; [|auto]. destruct HK2 as [C2 []]. split; [exact C2|]. lens_tac. }
    apply safe_ret. cbn [snd]. rs. split; [|auto]. apply ok_keeps; rs; auto. split; auto.
  Qed.

  (** ** rho *)

  (** The vectors of the workspace, whatever rho is. *)
  Record wok0 (st : settings K) (w : work K) : Prop := {
    w0_d : dok (w_data w); w0_sc : sc_ok st w;
    w0_rho : if tr (st_rho_is_vec st) then
       (exists ct, w_constr_type w = Some ct /\ zlen ct = d_m (w_data w)) /\
       (exists rv, w_rho_vec w = Some rv /\ zlen rv = d_m (w_data w)) /\
       (exists ri, w_rho_inv_vec w = Some ri /\ zlen ri = d_m (w_data w))
       else w_rho_vec w = None;
    w0_len : lens (d_n (w_data w)) (d_m (w_data w)) (tr (st_scaling st)) w }.

  Lemma wok_wok0 st w : wok st w -> wok0 st w.
  Proof.
    intros [Hd Hs Hr Hl HL]. constructor; auto. unfold rho_ok in Hr. destruct (tr (st_rho_is_vec st)); auto.
    destruct Hr as (ct & E1 & E2 & E3 & E4). split; [eauto|]. split; eexists; split; eauto; rewrite zlen_map; auto.
  Qed.

  Lemma refresh_safe st w rho : wok0 st w -> tr (st_rho_is_vec st) = true ->
    safe (refresh_rho_vec rho w) (fun w' => exists ct, w_constr_type w = Some ct /\
      w' = set_w_rho_vec (Some (map (rho_of rho) ct)) (set_w_rho_inv_vec (Some (map (fun t => ndiv n1 (rho_of rho t)) ct)) w)).
  Proof.
    intros [Hd Hs Hr HL] Hv. rewrite Hv in Hr. destruct Hr as ((ct & E1 & L1) & (rv & E2 & L2) & (ri & E3 & L3)).
    unfold refresh_rho_vec. rewrite E1, E2, E3. unfold vf_set_scalar_conditional, vf_ew_reciprocal.
    rewrite v1_ok by lia. rewrite v1_ok by (rewrite zlen_map; lia). rewrite map_map. apply safe_ret. exists ct. split; auto.
  Qed.

  (** A linear system solver for these matrices, with any rho. *)
  Definition ls_some (st : settings K) (w : work K) : Prop :=
    exists ls r, w_linsys w = Some ls /\ ls_ok ls (d_P (w_data w)) (d_A (w_data w)) (st_sigma st) r /\
      (ls_rho_inv_vec ls = None <-> tr (st_rho_is_vec st) = false).

  Lemma ls_sync_some st w : ls_sync st w -> ls_some st w.
  Proof.
    intros (ls & r & E1 & LO & _ & HR). exists ls, r. split; auto. split; auto. unfold ls_rho in HR.
    destruct (tr (st_rho_is_vec st)); [|tauto]. destruct HR as (ct & _ & ->). split; discriminate.
  Qed.

  (** update_linsys_rho_vec brings the linear system solver in line with rho_vec. *)
  Lemma rho_vec_sync st w : dok (w_data w) -> rho_ok st (d_m (w_data w)) w -> ls_some st w ->
    exists ls ls' fl, w_linsys w = Some ls /\ update_linsys_rho_vec E ls (w_rho_vec w) (st_rho st) = Some (fl, ls') /\
      ls_sync st (set_w_linsys (Some ls') w).
  Proof.
    intros Hd Hr (ls & r & E1 & LO & HN). destruct Hd.
    destruct (update_linsys_rho_spec E ls (d_P (w_data w)) (d_A (w_data w)) (st_sigma st) r (w_rho_vec w) (st_rho st)) as (ls' & E2 & LO' & HR'); auto.
    { intros HX. unfold rho_ok in Hr. destruct (tr (st_rho_is_vec st)) eqn:Ev; [|exfalso; apply HX, HN; auto].
      destruct Hr as (ct & _ & Lc & E3 & _). rewrite E3. eexists; split; [reflexivity|]. rewrite zlen_map. lia. }
    exists ls, ls'. eexists. split; auto. split; [exact E2|].
    exists ls'. eexists. split; [reflexivity|]. rs. split; [exact LO'|]. split; [intros; right; reflexivity|].
    unfold ls_rho. rs. unfold rho_ok in Hr. destruct (tr (st_rho_is_vec st)) eqn:Ev.
    - destruct Hr as (ct & E3 & Lc & E4 & _). exists ct. split; auto.
      destruct (ls_rho_inv_vec ls) eqn:El; [|destruct HN as [HN _]; discriminate (HN eq_refl)].
      destruct HR' as (_ & x & E5 & Lx & Hx). rewrite E5. f_equal.
      apply (list_ext_znth n0); [rewrite zlen_map; lia|]. intros i Hi. rewrite (Hx _ i E4) by lia.
      rewrite (znth_map n0 0), (znth_map n0 0) by lia. auto.
    - destruct (ls_rho_inv_vec ls) eqn:El; [destruct HN as [_ HN]; discriminate (HN eq_refl)|]. auto.
  Qed.

  (** The two limits of rho are in order (true of the reals and of binary64). *)
  Hypothesis MM : nltb (OSQP_RHO_MIN K) (OSQP_RHO_MAX K) = true.

  Lemma clamp_idem r : clamp (clamp r) = clamp r.
  Proof.
    unfold clamp, c_min, c_max. destruct (nltb (OSQP_RHO_MIN K) r) eqn:E1.
    - destruct (nltb r (OSQP_RHO_MAX K)) eqn:E2.
      + rewrite E1, E2. auto.
      + rewrite MM. destruct (nltb (OSQP_RHO_MAX K) (OSQP_RHO_MAX K)); auto.
    - rewrite MM. destruct (nltb (OSQP_RHO_MIN K) (OSQP_RHO_MIN K)); rewrite MM; auto.
  Qed.

  Lemma types_eq (a b : list Z) : zlen a = zlen b -> existsb (fun p => negb (fst p =? snd p)) (combine a b) = false -> a = b.
  Proof.
    revert b; induction a as [|x a IH]; intros [|y b] HL HE; auto.
    - discriminate HL.
    - discriminate HL.
    - cbn [combine existsb fst snd] in HE. apply orb_false_iff in HE as [H1 H2].
      apply negb_false_iff, Z.eqb_eq in H1. subst. f_equal. apply IH; auto. rewrite !zlen_cons in HL. lia.
  Qed.

  (** Same workspace up to rho, its vectors, the constraint types and the linear system solver. *)
  Lemma wok_rho st st' w w' : wok0 st w ->
    tr (st_scaling st') = tr (st_scaling st) ->
    w_data w' = w_data w -> w_scaling w' = w_scaling w ->
    lens (d_n (w_data w)) (d_m (w_data w)) (tr (st_scaling st)) w' -> rho_ok st' (d_m (w_data w)) w' -> ls_sync st' w' -> wok st' w'.
  Proof.
    intros [Hd Hs _ HL] E1 E3 E4 HL' Hr Hl. constructor; rewrite ?E3, ?E1; auto.
    unfold sc_ok in *. rewrite E1, E3, E4. auto.
  Qed.

  (** Requirements of update_rho_vec: the bounds may have changed. *)
  Lemma update_rho_vec_safe s : Inv s -> tr (st_rho_is_vec (sv_settings s)) = true ->
    safe (update_rho_vec E s) (fun r => ok s (snd r) /\ sv_solution (snd r) = sv_solution s /\ sv_info (snd r) = sv_info s).
  Proof.
    intros HI Hv. pose proof (iv_w _ HI) as HW. pose proof (wok_wok0 _ _ HW) as HW0. pose proof (ls_sync_some _ _ (wo_ls _ _ HW)) as HLS.
    destruct (rho_vecs _ _ HW Hv) as (ct & C1 & C2 & C3 & C4). pose proof (wo_d _ _ HW) as []. pose proof (wo_len _ _ HW) as [].
    unfold update_rho_vec. set (st := sv_settings s) in *. set (w := sv_work s) in *.
    eapply safe_bind with (P := fun r => exists ct', zlen ct' = d_m (w_data w) /\ (fst r = false -> ct' = ct) /\
       snd r = set_sv_work (set_w_rho_vec (Some (map (rho_of (st_rho st)) ct'))
          (set_w_rho_inv_vec (Some (map (fun t => ndiv n1 (rho_of (st_rho st) t)) ct')) (set_w_constr_type (Some ct') w))) s).
    { unfold set_rho_vec. cbv zeta. rs. fold (clamp (st_rho (sv_settings s))). rewrite (iv_rho _ HI). subst st w. rewrite C1.
      unfold vf_ew_bounds_type. rewrite v2_ok by lia. cbv beta iota.
      set (ct' := zip _ _ _). assert (Lct : zlen ct' = d_m (w_data (sv_work s))) by (subst ct'; rewrite zlen_zip by lia; lia).
      eapply safe_bind; [eapply refresh_safe with (st := sv_settings s); [|exact Hv]|].
      { destruct HW0 as [D1 D2 D3 D4]. rewrite Hv in D3. destruct D3 as (_ & D5 & D6).
        constructor; rs; auto; [|destruct D4; lens_tac]. rewrite Hv. split; [|split]; auto. eauto. }
      intros w1 (ct0 & E0 & ->). rs_in E0. cbn [fst] in E0. inversion E0; subst ct0. apply safe_ret. exists ct'. cbn [fst snd]. split; auto.
      split; [intros HE; apply types_eq; auto; lia|].
      destruct s as [sst ? ? ? ?]. cbn. f_equal. cbn. destruct sst; reflexivity. }
    intros [ch s1] (ct' & Lct & Hch & Es1). cbn [fst snd] in *. subst s1.
    set (w1 := set_w_rho_vec _ _).
    assert (HR1 : rho_ok st (d_m (w_data w1)) w1). { unfold rho_ok. rewrite Hv. exists ct'. subst w1. rs. auto. }
    assert (HL1 : lens (d_n (w_data w)) (d_m (w_data w)) (tr (st_scaling st)) w1) by (subst w1; lens_tac).
    destruct ch.
    - destruct (rho_vec_sync st w1) as (ls & ls' & fl & F1 & F2 & F3); [subst w1; rs; apply HW|exact HR1|exact HLS|].
      rs. fold st. rewrite F1, F2. apply safe_ret. cbn [fst snd]. rs.
      assert (HW' : wok st (set_w_linsys (Some ls') w1)).
      { eapply wok_rho; eauto. destruct HL1; lens_tac. }
      split; [|auto]. split; [|split].
      + constructor; rs; auto; apply HI.
      + constructor; rs; auto using same_pat_refl.
      + split; auto.
    - specialize (Hch eq_refl). subst ct'. apply safe_ret. cbn [fst snd]. rs.
      assert (HW' : wok st w1).
      { eapply wok_rho; eauto. destruct (wo_ls _ _ HW) as (ls & r & F1 & F2 & F3 & F4). exists ls, r. subst w1. rs. split; auto. split; auto. split; auto.
        unfold ls_rho in *. rewrite Hv in *. rs. destruct F4 as (ct1 & G1 & G2). exists ct1. split; auto. congruence. }
      split; [|auto]. split; [|split].
      + constructor; rs; auto; apply HI.
      + constructor; rs; auto using same_pat_refl.
      + split; auto.
  Qed.

  Lemma update_rho_safe s rho : Inv s ->
    safe (update_rho E s rho) (fun r => ok s (snd r) /\ sv_solution (snd r) = sv_solution s).
  Proof.
    intros HI. unfold update_rho. destruct (rho <=? n0)%num; [apply safe_ret; cbn [snd]; split; auto using ok_refl|].
    set (s1 := if _ && _ then _ else s).
    assert (HI1 : ok s s1 /\ sv_solution s1 = sv_solution s).
    { subst s1. destruct (_ && _); [|split; auto using ok_refl]. split; [|reflexivity]. apply ok_keeps; rs; auto; [|apply HI|split; auto].
      split; auto. destruct (wo_len _ _ (iv_w _ HI)). lens_tac. }
    clearbody s1. destruct HI1 as (HO1 & HS1). pose proof (proj1 HO1) as HI1. clear HI.
    fold (clamp rho). rs. set (st := set_st_rho (clamp rho) (sv_settings s1)). set (w := sv_work s1).
    pose proof (iv_w _ HI1) as HW. pose proof (wok_wok0 _ _ HW) as HW0. pose proof (ls_sync_some _ _ (wo_ls _ _ HW)) as HLS.
    pose proof (wo_d _ _ HW) as Hd. pose proof (wo_len _ _ HW) as HL. fold w in HL, Hd, HW, HLS.
    eapply safe_bind with (P := fun w' => w_data w' = w_data w /\ w_scaling w' = w_scaling w /\ w_linsys w' = w_linsys w /\
       lens (d_n (w_data w)) (d_m (w_data w)) (tr (st_scaling st)) w' /\ rho_ok st (d_m (w_data w)) w').
    { subst st. unfold rho_ok. rs. destruct (tr (st_rho_is_vec (sv_settings s1))) eqn:Ev.
      - eapply safe_weaken; [eapply refresh_safe with (st := sv_settings s1); eauto|]. intros w' (ct & E1 & ->). rs.
        destruct (rho_vecs _ _ HW Ev) as (ct1 & C1 & C2 & _ & _).
        repeat (split; [reflexivity|]). split; [destruct HL; lens_tac|]. exists ct. fold w in E1. repeat (split; auto). congruence.
      - apply safe_ret. rs. repeat (split; [reflexivity|]). split; [destruct HL; lens_tac|].
        pose proof (wo_rho _ _ HW) as HR. unfold rho_ok in HR. rewrite Ev in HR. exact HR. }
    intros w1 (D1 & D2 & D3 & D4 & D5).
    destruct (rho_vec_sync st w1) as (ls & ls' & fl & F1 & F2 & F3); [rewrite D1; auto|rewrite D1; auto| |].
    { destruct HLS as (ls & r & G1 & G2 & G3). exists ls, r. rewrite D1, D3. auto. }
    rewrite F1. change (clamp rho) with (st_rho st). rewrite F2. cbn [fst snd]. rs.
    set (w2 := set_w_linsys (Some ls') w1).
    assert (HW' : wok st w2).
    { eapply wok_rho with (st := sv_settings s1) (w := w); auto. subst w2. destruct D4; lens_tac. }
    set (s2 := set_sv_work w2 (set_sv_settings st s1)).
    assert (HO2 : ok s s2).
    { eapply ok_trans; [exact HO1|]. subst s2. split; [|split].
      - constructor; rs; auto; [subst st; rs; apply clamp_idem| |apply HI1]. subst w2. rs. rewrite D1. apply HI1.
      - subst w2. constructor; rs; rewrite ?D1; auto using same_pat_refl.
      - split; auto. }
    apply safe_ret. cbn [snd]. destruct (_ =? _); [|split; auto].
    unfold toc. cbv beta iota. rs. split; [|auto].
    eapply ok_trans; [exact HO2|]. apply ok_keeps; rs; auto; [apply HO2|apply keeps_refl; auto|apply HO2|split; auto].
  Qed.

  Lemma adapt_rho_safe s : Inv s -> safe (adapt_rho E s) (fun r => ok s (snd r) /\ sv_solution (snd r) = sv_solution s).
  Proof.
    intros HI. unfold adapt_rho. set (rn := compute_rho_estimate _ _).
    set (s1 := set_sv_info _ s). assert (HO : ok s s1).
    { apply ok_keeps; subst s1; rs; auto; [apply keeps_refl; apply HI|apply HI|split; auto]. }
    destruct (_ || _); [|apply safe_ret; auto].
    eapply safe_bind; [apply update_rho_safe; apply HO|]. intros [fl s2] (HO2 & HS2). cbn [snd] in *. apply safe_ret. cbn [snd]. rs.
    split; [|auto]. eapply ok_trans; [exact HO|]. eapply ok_trans; [exact HO2|].
    apply ok_keeps; rs; auto; [apply HO2| |apply HO2|split; auto]. split; auto. destruct (wo_len _ _ (iv_w _ (proj1 HO2))). lens_tac.
  Qed.
End Solver.
