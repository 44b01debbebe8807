(** What the calls other than osqp_solve store and hand out, number for number, in every number system: specification and proofs. *)
From Coq Require Import ZArith List Bool Lia String.
From Verif Require Import Num Arr ArrFacts Csc CscSpec CscFacts CscFacts2 Scatter Vec Types Kkt Linsys Scaling Validate Auxil Polish Api
  VecFacts LinsysFacts LinsysSolve Inv InvStep InvApi InvScale InvPolish InvSolve ValidFacts InvUpd InvSetup History RecSimp Frame FrameSolve FrameUpd DataFacts Mid Trace PassFacts SolveEnd AtyFacts
  MachineSpec MachineTerm MachineInfo MachineSolve MachineClaims TwinKer MachineFound.
Import ListNotations.
Open Scope Z_scope.
Local Open Scope opt_scope.

Notation X t := (w_x (sv_work t)). Notation Y t := (w_y (sv_work t)). Notation Zv t := (w_z (sv_work t)).
Notation D s := (w_data (sv_work s)). Notation SC s := (w_scaling (sv_work s)). Notation st s := (sv_settings s).
Notation stat t := (i_status_val (sv_info t)).

Section CallSpec.
  Context {K : NumOps}.
  Local Open Scope num_scope.
  (** The first k entries of an array passed by the user; a vector of k equal entries; an array whose first cells are overwritten with v. *)
  Definition first (k : Z) (a : list K) : list K := firstn (Z.to_nat k) a.
  Definition filled (k : Z) (c : K) : list K := repeat c (Z.to_nat k).
  Definition over (a v : list K) : list K := v ++ skipn (List.length v) a.
  Definition is_scaled (s : solver K) : bool := negb (st_scaling (st s) =? 0)%Z.
  (** A value given, or the old one. *)
  Definition given_or {A} (o : option A) (old : list K) (f : A -> list K) : list K := match o with Some a => f a | None => old end.

  (** The parts of a solver that calls leave alone. *)
  Definition same_rest (s s' : solver K) : Prop := D s' = D s /\ SC s' = SC s /\ sv_info s' = sv_info s /\ sv_solution s' = sv_solution s /\ sv_world s' = sv_world s.

  (** osqp_warm_start, include/public/osqp_api_functions.h:337-346, src/osqp_api.c:1260-1293.  The point given, in the solver's units; z = A x when x is given. *)
  Definition warm_effect (n m : Z) (x y : option (list K)) (s s' : solver K) : Prop :=
    (exists W, (is_scaled s = true -> SC s = Some W) /\
      X s' = given_or x (X s) (fun a => if is_scaled s then times (first n a) (sc_Dinv W) else first n a) /\
      Y s' = given_or y (Y s) (fun a => if is_scaled s then map (fun v => v * sc_c W) (times (first m a) (sc_Einv W)) else first m a)) /\
    (x = None -> Zv s' = Zv s) /\ (x <> None -> exists b, zlen b = m /\ csc_Axpy (d_A (D s)) (X s') b n1 n0 = Some (Zv s')) /\
    st s' = (if (st_warm_starting (st s) =? 0)%Z then set_st_warm_starting 1 (st s) else st s) /\ same_rest s s'.

  (** osqp_cold_start, osqp_api_functions.h:348-352, src/osqp_api.c:1296-1304. *)
  Definition cold_effect (n m : Z) (s s' : solver K) : Prop :=
    X s' = filled n n0 /\ Y s' = filled m n0 /\ Zv s' = filled m n0 /\ st s' = st s /\ same_rest s s'.

  (** osqp_get_solution, osqp_api_functions.h:297-306, src/auxil.c:598-674: what the user's arrays o hold afterwards (o'), and what happens to the iterate. *)
  Definition primal_inf (v : Z) : bool := ((v =? OSQP_PRIMAL_INFEASIBLE) || (v =? OSQP_PRIMAL_INFEASIBLE_INACCURATE))%Z.
  Definition dual_inf (v : Z) : bool := ((v =? OSQP_DUAL_INFEASIBLE) || (v =? OSQP_DUAL_INFEASIBLE_INACCURATE))%Z.
  Definition no_point (v : Z) : bool := primal_inf v || dual_inf v || (v =? OSQP_NON_CVX)%Z.
  Definition handed_out (n m : Z) (s s' : solver K) (o o' : solution K) : Prop :=
    same_rest s s' /\ st s' = st s /\
    (no_point (stat s) = false ->
      (exists W, (is_scaled s = true -> SC s = Some W) /\
        so_x o' = over (so_x o) (if is_scaled s then times (X s) (sc_D W) else X s) /\
        so_y o' = over (so_y o) (if is_scaled s then map (fun v => v * sc_cinv W) (times (Y s) (sc_E W)) else Y s)) /\
      so_prim_inf_cert o' = over (so_prim_inf_cert o) (filled m (OSQP_NAN K)) /\ so_dual_inf_cert o' = over (so_dual_inf_cert o) (filled n (OSQP_NAN K)) /\
      X s' = X s /\ Y s' = Y s /\ Zv s' = Zv s) /\
    (no_point (stat s) = true ->
      so_x o' = over (so_x o) (filled n (OSQP_NAN K)) /\ so_y o' = over (so_y o) (filled m (OSQP_NAN K)) /\
      so_prim_inf_cert o' = (if primal_inf (stat s) then over (so_prim_inf_cert o) (normalised (w_delta_y (sv_work s)))
                             else if dual_inf (stat s) then over (so_prim_inf_cert o) (filled m (OSQP_NAN K)) else so_prim_inf_cert o) /\
      so_dual_inf_cert o' = (if primal_inf (stat s) then over (so_dual_inf_cert o) (filled n (OSQP_NAN K))
                             else if dual_inf (stat s) then over (so_dual_inf_cert o) (normalised (w_delta_x (sv_work s))) else so_dual_inf_cert o) /\
      X s' = filled n n0 /\ Y s' = filled m n0 /\ Zv s' = filled m n0 /\
      w_delta_y (sv_work s') = (if primal_inf (stat s) then normalised (w_delta_y (sv_work s)) else if dual_inf (stat s) then filled m (OSQP_NAN K) else w_delta_y (sv_work s)) /\
      w_delta_x (sv_work s') = (if primal_inf (stat s) then filled n (OSQP_NAN K) else if dual_inf (stat s) then normalised (w_delta_x (sv_work s)) else w_delta_x (sv_work s))).

  (** osqp_update_data_vec, osqp_api_functions.h:354-365, src/osqp_api.c:1184-1257: the vectors given, in the solver's units; refused when a bound is given and a lower bound
      compares greater than its upper bound. *)
  Definition crossed (l u : list K) : bool := existsb (fun b => b) (zip (fun p q => p >? q) l u).
  Definition vec_effect (n m : Z) (q l u : option (list K)) (s : solver K) (fl : Z) (s' : solver K) : Prop :=
    exists W, (is_scaled s = true -> SC s = Some W) /\
      let bound (a : list K) := if is_scaled s then times (first m a) (sc_E W) else first m a in
      let l' := given_or l (d_l (D s)) bound in let u' := given_or u (d_u (D s)) bound in
      let refused := (match l, u with None, None => false | _, _ => crossed l' u' end) in
      (refused = true -> fl = OSQP_DATA_VALIDATION_ERROR /\ D s' = D s /\ st s' = st s /\ stat s' = stat s) /\
      (refused = false -> d_l (D s') = l' /\ d_u (D s') = u' /\
        d_q (D s') = given_or q (d_q (D s)) (fun a => if is_scaled s then map (fun v => v * sc_c W) (times (first n a) (sc_D W)) else first n a) /\
        d_P (D s') = d_P (D s) /\ d_A (D s') = d_A (D s) /\ stat s' = OSQP_UNSOLVED) /\
      X s' = X s /\ Y s' = Y s /\ Zv s' = Zv s /\ SC s' = SC s /\ sv_solution s' = sv_solution s.

  (** osqp_update_data_mat, osqp_api_functions.h:369-394, src/osqp_api.c:1309-1409: the counts refused; the stored entries afterwards (0 entries given means all). *)
  Definition bad_count (nz k : Z) (idx : option (list Z)) : bool := ((k <? 0) || (nz <? k) || (match idx with None => negb (k =? 0) && negb (k =? nz) | Some _ => false end))%Z.
  Definition entries_after (M M' : csc K) (x : option (list K)) (idx : option (list Z)) (k : Z) : Prop :=
    let k' := (if k =? 0 then nnz M else k)%Z in
    match x with
    | None => M' = M
    | Some v => same_pat M M' /\
        match idx with
        | None => forall j, znth n0 (cx M') j = if ((0 <=? j) && (j <? k'))%Z then znth n0 v j else znth n0 (cx M) j
        | Some e => (forall i, (0 <= i < k')%Z -> (forall i', (i < i' < k')%Z -> znth 0%Z e i' <> znth 0%Z e i) -> znth n0 (cx M') (znth 0%Z e i) = znth n0 v i) /\
                    (forall j, (forall i, (0 <= i < k')%Z -> znth 0%Z e i <> j) -> znth n0 (cx M') j = znth n0 (cx M) j)
        end
    end.
  Definition mat_effect (Px : option (list K)) (Pidx : option (list Z)) (Pn : Z) (Ax : option (list K)) (Aidx : option (list Z)) (An : Z) (s : solver K) (fl : Z) (s' : solver K) : Prop :=
    let badP := bad_count (nnz (d_P (D s))) Pn Pidx in let badA := bad_count (nnz (d_A (D s))) An Aidx in
    (badP = true -> fl = 1%Z) /\ (badP = false -> badA = true -> fl = 2%Z) /\
    (badP || badA = true -> D s' = D s /\ SC s' = SC s /\ stat s' = stat s) /\
    (badP || badA = false -> stat s' = OSQP_UNSOLVED /\
      (is_scaled s = false -> entries_after (d_P (D s)) (d_P (D s')) Px Pidx Pn /\ entries_after (d_A (D s)) (d_A (D s')) Ax Aidx An /\
        d_q (D s') = d_q (D s) /\ d_l (D s') = d_l (D s) /\ d_u (D s') = d_u (D s))) /\
    st s' = st s /\ X s' = X s /\ Y s' = Y s /\ Zv s' = Zv s /\ sv_solution s' = sv_solution s.

  (** osqp_update_rho, osqp_api_functions.h:445-455, src/osqp_api.c:1412-1464. *)
  Definition rho_effect (r : K) (s : solver K) (fl : Z) (s' : solver K) : Prop :=
    ((r <=? n0) = true -> fl = 1 /\ s' = s) /\
    ((r <=? n0) = false -> st s' = set_st_rho (smaller (larger r (OSQP_RHO_MIN K)) (OSQP_RHO_MAX K)) (st s)) /\
    X s' = X s /\ Y s' = Y s /\ Zv s' = Zv s /\ D s' = D s /\ SC s' = SC s /\ sv_solution s' = sv_solution s /\ stat s' = stat s.

  (** osqp_update_settings, osqp_api_functions.h:415-438, src/osqp_api.c:1474-1530: the fields taken from the new settings, and the ones kept (those listed in
      the header, rho, and the device, linear system solver and allocate_solution). *)
  Record replaced (old new r : settings K) : Prop := {
    re_new : (st_verbose r, st_profiler_level r, st_warm_starting r, st_polishing r, st_max_iter r, st_scaled_termination r, st_check_termination r, st_check_dualgap r, st_polish_refine_iter r, st_cg_max_iter r, st_cg_tol_reduction r, st_cg_precond r) =
      (st_verbose new, st_profiler_level new, st_warm_starting new, st_polishing new, st_max_iter new, st_scaled_termination new, st_check_termination new, st_check_dualgap new, st_polish_refine_iter new, st_cg_max_iter new, st_cg_tol_reduction new, st_cg_precond new);
    re_newK : (st_alpha r, st_eps_abs r, st_eps_rel r, st_eps_prim_inf r, st_eps_dual_inf r, st_time_limit r, st_delta r, st_cg_tol_fraction r) =
      (st_alpha new, st_eps_abs new, st_eps_rel new, st_eps_prim_inf new, st_eps_dual_inf new, st_time_limit new, st_delta new, st_cg_tol_fraction new);
    re_old : (st_device r, st_linsys_solver r, st_allocate_solution r, st_scaling r, st_rho_is_vec r, st_adaptive_rho r, st_adaptive_rho_interval r) =
      (st_device old, st_linsys_solver old, st_allocate_solution old, st_scaling old, st_rho_is_vec old, st_adaptive_rho old, st_adaptive_rho_interval old);
    re_oldK : (st_rho r, st_sigma r, st_adaptive_rho_fraction r, st_adaptive_rho_tolerance r) = (st_rho old, st_sigma old, st_adaptive_rho_fraction old, st_adaptive_rho_tolerance old) }.
  Definition settings_effect (new : option (settings K)) (s : solver K) (fl : Z) (s' : solver K) : Prop :=
    (forall w, new = Some w -> settings_ok false w -> fl = 0 /\ replaced (st s) w (st s') /\ sv_work s' = sv_work s /\ sv_info s' = sv_info s /\ sv_solution s' = sv_solution s) /\
    ((forall w, new = Some w -> ~ settings_ok false w) -> fl = OSQP_SETTINGS_VALIDATION_ERROR /\ s' = s).
End CallSpec.

Section Calls.
  Context {K : NumOps}.
  Variable E : Env K.
  Hypothesis EO : env_ok E.
  Hypothesis MM : nltb (OSQP_RHO_MIN K) (OSQP_RHO_MAX K) = true.

  Lemma map_const (a : list K) (c : K) : map (fun _ => c) a = filled (zlen a) c.
  Proof. unfold filled, zlen. rewrite Nat2Z.id. induction a; cbn [map List.length repeat]; congruence. Qed.
  Lemma to_raw_over (a v r : list K) : vf_to_raw a v = Some r -> r = over a v.
  Proof. intros H. apply view_inv in H as (_ & ->). cbn [firstn Z.to_nat app]. unfold over. do 2 f_equal. unfold zlen. lia. Qed.
  Lemma from_raw_first (b a r : list K) : vf_from_raw b a = Some r -> r = first (zlen b) a.
  Proof. unfold vf_from_raw, view. destruct (_ && _); [|discriminate]. intros [= <-]. reflexivity. Qed.
  Lemma tr_scaled (s : solver K) : tr (st_scaling (st s)) = is_scaled s. Proof. reflexivity. Qed.

  Section One.
    Variables (P A : csc K) (q l u : option (list K)) (m n : Z) (ust : settings K) (s : solver K).
    Hypothesis HL : lives E P A q l u m n ust s.

    Lemma dn_eq : d_n (D s) = n. Proof. apply (lives_facts E EO MM _ _ _ _ _ _ _ _ _ HL). Qed.
    Lemma dm_eq : d_m (D s) = m. Proof. apply (lives_facts E EO MM _ _ _ _ _ _ _ _ _ HL). Qed.
    Lemma the_inv : Inv s. Proof. apply (lives_facts E EO MM _ _ _ _ _ _ _ _ _ HL). Qed.
    Lemma the_lens : lens n m (is_scaled s) (sv_work s).
    Proof. rewrite <- dn_eq, <- dm_eq. apply (wo_len _ _ (iv_w _ the_inv)). Qed.

    (** Every call with arguments of the right sizes returns, and the solver lives on. *)
    Lemma call_lives c : args_ok c s -> exists fl s', run E c s = Some (fl, HSolver s') /\ lives E P A q l u m n ust s'.
    Proof.
      intros HA. destruct (run_safe E EO MM c s the_inv HA) as ([fl h] & Er & s' & Eh & _). cbn [snd] in Eh. subst h. exists fl, s'. split; [exact Er|].
      destruct HL as [g s0 g' H1 H2 H3]. econstructor; eauto. eapply reach_S; eauto.
    Qed.

    Lemma scaling_there : is_scaled s = true -> exists W, SC s = Some W.
    Proof. intros H. destruct (wo_sc _ _ (iv_w _ the_inv) H) as (W & HW & _). eauto. Qed.

    Lemma call_warm x y : vec_arg n x -> vec_arg m y -> exists s', osqp_warm_start (HSolver s) x y = Some (0, HSolver s') /\ lives E P A q l u m n ust s' /\ warm_effect n m x y s s'.
    Proof.
      intros Hx Hy. destruct (call_lives (CWarm x y)) as (fl & s' & Er & HL'). { cbn [args_ok]. rewrite dn_eq, dm_eq. auto. }
      cbn [run] in Er. exists s'. unfold osqp_warm_start, on_solver in *. destruct (warm_start s x y) as [[f s1]|] eqn:Ew; [|discriminate]. injection Er as -> ->.
      enough (HP : post (warm_start s x y) (fun r => fst r = 0 /\ warm_effect n m x y s (snd r))).
      { destruct (HP _ Ew) as (H1 & H2). cbn [fst snd] in *. subst fl. auto. }
      clear HL' Ew. pose proof the_lens as LN.
      unfold warm_start. set (s1 := if negb _ then _ else s).
      assert (H1 : sv_work s1 = sv_work s /\ st s1 = (if st_warm_starting (st s) =? 0 then set_st_warm_starting 1 (st s) else st s) /\ sv_info s1 = sv_info s /\ sv_solution s1 = sv_solution s /\ sv_world s1 = sv_world s /\ tr (st_scaling (st s1)) = is_scaled s).
      { subst s1. unfold tr. destruct (st_warm_starting (st s) =? 0); cbn [negb]; rs; auto 10. }
      clearbody s1. destruct H1 as (A1 & A2 & A3 & A4 & A5 & A6). rewrite A1, A6. cbv zeta.
      set (W := match SC s with Some W => W | None => mkscaling n0 [] [] n0 [] [] end).
      assert (HW : is_scaled s = true -> SC s = Some W). { intros H. subst W. destruct (scaling_there H) as (W & ->). reflexivity. } clearbody W.
      set (xn := given_or x (X s) (fun a => if is_scaled s then times (first n a) (sc_Dinv W) else first n a)).
      set (yn := given_or y (Y s) (fun a => if is_scaled s then map (fun v => nmul v (sc_c W)) (times (first m a) (sc_Einv W)) else first m a)).
      eapply post_bindP with (P := fun w => w = set_w_x xn (sv_work s)).
      { destruct x as [a|]; [|apply post_ret; subst xn; cbn [given_or]; destruct (sv_work s); reflexivity].
        apply post_bind. intros v Hv. apply from_raw_first in Hv. rewrite (ln_x _ _ _ _ LN) in Hv. subst v. apply post_bind. intros v Hv. apply post_ret. subst xn. cbn [given_or]. f_equal.
        destruct (is_scaled s); [|congruence]. rewrite (HW eq_refl) in Hv. apply ew_inv in Hv. exact Hv. }
      intros w ->. eapply post_bindP with (P := fun w => w = set_w_y yn (set_w_x xn (sv_work s))).
      { destruct y as [a|]; [|apply post_ret; subst yn; cbn [given_or]; destruct (sv_work s); reflexivity].
        apply post_bind. intros v Hv. rs_in Hv. apply from_raw_first in Hv. rewrite (ln_y _ _ _ _ LN) in Hv. subst v. apply post_bind. intros v Hv. apply post_ret. subst yn. cbn [given_or]. f_equal.
        destruct (is_scaled s); [|congruence]. rs_in Hv. rewrite (HW eq_refl) in Hv. destruct (vf_ew_prod _ _ _) as [v1|] eqn:E1; [|discriminate]. injection Hv as <-. apply ew_inv in E1. subst v1. reflexivity. }
      intros w ->. eapply post_bindP with (P := fun w => exists z, w = set_w_z z (set_w_y yn (set_w_x xn (sv_work s))) /\ (x = None -> z = Zv s) /\ (x <> None -> csc_Axpy (d_A (D s)) xn (Zv s) n1 n0 = Some z)).
      { destruct x as [a|].
        - apply post_bind. intros z Hz. rs_in Hz. apply post_ret. exists z. split; [reflexivity|]. split; [discriminate|auto].
        - apply post_ret. exists (Zv s). split; [destruct (sv_work s); reflexivity|]. split; [auto|intros H; destruct (H eq_refl)]. }
      intros w (z & -> & Z1 & Z2). apply post_bind. intros ls _. apply post_ret. cbn [fst snd]. split; [reflexivity|].
      unfold warm_effect, same_rest. rs. split; [exists W; auto|]. split; [auto|]. split; [|auto 10].
      intros H. exists (Zv s). split; [apply (ln_z _ _ _ _ LN)|auto].
    Qed.

    Lemma call_cold : exists s', osqp_cold_start (HSolver s) = Some (HSolver s') /\ lives E P A q l u m n ust s' /\ cold_effect n m s s'.
    Proof.
      destruct (call_lives CCold I) as (fl & s' & Er & HL'). cbn [run] in Er. exists s'. pose proof the_lens as LN.
      destruct (osqp_cold_start (HSolver s)) as [h|] eqn:Ec; [|discriminate]. injection Er as _ ->. split; [reflexivity|]. split; [exact HL'|].
      cbn [osqp_cold_start] in Ec. unfold cold_start in Ec. destruct (w_linsys (sv_work s)); [|discriminate]. injection Ec as <-.
      unfold cold_effect, same_rest. rs. unfold vf_set_scalar. rewrite !map_const, (ln_x _ _ _ _ LN), (ln_y _ _ _ _ LN), (ln_z _ _ _ _ LN). auto 10.
    Qed.

    Lemma call_rho r : exists fl s', osqp_update_rho E (HSolver s) r = Some (fl, HSolver s') /\ lives E P A q l u m n ust s' /\ rho_effect r s fl s'.
    Proof.
      destruct (call_lives (CUpdRho r) I) as (fl & s' & Er & HL'). cbn [run] in Er. exists fl, s'. split; [exact Er|]. split; [exact HL'|].
      unfold osqp_update_rho, on_solver in Er. destruct (update_rho E s r) as [[f s1]|] eqn:Eu; [|discriminate]. injection Er as -> ->.
      destruct (update_rho_post E s r _ Eu) as (F & S1 & S2 & _ & _ & _ & _ & _ & (t & S3) & _). cbn [snd] in *.
      unfold rho_effect. split; [|split].
      - intros H. unfold update_rho in Eu. rewrite H in Eu. injection Eu as <- <-. auto.
      - intros H. enough (HP : post (update_rho E s r) (fun x => st (snd x) = set_st_rho (smaller (larger r (OSQP_RHO_MIN K)) (OSQP_RHO_MAX K)) (st s))) by exact (HP _ Eu).
        clear Eu. unfold update_rho. rewrite H. set (s1 := if _ && _ then _ else s). assert (A2 : st s1 = st s) by (subst s1; destruct (_ && _); reflexivity). clearbody s1.
        cbv zeta. apply post_bind. intros w _. apply post_bind. intros ls _. apply post_bind. intros x _. apply post_ret. cbn [snd].
        destruct (_ =? 0); unfold toc; rs; rewrite A2; reflexivity.
      - unfold iter3 in S2. injection S2 as -> -> ->. rewrite (sf_d _ _ F), (sf_sc _ _ F), S1, S3. rs. auto 10.
    Qed.

    Lemma call_settings new : exists fl s', osqp_update_settings (HSolver s) new = Some (fl, HSolver s') /\ lives E P A q l u m n ust s' /\ settings_effect new s fl s'.
    Proof.
      destruct (call_lives (CUpdSettings new) I) as (fl & s' & Er & HL'). cbn [run] in Er. exists fl, s'. split; [exact Er|]. split; [exact HL'|].
      unfold osqp_update_settings in Er. destruct (validate_settings new false) eqn:EV.
      - injection Er as <- <-. split; [|auto]. intros w Hw Hk. exfalso. assert (HF : validate_settings new false = false) by (apply validate_settings_spec; eauto). congruence.
      - apply validate_settings_spec in EV as (w & -> & Hk). destruct (w_linsys (sv_work s)); [|discriminate]. injection Er as <- <-. split.
        + intros w' [= <-] _. rs. split; [reflexivity|]. split; [|auto]. destruct (st s), w. constructor; reflexivity.
        + intros H. destruct (H w eq_refl Hk).
    Qed.

    Lemma has_no_point : has_solution (sv_info s) = negb (no_point (stat s)).
    Proof. unfold has_solution, no_point, primal_inf, dual_inf. destruct (_ =? OSQP_PRIMAL_INFEASIBLE), (_ =? OSQP_PRIMAL_INFEASIBLE_INACCURATE), (_ =? OSQP_DUAL_INFEASIBLE), (_ =? OSQP_DUAL_INFEASIBLE_INACCURATE), (_ =? OSQP_NON_CVX); reflexivity. Qed.
    Lemma not_both : primal_inf (stat s) = true -> dual_inf (stat s) = false.
    Proof. unfold primal_inf, dual_inf, OSQP_PRIMAL_INFEASIBLE, OSQP_PRIMAL_INFEASIBLE_INACCURATE, OSQP_DUAL_INFEASIBLE, OSQP_DUAL_INFEASIBLE_INACCURATE. lia. Qed.

    Lemma store_handed o : post (store_solution s (Some o)) (fun r => exists o', snd r = Some o' /\ handed_out n m s (fst r) o o').
    Proof.
      pose proof the_lens as LN. unfold store_solution. rewrite has_no_point. pose proof not_both as NB.
      fold (primal_inf (stat s)) (dual_inf (stat s)). unfold handed_out, same_rest.
      destruct (no_point (stat s)) eqn:EN; cbn [negb]; rs.
      - apply post_bind. intros x Hx. apply to_raw_over in Hx. apply post_bind. intros y Hy. apply to_raw_over in Hy. subst x y.
        eapply post_bindP; [apply cold_start_post|]. intros w1 ->. rs. unfold vf_set_scalar. rewrite !map_map, !map_const, ?(ln_x _ _ _ _ LN), ?(ln_y _ _ _ _ LN), ?(ln_z _ _ _ _ LN), ?(ln_dx _ _ _ _ LN), ?(ln_dy _ _ _ _ LN).
        destruct (primal_inf (stat s)).
        + rewrite (NB eq_refl). apply post_bind. intros [w2 so2] HH.
          destruct (vf_to_raw (so_prim_inf_cert _) _) as [pc|] eqn:E1; [|discriminate HH]. destruct (vf_to_raw (so_dual_inf_cert _) _) as [dc|] eqn:E2; [|discriminate HH].
          apply to_raw_over in E1. apply to_raw_over in E2. rs_in E1. rs_in E2. subst pc dc. injection HH as <- <-. apply post_ret. cbn [fst snd]. rs. eexists. split; [reflexivity|].
          rs. split; [auto 10|]. split; [auto|]. split; [discriminate|]. intros _. rewrite ?map_const, ?(ln_dx _ _ _ _ LN), ?(ln_dy _ _ _ _ LN). repeat split; auto.
        + destruct (dual_inf (stat s)).
          * cbv beta iota. apply post_bind. intros [w2 so2] HH.
            destruct (vf_to_raw (so_dual_inf_cert _) _) as [dc|] eqn:E1; [|discriminate HH]. destruct (vf_to_raw (so_prim_inf_cert _) _) as [pc|] eqn:E2; [|discriminate HH].
            apply to_raw_over in E1. apply to_raw_over in E2. rs_in E1. rs_in E2. subst pc dc. injection HH as <- <-. apply post_ret. cbn [fst snd]. rs. eexists. split; [reflexivity|].
            rs. split; [auto 10|]. split; [auto|]. split; [discriminate|]. intros _. rewrite ?map_const, ?(ln_dx _ _ _ _ LN), ?(ln_dy _ _ _ _ LN). repeat split; auto.
          * cbv beta iota. apply post_ret. cbn [fst snd]. rs. eexists. split; [reflexivity|]. rs. split; [auto 10|]. split; [auto|]. split; [discriminate|]. intros _. rewrite ?map_const, ?(ln_dx _ _ _ _ LN), ?(ln_dy _ _ _ _ LN). repeat split; auto.
      - eapply post_bindP with (P := fun r => exists W a b, (is_scaled s = true -> SC s = Some W) /\ snd r = set_w_x_prev a (set_w_z_prev b (sv_work s)) /\
          fst (fst r) = over (so_x o) (if is_scaled s then times (X s) (sc_D W) else X s) /\
          snd (fst r) = over (so_y o) (if is_scaled s then map (fun v => nmul v (sc_cinv W)) (times (Y s) (sc_E W)) else Y s)).
        { rewrite tr_scaled. destruct (is_scaled s).
          - destruct (SC s) as [W|]; [|apply post_none]. cbv beta iota. apply post_bind. intros [ux uy] Hu. rs.
            unfold unscale_solution in Hu. destruct (vf_ew_prod _ (w_x _) _) as [ux'|] eqn:Eu; [|discriminate]. destruct (vf_ew_prod _ (w_y _) _) as [uy'|] eqn:Ev; [|discriminate]. injection Hu as <- <-. cbn [fst snd].
            apply ew_inv in Eu. apply ew_inv in Ev. subst ux' uy'. apply post_bind. intros x Hx. apply to_raw_over in Hx. apply post_bind. intros y Hy. apply to_raw_over in Hy. subst x y.
            apply post_ret. exists W. eexists. eexists. cbn [fst snd]. split; [auto|]. split; [reflexivity|]. auto.
          - apply post_bind. intros x Hx. apply to_raw_over in Hx. apply post_bind. intros y Hy. apply to_raw_over in Hy. subst x y. apply post_ret. 
            exists (mkscaling n0 [] [] n0 [] []), (w_x_prev (sv_work s)), (w_z_prev (sv_work s)). cbn [fst snd]. split; [discriminate|]. split; [destruct (sv_work s); reflexivity|]. auto. }
        intros [[x y] w1] (W & a & b & HW & H1 & H2 & H3). cbn [fst snd] in *. subst w1 x y. rs. unfold vf_set_scalar. rewrite !map_const, (ln_dx _ _ _ _ LN), (ln_dy _ _ _ _ LN).
        apply post_bind. intros pc Hp. apply to_raw_over in Hp. apply post_bind. intros dc Hd. apply to_raw_over in Hd. subst pc dc. apply post_ret. cbn [fst snd]. eexists. split; [reflexivity|].
        cbn [so_x so_y so_prim_inf_cert so_dual_inf_cert]. rs. split; [auto 10|]. split; [auto|]. split; [|discriminate]. intros _. split; [exists W; auto|]. auto 10.
    Qed.

    Lemma call_get o : solok n m o -> exists s' o', osqp_get_solution (HSolver s) (Some o) = Some (0, HSolver s', Some o') /\ lives E P A q l u m n ust s' /\ handed_out n m s s' o o'.
    Proof.
      intros HO. destruct (call_lives (CGetSol (Some o))) as (fl & s' & Er & HL'). { cbn [args_ok]. rewrite dn_eq, dm_eq. auto. }
      cbn [run osqp_get_solution] in Er. cbn [osqp_get_solution]. destruct (store_solution s (Some o)) as [[s1 so]|] eqn:Es; [|discriminate]. injection Er as _ ->. cbn [fst snd].
      destruct (store_handed o _ Es) as (o' & Eo & HH). cbn [fst snd] in *. subst so. exists s', o'. auto.
    Qed.

    Lemma all_leq_crossed (a b : list K) r : vf_all_leq a b = Some r -> r = negb (crossed a b).
    Proof.
      unfold vf_all_leq, v2. destruct (_ && _); [|discriminate]. intros [= <-]. unfold crossed, zip.
      induction (combine a b) as [|[p v] t IH]; [reflexivity|]. cbn [map forallb existsb fst snd]. rewrite IH, negb_orb. reflexivity.
    Qed.

    Lemma load_inv W tmp a r : (is_scaled s = true -> SC s = Some W) -> zlen tmp = m -> load_bound s tmp a = Some r ->
      forall old, pick a r old = given_or a old (fun v => if is_scaled s then times (first m v) (sc_E W) else first m v).
    Proof.
      intros HW LT H old. unfold load_bound in H. destruct a as [a|]; [|reflexivity]. cbn [pick given_or]. destruct (vf_from_raw tmp a) as [t|] eqn:Et; [|discriminate]. apply from_raw_first in Et. rewrite LT in Et. subst t.
      rewrite tr_scaled in H. destruct (is_scaled s); [|congruence]. rewrite (HW eq_refl) in H. apply ew_inv in H. auto.
    Qed.

    Lemma vec_none qn : post (update_data_vec E s qn None None) (fun r => fst r = 0).
    Proof. unfold update_data_vec. cbv beta iota zeta. apply post_bind. intros s1 _. apply post_bind. intros s2 _. apply post_ret. reflexivity. Qed.
    Lemma call_vec qn ln un : vec_arg n qn -> vec_arg m ln -> vec_arg m un ->
      exists fl s', osqp_update_data_vec E (HSolver s) qn ln un = Some (fl, HSolver s') /\ lives E P A q l u m n ust s' /\ vec_effect n m qn ln un s fl s'.
    Proof.
      intros Hq Hl Hu. destruct (call_lives (CUpdVec qn ln un)) as (fl & s' & Er & HL'). { cbn [args_ok]. rewrite dn_eq, dm_eq. auto. }
      cbn [run] in Er. exists fl, s'. split; [exact Er|]. split; [exact HL'|]. clear HL'. pose proof the_lens as LN. pose proof (do_q _ (wo_d _ _ (iv_w _ the_inv))) as LQ. rewrite dn_eq in LQ.
      unfold osqp_update_data_vec, on_solver in Er. destruct (update_data_vec E s qn ln un) as [[f s1]|] eqn:Eu; [|discriminate]. injection Er as -> ->.
      destruct (update_data_vec_shape E s qn ln un _ Eu) as (lt & ut & okb & [V1 V2 V3 V4 V5]). cbn [fst snd] in *.
      assert (V0 : ln = None -> un = None -> fl = 0). { intros -> ->. exact (vec_none qn _ Eu). } clear Eu.
      set (W := match SC s with Some W => W | None => mkscaling n0 [] [] n0 [] [] end).
      assert (HW : is_scaled s = true -> SC s = Some W). { intros H. subst W. destruct (scaling_there H) as (W & ->). reflexivity. } clearbody W.
      pose proof (load_inv W _ _ _ HW (ln_zp _ _ _ _ LN) V1 (d_l (D s))) as P1. pose proof (load_inv W _ _ _ HW (ln_dy _ _ _ _ LN) V2 (d_u (D s))) as P2.
      exists W. split; [exact HW|]. cbv zeta. rewrite <- P1, <- P2. set (refused := match ln with Some _ => _ | None => _ end).
      assert (HR : refused = negb okb).
      { subst refused. destruct V3 as [V3|(-> & -> & ->)]; [|reflexivity]. destruct ln, un; try (apply all_leq_crossed in V3; rewrite V3, negb_involutive; reflexivity).
        destruct okb; [reflexivity|]. exfalso. destruct (V4 eq_refl) as (V6 & _). rewrite V0 in V6 by auto. discriminate V6. }
      clearbody refused. subst refused. destruct okb; cbn [negb].
      - destruct (V5 eq_refl) as (q' & Hq' & B1 & B2 & B3 & B4 & B5 & B6 & B7 & B8 & B9 & _). clear V4 V5. unfold iter3 in B4. injection B4 as -> -> ->. rewrite B1, B2, B8. rs.
        split; [discriminate|]. split; [|auto]. intros _. split; [reflexivity|]. split; [reflexivity|]. split; [|auto].
        destruct qn as [a|]; [|exact Hq']. cbn [given_or]. destruct Hq' as (q1 & F1 & F2). apply from_raw_first in F1. rewrite LQ in F1. subst q1. rewrite tr_scaled in F2.
        destruct (is_scaled s); [|exact F2]. destruct F2 as (sc & q2 & F3 & F4 & F5). rewrite (HW eq_refl) in F3. injection F3 as <-. apply ew_inv in F4. subst q2. exact F5.
      - destruct (V4 eq_refl) as (-> & t & c & ->). rs. split; [auto|]. split; [discriminate|auto].
    Qed.

    Lemma unscale_iter3 (w : work K) : post (unscale_data w) (fun w' => iter3 w' = iter3 w).
    Proof. unfold unscale_data. walk. reflexivity. Qed.
    Lemma bad_is nz k idx : mat_bad nz k idx = bad_count nz k idx.
    Proof. unfold mat_bad, bad_count. destruct idx; cbn [given negb andb]; rewrite (orb_comm (nz <? k)); reflexivity. Qed.
    Lemma values_after (M : csc K) v idx k k' M' : wf M -> 0 <= k <= nnz M -> k' = (if k =? 0 then nnz M else k) -> mat_arg (nnz M) k (Some v) idx ->
      csc_update_values M v idx k' = Some M' -> entries_after M M' (Some v) idx k.
    Proof.
      intros Wf Hk -> HA. destruct (HA Hk) as [HV HI]. specialize (HV v eq_refl). unfold entries_after. cbv zeta in *. set (k' := if k =? 0 then nnz M else k) in *.
      assert (Hk' : 0 <= k' <= nnz M) by (subst k'; destruct (k =? 0); lia). pose proof (wf_xlen _ Wf) as HX.
      destruct idx as [e|].
      - destruct (HI e eq_refl) as [HE HR]. destruct (csc_update_values_idx M n0 v e k') as (M1 & -> & E1 & E2 & E3 & E4 & E5 & E6 & E7 & V1 & U1); auto; try lia.
        { intros i Hi. specialize (HR i Hi). lia. }
        intros [= <-]. split; [apply same_pat_intro; auto|]. split; auto.
      - destruct (csc_update_values_all M n0 v k') as (M1 & -> & E1 & E2 & E3 & E4 & E5 & E6 & E7 & V1); auto; try lia.
        intros [= <-]. split; [apply same_pat_intro; auto|]. auto.
    Qed.
    Lemma nnz_get (M : csc K) z : wf M -> zget (cp M) (cn M) = Some z -> z = nnz M.
    Proof. intros Wf H. rewrite (zget_nnz _ Wf) in H. congruence. Qed.

    Lemma call_mat Px Pidx Pn Ax Aidx An : mat_arg (nnz (d_P (D s))) Pn Px Pidx -> mat_arg (nnz (d_A (D s))) An Ax Aidx ->
      exists fl s', osqp_update_data_mat E (HSolver s) Px Pidx Pn Ax Aidx An = Some (fl, HSolver s') /\ lives E P A q l u m n ust s' /\ mat_effect Px Pidx Pn Ax Aidx An s fl s'.
    Proof.
      intros HP HA. destruct (call_lives (CUpdMat Px Pidx Pn Ax Aidx An)) as (fl & s' & Er & HL'). { cbn [args_ok]. auto. }
      cbn [run] in Er. exists fl, s'. split; [exact Er|]. split; [exact HL'|]. clear HL'. pose proof (wo_d _ _ (iv_w _ the_inv)) as DO.
      unfold osqp_update_data_mat, on_solver in Er. destruct (update_data_mat E s Px Pidx Pn Ax Aidx An) as [[f s1]|] eqn:Eu; [|discriminate]. injection Er as -> ->.
      destruct (update_data_mat_shape E s Px Pidx Pn Ax Aidx An _ Eu) as (nP & nA & ZP & ZA & HH). clear Eu. cbn [fst snd] in HH.
      apply (nnz_get _ _ (do_P _ DO)) in ZP. apply (nnz_get _ _ (do_A _ DO)) in ZA. subst nP nA. rewrite !bad_is in HH.
      unfold mat_effect. cbv zeta. set (bP := bad_count _ Pn Pidx) in *. set (bA := bad_count _ An Aidx) in *.
      destruct HH as [(HB & ->)|(B1 & B2 & t & c & w1 & P2 & A2 & w4 & ls & ls' & i & g & HH)].
      - destruct (begin_update_eq s) as (t & c & ->). rs. destruct HB as [(-> & ->)|(-> & -> & ->)]; cbn [orb]; repeat split; auto; discriminate.
      - rewrite B1, B2. cbn [orb]. cbv zeta in HH. destruct HH as (G1 & G2 & G3 & G4 & G5 & G6 & -> & _). rs. rewrite tr_scaled in *.
        assert (KP : 0 <= Pn <= nnz (d_P (D s))) by (subst bP; unfold bad_count in B1; lia). assert (KA : 0 <= An <= nnz (d_A (D s))) by (subst bA; unfold bad_count in B2; lia).
        assert (FX : iter3 w4 = iter3 (sv_work s)).
        { destruct (is_scaled s).
          - pose proof (unscale_iter3 _ _ G1) as I1. pose proof (scale_data_iter3 _ _ _ G4) as I2. cbv beta in I1, I2. rewrite I2. unfold iter3 in *. rs_all. exact I1.
          - subst w4 w1. reflexivity. }
        unfold iter3 in FX. injection FX as F1 F2 F3. split; [discriminate|]. split; [discriminate|]. split; [discriminate|]. split; [|auto 10].
        intros _. split; [reflexivity|]. intros HN. rewrite HN in *. subst w4 w1. rs. split; [|split; [|auto]].
        + destruct Px as [v|]; [|exact G2]. rs_in G2. eapply values_after; eauto. apply (do_P _ DO).
        + destruct Ax as [v|]; [|exact G3]. rs_in G3. eapply values_after; eauto. apply (do_A _ DO).
    Qed.
  End One.

  Lemma over_over (a v : list K) : over (over a v) v = over a v.
  Proof. unfold over. f_equal. rewrite skipn_app, Nat.sub_diag, skipn_all. reflexivity. Qed.

  (** Reading the solution again into the same arrays leaves them as they are, if the status comes with a point. *)
  Lemma call_reread P A q l u m n ust s o s1 o1 : lives E P A q l u m n ust s -> no_point (stat s) = false -> solok n m o ->
    osqp_get_solution (HSolver s) (Some o) = Some (0, HSolver s1, Some o1) -> exists s2, osqp_get_solution (HSolver s1) (Some o1) = Some (0, HSolver s2, Some o1).
  Proof.
    intros HL HN HO H1. destruct (call_get _ _ _ _ _ _ _ _ _ HL o HO) as (t1 & r1 & H2 & HL1 & HH). rewrite H1 in H2. injection H2 as <- <-.
    destruct HH as (R1 & S1 & HH & _). destruct (HH HN) as ((W & HW & HX & HY) & C1 & C2 & X1 & Y1 & _). clear HH. destruct R1 as (_ & R2 & R3 & _).
    assert (HO1 : solok n m o1).
    { destruct HO as [O1 O2 O3 O4]. assert (LO : forall a v : list K, zlen a <= zlen (over a v)) by (intros; unfold over, zlen; rewrite app_length, skipn_length; lia).
      constructor; [rewrite HX; eapply Z.le_trans; [exact O1|apply LO]|rewrite HY; eapply Z.le_trans; [exact O2|apply LO]|rewrite C1; eapply Z.le_trans; [exact O3|apply LO]|rewrite C2; eapply Z.le_trans; [exact O4|apply LO]]. }
    destruct (call_get _ _ _ _ _ _ _ _ _ HL1 o1 HO1) as (s2 & o2 & G1 & _ & HH). exists s2. rewrite G1. do 2 f_equal. f_equal.
    destruct HH as (_ & _ & HH & _). rewrite R3 in HH. destruct (HH HN) as ((W' & HW' & HX' & HY') & C1' & C2' & _).
    assert (ES : is_scaled s1 = is_scaled s) by (unfold is_scaled; rewrite S1; reflexivity). rewrite ES, R2, X1, Y1 in *.
    destruct o1 as [x1 y1 p1 d1], o2 as [x2 y2 p2 d2]. cbn [so_x so_y so_prim_inf_cert so_dual_inf_cert] in *.
    assert (EW : is_scaled s = true -> W' = W) by (intros Hs; specialize (HW Hs); specialize (HW' Hs); congruence).
    assert (Q1 : x2 = x1). { rewrite HX'. rewrite HX. destruct (is_scaled s); [rewrite (EW eq_refl)|]; apply over_over. }
    assert (Q2 : y2 = y1). { rewrite HY'. rewrite HY. destruct (is_scaled s); [rewrite (EW eq_refl)|]; apply over_over. }
    assert (Q3 : p2 = p1) by (rewrite C1', C1; apply over_over). assert (Q4 : d2 = d1) by (rewrite C2', C2; apply over_over). rewrite Q1, Q2, Q3, Q4. reflexivity.
  Qed.

  (** What a warm start with a point and multipliers leaves does not depend on what was there. *)
  Lemma call_warm_forgets (NZ : @neqb K n0 n0 = true) P A q l u m n ust P2 A2 q2 l2 u2 ust2 s t x y s1 t1 : lives E P A q l u m n ust s -> lives E P2 A2 q2 l2 u2 m n ust2 t ->
    D t = D s -> SC t = SC s -> is_scaled t = is_scaled s -> vec_arg n (Some x) -> vec_arg m (Some y) ->
    osqp_warm_start (HSolver s) (Some x) (Some y) = Some (0, HSolver s1) -> osqp_warm_start (HSolver t) (Some x) (Some y) = Some (0, HSolver t1) ->
    X t1 = X s1 /\ Y t1 = Y s1 /\ Zv t1 = Zv s1.
  Proof.
    intros HL HT ED ES EC Hx Hy H1 H2.
    destruct (call_warm _ _ _ _ _ _ _ _ _ HL _ _ Hx Hy) as (s' & E1 & _ & (W & HW & X1 & Y1) & _ & Z1 & _). rewrite H1 in E1. injection E1 as <-.
    destruct (call_warm _ _ _ _ _ _ _ _ _ HT _ _ Hx Hy) as (t' & E2 & _ & (W' & HW' & X2 & Y2) & _ & Z2 & _). rewrite H2 in E2. injection E2 as <-.
    cbn [given_or] in *. rewrite EC, ES in *. assert (EX : X t1 = X s1 /\ Y t1 = Y s1).
    { rewrite X1, X2, Y1, Y2. destruct (is_scaled s); [|auto]. specialize (HW eq_refl). specialize (HW' eq_refl). rewrite HW in HW'. injection HW' as <-. auto. }
    destruct EX as (EX & EY). split; [auto|]. split; [auto|].
    destruct (Z1 ltac:(discriminate)) as (b & Lb & Zb). destruct (Z2 ltac:(discriminate)) as (b' & Lb' & Zb'). rewrite ED, EX in Zb'.
    pose proof (do_Am _ (wo_d _ _ (iv_w _ (the_inv _ _ _ _ _ _ _ _ _ HL)))) as HM. rewrite (dm_eq _ _ _ _ _ _ _ _ _ HL) in HM.
    symmetry. eapply (both_Axpy NZ); [reflexivity|reflexivity| | |exact Zb|exact Zb']; lia.
  Qed.
End Calls.
