(** Results that can be repeated: the same calls with the same data give the same results whatever the clock shows. *)
From Coq Require Import ZArith String List Bool Lia.
From Verif Require Import Num Arr ArrFacts Csc CscSpec CscFacts CscFacts2 Scatter CscFacts3 CscFacts5 Vec Types RecSimp Kkt Linsys Scaling Validate Auxil VecFacts LinsysFacts LinsysSolve Inv InvStep InvApi InvPolish InvSolve Polish Api
  InvScale ValidFacts InvUpd InvSetup History Frame FrameSolve FrameUpd DataFacts LinFrame SolLen TwinInit TwinKer TwinStep TwinTerm TwinSolve TwinFinish TwinHist AtyFacts MachineClaims.
Import ListNotations.
Open Scope Z_scope.
Local Open Scope opt_scope.

(** ** What the caller sees *)
Section See.
  Context {K : NumOps}.

  (** Everything a caller can read from the solver after a call, except the times and the estimate of rho. *)
  Definition seen (s : solver K) :=
    (sv_settings s, sv_solution s,
     (i_status (sv_info s), i_status_val (sv_info s), i_status_polish (sv_info s)),
     (i_obj_val (sv_info s), i_dual_obj_val (sv_info s), i_duality_gap (sv_info s), i_prim_res (sv_info s), i_dual_res (sv_info s)),
     (i_iter (sv_info s), i_rho_updates (sv_info s), i_rel_kkt_error (sv_info s), i_primdual_int (sv_info s))).
  (** The estimate of rho of a solve that returned without an error. *)
  Definition estimate (c : call K) (fl : Z) (s : solver K) : option K :=
    match c with CSolve => if fl <=? 0 then Some (i_rho_estimate (sv_info s)) else None | _ => None end.

  (** A session: the list of everything seen after each call (code, structure filled by osqp_get_solution, estimate of rho, the rest), and the solver at the end. *)
  Fixpoint play (e : Env K) (cs : list (call K)) (s : solver K) {struct cs} :=
    match cs with
    | [] => Some ([], s)
    | c :: cs' =>
        match ask e c s with
        | Some (fl, o, HSolver t) => r <- play e cs' t ;; Some ((fl, o, estimate c fl t, seen t) :: fst r, snd r)
        | _ => None
        end
    end.

  (** A solve that no interrupt and no time limit cuts short, and whose interval of adaptation the clock does not choose. *)
  Definition unhurried (e : Env K) (s : solver K) : Prop :=
    (forall k, env_int e k = false) /\
    (ntruth (st_time_limit (sv_settings s)) = true -> forall k t, t = i_setup_time (sv_info s) \/ t = i_update_time (sv_info s) \/ t = n0 ->
       nleb (st_time_limit (sv_settings s)) (nadd t (env_clock e k)) = false) /\
    (st_adaptive_rho (sv_settings s) <> ADAPTIVE_RHO_TIME \/ st_adaptive_rho_interval (sv_settings s) <> 0).
  (** A session with arguments of the right sizes in which every solve is unhurried. *)
  Fixpoint fits (e : Env K) (cs : list (call K)) (s : solver K) {struct cs} : Prop :=
    match cs with
    | [] => True
    | c :: cs' => args_ok c s /\ (c = CSolve -> unhurried e s) /\ forall fl o t, ask e c s = Some (fl, o, HSolver t) -> fits e cs' t
    end.
End See.

Section Rep.
  Context {K : NumOps}.
  Variables E E' : Env K.
  Hypothesis ES : env_sim E E'.
  Hypothesis EO : env_ok E.
  Hypothesis EO' : env_ok E'.
  Hypothesis NZ : @neqb K n0 n0 = true.
  Hypothesis MM : nltb (OSQP_RHO_MIN K) (OSQP_RHO_MAX K) = true.

  (** Equal but for what the library keeps outside of the solver. *)
  Definition wd (s s' : solver K) : Prop := sv_settings s' = sv_settings s /\ sv_solution s' = sv_solution s /\ sv_info s' = sv_info s /\ sv_work s' = sv_work s.
  Lemma pop_wd s s' : wd s s' -> both (pop_sec s) (pop_sec s') wd.
  Proof. intros H. unfold pop_sec. destruct (g_sections (sv_world s)), (g_sections (sv_world s')); intros a b X Y; try discriminate. injection X as <-. injection Y as <-. exact H. Qed.

  (** Equal but for the set-up time. *)
  Definition wt (s s' : solver K) : Prop := sv_settings s' = sv_settings s /\ sv_solution s' = sv_solution s /\ (exists t, sv_info s' = set_i_setup_time t (sv_info s)) /\ sv_work s' = sv_work s.

  Lemma pop_wt (a a' : solver K) st i i' w : sv_solution a' = sv_solution a -> (exists t, i' = set_i_setup_time t i) ->
    both (pop_sec (set_sv_settings st (set_sv_info i (set_sv_work w a)))) (pop_sec (set_sv_settings st (set_sv_info i' (set_sv_work w a')))) wt.
  Proof.
    intros H (t & ->). unfold pop_sec. destruct (g_sections _), (g_sections _); intros x1 x2 X Y; try discriminate. injection X as <-. injection Y as <-.
    split; [|split; [|split]]; rs; auto. exists t. auto.
  Qed.
  Lemma itime (i : info K) t t' r a b c d : exists x, set_i_obj_val a (set_i_prim_res b (set_i_dual_res c (set_i_rel_kkt_error d (set_i_rho_updates 0 (set_i_rho_estimate r (set_i_setup_time t' i)))))) =
    set_i_setup_time x (set_i_obj_val a (set_i_prim_res b (set_i_dual_res c (set_i_rel_kkt_error d (set_i_rho_updates 0 (set_i_rho_estimate r (set_i_setup_time t i))))))).
  Proof. exists t'. destruct i. reflexivity. Qed.

  Lemma setup_both g g' P q A l u m n st : both (osqp_setup E g P q A l u m n st) (osqp_setup E' g' P q A l u m n st)
    (fun r r' => fst (fst r') = fst (fst r) /\ match snd (fst r), snd (fst r') with None, None => True | Some s, Some s' => wt s s' | _, _ => False end).
  Proof.
    unfold osqp_setup. eapply both_bind; [apply both_same; reflexivity|]. intros bad ? <-. destruct bad; [apply both_ret; cbn; auto|].
    destruct (validate_settings st true); [apply both_ret; cbn; auto|]. do 3 (eapply both_bind; [apply both_same; reflexivity|]; intros ? ? <-). rewrite (es_jz _ _ ES), (es_jx _ _ ES).
    do 5 (eapply both_bind; [apply both_same; reflexivity|]; intros ? ? <-). cbv zeta.
    assert (IW : forall a b c d e f g h, initial_work E' a b c d e f g h = initial_work E a b c d e f g h) by (intros; unfold initial_work; rewrite ?(es_jz _ _ ES), ?(es_jx _ _ ES); reflexivity). rewrite IW. clear IW. generalize (initial_work E a2 a3 a4 a5 a6 m n a). intros w0.
    eapply both_bind with (R := wd).
    { destruct (tr _).
      - unfold push_sec. rs. eapply both_bind; [apply both_same; reflexivity|]. intros w ? <-. apply pop_wd. repeat split; rs; reflexivity.
      - apply both_ret. repeat split; reflexivity. }
    intros s s' (D1 & D2 & D3 & D4).
    eapply both_bind with (R := wd).
    { destruct (tr _).
      - eapply both_bind with (R := fun r r' => wd (snd r) (snd r')); [|intros r r' H; apply both_ret; exact H].
        unfold set_rho_vec. rs. rewrite D1, D4. do 3 (eapply both_bind; [apply both_same; reflexivity|]; intros ? ? <-). apply both_ret. cbn [snd]. repeat split; rs; congruence.
      - apply both_ret. repeat split; rs; congruence. }
    clear s s' D1 D2 D3 D4. intros s s' (D1 & D2 & D3 & D4). rewrite D4, D1, (init_env _ _ ES). eapply both_bind; [apply both_same; reflexivity|]. intros [flag [ls|]] ? <-.
    2:{ rewrite D3. eapply both_bind; [apply both_same; reflexivity|]. intros i ? <-. apply both_ret. cbn [fst snd]. split; auto. repeat split; rs; auto. exists (i_setup_time i). destruct i; reflexivity. }
    rs. eapply both_bind; [apply both_same; reflexivity|]. intros w ? <-. 
    set (t1 := if tr (st_allocate_solution _) then set_sv_solution _ (set_sv_work w (set_sv_work _ s)) else _). set (t1' := if tr (st_allocate_solution _) then set_sv_solution _ (set_sv_work w (set_sv_work _ s')) else _).
    assert (HD : wd t1 t1'). { subst t1 t1'. destruct (tr (st_allocate_solution _)); repeat split; rs; auto. }
    clearbody t1 t1'. clear s s' D1 D2 D3 D4. destruct HD as (D1 & D2 & D3 & D4). rewrite D3. eapply both_bind; [apply both_same; reflexivity|]. intros i ? <-.
    unfold toc. rs. rewrite D4, D1.
    eapply both_bind with (R := wt).
    { apply pop_wt; [exact D2|apply itime]. }
    intros s s' (F1 & F2 & F3 & F4). apply both_ret. cbn [fst snd]. split; auto. repeat split; rs; auto. rewrite F4. reflexivity.
  Qed.

  Lemma setup_result_of (e : Env K) (eo : env_ok e) g P q A l u m n ust s g1 : data_readable P q A l u m n -> osqp_setup e g P q A l u m n (Some ust) = Some (0, Some s, g1) ->
    Inv s /\ d_n (w_data (sv_work s)) = n /\ d_m (w_data (sv_work s)) = m /\ fresh e P q A l u m n ust s /\ validate_settings (Some ust) true = false /\ data_ok P q A l u m n.
  Proof.
    intros HR H. destruct (osqp_setup_safe e eo MM g P q A l u m n (Some ust) HR) as (r & Er & HRes). rewrite H in Er. injection Er as <-. cbn [fst snd] in HRes.
    inversion HRes; subst; auto 10.
  Qed.

  Lemma setup_h g g' P q A l u m n ust s g1 : data_readable P q A l u m n -> osqp_setup E g P q A l u m n (Some ust) = Some (0, Some s, g1) ->
    exists s' g1', osqp_setup E' g' P q A l u m n (Some ust) = Some (0, Some s', g1') /\ hs s s'.
  Proof.
    intros HR H. destruct (osqp_setup_safe E' EO' MM g' P q A l u m n (Some ust) HR) as ([[fl so] g1'] & Er & _).
    pose proof (setup_both g g' P q A l u m n (Some ust) _ _ H Er) as (F1 & F2). cbn [fst snd] in F1, F2. subst fl. destruct so as [s'|]; [|contradiction].
    exists s', g1'. split; auto. destruct F2 as (D1 & D2 & (t & D3) & D4).
    destruct (setup_result_of E EO _ _ _ _ _ _ _ _ _ _ _ HR H) as (HI & Hn & Hm & _).
    assert (HX : forall o, sv_solution s = Some o -> solex (w_data (sv_work s)) o).
    { intros o Ho. pose proof (setup_sol E _ _ _ _ _ _ _ _ _ _ _ _ _ H Ho) as ->. unfold solex. cbn [so_x so_y so_prim_inf_cert so_dual_inf_cert].
      pose proof (wo_d _ _ (iv_w _ HI)) as []. rewrite !zlen_zrep; auto; lia. }
    split; auto. constructor; auto.
    - rewrite D4. pose proof (wo_ls _ _ (iv_w _ HI)) as (ls & r & El & _). constructor; auto. constructor; auto. exists ls, ls. auto using lsim_refl.
    - rewrite D3. constructor; rs; auto; tauto.
    - rewrite D4. auto.
    - rewrite D2. tauto.
    - intros o Ho. rewrite D4. apply HX. congruence.
  Qed.

  Lemma same_pat_nnz (M M' : csc K) : same_pat M M' -> nnz M' = nnz M.
  Proof. intros (H & _). rewrite H. reflexivity. Qed.
  Lemma args_fr c (s s' : solver K) : fr s s' -> args_ok c s -> args_ok c s'.
  Proof.
    intros [Hn Hm HP HA _ _ _]. apply same_pat_nnz in HP. apply same_pat_nnz in HA. unfold args_ok. rewrite Hn, Hm, HP, HA. auto.
  Qed.

  Lemma hs_seen (s s' : solver K) : hs s s' -> seen s' = seen s.
  Proof.
    intros [[Est _ [] _ _ _ _] Eso]. unfold seen. destruct (ti_o I) as (-> & -> & ->). destruct (ti_r I) as (-> & ->).
    rewrite Est, Eso, ti_s, ti_v, (ti_S I), (ti_it I), (ti_U I), (ti_k I), (ti_I I). reflexivity.
  Qed.

  Lemma play_both cs : forall (s s' : solver K), hs s s' -> Inv s -> Inv s' -> 0 < st_max_iter (sv_settings s) -> fits E cs s -> fits E' cs s' ->
    exists outs t t', play E cs s = Some (outs, t) /\ play E' cs s' = Some (outs, t').
  Proof.
    induction cs as [|c cs IH]; intros s s' H HI HI' HM HU HU'.
    { exists [], s, s'. cbn. auto. }
    destruct HU as (HA & HU & HN), HU' as (HA' & HU' & HN').
    destruct (ask_both E E' ES EO EO' NZ MM c s s' H HI HI' HA) as (fl & o & t & t' & A1 & A2 & HT & HE).
    { intros Hc. destruct (HU Hc) as (U1 & U2 & U3). split; [split; auto|]. split; auto. lia. }
    { intros Hc. destruct (HU' Hc) as (U1 & U2 & U3). split; [split; auto|]. split; auto. rewrite (hs_st _ _ H). lia. }
    assert (R1 : run E c s = Some (fl, HSolver t)) by (rewrite ask_run, A1; reflexivity).
    assert (R2 : run E' c s' = Some (fl, HSolver t')) by (rewrite ask_run, A2; reflexivity).
    destruct (run_safe E EO MM c s HI HA) as (r & X & t1 & Y & I1 & F1 & _). rewrite R1 in X. injection X as <-. cbn [snd] in Y. injection Y as <-.
    destruct (run_safe E' EO' MM c s' HI' HA') as (r & X & t1 & Y & I1' & _ & _). rewrite R2 in X. injection X as <-. cbn [snd] in Y. injection Y as <-.
    destruct (IH t t') as (outs & z & z' & P1 & P2); eauto.
    - eapply run_max; eauto.
    - cbn [play]. rewrite A1, A2, P1, P2. cbn [fst snd].
      assert (EE : estimate c fl t' = estimate c fl t). { destruct c; cbn [estimate]; auto. destruct (fl <=? 0) eqn:El; auto. rewrite (HE eq_refl); [auto|lia]. }
      rewrite EE, (hs_seen _ _ HT). eexists _, z, z'. auto.
  Qed.

  Theorem repeatable g g' P q A l u m n ust cs s s' g1 g1' : data_readable P q A l u m n ->
    osqp_setup E g P q A l u m n (Some ust) = Some (0, Some s, g1) -> osqp_setup E' g' P q A l u m n (Some ust) = Some (0, Some s', g1') -> fits E cs s -> fits E' cs s' ->
    exists outs t t', play E cs s = Some (outs, t) /\ play E' cs s' = Some (outs, t').
  Proof.
    intros HR HS HS' HT HT'. destruct (setup_h g g' P q A l u m n ust s g1 HR HS) as (s2 & g2 & HS2 & H). rewrite HS' in HS2. injection HS2 as <- <-.
    destruct (setup_result_of E EO _ _ _ _ _ _ _ _ _ _ _ HR HS) as (HI & _ & _ & HF & HV & _). destruct (setup_result_of E' EO' _ _ _ _ _ _ _ _ _ _ _ HR HS') as (HI' & _).
    assert (HM : 0 < st_max_iter (sv_settings s)).
    { apply validate_settings_spec in HV as (st' & [= <-] & HV). rewrite (fs_settings _ _ _ _ _ _ _ _ _ _ HF).
      replace (st_max_iter _) with (st_max_iter ust) by (unfold setup_adaptive_rho; repeat match goal with |- context [if ?b then _ else _] => destruct b end; destruct ust; reflexivity). apply HV. }
    apply play_both; auto.
  Qed.

  (** A refused problem is refused with the same code. *)
  Theorem setup_repeatable g g' P q A l u m n st : data_readable P q A l u m n ->
    exists fl so g1 so' g1', osqp_setup E g P q A l u m n st = Some (fl, so, g1) /\ osqp_setup E' g' P q A l u m n st = Some (fl, so', g1') /\
      option_map seen so' = option_map seen so.
  Proof.
    intros HR. destruct (osqp_setup_safe E EO MM g P q A l u m n st HR) as ([[fl so] g1] & Er & _). destruct (osqp_setup_safe E' EO' MM g' P q A l u m n st HR) as ([[fl' so'] g1'] & Er' & _).
    pose proof (setup_both g g' P q A l u m n st _ _ Er Er') as (F1 & F2). cbn [fst snd] in *. subst fl'. exists fl, so, g1, so', g1'. split; auto. split; auto.
    destruct so as [s|], so' as [s'|]; try contradiction; auto. destruct F2 as (D1 & D2 & (t & D3) & _). cbn. unfold seen. rewrite D1, D2, D3. reflexivity.
  Qed.
End Rep.
