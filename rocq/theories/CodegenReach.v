(** Code generation from a reachable solver. *)
From Coq Require Import ZArith String List Bool Lia.
From Verif Require Import Num Arr ArrFacts Csc CscSpec CscFacts CscFacts2 Vec VecFacts Types Linsys Scaling Validate Auxil Polish Api Placed Kkt
  LinsysFacts Inv InvStep InvApi InvScale RecSimp ValidFacts InvUpd InvSetup History SetupClaims Codegen CodegenFacts.
Import ListNotations.
Open Scope Z_scope.

(** The arrays of a matrix have exactly the lengths of its header. *)
Definition exactm {K : NumOps} (M : csc K) : Prop := zlen (cp M) = cn M + 1 /\ zlen (ci M) = cnzmax M /\ zlen (cx M) = cnzmax M /\ cnzmax M = nnz M.

Section Exact.
  Context {K : NumOps}.
  Lemma exact_same (M M' : csc K) : same_pat M M' -> exactm M -> exactm M'.
  Proof.
    intros [E1 E2] (H1 & H2 & H3 & H4). rewrite E1. unfold exactm, nnz, colp. cbn [set_x cp ci cx cn cnzmax]. rewrite E2. auto.
  Qed.
  Lemma exact_trim (M : csc K) : exactm M -> trim M = M.
  Proof. intros (H1 & H2 & H3 & _). apply trim_id; auto. Qed.
  Lemma exact_stored (M : csc K) : 0 <= cn M -> exactm M -> stored M.
  Proof. intros H0 (H1 & H2 & H3 & _). unfold stored. pose proof (zlen_nonneg (ci M)). lia. Qed.
  Lemma copy_exact (A B : csc K) jz jx : wf A -> csc_copy jz jx A = Some B -> exactm B.
  Proof.
    intros W HB. destruct (csc_copy_spec A jz jx n0 W) as (B' & EB & E1 & E2 & L1 & L2 & L3 & L4 & _ & HC & _). rewrite HB in EB. injection EB as <-.
    unfold exactm. rewrite L1, L2, L3, L4, E2. repeat split; auto. unfold nnz. rewrite E2, HC; auto. pose proof (wf_n _ W). lia.
  Qed.
End Exact.

Section Reach.
  Context {K : NumOps}.
  Variable E : Env K.
  Hypothesis EO : env_ok E.
  Hypothesis MM : nltb (OSQP_RHO_MIN K) (OSQP_RHO_MAX K) = true.

  Lemma setup_exact g P q A l u m n st s0 g' : data_readable P q A l u m n -> osqp_setup E g P q A l u m n st = Some (0, Some s0, g') ->
    exactm (d_P (w_data (sv_work s0))) /\ exactm (d_A (w_data (sv_work s0))).
  Proof.
    intros HDR HS. destruct (osqp_setup_safe E EO MM g P q A l u m n st HDR) as (r & Er & HRes). rewrite HS in Er. injection Er as <-. cbn [fst snd] in HRes.
    inversion HRes as [| |? ? ? ? ? ? ? ? ? ? EE|s1 g1 HDO HV HI Dn Dm HF Hw HLF Hsec Hhan EE]; subst; try discriminate.
    apply validate_settings_spec in HV as (ust & -> & HV). destruct (HF ust eq_refl) as [FD _ _ _ _ _ _ _ _ _ _ _ _ _].
    destruct FD as (P0 & A0 & P1 & q1 & A1 & l1 & u1 & w1 & EP & EA & CP & CA & Vq & Vl & Vu & EW & Ed & Esc). subst P A.
    destruct HDR as [HPw HAw Hqr Hlr Hur Hl0 Hu0]. specialize (HPw P0 eq_refl). specialize (HAw A0 eq_refl).
    pose proof (copy_exact _ _ _ _ HPw CP) as XP. pose proof (copy_exact _ _ _ _ HAw CA) as XA. rewrite Ed.
    destruct (tr (st_scaling ust)) eqn:Et; [|injection EW as <-; split; assumption].
    destruct (csc_copy_wf P0 (env_jz E) (env_jx E) HPw) as (P1' & EP1 & P1m & P1n & WP1 & NP1 & TP1 & C1 & C2). rewrite CP in EP1. injection EP1 as <-.
    destruct (csc_copy_wf A0 (env_jz E) (env_jx E) HAw) as (A1' & EA1 & A1m & A1n & WA1 & NA1 & _ & C3 & C4). rewrite CA in EA1. injection EA1 as <-.
    destruct HDO as [Hn Hm Hq (P0' & EQ & Pm & Pn & HT) (A0' & EQ' & Am & An) Hb]. injection EQ as <-. injection EQ' as <-.
    assert (TK : forall (o : option (list K)) k v, vf_new o k = Some v -> 0 <= k -> zlen v = k).
    { intros o k v Hv Hk. unfold vf_new in Hv. destruct o as [a|].
      - apply view_inv in Hv. lia.
      - destruct (k =? 0) eqn:E0; [|discriminate]. injection Hv as <-. unfold zlen; cbn; lia. }
    set (n := d_n (w_data (sv_work s0))) in *. set (m := d_m (w_data (sv_work s0))) in *.
    set (w0 := initial_work E P1 q1 A1 l1 u1 m n ust) in *.
    assert (Hd : dok (w_data w0)).
    { subst w0. unfold initial_work. rs. constructor; cbn [d_n d_m d_P d_A d_q d_l d_u]; auto; try lia; try (eapply TK; eauto; lia). apply TP1. split; [lia|rewrite Pn; auto]. }
    destruct (w_scaling w0) as [sc|] eqn:Esc0; [|subst w0; unfold initial_work in Esc0; rs_in Esc0; rewrite Et in Esc0; discriminate].
    assert (SC : scok n m sc).
    { subst w0. unfold initial_work in Esc0. rs_in Esc0. rewrite Et in Esc0. injection Esc0 as <-. constructor; rs; apply zlen_zrep; lia. }
    assert (HT0 : tmp_ok w0) by (subst w0; unfold initial_work; rewrite Et; split; [|split]; rs; apply zlen_zrep; lia).
    destruct (scale_data_safe (copy_settings ust) w0 sc Hd HT0 Esc0 SC) as (w' & Ew' & d' & a' & b' & c' & sc2 & E2 & [D1 D2 D3 D4 D5 D6 D7] & _).
    rewrite EW in Ew'. injection Ew' as <-. rewrite E2. unfold wscal. rs. split; [exact (exact_same _ _ D3 XP)|exact (exact_same _ _ D4 XA)].
  Qed.

  (** What is assumed of QDLDL's factors: their sizes. *)
  Definition fac_ok (fac : csc K -> @factors K) : Prop := forall M, 0 <= cn M -> stored (f_L (fac M)) /\ zlen (f_Dinv (fac M)) = cn M /\ zlen (f_D (fac M)) = cn M /\ zlen (f_etree (fac M)) = cn M /\ zlen (f_Lnz (fac M)) = cn M.

  Variable fac : csc K -> @factors K.
  Hypothesis FO : fac_ok fac.

  Theorem reach_writable g P q A l u m n st s0 g' s e : data_readable P q A l u m n -> osqp_setup E g P q A l u m n st = Some (0, Some s0, g') -> reach E s0 s -> e = 1 \/ e = 2 ->
    exactm (d_P (w_data (sv_work s))) /\ exactm (d_A (w_data (sv_work s))) /\
    exists ls, writable fac s ls e /\ ls_KKT ls = Some (ls_fac ls) /\ cnzmax (ls_fac ls) = nnz (ls_fac ls) /\ cn (ls_fac ls) = n + m.
  Proof.
    intros HDR HS HR He. destruct (setup_exact _ _ _ _ _ _ _ _ _ _ _ HDR HS) as [XP0 XA0].
    destruct (osqp_setup_safe E EO MM g P q A l u m n st HDR) as (r & Er & HRes). rewrite HS in Er. injection Er as <-. cbn [fst snd] in HRes.
    inversion HRes as [| |? ? ? ? ? ? ? ? ? ? EE|s1 g1 HDO HV HI Dn Dm HF Hw HLF Hsec Hhan EE]; subst; try discriminate.
    destruct (reach_inv E EO MM s0 s HI HR) as (HI' & F & _). destruct F as [F1 F2 F3 F4 _ _ _].
    pose proof (exact_same _ _ F3 XP0) as XP. pose proof (exact_same _ _ F4 XA0) as XA. split; [auto|]. split; [auto|].
    destruct (iv_w _ HI') as [Hd Hsc Hrho (ls & rr & Els & LO & _ & LR) HL]. exists ls.
    pose proof LO as [On Om Os Opol Opl Op Orv OK Ocm Ocn Otr (q' & SL & Hq & Hqi & PL & LP & LA & LRr & VP & VA & VR) Onz].
    destruct Hd as [Hn Hm HP HPt HPn HA HAm HAn Hq' Hl Hu].
    pose proof (pl_wf _ _ _ _ _ _ PL) as WK. destruct (FO (ls_fac ls) (wf_n _ WK)) as (S1 & S2 & S3 & S4 & S5).
    rewrite HPn in On. rewrite HAm in Om, Opl, Orv, LRr, Ocn. rewrite HPn in Opl, Ocn.
    assert (NP : nP (w_data (sv_work s)) = nnz (d_P (w_data (sv_work s)))) by (unfold nP, nnz, colp; rewrite HPn; reflexivity).
    assert (NA : nA (w_data (sv_work s)) = nnz (d_A (w_data (sv_work s)))) by (unfold nA, nnz, colp; rewrite HAn; reflexivity).
    pose proof (nnz_nonneg _ HP). pose proof (nnz_nonneg _ HA). pose proof (nnz_nonneg _ WK).
    split; [|split; [auto|split; [auto|lia]]].
    constructor; auto; try lia.
    - apply exact_stored; [lia|auto].
    - apply exact_stored; [lia|auto].
    - constructor; rewrite ?On, ?Om; auto; try lia.
      + intros v Hv. rewrite (Orv v Hv). lia.
      + intros _. exists (ls_fac ls). split; [auto|]. split; [|repeat split; lia].
        pose proof (wf_plen _ WK). pose proof (wf_ilen _ WK). pose proof (wf_xlen _ WK). pose proof (wf_n _ WK). unfold stored. lia.
    - intros Hv. unfold rho_ok in Hrho. unfold tr in Hrho. rewrite (proj2 (Z.eqb_neq _ _) Hv) in Hrho. cbn [negb] in Hrho. destruct Hrho as (ct & E1 & _ & E2 & E3). rewrite E1, E2, E3. repeat split; discriminate.
    - intros Hv. unfold sc_ok, tr in Hsc. rewrite (proj2 (Z.eqb_neq _ _) Hv) in Hsc. destruct (Hsc eq_refl) as (sc & E1 & _). rewrite E1. discriminate.
  Qed.

  (** *** The API function *)
  Variables (fmt : K -> Z) (rd : Z -> K).

  (** The options osqp_codegen accepts (osqp_api_types.h:192-201). *)
  Definition flag (z : Z) : Prop := z = 0 \/ z = 1.
  Definition options_ok (o : Z * Z * Z * Z * Z * Z) : Prop :=
    let '(e, f, p, t, i, a) := o in (e = 1 \/ e = 2) /\ flag f /\ flag p /\ flag t /\ flag i /\ flag a.

  (** Every floating-point number of the solver that is written to the file. *)
  Definition numbers (s : solver K) (ls : linsys K) (e : Z) : list K :=
    let w := sv_work s in let d := w_data w in let st := sv_settings s in let F := fac (ls_fac ls) in
    [st_rho st; st_sigma st; st_alpha st; st_cg_tol_fraction st; st_adaptive_rho_fraction st; st_adaptive_rho_tolerance st; st_eps_abs st; st_eps_rel st; st_eps_prim_inf st; st_eps_dual_inf st; st_time_limit st; st_delta st] ++
    [OSQP_INFTY K; i_rho_estimate (sv_info s)] ++ cx (d_P d) ++ cx (d_A d) ++ d_q d ++ d_l d ++ d_u d ++
    cx (f_L F) ++ f_Dinv F ++ sval (ls_rho_inv_vec ls) ++ [ls_sigma ls; ls_rho_inv ls] ++ (if e =? 1 then [] else f_D F ++ match ls_KKT ls with Some M => cx M | None => [] end) ++
    sval (w_rho_vec w) ++ sval (w_rho_inv_vec w) ++ [w_rho_inv w; w_last_rel_kkt w] ++ w_x w ++ w_y w ++ w_z w ++
    match w_scaling w with Some sc => [sc_c sc; sc_cinv sc] ++ sc_D sc ++ sc_E sc ++ sc_Dinv sc ++ sc_Einv sc | None => [] end.

  Lemma numbers_ok s ls e : Forall (back fmt rd) (numbers s ls e) -> printable fmt rd fac s ls e.
  Proof.
    unfold numbers. cbv zeta. intros H.
    repeat match type of H with Forall _ (?a ++ ?b) => let H1 := fresh "B" in apply Forall_app in H; destruct H as [H1 H] end.
    constructor; auto.
    - constructor; auto.
      + intros v Ev. rewrite Ev in *. auto.
      + intros He. match goal with HT : Forall _ (if e =? 1 then _ else _) |- _ => rewrite (proj2 (Z.eqb_neq _ _) He) in HT; apply Forall_app in HT; destruct HT as [HT1 HT2] end.
        split; auto. intros M EM. rewrite EM in HT2. auto.
    - intros v Ev. rewrite Ev in *. auto.
    - intros v Ev. rewrite Ev in *. auto.
    - intros sc Esc. rewrite Esc in H. repeat match type of H with Forall _ (?a ++ ?b) => let H1 := fresh "B" in apply Forall_app in H; destruct H as [H1 H] end. auto.
  Qed.

  (** What a generated solver structure G has to be, for a solver s and the option embedded_mode = e. *)
  Record starts_as (s : solver K) (e : Z) (G : @gen K) : Prop := mkstarts {
    sa_settings : g_settings G = set_st_device 0 (set_st_linsys_solver G_DIRECT_SOLVER (set_st_allocate_solution 1 (set_st_verbose 0 (set_st_profiler_level 0 (set_st_polishing 0 (sv_settings s))))));
    sa_status : i_status_val (g_info G) = OSQP_UNSOLVED /\ i_iter (g_info G) = 0 /\ i_rho_updates (g_info G) = 0 /\ i_rho_estimate (g_info G) = i_rho_estimate (sv_info s);
    sa_data : g_data G = w_data (sv_work s) /\ g_sym G = (1, 0);
    sa_sol : g_sol G = mksolution (zrep (d_n (w_data (sv_work s))) n0) (zrep (d_m (w_data (sv_work s))) n0) (zrep (d_m (w_data (sv_work s))) n0) (zrep (d_n (w_data (sv_work s))) n0);
    sa_scaling : (st_scaling (sv_settings s) <> 0 -> g_scaling G = w_scaling (sv_work s) /\ g_scaling G <> None) /\ (st_scaling (sv_settings s) = 0 -> g_scaling G = None);
    sa_rho : gw_rho_inv (g_work G) = w_rho_inv (sv_work s) /\ gw_rho_vec (g_work G) = w_rho_vec (sv_work s) /\
      (st_rho_is_vec (sv_settings s) <> 0 -> gw_rho_inv_vec (g_work G) = w_rho_inv_vec (sv_work s) /\ (e = 2 -> gw_constr_type (g_work G) = Some (w_constr_type (sv_work s)) /\ w_constr_type (sv_work s) <> None));
    sa_iter : gw_x (g_work G) = w_x (sv_work s) /\ gw_y (g_work G) = w_y (sv_work s) /\ gw_z (g_work G) = w_z (sv_work s) /\
      gw_rho_updated (g_work G) = w_rho_updated (sv_work s) /\ gw_last_rel_kkt (g_work G) = w_last_rel_kkt (sv_work s);
    sa_ls : exists ls, w_linsys (sv_work s) = Some ls /\ gl_L (g_ls G) = trim (f_L (fac (ls_fac ls))) /\ gl_Dinv (g_ls G) = f_Dinv (fac (ls_fac ls)) /\ gl_P (g_ls G) = ls_perm ls /\
      gl_rho_inv_vec (g_ls G) = ls_rho_inv_vec ls /\ gl_sigma (g_ls G) = ls_sigma ls /\ gl_rho_inv (g_ls G) = ls_rho_inv ls /\ gl_n (g_ls G) = d_n (w_data (sv_work s)) /\ gl_m (g_ls G) = d_m (w_data (sv_work s)) /\
      (e = 2 -> exists KKT, ls_KKT ls = Some KKT /\ gl_two (g_ls G) = Some (trim KKT, take (nnz (d_P (w_data (sv_work s)))) (ls_PtoKKT ls), take (nnz (d_A (w_data (sv_work s)))) (ls_AtoKKT ls), take (d_m (w_data (sv_work s))) (ls_rhotoKKT ls), (f_D (fac (ls_fac ls)), f_etree (fac (ls_fac ls)), f_Lnz (fac (ls_fac ls))))) }.

  Lemma take_is {A} n (l : list A) : zlen l = n -> take n l = l.
  Proof. intros <-. apply take_all. Qed.

  Theorem codegen_reach g P q A l u m n st s0 g' s e f p t i a : data_readable P q A l u m n -> osqp_setup E g P q A l u m n st = Some (0, Some s0, g') -> reach E s0 s ->
    options_ok (e, f, p, t, i, a) -> i_status_val (sv_info s) <> OSQP_NON_CVX -> (forall ls, w_linsys (sv_work s) = Some ls -> Forall (back fmt rd) (numbers s ls e)) ->
    exists ds G, osqp_codegen fmt fac s (Some (e, f, p, t, i, a)) = Some (0, ds) /\ NoDup (map fst ds) /\ load rd (mkcfg e false false false) ds = Some G /\ starts_as s e G.
  Proof.
    intros HDR HS HR HO HNC HB. destruct HO as (He & HO). pose proof (reach_writable _ _ _ _ _ _ _ _ _ _ _ s e HDR HS HR He) as (XP & XA & ls & HW & EK & EZ & EC).
    specialize (HB ls (wt_linsys _ _ _ _ HW)). destruct (gen_ok fmt rd fac s ls e HW (numbers_ok _ _ _ HB)) as (ds & E1 & E2 & E3). exists ds, (image fac s ls e). split; [|split; [auto|split; [auto|]]].
    - unfold osqp_codegen. rewrite (proj2 (Z.eqb_neq _ _) HNC), (wt_linsys _ _ _ _ HW). cbv beta iota. rewrite E1.
      destruct HO as ([->| ->] & [->| ->] & [->| ->] & [->| ->] & [->| ->]); destruct He as [->| ->]; reflexivity.
    - destruct (osqp_setup_safe E EO MM g P q A l u m n st HDR) as (r & Er & HRes). rewrite HS in Er. injection Er as <-. cbn [fst snd] in HRes.
      inversion HRes as [| |? ? ? ? ? ? ? ? ? ? EE|s1 g1 HDO HV HI Dn Dm HF Hw HLF Hsec Hhan EE]; subst; try discriminate.
      destruct (reach_inv E EO MM s0 s HI HR) as (HI' & F & _). destruct (iv_w _ HI') as [Hd Hsc Hrho (ls' & rr & Els & LO & _ & LR) HL].
      pose proof HW as [We Wn Wm WP WA WnP WnA Wl Wln Wlm Wls Wrv Wsc]. rewrite Wl in Els. injection Els as <-.
      pose proof LO as [On Om Os Opol Opl Op Orv OK Ocm Ocn Otr (q' & SL & Hq & Hqi & PL & LP & LA & LRr & VP & VA & VR) Onz].
      destruct Hd as [Hn Hm HP HPt HPn HA HAm HAn Hq' Hl Hu]. destruct (FO (ls_fac ls) ltac:(lia)) as (S1 & S2 & S3 & S4 & S5).
      unfold image. cbv zeta. constructor; cbn [g_settings g_info g_sol g_data g_sym g_scaling g_ls g_work gen_info gen_work gw_rho_vec gw_rho_inv_vec gw_constr_type gw_x gw_y gw_z gw_rho_inv gw_rho_updated gw_last_rel_kkt]; cbv zeta.
      + reflexivity.
      + repeat split.
      + split; [|reflexivity]. unfold gen_data. rewrite !exact_trim by auto. destruct (w_data (sv_work s)); reflexivity.
      + reflexivity.
      + destruct (Z.eqb_spec (st_scaling (sv_settings s)) 0) as [ES|ES]; cbn [negb]; split; intros H0; try contradiction; auto.
      + split; [reflexivity|]. unfold rho_ok, tr in Hrho. destruct (Z.eqb_spec (st_rho_is_vec (sv_settings s)) 0) as [ES|ES]; cbn [negb] in *.
        * split; [auto|]. intros H0. contradiction.
        * split; [reflexivity|]. intros _. split; [reflexivity|]. intros ->. split; [reflexivity|]. apply (Wrv ES). lia.
      + repeat split.
      + assert (NP : nP (w_data (sv_work s)) = nnz (d_P (w_data (sv_work s)))) by (unfold nP, nnz, colp; rewrite HPn; reflexivity).
        assert (NA : nA (w_data (sv_work s)) = nnz (d_A (w_data (sv_work s)))) by (unfold nA, nnz, colp; rewrite HAn; reflexivity).
        exists ls. unfold gen_ls. cbv zeta. cbn [gl_L gl_Dinv gl_P gl_rho_inv_vec gl_sigma gl_rho_inv gl_n gl_m gl_two]. rewrite NP, NA.
        split; [auto|]. split; [auto|]. split; [apply take_is; lia|]. split; [apply take_is; lia|].
        split; [destruct (ls_rho_inv_vec ls) as [v|]; auto; rewrite take_is; [auto|rewrite (Orv v eq_refl); lia]|].
        do 2 (split; [auto|]). split; [lia|]. split; [lia|]. intros ->. exists (ls_fac ls). split; [auto|]. change (2 =? 1) with false. cbv iota. rewrite EK, Wlm.
        rewrite (take_is (ls_n ls + d_m (w_data (sv_work s))) (f_D _)), (take_is _ (f_etree _)), (take_is _ (f_Lnz _)) by lia. reflexivity.
  Qed.

  (** The exit flags. *)
  Theorem codegen_codes s o : (i_status_val (sv_info s) = OSQP_NON_CVX -> osqp_codegen fmt fac s o = Some (OSQP_NONCVX_ERROR, [])) /\
    (i_status_val (sv_info s) <> OSQP_NON_CVX -> w_linsys (sv_work s) = None -> osqp_codegen fmt fac s o = Some (OSQP_WORKSPACE_NOT_INIT_ERROR, [])) /\
    (i_status_val (sv_info s) <> OSQP_NON_CVX -> w_linsys (sv_work s) <> None -> (forall v, o = Some v -> ~ options_ok v) -> osqp_codegen fmt fac s o = Some (OSQP_CODEGEN_DEFINES_ERROR, [])).
  Proof.
    unfold osqp_codegen. split; [|split].
    - intros ->. reflexivity.
    - intros HN ->. rewrite (proj2 (Z.eqb_neq _ _) HN). reflexivity.
    - intros HN HL HO. rewrite (proj2 (Z.eqb_neq _ _) HN). destruct (w_linsys (sv_work s)); [|contradiction]. destruct o as [[[[[[e f] p] t] i] a]|]; [|reflexivity].
      specialize (HO _ eq_refl). unfold options_ok, flag in HO. match goal with |- (if ?b then _ else _) = _ => destruct b eqn:EB; [reflexivity|exfalso; apply HO] end. lia.
  Qed.

  (** With any of these three options the member that decides about adapting rho does not start with the solver's value. *)
  Theorem codegen_misplaced g P q A l u m n st s0 g' s e f p t i a : data_readable P q A l u m n -> osqp_setup E g P q A l u m n st = Some (0, Some s0, g') -> reach E s0 s ->
    options_ok (e, f, p, t, i, a) -> i_status_val (sv_info s) <> OSQP_NON_CVX ->
    exists ds, osqp_codegen fmt fac s (Some (e, f, p, t, i, a)) = Some (0, ds) /\
      (forall pr dv, as_addr (field (mkcfg e true pr dv) ds "work" "timer") = (if w_rho_updated (sv_work s) =? 0 then Some None else None) /\
        as_int (field (mkcfg e true pr dv) ds "work" "first_run") = None) /\
      (forall c, c_embedded c = e -> c_profiling c || c_printing c || c_derivatives c = true -> as_flt rd (field c ds "work" "last_rel_kkt") = Some (nofZ 0)).
  Proof.
    intros HDR HS HR HO HNC. destruct HO as (He & HO). pose proof (reach_writable _ _ _ _ _ _ _ _ _ _ _ s e HDR HS HR He) as (XP & XA & ls & HW & EK & EZ & EC).
    destruct (misplaced fmt fac s ls e HW) as (ds & E1 & E2 & E3 & E4 & E5). exists ds. split.
    - unfold osqp_codegen. rewrite (proj2 (Z.eqb_neq _ _) HNC), (wt_linsys _ _ _ _ HW). cbv beta iota. rewrite E1.
      destruct HO as ([->| ->] & [->| ->] & [->| ->] & [->| ->] & [->| ->]); destruct He as [->| ->]; reflexivity.
    - split.
      + intros pr dv. destruct (E2 pr dv) as (F1 & F2 & F3 & F4). rewrite F1, F2. split; [|reflexivity]. cbn [as_addr]. destruct (w_rho_updated (sv_work s)); reflexivity.
      + intros [e' pf pr dv] Ee Hc. cbn [c_embedded c_profiling c_printing c_derivatives] in *. subst e'. assert (F : field (mkcfg e pf pr dv) ds "work" "last_rel_kkt" = Some (IInt 0)).
        { destruct pf; [apply E2|]. destruct pr, dv; try discriminate; [apply E5|apply E3|apply E4]. }
        rewrite F. reflexivity.
  Qed.
End Reach.
