(** The factorised matrix and the penalty parameters over any session (C11, C12, C13, C27, C28). *)
From Coq Require Import ZArith Reals List Bool Lia Lra String.
From Verif Require Import Num Arr ArrFacts RSum Csc CscSpec CscFacts CscFacts2 Scatter Vec VecFacts Types Placed Kkt KktFacts KktFacts2 KktFacts3 KktSpec KktDense Linsys LinsysFacts LinsysSolve Scaling Validate Auxil Polish Api
  Inv RecSimp InvStep InvApi InvScale InvSolve ValidFacts InvUpd InvSetup History RealVec RealStep Frame FrameSolve ProbSpec ScaleReal FrameUpd UserSpec Refine ExEnv Ldl LdlEnv Session ExReal DataFacts QpSpec.
Import ListNotations.
Open Scope Z_scope.

(** p is a permutation of 0 .. N-1. *)
Definition permutes (p : list Z) (N : Z) : Prop :=
  (forall i, 0 <= i < N -> 0 <= znth 0 p i < N) /\ (forall i j, 0 <= i < N -> 0 <= j < N -> znth 0 p i = znth 0 p j -> i = j).

(** The symmetric matrix with upper triangle M, reordered by p, is K. *)
Definition reorders (M : csc Rops) (p : list Z) (N : Z) (K : Z -> Z -> R) : Prop :=
  cn M = N /\ cm M = N /\ triu M /\ permutes p N /\
  forall a b, 0 <= a < N -> 0 <= b < N -> sdns M a b = K (znth 0 p a) (znth 0 p b).

Lemma perm_permutes p N : perm_ok (Some p) N -> permutes p N.
Proof. intros (_ & H2 & H3). cbn [pm] in *. split; auto. Qed.

Lemma kktS_ext n m P A sg d P' A' sg' d' i j : 0 <= n -> 0 <= i < n + m -> 0 <= j < n + m ->
  (forall a b, 0 <= a < n -> 0 <= b < n -> P a b = P' a b) -> (forall a b, 0 <= a < m -> 0 <= b < n -> A a b = A' a b) -> sg = sg' -> (forall a, 0 <= a < m -> d a = d' a) ->
  kktS n P A sg d i j = kktS n P' A' sg' d' i j.
Proof.
  intros Hn Hi Hj HP HA <- Hd. unfold kktS. destruct (Z.ltb_spec i n), (Z.ltb_spec j n).
  - rewrite HP by lia. auto. - apply HA; lia. - apply HA; lia. - destruct (i =? j); auto. rewrite Hd by lia. auto.
Qed.

(** kkt.c:109-243 (form_KKT): the assembled matrix. *)
Lemma form_KKT_dense jz jx (P A : csc Rops) sigma param2 sc mP mA mR : wf P -> triu P -> wf A -> cn A = cn P ->
  (forall w, param2 = Some w -> cm A <= zlen w) ->
  (forall t, mP = Some t -> nnz P <= zlen t) -> (forall t, mA = Some t -> nnz A <= zlen t) -> (forall t, mR = Some t -> cm A <= zlen t) ->
  exists M mP' mA' mR', @form_KKT Rops jz jx P A false sigma param2 sc mP mA mR = Some (M, mP', mA', mR') /\
    wf M /\ cm M = cm A + cn P /\ cn M = cm A + cn P /\ triu M /\
    forall i j, 0 <= i < cm A + cn P -> 0 <= j < cm A + cn P ->
      sdns M i j = kktS (cn P) (sdns P) (dns A) sigma (fun k => match param2 with Some w => rnth w k | None => sc end) i j.
Proof.
  intros WP TP WA Hn H1 H2 H3 H4.
  destruct (form_KKT_spec P A WP WA (proj1 TP) Hn jz jx sigma param2 sc mP mA mR H1 H2 H3 H4) as (M & a & b & c & E & PL & Em & En & _).
  exists M, a, b, c. split; auto. split; [exact (pl_wf _ _ _ _ _ _ PL)|]. split; auto. split; auto. split.
  { eapply placed_triu; [exact PL|congruence|]. apply kitems_triu; auto. }
  intros i j Hi Hj. rewrite <- En in Hi, Hj.
  rewrite (sdns_placed _ _ _ _ _ _ (kktS (cn P) (sdns P) (dns A) sigma (fun k => match param2 with Some w => rnth w k | None => sc end)) PL); auto.
  { intros; apply kktS_sym. intros; apply sdns_sym. }
  intros a' b' Ha Hb. rewrite En in Hb. rewrite kitems_sum_sym by auto. pose proof (wf_n _ WP).
  apply (kktS_ext (cn P) (cm A)); auto; try lia. intros k Hk. unfold prm. rewrite n0_R. cbn [nsub Rops]. unfold rnth. destruct param2; fix_R; rewrite ?n0_R; lra.
Qed.

(** The penalty documented for a constraint l <= a'x <= u: RHO_MIN when both bounds are infinite, 1000 rho for an equality, rho otherwise. *)
Definition penalty (rho l u : R) : R :=
  if Rlt_dec l (- 10 ^ 26) then if Rlt_dec (10 ^ 26) u then / 10 ^ 6 else (if Rlt_dec (u - l) (/ 10 ^ 4) then 10 ^ 3 * rho else rho)
  else if Rlt_dec (u - l) (/ 10 ^ 4) then 10 ^ 3 * rho else rho.

Lemma infval_R : @infval Rops = (10 ^ 26)%R.
Proof. unfold infval. rewrite infty_R, min_scaling_R. cbn [nmul Rops]. replace (10 ^ 30)%R with (10 ^ 26 * 10 ^ 4)%R by ring. change (10 ^ 26 * 10 ^ 4 * / 10 ^ 4 = 10 ^ 26)%R. field. Qed.

Lemma rho_of_penalty rho l u : @rho_of Rops rho (bound_type (K := Rops) l u (OSQP_RHO_TOL Rops) infval) = penalty rho l u.
Proof.
  unfold bound_type, penalty, rho_of. rewrite infval_R, rho_tol_R, rho_eq_R, rho_min_R. cbn [nltb nopp nsub nmul Rops]. unfold Rltb.
  repeat match goal with |- context [Rlt_dec ?a ?b] => destruct (Rlt_dec a b) end; cbn [andb Z.eqb Z.ltb Z.compare]; auto.
Qed.

(** Penalties follow the stored bounds. *)
Definition kinds (s : solver Rops) : Prop := tr (st_rho_is_vec (sv_settings s)) = true ->
  forall i, 0 <= i < d_m (w_data (sv_work s)) ->
    rho_at (sv_settings s) (sv_work s) i = penalty (st_rho (sv_settings s)) (rnth (d_l (w_data (sv_work s))) i) (rnth (d_u (w_data (sv_work s))) i).

Lemma ctsync_kinds (s : solver Rops) : Inv s -> ctsync s -> kinds s.
Proof.
  intros HI HC Ev i Hi. destruct (HC Ev) as (ct0 & ct & ch & Eb & Ec). clear HC.
  pose proof (wo_rho _ _ (iv_w _ HI)) as HR. unfold rho_ok in HR. rewrite Ev in HR. destruct HR as (ct' & E1 & Lc & E2 & _). rewrite Ec in E1. injection E1 as <-.
  unfold rho_at. rewrite E2. unfold rnth at 1. rewrite (znth_map 0%R 0) by lia.
  unfold vf_ew_bounds_type in Eb. destruct (v2 _ _ _ _) as [new|] eqn:EV; [|discriminate]. injection Eb as <- _.
  destruct (wo_d _ _ (iv_w _ HI)). change (car Rops) with R in *.
  apply v2_inv in EV as (-> & L1 & L2). rewrite (znth_zip 0 0%R 0%R) by lia. apply rho_of_penalty.
Qed.

Section Kkt.
  Variable E : Env Rops.
  Hypothesis EO : env_ok E.

  (** ** The reciprocal of a scalar rho *)
  Lemma warm_start_rest (s : solver Rops) x y : post (warm_start s x y) (fun r => let s' := snd r in
    w_data (sv_work s') = w_data (sv_work s) /\ w_constr_type (sv_work s') = w_constr_type (sv_work s) /\ w_rho_inv (sv_work s') = w_rho_inv (sv_work s) /\
    (sv_settings s' = sv_settings s \/ sv_settings s' = set_st_warm_starting 1 (sv_settings s))).
  Proof.
    unfold warm_start. cbv zeta. set (s1 := if negb _ then _ else s).
    assert (H1 : sv_work s1 = sv_work s /\ (sv_settings s1 = sv_settings s \/ sv_settings s1 = set_st_warm_starting 1 (sv_settings s))) by (subst s1; destruct (negb _); auto). destruct H1 as [H1 H1']. clearbody s1.
    set (P := fun w => w_data w = w_data (sv_work s) /\ w_constr_type w = w_constr_type (sv_work s) /\ w_rho_inv w = w_rho_inv (sv_work s)).
    eapply post_bindP with (P := P).
    { destruct x; [do 2 walk1|]; apply post_ret; unfold P; rs; rewrite H1; auto. }
    intros w1 A1. eapply post_bindP with (P := P).
    { destruct y; [do 2 walk1|]; apply post_ret; unfold P in *; rs; auto. }
    intros w2 A2. eapply post_bindP with (P := P).
    { destruct x; [do 1 walk1|]; apply post_ret; unfold P in *; rs; auto. }
    intros w3 A3. walk1. apply post_ret. cbn [snd]. unfold P in *. rs. intuition auto.
  Qed.

  Lemma scale_data_rest st (w : work Rops) : post (scale_data st w) (fun w' => w_rho_inv w' = w_rho_inv w).
  Proof.
    unfold scale_data. apply post_bind. intros sc _. cbv zeta.
    eapply post_bindP with (P := fun r => w_rho_inv (fst r) = w_rho_inv w).
    { apply post_for; [reflexivity|]. intros i [w1 s1] H1. cbn [fst snd] in *. unfold scale_pass. walk. exact H1. }
    intros [w1 s1] H1. cbn [fst] in H1. walk. exact H1.
  Qed.
  Lemma unscale_data_rest (w : work Rops) : post (unscale_data w) (fun w' => w_rho_inv w' = w_rho_inv w).
  Proof. unfold unscale_data. walk. reflexivity. Qed.

  Lemma run_rsync c (s : solver Rops) fl s' : run E c s = Some (fl, HSolver s') -> rsync s -> rsync s'.
  Proof.
    intros HC HS. destruct c; cbn [run] in HC.
    - unfold osqp_solve, on_solver in HC. destruct (solve E s) as [[f s1]|] eqn:Er; [|discriminate]. injection HC as _ <-.
      exact (sf_rs _ _ (solve_sfr E s _ Er) HS).
    - unfold osqp_update_data_vec, on_solver in HC. destruct (update_data_vec E s q l u) as [[f s1]|] eqn:Er; [|discriminate]. injection HC as _ <-.
      destruct (update_data_vec_shape E s q l u _ Er) as (lt & ut & okb & H). destruct okb.
      + destruct (vs_acc _ _ _ _ _ _ _ _ H eq_refl) as (q' & _ & _ & _ & Ei & _ & _ & _ & Es & _). cbn [snd] in *. unfold rsync. rewrite Es, Ei.
        destruct (_ || _); cbn [andb]; auto. destruct (tr (st_rho_is_vec (sv_settings s))) eqn:Ev; auto. rs. congruence.
      + destruct (vs_rej _ _ _ _ _ _ _ _ H eq_refl) as (_ & t & c & Es). cbn [snd] in Es. rewrite Es. exact HS.
    - unfold osqp_update_data_mat, on_solver in HC. destruct (update_data_mat E s Px Pidx Pn Ax Aidx An) as [[f s1]|] eqn:Er; [|discriminate]. injection HC as _ <-.
      destruct (update_data_mat_shape E s _ _ _ _ _ _ _ Er) as (nP & nA & _ & _ & [(_ & Es)|(_ & _ & t & c & w1 & P2 & A2 & w4 & ls & ls' & i & g & X1 & _ & _ & X2 & _ & _ & Es & _)]); cbn [snd] in Es; rewrite Es.
      + destruct (begin_update_eq s) as (t & c & ->). exact HS.
      + unfold rsync in *. rs. intros Ev. rewrite <- (HS Ev). destruct (tr (st_scaling (sv_settings s))).
        * rewrite (scale_data_rest _ _ _ X2). rs. rewrite (unscale_data_rest _ _ X1). reflexivity.
        * rewrite X2, X1. reflexivity.
    - unfold osqp_update_rho, on_solver in HC. destruct (update_rho E s rho) as [[f s1]|] eqn:Er; [|discriminate]. injection HC as _ <-.
      exact (sf_rs _ _ (proj1 (update_rho_post E s rho _ Er)) HS).
    - unfold osqp_update_settings in HC. destruct (validate_settings new false) eqn:EV; [injection HC as _ <-; auto|]. destruct new as [st|]; [|discriminate].
      destruct (w_linsys (sv_work s)); [|discriminate]. injection HC as _ <-. exact HS.
    - unfold osqp_warm_start, on_solver in HC. destruct (warm_start s x y) as [[f s1]|] eqn:Er; [|discriminate]. injection HC as _ <-.
      destruct (warm_start_rest s x y _ Er) as (_ & _ & A1 & A2). cbn [snd] in *. unfold rsync. rewrite A1. destruct A2 as [-> | ->]; exact HS.
    - unfold osqp_cold_start in HC. pose proof (cold_start_post (sv_work s)) as HP. destruct (cold_start (sv_work s)); [|discriminate]. injection HC as _ <-.
      rewrite (HP _ eq_refl). exact HS.
    - unfold osqp_get_solution in HC. destruct sol as [o|]; [|injection HC as _ <-; auto].
      destruct (store_solution s (Some o)) as [[s1 o1]|] eqn:Er; [|discriminate]. injection HC as _ <-. destruct (store_solution_post s (Some o) _ Er) as (A1 & _ & _ & _ & A2 & _).
      cbn [fst] in *. exact (sf_rs _ _ (sfr_fixed _ _ (fixed_core _ _ A2) A1) HS).
  Qed.

  (** ** Constraint kinds *)
  Lemma run_ctsync c (s : solver Rops) fl s' : run E c s = Some (fl, HSolver s') ->
    (match c with CUpdMat _ _ _ _ _ _ => tr (st_scaling (sv_settings s)) = false | _ => True end) -> ctsync s -> ctsync s'.
  Proof.
    intros HC HN HS. destruct c; cbn [run] in HC.
    - unfold osqp_solve, on_solver in HC. destruct (solve E s) as [[f s1]|] eqn:Er; [|discriminate]. injection HC as _ <-.
      destruct (solve_sfr E s _ Er) as [A1 A2 A3 (r & t & A4) _]. cbn [snd] in *. unfold ctsync in *. rewrite A1, A3, A4. exact HS.
    - unfold osqp_update_data_vec, on_solver in HC. destruct (update_data_vec E s q l u) as [[f s1]|] eqn:Er; [|discriminate]. injection HC as _ <-.
      destruct (update_data_vec_shape E s q l u _ Er) as (lt & ut & okb & H). destruct okb.
      + destruct (vs_acc _ _ _ _ _ _ _ _ H eq_refl) as (q' & _ & Ed & _ & _ & _ & _ & _ & Es & _ & _ & C1 & C2). cbn [snd] in *.
        destruct (given l || given u) eqn:Eg; [auto|]. apply orb_false_iff in Eg as [Eg1 Eg2]. destruct l, u; try discriminate. cbn [pick andb] in *.
        unfold ctsync in *. rewrite Es, Ed, (C2 eq_refl). exact HS.
      + destruct (vs_rej _ _ _ _ _ _ _ _ H eq_refl) as (_ & t & c & Es). cbn [snd] in Es. rewrite Es. exact HS.
    - unfold osqp_update_data_mat, on_solver in HC. destruct (update_data_mat E s Px Pidx Pn Ax Aidx An) as [[f s1]|] eqn:Er; [|discriminate]. injection HC as _ <-.
      destruct (update_data_mat_shape E s _ _ _ _ _ _ _ Er) as (nP & nA & _ & _ & [(_ & Es)|(_ & _ & t & c & w1 & P2 & A2 & w4 & ls & ls' & i & g & X1 & _ & _ & X2 & _ & _ & Es & _)]); cbn [snd] in Es; rewrite Es.
      + destruct (begin_update_eq s) as (t & c & ->). exact HS.
      + rewrite HN in *. subst w4 w1. exact HS.
    - unfold osqp_update_rho, on_solver in HC. destruct (update_rho E s rho) as [[f s1]|] eqn:Er; [|discriminate]. injection HC as _ <-.
      destruct (proj1 (update_rho_post E s rho _ Er)) as [A1 A2 A3 (r & t & A4) _]. cbn [snd] in *. unfold ctsync in *. rewrite A1, A3, A4. exact HS.
    - unfold osqp_update_settings in HC. destruct (validate_settings new false) eqn:EV; [injection HC as _ <-; auto|]. destruct new as [st|]; [|discriminate].
      destruct (w_linsys (sv_work s)); [|discriminate]. injection HC as _ <-. exact HS.
    - unfold osqp_warm_start, on_solver in HC. destruct (warm_start s x y) as [[f s1]|] eqn:Er; [|discriminate]. injection HC as _ <-.
      destruct (warm_start_rest s x y _ Er) as (A0 & A1 & _ & A2). cbn [snd] in *. unfold ctsync. rewrite A0, A1. destruct A2 as [-> | ->]; exact HS.
    - unfold osqp_cold_start in HC. pose proof (cold_start_post (sv_work s)) as HP. destruct (cold_start (sv_work s)); [|discriminate]. injection HC as _ <-.
      rewrite (HP _ eq_refl). exact HS.
    - unfold osqp_get_solution in HC. destruct sol as [o|]; [|injection HC as _ <-; auto].
      destruct (store_solution s (Some o)) as [[s1 o1]|] eqn:Er; [|discriminate]. injection HC as _ <-. destruct (store_solution_post s (Some o) _ Er) as (A1 & _ & _ & _ & A2 & _).
      cbn [fst] in *. destruct (sfr_fixed _ _ (fixed_core _ _ A2) A1) as [B1 _ B3 _ _]. unfold ctsync in *. rewrite A1, B1, B3. exact HS.
  Qed.

  (** ** After setup *)
  Lemma setup_fresh g P q A l u m n ust s g' : data_readable (Some P) q (Some A) l u m n ->
    osqp_setup E g (Some P) q (Some A) l u m n (Some ust) = Some (0, Some s, g') -> Inv s /\ fresh E (Some P) q (Some A) l u m n ust s /\ settings_ok true ust.
  Proof.
    intros HDR HS. destruct (osqp_setup_safe E EO MM_R g (Some P) q (Some A) l u m n (Some ust) HDR) as (r & Er & HRes). rewrite HS in Er. injection Er as <-. cbn [fst snd] in HRes.
    inversion HRes as [| |? ? ? ? ? ? ? ? ? ? EE|s1 g1 HDO HV HI Dn Dm HF Hw HLF Hsec Hhan EE]; subst; try discriminate.
    apply validate_settings_spec in HV as (st' & [= <-] & HV). auto.
  Qed.
  Lemma fresh_rho P q A l u m n ust (s : solver Rops) : fresh E P q A l u m n ust s -> st_rho (sv_settings s) = @clamp Rops (st_rho ust) /\
    st_rho_is_vec (sv_settings s) = st_rho_is_vec ust /\ st_scaling (sv_settings s) = st_scaling ust.
  Proof.
    intros [_ Hst _ _ _ _ _ _ _ _ _ _ _ _]. rewrite Hst. unfold setup_adaptive_rho.
    repeat match goal with |- context [if ?b then _ else _] => destruct b end; destruct ust; auto.
  Qed.
  Lemma clamp_id (r : R) : (/ 10 ^ 6 <= r <= 10 ^ 6)%R -> @clamp Rops r = r.
  Proof. intros H. unfold clamp. rewrite c_min_R, c_max_R, rho_min_R, rho_max_R. unfold Rmin, Rmax. repeat destruct (Rle_dec _ _); lra. Qed.

  (** A scalar rho is given within the range the solver keeps it in. *)
  Definition rho_in_range (ust : settings Rops) : Prop := tr (st_rho_is_vec ust) = false -> (/ 10 ^ 6 <= st_rho ust <= 10 ^ 6)%R.

  Lemma session_rsync P A q l u m n ust s d : session E P A q l u m n ust s d -> rho_in_range ust -> rsync s.
  Proof.
    intros [g s0 g' d0 HDR HS UI RF HH] HR. destruct (setup_fresh _ _ _ _ _ _ _ _ _ _ _ HDR HS) as (_ & HF & _).
    destruct (fresh_rho _ _ _ _ _ _ _ _ _ HF) as (F1 & F2 & _).
    induction HH as [|s d c fl s' d' HH IH HA HC HU]; [|eapply run_rsync; eauto].
    intros Ev. rewrite F2 in Ev. rewrite (fs_rho_inv _ _ _ _ _ _ _ _ _ _ HF Ev), F1, clamp_id; auto.
  Qed.
  Lemma session_rinv P A q l u m n ust s d : session E P A q l u m n ust s d -> rho_in_range ust ->
    forall i, 0 <= i < m -> rinv_at (sv_settings s) (sv_work s) i = (/ rho_at (sv_settings s) (sv_work s) i)%R.
  Proof.
    intros HS HR i Hi. destruct (session_facts E EO _ _ _ _ _ _ _ _ _ _ HS) as (HI & _).
    destruct (session_size E EO _ _ _ _ _ _ _ _ _ _ HS) as (_ & Em). apply rinv_at_rho; [apply HI| |lia].
    intros Ev. rewrite (session_rsync _ _ _ _ _ _ _ _ _ _ HS HR Ev), n1_R. cbn [ndiv Rops]. unfold Rdiv. lra.
  Qed.

  (** C28: the matrix and the vector of reciprocals the iteration uses. *)
  Theorem session_kkt P A q l u m n ust s d : session E P A q l u m n ust s d ->
    exists ls, w_linsys (sv_work s) = Some ls /\ let w := sv_work s in
      reorders (ls_fac ls) (ls_perm ls) (n + m) (kktS n (sdns (d_P (w_data w))) (dns (d_A (w_data w))) (st_sigma (sv_settings s)) (fun i => / rho_at (sv_settings s) w i)%R) /\
      (forall i, 0 <= i < m -> @rinv Rops ls i = (/ rho_at (sv_settings s) w i)%R).
  Proof.
    intros HS. destruct (session_facts E EO _ _ _ _ _ _ _ _ _ _ HS) as (HI & _). destruct (session_size E EO _ _ _ _ _ _ _ _ _ _ HS) as (En & Em).
    destruct (fac_dense _ _ (iv_w _ HI)) as (ls & El & HP & H1 & H2 & H3 & H4). exists ls. split; auto. cbv zeta. rewrite En, Em in *.
    split; [|intros i Hi; apply ls_rinv; auto; try apply HI; rewrite ?Em; auto].
    split; auto. split; auto. split; auto. split; [apply perm_permutes; auto|]. auto.
  Qed.

  (** The same in terms of the user's problem. *)
  Theorem session_kkt_user P A q l u m n ust s d : session E P A q l u m n ust s d ->
    exists ls, w_linsys (sv_work s) = Some ls /\
      reorders (ls_fac ls) (ls_perm ls) (n + m)
        (kktS n (fun i j => uc s * uD s i * sdns (d_P d) i j * uD s j)%R (fun i j => uE s i * dns (d_A d) i j * uD s j)%R (st_sigma (sv_settings s)) (fun i => / rho_at (sv_settings s) (sv_work s) i)%R).
  Proof.
    intros HS. destruct (session_kkt _ _ _ _ _ _ _ _ _ _ HS) as (ls & El & (H1 & H2 & H3 & H4 & H5) & _). exists ls. split; auto.
    split; auto. split; auto. split; auto. split; auto. intros a b Ha Hb. rewrite H5 by auto.
    destruct (session_facts E EO _ _ _ _ _ _ _ _ _ _ HS) as (HI & HR & _ & _ & En & Em & _). destruct HR as [Hd [Bn Bm BP BA _ _ _] _ _ _]. destruct Hd.
    assert (Hn : 0 <= n) by (rewrite <- En, <- do_Pn; apply (wf_n _ do_P)).
    apply (kktS_ext n m); auto; try (apply (proj1 H4); auto).
    - intros i j Hi Hj. apply (mscaled_sdns (uc s) (uD s) (d_P d)); auto; rewrite do_Pn; lia.
    - intros i j Hi Hj. rewrite (mscaled_dns 1 (uE s) (uD s) (d_A d)); auto; try lia. ring.
  Qed.

  (** C12: against a solver set up afresh for the stored data. *)
  Theorem session_fresh_kkt P A q l u m n ust s d : session E P A q l u m n ust s d ->
    exists ls ls' res, w_linsys (sv_work s) = Some ls /\
      init_linsys_solver E (d_P (w_data (sv_work s))) (d_A (w_data (sv_work s))) (w_rho_vec (sv_work s)) (sv_settings s) false = Some res /\
      (res = (OSQP_NONCVX_ERROR, None) /\ LDL_factor E (ls_fac ls') n < 0 \/ res = (OSQP_NO_ERROR, Some ls') /\ LDL_factor E (ls_fac ls') n = 0) /\
      (forall i, 0 <= i < m -> @rinv Rops ls' i = @rinv Rops ls i) /\
      exists K, reorders (ls_fac ls) (ls_perm ls) (n + m) K /\ reorders (ls_fac ls') (ls_perm ls') (n + m) K.
  Proof.
    intros HS. destruct (session_kkt _ _ _ _ _ _ _ _ _ _ HS) as (ls & El & HK & HRI).
    destruct (session_facts E EO _ _ _ _ _ _ _ _ _ _ HS) as (HI & _). destruct (session_size E EO _ _ _ _ _ _ _ _ _ _ HS) as (En & Em).
    pose proof (iv_w _ HI) as HW. destruct (wo_d _ _ HW). pose proof (wo_rho _ _ HW) as HR. cbv zeta in HRI.
    assert (HV : forall v, w_rho_vec (sv_work s) = Some v -> cm (d_A (w_data (sv_work s))) <= zlen v).
    { intros v Ev. unfold rho_ok in HR. destruct (tr _); [|congruence]. destruct HR as (ct & _ & Lc & E2 & _). rewrite E2 in Ev. injection Ev as <-. unfold zlen in *. rewrite map_length. lia. }
    destruct (init_linsys_spec E EO (d_P (w_data (sv_work s))) (d_A (w_data (sv_work s))) (w_rho_vec (sv_work s)) (sv_settings s)) as (res & Er & ls' & HC & R1 & R2 & LO); auto; try congruence.
    exists ls, ls', res. split; auto. split; auto. rewrite do_Pn, En in HC. split; auto.
    assert (HI' : forall i, 0 <= i < m -> @rinv Rops ls' i = (/ rho_at (sv_settings s) (sv_work s) i)%R).
    { intros i Hi. unfold rinv, rho_at. destruct (w_rho_vec (sv_work s)) as [v|].
      - destruct R2 as (x & -> & Lx & Vx). rewrite Vx by lia. rewrite n1_R. cbn [ndiv Rops]. unfold Rdiv, rnth. rewrite n0_R. fix_R. lra.
      - rewrite R2, R1, n1_R. cbn [ndiv Rops]. unfold Rdiv. fix_R. lra. }
    split; [intros i Hi; rewrite HI', HRI; auto|]. eexists. split; [exact HK|].
    pose proof (ls_fac_dense ls' _ _ _ _ do_P do_Pt do_A ltac:(congruence) LO) as HD. destruct LO.
    assert (EN : cm (d_A (w_data (sv_work s))) + cn (d_P (w_data (sv_work s))) = n + m) by lia. rewrite EN in *.
    split; auto. split; auto. split; auto. split; [apply perm_permutes; auto|]. intros a b Ha Hb. rewrite HD by auto.
    assert (Hn : 0 <= n) by (rewrite <- En, <- do_Pn; apply (wf_n _ do_P)). rewrite do_Pn, En.
    pose proof (proj1 (perm_permutes _ _ lo_perm)) as HPR.
    apply (kktS_ext n m); auto. intros i Hi. rewrite HI' by auto. rewrite n0_R. cbn [nsub Rops]. fix_R. lra.
  Qed.

  (** C27 *)
  Theorem setup_kinds g P q A l u m n ust s g' : data_readable (Some P) q (Some A) l u m n ->
    osqp_setup E g (Some P) q (Some A) l u m n (Some ust) = Some (0, Some s, g') -> kinds s.
  Proof.
    intros HDR HS. destruct (setup_fresh _ _ _ _ _ _ _ _ _ _ _ HDR HS) as (HI & HF & _). apply ctsync_kinds; auto.
    destruct (fresh_rho _ _ _ _ _ _ _ _ _ HF) as (_ & F2 & _). intros Ev. rewrite F2 in Ev. exact (fs_types _ _ _ _ _ _ _ _ _ _ HF Ev).
  Qed.
  Theorem updvec_kinds P A q l u m n ust s d ql ll uu s' : session E P A q l u m n ust s d -> args_ok (CUpdVec ql ll uu) s ->
    run E (CUpdVec ql ll uu) s = Some (0, HSolver s') -> (ll <> None \/ uu <> None) -> kinds s'.
  Proof.
    intros HS HA HC HG. destruct (session_facts E EO _ _ _ _ _ _ _ _ _ _ HS) as (HI & _).
    destruct (run_safe E EO MM_R _ s HI HA) as ([fl h] & Er & s1 & Eh & HI' & _). rewrite HC in Er. injection Er as <- <-. cbn [snd] in Eh. injection Eh as <-.
    apply ctsync_kinds; auto. cbn [run] in HC. unfold osqp_update_data_vec, on_solver in HC. destruct (update_data_vec E s ql ll uu) as [[f s1]|] eqn:Eu; [|discriminate]. injection HC as -> <-.
    destruct (update_data_vec_shape E s ql ll uu _ Eu) as (lt & ut & okb & H). destruct okb.
    - destruct (vs_acc _ _ _ _ _ _ _ _ H eq_refl) as (q' & _ & _ & _ & _ & _ & _ & _ & _ & _ & _ & C1 & _). cbn [snd] in *. apply C1. destruct ll, uu; auto. destruct HG; congruence.
    - destruct (vs_rej _ _ _ _ _ _ _ _ H eq_refl) as (X & _). discriminate.
  Qed.
  (** Sessions without a matrix update, or without scaling. *)
  Inductive hist_keep : solver Rops -> solver Rops -> Prop :=
  | hk_0 : forall s, hist_keep s s
  | hk_S : forall s0 s c fl s', hist_keep s0 s -> args_ok c s -> run E c s = Some (fl, HSolver s') ->
      (match c with CUpdMat _ _ _ _ _ _ => tr (st_scaling (sv_settings s)) = false | _ => True end) -> hist_keep s0 s'.
  Theorem history_kinds g P q A l u m n ust s0 g' s : data_readable (Some P) q (Some A) l u m n ->
    osqp_setup E g (Some P) q (Some A) l u m n (Some ust) = Some (0, Some s0, g') -> hist_keep s0 s -> kinds s.
  Proof.
    intros HDR HS HK. destruct (setup_fresh _ _ _ _ _ _ _ _ _ _ _ HDR HS) as (HI & HF & _).
    destruct (fresh_rho _ _ _ _ _ _ _ _ _ HF) as (_ & F2 & _).
    assert (HC0 : ctsync s0) by (intros Ev; rewrite F2 in Ev; exact (fs_types _ _ _ _ _ _ _ _ _ _ HF Ev)). clear HF F2 HS.
    assert (HX : Inv s /\ ctsync s).
    { induction HK as [|s0 s c fl s' HK IH HA HC HN]; auto. destruct (IH HI HC0) as (I1 & C1).
      destruct (run_safe E EO MM_R c s I1 HA) as ([fl' h] & Er & s1 & Eh & HI' & _). rewrite HC in Er. injection Er as <- <-. cbn [snd] in Eh. injection Eh as <-.
      split; auto. eapply run_ctsync; eauto. }
    destruct HX. apply ctsync_kinds; auto.
  Qed.

  (** C28 is false for a scalar rho outside the range: the matrix uses the clamped value, the iteration 1/rho as given. *)
  Theorem scalar_rho_out_of_sync g P q A l u m n ust s g' : data_readable (Some P) q (Some A) l u m n ->
    osqp_setup E g (Some P) q (Some A) l u m n (Some ust) = Some (0, Some s, g') -> tr (st_rho_is_vec ust) = false ->
    ~ (/ 10 ^ 6 <= st_rho ust <= 10 ^ 6)%R ->
    forall i, 0 <= i < m -> rinv_at (sv_settings s) (sv_work s) i <> (/ rho_at (sv_settings s) (sv_work s) i)%R.
  Proof.
    intros HDR HS Ev HN i Hi. destruct (setup_fresh _ _ _ _ _ _ _ _ _ _ _ HDR HS) as (HI & HF & HSO).
    destruct (fresh_rho _ _ _ _ _ _ _ _ _ HF) as (F1 & F2 & _). unfold rinv_at, rho_at. rewrite F2, Ev.
    pose proof (wo_rho _ _ (iv_w _ HI)) as HR. unfold rho_ok in HR. rewrite F2, Ev in HR. rewrite HR, F1, (fs_rho_inv _ _ _ _ _ _ _ _ _ _ HF Ev), n1_R. cbn [ndiv Rops].
    intros H. pose proof (clamp_range (st_rho ust)) as HC. apply HN.
    pose proof (vs_rho _ _ HSO eq_refl) as Hr. rewrite gt_ok_R, n0_R in Hr.
    assert (H1 : (1 / st_rho ust = / @clamp Rops (st_rho ust))%R) by exact H. unfold Rdiv in H1. rewrite Rmult_1_l in H1.
    assert (HP : (0 < @clamp Rops (st_rho ust))%R) by (eapply Rlt_le_trans; [|apply HC]; apply Rinv_0_lt_compat, pow_lt; lra).
    assert (H2 : st_rho ust = @clamp Rops (st_rho ust)).
    { transitivity (/ / st_rho ust)%R; [symmetry; apply Rinv_inv|]. rewrite H1. apply Rinv_inv. }
    rewrite H2. exact HC.
  Qed.
End Kkt.

(** A run with scalar rho above the range. *)
Definition rst_scalar : settings Rops := set_st_rho (10 ^ 7)%R (set_st_rho_is_vec 0 rst).
Lemma rst_scalar_ok : settings_ok true rst_scalar.
Proof.
  destruct rst_ok. constructor; unfold rst_scalar; rs; auto. intros _. rewrite gt_ok_R, n0_R. apply pow_lt. lra.
Qed.
Theorem scalar_rho_run : exists E P A q l u m n ust s d, env_ok E /\ session E P A q l u m n ust s d /\ 0 < m /\
  forall i, 0 <= i < m -> rinv_at (sv_settings s) (sv_work s) i <> (/ rho_at (sv_settings s) (sv_work s) i)%R.
Proof.
  destruct (session_start rE rE_ok rE_exact (mkworld 0%nat 0%nat 0 0 []) rP (Some rq) rA (Some rl) (Some ru) 3 2 rst_scalar rdata_readable rdata_ok rst_scalar_ok rP_psd) as (s & g & d & HS & _ & S0).
  exists rE, rP, rA, (Some rq), (Some rl), (Some ru), 3, 2, rst_scalar, s, d. split; [apply rE_ok|]. split; [exact S0|]. split; [lia|].
  apply (scalar_rho_out_of_sync rE rE_ok _ _ _ _ _ _ _ _ _ _ _ rdata_readable HS); [reflexivity|]. unfold rst_scalar. rs. intros [_ H].
  assert (10 ^ 6 < 10 ^ 7)%R by (apply Rlt_pow; [lra|lia]). lra.
Qed.
