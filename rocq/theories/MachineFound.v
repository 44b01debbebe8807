(** A scheduled test never misses an infeasibility certificate: the converse of the verdicts of MachineTerm.v, for every number system. *)
From Coq Require Import ZArith List Bool Lia String.
From Verif Require Import Num Arr ArrFacts Csc CscSpec CscFacts CscFacts2 Scatter Vec Types Kkt Linsys Scaling Validate Auxil Polish Api
  VecFacts LinsysFacts LinsysSolve Inv InvStep InvApi InvScale InvPolish InvSolve InvUpd InvSetup History RecSimp Frame FrameSolve Mid Trace PassFacts SolveEnd KktErr AtyFacts DataFacts
  MachineSpec MachineTerm MachineInfo MachineSolve MachineClaims TwinKer.
Import ListNotations.
Open Scope Z_scope.
Local Open Scope opt_scope.

(** ** Specification *)
Section Spec.
  Context {K : NumOps}.
  Local Open Scope num_scope.
  (** V is the reading of the iterate x, y, z: [reads] of MachineSpec.v with the products computed into arrays of n and m cells. *)
  Definition measured (st : settings K) (d : data K) (sc : option (scaling K)) (x y z : list K) (V : reading) : Prop :=
    exists W ax px aty, (st_scaling st <> 0%Z -> sc = Some W) /\
      (d_m d <> 0%Z -> exists b, zlen b = d_m d /\ csc_Axpy (d_A d) x b n1 n0 = Some ax) /\ (d_m d = 0%Z -> ax = []) /\
      (exists b, zlen b = d_n d /\ csc_Axpy_sym_triu (d_P d) x b n1 n0 = Some px) /\
      (d_m d <> 0%Z -> exists b, zlen b = d_n d /\ csc_Atxpy (d_A d) y b n1 n0 = Some aty) /\ (d_m d = 0%Z -> aty = zrep (d_n d) n0) /\
      V = reading_of st d W x y z ax px aty.
  (** dy is a certificate of primal infeasibility ([shows_infeasible] of MachineSpec.v) whose product A'v was computed into an array of n cells. *)
  Definition certifies_infeasible (st : settings K) (d : data K) (sc : option (scaling K)) (dy : list K) : Prop :=
    let users := negb (st_scaling st =? 0)%Z && (st_scaled_termination st =? 0)%Z in
    let v := projected d dy in
    exists W b t, (users = true -> sc = Some W) /\ zlen b = d_n d /\ csc_Atxpy (d_A d) v b n1 n0 = Some t /\
      let size := largest (if users then times (sc_E W) v else v) in
      (size >? OSQP_DIVISION_TOL K) = true /\ (support_at (d_l d) (d_u d) v <? n0) = true /\
      (largest (if users then times t (sc_Dinv W) else t) <? st_eps_prim_inf st * size) = true.
  (** dx is a certificate of dual infeasibility ([shows_unbounded]) whose products were computed into arrays of n and m cells. *)
  Definition certifies_unbounded (st : settings K) (d : data K) (sc : option (scaling K)) (dx : list K) : Prop :=
    let users := negb (st_scaling st =? 0)%Z && (st_scaled_termination st =? 0)%Z in
    let e := st_eps_dual_inf st in
    exists W b1 t b2 a, (users = true -> sc = Some W) /\ zlen b1 = d_n d /\ zlen b2 = d_m d /\
      csc_Axpy_sym_triu (d_P d) dx b1 n1 n0 = Some t /\ csc_Axpy (d_A d) dx b2 n1 n0 = Some a /\
      let size := largest (if users then times (sc_D W) dx else dx) in
      (size >? OSQP_DIVISION_TOL K) = true /\ (total (times (d_q d) dx) <? n0) = true /\
      (largest (if users then times t (sc_Dinv W) else t) <? (if users then sc_c W else n1) * e * size) = true /\
      forallb (fun b => b) (zip3 (stays (e * size)) (if users then times a (sc_Einv W) else a) (d_l d) (d_u d)) = true.
End Spec.

Section Length.
  Context {K : NumOps}.
  Lemma post_cols {S} (P : S -> Prop) n (Ap : list Z) (body : Z -> Z -> S -> option S) s0 : P s0 -> (forall j i s, P s -> post (body j i s) P) -> post (for_cols n Ap body s0) P.
  Proof.
    intros H0 HB. unfold for_cols. apply (post_for P); [auto|]. intros j s1 H1. apply post_bind. intros lo _. apply post_bind. intros hi _. apply (post_for P); [auto|]. intros i s2 H2. apply HB; auto.
  Qed.
  Ltac cells := intros; repeat (apply post_bind; intros ? ?); intros ? HZ; apply zset_len in HZ; congruence.
  Lemma beta_len (y : list K) b n : post (beta_part y b n) (fun r => zlen r = zlen y).
  Proof.
    unfold beta_part, vec_set_scalar, vec_negate, vec_mult_scalar. destruct (neqb b n0); [|destruct (neqb b n1); [apply post_ret; auto|destruct (neqb b _)]]; apply post_for; auto; cells.
  Qed.
  Lemma Axpy_len (A : csc K) x y a b : post (csc_Axpy A x y a b) (fun r => zlen r = zlen y).
  Proof.
    unfold csc_Axpy. eapply post_bindP; [apply beta_len|]. intros y1 H1. cbv beta in H1. apply post_bind. intros nnz _. destruct (_ || _); [apply post_ret; auto|].
    destruct (neqb a (nopp n1)); [|destruct (neqb a n1)]; apply (post_cols (fun r => zlen r = zlen y)); auto; cells.
  Qed.
  Lemma Atxpy_len (A : csc K) x y a b : post (csc_Atxpy A x y a b) (fun r => zlen r = zlen y).
  Proof.
    unfold csc_Atxpy. eapply post_bindP; [apply beta_len|]. intros y1 H1. cbv beta in H1. apply post_bind. intros nnz _. destruct (_ || _); [apply post_ret; auto|].
    destruct (neqb a (nopp n1)); [|destruct (neqb a n1)]; apply (post_cols (fun r => zlen r = zlen y)); auto; cells.
  Qed.
  Lemma symv_len (A : csc K) x y a b : post (csc_Axpy_sym_triu A x y a b) (fun r => zlen r = zlen y).
  Proof.
    unfold csc_Axpy_sym_triu. eapply post_bindP; [apply beta_len|]. intros y1 H1. cbv beta in H1. apply post_bind. intros nnz _. destruct (_ || _); [apply post_ret; auto|].
    destruct (neqb a (nopp n1)); [|destruct (neqb a n1)]; apply (post_cols (fun r => zlen r = zlen y)); auto; intros j i s1 L1;
      do 4 (apply post_bind; intros ? _); apply post_bind; intros y2 L2; apply zset_len in L2; destruct (_ =? j); [apply post_ret; congruence| |apply post_ret; congruence| |apply post_ret; congruence|]; cells.
  Qed.
End Length.

Section Found.
  Context {K : NumOps}.
  Hypothesis NZ : @neqb K n0 n0 = true.
  Variable st : settings K.
  Notation users := (negb (st_scaling st =? 0) && (st_scaled_termination st =? 0)).

  (** The reading of an iterate is unique. *)
  Lemma measured_cur (w : work K) i W0 V0 V : wok st w -> MachineTerm.cur st w i W0 V0 -> measured st (w_data w) (w_scaling w) (w_x w) (w_y w) (w_z w) V -> V = V0.
  Proof.
    intros HW HC (W & ax & px & aty & M1 & M2 & M3 & (b & Lb & M4) & M5 & M6 & ->). rewrite (cr_V _ _ _ _ _ HC).
    pose proof (wo_d _ _ HW) as HD. pose proof (wo_len _ _ HW) as HL.
    assert (E1 : px = w_Px w).
    { destruct (cr_P _ _ _ _ _ HC) as (b' & Eb'). pose proof (symv_len _ _ _ _ _ _ Eb') as L1. cbv beta in L1. pose proof (ln_Px _ _ _ _ HL). pose proof (do_Pn _ HD). destruct (do_Pt _ HD).
      eapply (both_symv NZ); [reflexivity|reflexivity| | |exact M4|exact Eb']; lia. }
    assert (E2 : ax = w_Ax w /\ aty = w_Aty w).
    { pose proof (ln_Ax _ _ _ _ HL). pose proof (ln_Aty _ _ _ _ HL). pose proof (do_Am _ HD). pose proof (do_An _ HD). destruct (Z.eq_dec (d_m (w_data w)) 0) as [Hm|Hm].
      - rewrite (M3 Hm), (M6 Hm). split.
        + destruct (w_Ax w); [auto|]. rewrite zlen_cons in *. pose proof (zlen_nonneg l). lia.
        + pose proof (cr_0 _ _ _ _ _ HC Hm) as HF. pose proof (do_n _ HD). apply (list_ext_znth n0); [rewrite zlen_zrep; lia|]. intros j Hj. rewrite zlen_zrep in Hj by lia. rewrite znth_zrep by lia.
          rewrite Forall_forall in HF. apply HF. unfold znth, zget. destruct (j <? 0) eqn:EJ; [lia|]. destruct (nth_error (w_Aty w) (Z.to_nat j)) as [v|] eqn:Ev; [apply nth_error_In in Ev; exact Ev|]. apply nth_error_None in Ev. unfold zlen in *. lia.
      - destruct (M2 Hm) as (b1 & L1 & X1). destruct (M5 Hm) as (b2 & L2 & X2). destruct (cr_A _ _ _ _ _ HC Hm) as (b1' & Y1). destruct (cr_At _ _ _ _ _ HC Hm) as (b2' & Y2).
        pose proof (Axpy_len _ _ _ _ _ _ Y1) as L3. pose proof (Atxpy_len _ _ _ _ _ _ Y2) as L4. cbv beta in L3, L4.
        split; [eapply (both_Axpy NZ); [reflexivity|reflexivity| | |exact X1|exact Y1]|eapply (both_Atxpy NZ); [reflexivity|reflexivity| | |exact X2|exact Y2]]; lia. }
    destruct E2 as (-> & ->). subst px. destruct (Z.eq_dec (st_scaling st) 0) as [Hs|Hs].
    - unfold reading_of. rewrite Hs. reflexivity.
    - pose proof (M1 Hs) as HA. rewrite (cr_W _ _ _ _ _ HC Hs) in HA. injection HA as ->. reflexivity.
  Qed.

  Lemma prim_inf_found (w : work K) : wok st w -> certifies_infeasible st (w_data w) (w_scaling w) (w_delta_y w) ->
    post (is_primal_infeasible st w (loosen false (st_eps_prim_inf st))) (fun r => fst r = true).
  Proof.
    intros HW. unfold certifies_infeasible, projected, is_primal_infeasible, loosen. cbv zeta. intros (W & b & t & HWs & Lb & Et & C1 & C2 & C3).
    apply post_bind. intros dy Edy. apply polar_inv in Edy. rs. rewrite ut_users. rewrite <- Edy in *. clear Edy.
    eapply post_bindP with (P := fun r => w_scaling (snd r) = w_scaling w /\ w_Atdelta_y (snd r) = w_Atdelta_y w /\ fst r = largest (if users then times (sc_E W) dy else dy)).
    { destruct users.
      - apply post_bind. intros sc Es. rewrite (HWs eq_refl) in Es. injection Es as <-. apply post_bind. intros v Ev. apply ew_inv in Ev. apply post_ret. cbn [fst snd]. rs. subst v. auto.
      - apply post_ret. cbn [fst snd]. rs. auto. }
    intros [nd w1] (H1 & H2 & H3). cbn [fst snd] in *. subst nd. rewrite C1.
    apply post_bind. intros x Ex. apply dot1_inv in Ex. apply post_bind. intros y Ey. apply dotm_inv in Ey. subst x y. unfold support_at in C2. rewrite C2.
    apply post_bind. intros t' Et'. rewrite H2 in Et'.
    assert (t' = t). { pose proof (wo_d _ _ HW) as HD. pose proof (ln_Atdy _ _ _ _ (wo_len _ _ HW)). pose proof (do_An _ HD). eapply (both_Atxpy NZ); [reflexivity|reflexivity| | |exact Et'|exact Et]; lia. } subst t'.
    eapply post_bindP with (P := fun t' => t' = if users then times t (sc_Dinv W) else t).
    { destruct users; [|apply post_ret; auto]. apply post_bind. intros sc Es. rewrite H1, (HWs eq_refl) in Es. injection Es as <-. intros t' E2. apply ew_inv in E2. auto. }
    intros t' ->. apply post_ret. cbn [fst]. exact C3.
  Qed.

  Lemma dual_inf_found (w : work K) : wok st w -> certifies_unbounded st (w_data w) (w_scaling w) (w_delta_x w) ->
    post (is_dual_infeasible st w (loosen false (st_eps_dual_inf st))) (fun r => fst r = true).
  Proof.
    intros HW. unfold certifies_unbounded, is_dual_infeasible, loosen. cbv zeta. intros (W & b1 & t & b2 & a & HWs & L1 & L2 & Et & Ea & C1 & C2 & C3 & C4).
    rewrite ut_users. pose proof (wo_d _ _ HW) as HD. pose proof (wo_len _ _ HW) as HL.
    eapply post_bindP with (P := fun r => fst r = largest (if users then times (sc_D W) (w_delta_x w) else w_delta_x w) /\ snd r = if users then sc_c W else n1).
    { destruct users.
      - apply post_bind. intros sc Es. rewrite (HWs eq_refl) in Es. injection Es as <-. apply post_bind. intros v Ev. apply scaled_norm_inv in Ev. apply post_ret. cbn [fst snd]. auto.
      - apply post_ret. cbn [fst snd]. auto. }
    intros [nd cs] (H3 & H4). cbn [fst snd] in *. subst nd cs. rewrite C1.
    apply post_bind. intros x Ex. apply dot_inv in Ex. subst x. rewrite C2.
    apply post_bind. intros t' Et'.
    assert (t' = t). { pose proof (ln_Pdx _ _ _ _ HL). pose proof (do_Pn _ HD). destruct (do_Pt _ HD). eapply (both_symv NZ); [reflexivity|reflexivity| | |exact Et'|exact Et]; lia. } subst t'.
    eapply post_bindP with (P := fun t' => t' = if users then times t (sc_Dinv W) else t).
    { destruct users; [|apply post_ret; auto]. apply post_bind. intros sc Es. rewrite (HWs eq_refl) in Es. injection Es as <-. intros t' E2. apply ew_inv in E2. auto. }
    intros t' ->. change (vf_norm_inf (if users then times t (sc_Dinv W) else t)) with (largest (if users then times t (sc_Dinv W) else t)). rewrite C3.
    apply post_bind. intros a' Ea'. rs_in Ea'.
    assert (a' = a). { pose proof (ln_Adx _ _ _ _ HL). pose proof (do_Am _ HD). eapply (both_Axpy NZ); [reflexivity|reflexivity| | |exact Ea'|exact Ea]; lia. } subst a'.
    eapply post_bindP with (P := fun t' => t' = if users then times a (sc_Einv W) else a).
    { destruct users; [|apply post_ret; auto]. apply post_bind. intros sc Es. rs_in Es. rewrite (HWs eq_refl) in Es. injection Es as <-. intros t3 E2. apply ew_inv in E2. auto. }
    intros t3 ->. apply post_bind. intros b Eb. apply post_ret. cbn [fst].
    unfold vf_in_reccone in Eb. destruct (v3 _ _ _ _ _) as [w3|] eqn:Ew; [|discriminate]. apply v3_inv in Ew as (-> & _). injection Eb as <-. exact C4.
  Qed.

  (** What check_termination answers when a certificate is there. *)
  Lemma check_found (s : solver K) : sv_settings s = st -> wok st (sv_work s) -> post (check_termination s false) (fun r => forall W V, MachineTerm.cur st (sv_work s) (sv_info s) W V -> exploded V = false ->
    let d := w_data (sv_work s) in let pok := (d_m d =? 0) || below st false (r_prim V) (r_pnorm V) in
    (pok = false -> certifies_infeasible st d (w_scaling (sv_work s)) (w_delta_y (sv_work s)) -> fst r = true /\ i_status_val (sv_info (snd r)) = OSQP_PRIMAL_INFEASIBLE) /\
    (below st false (r_dual V) (r_dnorm V) = false -> certifies_unbounded st d (w_scaling (sv_work s)) (w_delta_x (sv_work s)) ->
       fst r = true /\ (i_status_val (sv_info (snd r)) = OSQP_DUAL_INFEASIBLE \/ pok = false /\ i_status_val (sv_info (snd r)) = OSQP_PRIMAL_INFEASIBLE))).
  Proof.
    intros Hst HW. unfold check_termination. rewrite Hst. set (i := sv_info s) in *. set (w := sv_work s) in *.
    set (hb := nltb (OSQP_INFTY K) (i_prim_res i) || nltb (OSQP_INFTY K) (i_dual_res i)).
    assert (HX : forall W V, MachineTerm.cur st w i W V -> exploded V = hb) by (intros W V HC; subst hb; rewrite (cr_pr _ _ _ _ _ HC), (cr_dr _ _ _ _ _ HC); reflexivity).
    destruct hb.
    { eapply post_bindP; [apply update_status_post|]. intros i' (msg & _ & ->). apply post_ret. intros W V HC HE. rewrite (HX _ _ HC) in HE. discriminate. }
    cbv zeta. change (st_eps_prim_inf st) with (loosen false (st_eps_prim_inf st)). change (st_eps_dual_inf st) with (loosen false (st_eps_dual_inf st)).
    eapply post_bindP with (P := fun r => let '(pc, pi, w1) := r in same_cur w w1 /\ w_delta_x w1 = w_delta_x w /\ wok st w1 /\
      (forall W V, MachineTerm.cur st w i W V -> pc = ((d_m (w_data w) =? 0) || below st false (r_prim V) (r_pnorm V))) /\
      (pi = true -> pc = false) /\ (pc = false -> certifies_infeasible st (w_data w) (w_scaling w) (w_delta_y w) -> pi = true)).
    { destruct (d_m (w_data w) =? 0).
      { apply post_ret. split; [apply same_cur_refl|]. split; [auto|]. split; [auto|]. split; [auto|]. split; discriminate. }
      apply post_bind. intros tol Etol.
      assert (HB : forall W V, MachineTerm.cur st w i W V -> nltb (i_prim_res i) tol = below st false (r_prim V) (r_pnorm V)).
      { intros W V HC. rewrite (prim_tol_cur st _ _ _ _ _ _ _ HC Etol), (cr_pr _ _ _ _ _ HC). reflexivity. }
      cbn [orb]. destruct (nltb (i_prim_res i) tol) eqn:EB.
      - apply post_ret. split; [apply same_cur_refl|]. split; [auto|]. split; [auto|]. split; [exact HB|]. split; discriminate.
      - apply post_bind. intros [b w1] Er. apply post_ret. cbn [fst snd].
        pose proof (prim_inf_post st w _ _ Er) as HP. cbv beta zeta in HP. cbn [snd] in HP. decompose [and] HP.
        destruct (prim_inf_safe st w (loosen false (st_eps_prim_inf st)) HW) as (r' & Er' & HK). rewrite Er in Er'. injection Er' as <-. cbn [snd] in HK. destruct HK as (HK & HK2).
        split; [|split; [auto|split; [exact (wok_core st w w1 HW HK HK2)|split; [exact HB|split; [auto|]]]]].
        + match goal with H : fixed w1 = fixed w |- _ => apply fixed_core, core_eq in H as (? & _ & _ & _ & _ & ? & _) end. unfold same_cur, scalars. repeat split; congruence.
        + intros _ HC. exact (prim_inf_found w HW HC _ Er). }
    intros [[pc pi] w1] (SC1 & DX1 & HW1 & PC1 & PB1 & PI1). assert (HC1 : forall W V, MachineTerm.cur st w i W V -> MachineTerm.cur st w1 i W V) by (intros W V; apply (MachineTerm.cur_same _ _ _ _ _ _ _ SC1 (eq_refl (res4 i)))).
    apply post_bind. intros tol Etol. pose proof SC1 as (D1 & S1 & _).
    assert (HB : forall W V, MachineTerm.cur st w i W V -> nltb (i_dual_res i) tol = below st false (r_dual V) (r_dnorm V)).
    { intros W V HC. rewrite (dual_tol_cur st _ _ _ _ _ _ _ (HC1 _ _ HC) Etol), (cr_dr _ _ _ _ _ HC). reflexivity. }
    eapply post_bindP with (P := fun r => let '(dc, di, w2) := r in (forall W V, MachineTerm.cur st w i W V -> dc = below st false (r_dual V) (r_dnorm V)) /\
      (dc = false -> certifies_unbounded st (w_data w) (w_scaling w) (w_delta_x w) -> di = true)).
    { destruct (nltb (i_dual_res i) tol) eqn:EB.
      - apply post_ret. split; [auto|]. discriminate.
      - apply post_bind. intros [b w2] Er. apply post_ret. split; [auto|]. intros _ HC. cbn [fst]. rewrite <- D1, <- S1, <- DX1 in HC. exact (dual_inf_found w1 HW1 HC _ Er). }
    intros [[dc di] w2] (DC2 & DI2). clear HB. apply post_bind. intros gc _.
    assert (HN : forall W V, MachineTerm.cur st w i W V -> ((d_m (w_data w) =? 0) || below st false (r_prim V) (r_pnorm V) = false -> pc = false) /\ (below st false (r_dual V) (r_dnorm V) = false -> dc = false)).
    { intros W V HC. rewrite (PC1 _ _ HC), (DC2 _ _ HC). auto. }
    destruct (pc && dc && gc) eqn:EA.
    { eapply post_bindP; [apply update_status_post|]. intros i' (msg & _ & ->). apply post_ret. intros W V HC _. destruct (HN _ _ HC) as (N1 & N2).
      apply andb_prop in EA as (EA & _). apply andb_prop in EA as (Ep & Ed). subst pc dc. split; intros HF; [specialize (N1 HF)|specialize (N2 HF)]; discriminate. }
    destruct pi.
    { eapply post_bindP; [apply update_status_post|]. intros i' (msg & _ & ->). apply post_bind. intros dy _. apply post_ret. cbn [fst snd]. rs. intros W V HC _.
      split; [auto|]. intros _ _. split; [auto|]. right. split; [|auto]. rewrite <- (PC1 _ _ HC). auto. }
    destruct di.
    { eapply post_bindP; [apply update_status_post|]. intros i' (msg & _ & ->). apply post_bind. intros dx _. apply post_ret. cbn [fst snd]. rs. intros W V HC _. destruct (HN _ _ HC) as (N1 & N2).
      split; [|auto]. intros HF HCe. specialize (PI1 (N1 HF) HCe). discriminate. }
    apply post_ret. cbn [fst snd]. intros W V HC _. destruct (HN _ _ HC) as (N1 & N2).
    split; intros HF HCe; [specialize (PI1 (N1 HF) HCe)|specialize (DI2 (N2 HF) HCe)]; discriminate.
  Qed.
End Found.

Section Solve.
  Context {K : NumOps}.
  Variable G : Env K.
  Hypothesis EO : env_ok G.
  Hypothesis MM : nltb (OSQP_RHO_MIN K) (OSQP_RHO_MAX K) = true.
  Hypothesis NZ : @neqb K n0 n0 = true.
  Variable s : solver K.
  Notation st := (sv_settings s).
  Notation D := (w_data (sv_work s)). Notation SC := (w_scaling (sv_work s)). Notation M := (d_m (w_data (sv_work s))).
  Hypothesis HI : Inv s.
  Hypothesis HA : aty_zero (sv_work s).
  Notation stat t := (i_status_val (sv_info t)).
  Notation DY t := (w_delta_y (sv_work t)). Notation DX t := (w_delta_x (sv_work t)).

  Lemma certifies_st (a b : settings K) d sc v : same_st a b -> (certifies_infeasible a d sc v <-> certifies_infeasible b d sc v) /\ (certifies_unbounded a d sc v <-> certifies_unbounded b d sc v).
  Proof. intros (r & t & ->). split; split; intros H; exact H. Qed.
  Lemma below_st (a b : settings K) l x y : same_st a b -> below b l x y = below a l x y.
  Proof. intros (r & t & ->). reflexivity. Qed.

  Lemma measured_st (a b : settings K) d sc x y z V : same_st a b -> measured a d sc x y z V -> measured b d sc x y z V.
  Proof. intros (r & t & ->) H. exact H. Qed.

  (** The verdict of a scheduled test on the reading V with the last changes dy and dx. *)
  Definition outcome (V : reading) (dy dx : list K) (v : Z -> Prop) : Prop :=
    let pok := (M =? 0) || below st false (r_prim V) (r_pnorm V) in
    (exploded V = true -> v OSQP_NON_CVX) /\ (exploded V = false ->
      (accepted st M false V = true -> v OSQP_SOLVED) /\
      (pok = false -> certifies_infeasible st D SC dy -> v OSQP_PRIMAL_INFEASIBLE) /\
      (below st false (r_dual V) (r_dnorm V) = false -> certifies_unbounded st D SC dx -> v OSQP_DUAL_INFEASIBLE \/ pok = false /\ v OSQP_PRIMAL_INFEASIBLE)).

  Theorem solve_certified fl s' k t t1 V : stat s = OSQP_UNSOLVED -> iterate G s k t t1 -> scheduled st k = true -> stop_requested G t1 = false -> time_over G t1 = false ->
    solve G s = Some (fl, s') -> measured st D SC (w_x (sv_work t1)) (w_y (sv_work t1)) (w_z (sv_work t1)) V ->
    outcome V (DY t1) (DX t1) (fun v => exists e, good s e /\ finished G e fl s' /\ stat e = v /\ i_iter (sv_info e) = k).
  Proof.
    intros H0 (f & HB & Hk & HS) Hsc HR HTm HSv HV.
    pose proof (before_good G EO MM s HI HA _ _ _ HB) as HG. destruct (before_facts G EO MM s HI HA _ _ _ HB H0) as (S1 & O1 & _).
    destruct (before_inv G EO MM s k f t HI HB) as (It & _). destruct (admm_pass_safe G EO MM t k f It) as (o & HP & _).
    assert (ESc : scheduled (sv_settings t) k = true) by (pose proof HG as (_ & F1 & _); destruct (sf_st _ _ F1) as (r0 & x0 & ->); exact Hsc).
    destruct (step_good G EO s t t1 HG HS) as (G1 & S2 & Es1 & Eo1 & Ei1).
    assert (CORE : forall t2 t3 b t4, near t1 t2 -> update_info G t2 k = Some t3 -> check_termination t3 false = Some (b, t4) ->
      outcome V (DY t1) (DX t1) (fun v => b = true /\ stat t4 = v) /\
        i_iter (sv_info t4) = k /\ good s t3 /\ good s t4 /\ cur s t3 V /\ mverdict st false t3 b t4 /\ stat t3 = OSQP_UNSOLVED /\ same_cur (sv_work t3) (sv_work t4) /\ res4 (sv_info t4) = res4 (sv_info t3)).
    { intros t2 t3 b t4 HN HU3 HCk. pose proof (near_good s t1 t2 G1 HN) as G2. destruct HN as (N1 & N2 & N3 & _).
      destruct (info_good G s t2 k G2 t3 HU3) as (Q1 & (V0 & Q2 & Q3) & Q4 & Q5 & Q6 & Q7 & Q8 & Q9 & Q10).
      destruct (check_good s t3 false Q1 _ HCk) as (R1 & R2 & R3 & R4 & R5 & R6 & R7 & _). cbn [fst snd] in *.
      assert (S3 : stat t3 = OSQP_UNSOLVED) by congruence. destruct (good_dsc s t3 Q1) as (X1 & X2).
      pose proof Q1 as (I3 & F3 & _). pose proof (sf_st _ _ F3) as HSS.
      assert (EV : V = V0).
      { destruct Q2 as (W & Q2). apply (cur_st _ _ _ _ _ _ HSS) in Q2. apply (measured_st _ _ _ _ _ _ _ _ HSS) in HV. rewrite N1 in Q5. unfold iter3 in Q5. injection Q5 as Y1 Y2 Y3.
        rewrite <- X1, <- X2, <- Y1, <- Y2, <- Y3 in HV. exact (measured_cur NZ _ _ _ _ _ _ (iv_w _ I3) Q2 HV). }
      subst V0.
      destruct (verdict_false s t3 b t4 _ V Q1 Q2 R2 S3 ltac:(auto)) as (B0 & B1 & B2 & B3 & B4 & B5 & B6).
      split.
      - unfold outcome. cbv zeta. split; [|intros EX; split].
        + intros EX. assert (Hn : stat t4 = OSQP_NON_CVX) by (apply B5; auto). split; [|auto]. destruct b; [auto|]. rewrite (B0 eq_refl) in Hn. stc.
        + intros HAc. assert (Hx : stat t4 <> OSQP_NON_CVX) by (rewrite B5; rewrite EX; discriminate).
          assert (Hs : stat t4 = OSQP_SOLVED). { destruct (Z.eq_dec (stat t4) OSQP_SOLVED) as [e|n]; [auto|]. rewrite (B6 n Hx) in HAc. discriminate. }
          split; [|auto]. destruct b; [auto|]. rewrite (B0 eq_refl) in Hs. stc.
        + destruct Q2 as (W & Q2). apply (cur_st _ _ _ _ _ _ HSS) in Q2.
          pose proof (check_found NZ (sv_settings t3) t3 eq_refl (iv_w _ I3) _ HCk W V Q2 EX) as HX. cbv zeta in HX. cbn [fst snd] in HX.
          rewrite X1, X2, !(below_st _ _ _ _ _ HSS) in HX. rewrite N1 in Q6. unfold deltas in Q6. injection Q6 as Z1 Z2. rewrite Z1, Z2 in HX.
          destruct (certifies_st st (sv_settings t3) D SC (DY t1) HSS) as (K1 & _). destruct (certifies_st st (sv_settings t3) D SC (DX t1) HSS) as (_ & K2). rewrite K1, K2. tauto.
      - destruct R3 as (SA & SB & SD & SE). split; [congruence|]. repeat (split; [solve [auto]|]). split; [repeat split; tauto|]. auto. }
    pose proof (pass_ends G t k f _ HP) as HE.
    inversion HE as [t1' s0 HS' HR'|t1' s0 HS' HR' HTm'|t1' t2 t3 s0 cp ca HS' HR' HTm' HN HSc HU3 HCk|t1' t2 t3 t4 s0 HS' HR' HTm' HN HU3 HCk HRc HTi|t1' t2 t3 t4 s0 cp ca HS' HR' HTm' HN HU3 HCk HSt HRh]; subst o;
      rewrite HS in HS'; injection HS' as <-; try congruence.
    - destruct (CORE t2 t3 true s0 HN HU3 HCk) as (A1 & A2 & A3 & A3' & A4 & A5 & A6 & A7 & A8).
      rewrite (solve_break G s _ _ _ _ _ HB Hk HP) in HSv.
      destruct (finish_ends G EO s0 _ _ _ HSv) as (e & Ee & Hfin). cbn [fst snd] in Hfin.
      destruct (conclude_stop G s t3 s0 k cp ca V A3 A3' A4 A5 A6 A7 A8 e Ee) as ((En & Ei & Est & Eso) & Edc).
      assert (HF : forall v, v <> OSQP_UNSOLVED -> v <> OSQP_TIME_LIMIT_REACHED -> true = true /\ stat s0 = v -> exists e, good s e /\ finished G e fl s' /\ stat e = v /\ i_iter (sv_info e) = k).
      { intros v Hv Hv' (_ & Ev). exists e. split; [apply (en_good _ _ _ _ _ _ En)|]. split; [auto|]. split; [|congruence].
        rewrite conclude_tail in Ee. unfold final_check in Ee. cbv iota beta in Ee. rewrite <- Ev. apply (tail_stat s s0 A3') in Ee; auto; rewrite Ev; auto. }
      destruct A1 as (B1 & B2). split; [intros HX; apply HF; [stc|stc|auto]|]. intros EX. destruct (B2 EX) as (B3 & B4 & B5). split; [|split].
      + intros Hc. apply HF; [stc|stc|auto].
      + intros Hp Hc. apply HF; [stc|stc|auto].
      + intros Hd Hc. destruct (B5 Hd Hc) as [Ev|(Hp & Ev)]; [left|right; split; [auto|]]; (apply HF; [stc|stc|auto]).
    - rewrite ESc in HCk. destruct (CORE t2 t3 false t4 HN HU3 HCk) as ((B1 & B2) & _). split; [intros HX; destruct (B1 HX); discriminate|]. intros EX. destruct (B2 EX) as (B3 & B4 & B5).
      split; [intros Hc; destruct (B3 Hc); discriminate|]. split; [intros Hp Hc; destruct (B4 Hp Hc); discriminate|]. intros Hp Hc; destruct (B5 Hp Hc) as [(HH & _)|(_ & HH & _)]; discriminate.
    - rewrite ESc in HU3, HCk. destruct HU3 as [HU3|HU3]; [|destruct HU3; discriminate]. destruct (CORE t2 t3 false t4 HN HU3 HCk) as ((B1 & B2) & _). split; [intros HX; destruct (B1 HX); discriminate|]. intros EX. destruct (B2 EX) as (B3 & B4 & B5).
      split; [intros Hc; destruct (B3 Hc); discriminate|]. split; [intros Hp Hc; destruct (B4 Hp Hc); discriminate|]. intros Hp Hc; destruct (B5 Hp Hc) as [(HH & _)|(_ & HH & _)]; discriminate.
  Qed.
End Solve.

Section Claims.
  Context {K : NumOps}.
  Variable E : Env K.
  Hypothesis EO : env_ok E.
  Hypothesis MM : nltb (OSQP_RHO_MIN K) (OSQP_RHO_MAX K) = true.
  Hypothesis NZ : @neqb K n0 n0 = true.
  Variables (P A : csc K) (q l u : option (list K)) (m n : Z) (ust : settings K) (s : solver K) (fl : Z) (s' : solver K).
  Hypothesis HL : lives E P A q l u m n ust s.
  Hypothesis HU : i_status_val (sv_info s) = OSQP_UNSOLVED.
  Hypothesis HE : solve E s = Some (fl, s').
  Notation st := (sv_settings s). Notation D := (w_data (sv_work s)). Notation SC := (w_scaling (sv_work s)).
  Notation stat t := (i_status_val (sv_info t)).

  Theorem machine_certified k t t1 V : iterate E s k t t1 -> scheduled st k = true -> stop_requested E t1 = false -> time_over E t1 = false ->
    measured st D SC (w_x (sv_work t1)) (w_y (sv_work t1)) (w_z (sv_work t1)) V ->
    let ends v := stat s' = v /\ i_iter (sv_info s') = k in
    let close := m = 0 \/ below st false (r_prim V) (r_pnorm V) = true in
    (exploded V = true -> ends OSQP_NON_CVX) /\ (exploded V = false ->
      (accepted st m false V = true -> ends OSQP_SOLVED) /\
      (~ close -> certifies_infeasible st D SC (w_delta_y (sv_work t1)) -> ends OSQP_PRIMAL_INFEASIBLE) /\
      (below st false (r_dual V) (r_dnorm V) = false -> certifies_unbounded st D SC (w_delta_x (sv_work t1)) -> ends OSQP_DUAL_INFEASIBLE \/ ~ close /\ ends OSQP_PRIMAL_INFEASIBLE)).
  Proof.
    intros HIt Hsc HR HT HV. destruct (lives_facts E EO MM _ _ _ _ _ _ _ _ _ HL) as (HI & HA & HM & Em & _).
    destruct (solve_certified E EO MM NZ s HI HA fl s' k t t1 V HU HIt Hsc HR HT HE HV) as (B1 & B2). rewrite Em in *. cbv zeta.
    assert (HF : forall v, (exists e, good s e /\ finished E e fl s' /\ stat e = v /\ i_iter (sv_info e) = k) -> stat s' = v /\ i_iter (sv_info s') = k).
    { intros v (e & _ & HF & He & Hi). pose proof (finished_result E e fl s' HF) as RR. rewrite (re_stat _ _ _ RR), (re_iter _ _ _ RR). auto. }
    assert (HC : ~ (m = 0 \/ below st false (r_prim V) (r_pnorm V) = true) <-> (m =? 0) || below st false (r_prim V) (r_pnorm V) = false).
    { destruct (Z.eqb_spec m 0); destruct (below st false (r_prim V) (r_pnorm V)); cbn [orb]; intuition congruence. }
    split; [auto|]. intros EX. destruct (B2 EX) as (B3 & B4 & B5). rewrite HC. split; [auto|]. split; [auto|]. intros Hd Hc. destruct (B5 Hd Hc) as [H1|(H1 & H2)]; auto.
  Qed.
End Claims.
