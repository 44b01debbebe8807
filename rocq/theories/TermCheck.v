(** What update_info and check_termination establish about the current iterate, in exact arithmetic. *)
From Coq Require Import ZArith Reals List Bool Lia Lra String.
From Verif Require Import Num Arr ArrFacts RSum Csc CscSpec CscFacts CscFacts2 Scatter Vec VecFacts Types Kkt KktSpec KktDense Linsys LinsysFacts LinsysSolve Scaling Validate Auxil Polish Api
  Inv RecSimp InvStep InvApi InvScale InvSolve RealVec RealStep Frame FrameSolve ProbSpec ScaleReal Ldl QpSpec TermSpec TermFacts.
Import ListNotations.
Open Scope Z_scope.

Lemma safe_post_if {A} (H : Prop) (e : option A) (P : A -> Prop) : (H -> safe e P) -> post e (fun a => H -> P a).
Proof. intros HS a Ea Hh. destruct (HS Hh) as (b & Eb & HP). rewrite Ea in Eb. injection Eb as <-. auto. Qed.
Lemma safe_post {A} (e : option A) (P : A -> Prop) : safe e P -> post e P.
Proof. intros (b & Eb & HP) a Ea. rewrite Ea in Eb. injection Eb as <-. auto. Qed.
Lemma post_and {A} (e : option A) (P P' : A -> Prop) : post e P -> post e P' -> post e (fun a => P a /\ P' a).
Proof. intros H1 H2 a Ea. split; auto. Qed.

Lemma support_ext p v v' : (forall i, 0 <= i < q_m p -> v i = v' i) -> support p v = support p v'.
Proof. intros H. unfold support. apply sumn_ext. intros i Hi. rewrite H; auto. Qed.
Lemma infeasible_ext p e v v' : (forall i, 0 <= i < q_m p -> v i = v' i) -> infeasible_within p e v -> infeasible_within p e v'.
Proof.
  intros H [A B C]. rewrite (ninf_ext _ v v') in * by auto. rewrite (support_ext _ v v') in * by auto.
  constructor; auto. erewrite ninf_ext; [exact C|]. intros i Hi. unfold Atmul. apply mulR_ext. intros; symmetry; auto.
Qed.
Lemma unbounded_ext al au p e v v' : (forall i, 0 <= i < q_n p -> v i = v' i) -> unbounded_within al au p e v -> unbounded_within al au p e v'.
Proof.
  intros H [A B C F]. rewrite (ninf_ext _ v v') in * by auto. constructor; auto.
  - unfold lin in *. erewrite sumn_ext; [exact B|]. intros i Hi. cbv beta. rewrite H; auto.
  - erewrite ninf_ext; [exact C|]. intros i Hi. unfold Pmul. apply mulR_ext. intros; symmetry; auto.
  - intros i Hi. assert (EA : Amul p v' i = Amul p v i) by (unfold Amul; apply mulR_ext; intros; symmetry; auto). rewrite EA. auto.
Qed.

Section Check.
  Variables (st : settings Rops) (Q : qp) (c : R) (D E : Z -> R).
  Notation tun w := (tunits st w Q c D E).
  Notation nn w := (d_n (w_data w)). Notation mm w := (d_m (w_data w)).
  Notation Ps w := (qp_of (w_data w)).
  Notation X x := (unx D (rnth x)). Notation Zv z := (unz E (rnth z)). Notation Y y := (uny c E (rnth y)).

  (** The multipliers as they enter the dual objective. *)
  Definition cutv (w : work Rops) : Z -> R := fun i => cut (rnth (d_l (w_data w)) i) (rnth (d_u (w_data w)) i) (rnth (w_y w) i).

  (** With no constraints A'y is never written. *)
  Definition aty0 (w : work Rops) : Prop := mm w = 0 -> forall i, 0 <= i < nn w -> rnth (w_Aty w) i = 0%R.

  (** What the workspace and the information hold describes the current iterate. *)
  Record current (w : work Rops) (i : info Rops) : Prop := {
    cu_pr : i_prim_res i = ninf (mm w) (fun j => Amul Q (X (w_x w)) j - Zv (w_z w) j)%R;
    cu_dr : i_dual_res i = ninf (nn w) (fun j => q_q Q j + Pmul Q (X (w_x w)) j + Atmul Q (Y (w_y w)) j)%R;
    cu_Ax : 0 < mm w -> forall j, 0 <= j < mm w -> rnth (w_Ax w) j = Amul (Ps w) (rnth (w_x w)) j;
    cu_Px : forall j, 0 <= j < nn w -> rnth (w_Px w) j = Pmul (Ps w) (rnth (w_x w)) j;
    cu_Aty : forall j, 0 <= j < nn w -> rnth (w_Aty w) j = Atmul (Ps w) (rnth (w_y w)) j;
    cu_sp : 0 < mm w -> w_scaled_prim_res w = ninf (mm w) (fun j => Amul (Ps w) (rnth (w_x w)) j - rnth (w_z w) j)%R;
    cu_sd : w_scaled_dual_res w = ninf (nn w) (fun j => q_q (Ps w) j + Pmul (Ps w) (rnth (w_x w)) j + Atmul (Ps w) (rnth (w_y w)) j)%R;
    cu_quad : w_xtPx w = quad (Ps w) (rnth (w_x w));
    cu_lin : w_qtx w = lin (Ps w) (rnth (w_x w));
    cu_sup : w_SC w = support (Ps w) (cutv w);
    cu_gap : (if unscaled_termination st then i_duality_gap i else w_scaled_dual_gap w) = (quad Q (X (w_x w)) + lin Q (X (w_x w)) + support Q (uny c E (cutv w)))%R }.

  Definition fac (ap : bool) : R := if ap then 10%R else 1%R.
  Definition swithin (ap : bool) (w : work Rops) : Prop :=
    solved_within Q (st_eps_abs st * fac ap) (st_eps_rel st * fac ap) (tr (st_check_dualgap st)) (X (w_x w)) (Zv (w_z w)) (Y (w_y w)) (uny c E (cutv w)).
  Definition huge (i : info Rops) : Prop := (10 ^ 30 < i_prim_res i \/ 10 ^ 30 < i_dual_res i)%R.
  Definition absl (w : work Rops) (i : Z) : Prop := (rnth (d_l (w_data w)) i <= - 10 ^ 26)%R.
  Definition absu (w : work Rops) (i : Z) : Prop := (10 ^ 26 <= rnth (d_u (w_data w)) i)%R.

  Definition prim_ok (ap : bool) (w : work Rops) : Prop :=
    q_m Q = 0%Z \/ (ninf (q_m Q) (fun j => Amul Q (X (w_x w)) j - Zv (w_z w) j) < st_eps_abs st * fac ap + st_eps_rel st * fac ap * Rmax (ninf (q_m Q) (Zv (w_z w))) (ninf (q_m Q) (Amul Q (X (w_x w)))))%R.
  Definition dual_ok (ap : bool) (w : work Rops) : Prop :=
    (ninf (q_n Q) (fun j => q_q Q j + Pmul Q (X (w_x w)) j + Atmul Q (Y (w_y w)) j) <
        st_eps_abs st * fac ap + st_eps_rel st * fac ap * Rmax (Rmax (ninf (q_n Q) (q_q Q)) (ninf (q_n Q) (Atmul Q (Y (w_y w))))) (ninf (q_n Q) (Pmul Q (X (w_x w)))))%R.
  (** The last steps, as the infeasibility tests see them. *)
  Definition step_y (w : work Rops) : Z -> R := fun i => (E i * polar (rnth (d_l (w_data w)) i) (rnth (d_u (w_data w)) i) (rnth (w_delta_y w) i))%R.
  Definition step_x (w : work Rops) : Z -> R := fun i => (D i * rnth (w_delta_x w) i)%R.
  Definition pfound (ap : bool) (w : work Rops) : Prop :=
    ~ prim_ok ap w /\ (/ 10 ^ 30 < ninf (mm w) (step_y w))%R /\ infeasible_within Q (st_eps_prim_inf st * fac ap) (step_y w).
  Definition dfound (ap : bool) (w : work Rops) : Prop :=
    ~ dual_ok ap w /\ (/ 10 ^ 30 < ninf (nn w) (step_x w))%R /\ unbounded_within (absl w) (absu w) Q (st_eps_dual_inf st * fac ap) (step_x w).

  Inductive verdict (ap : bool) (s : solver Rops) : bool -> solver Rops -> Prop :=
  | vd_huge : forall s', huge (sv_info s) -> i_status_val (sv_info s') = OSQP_NON_CVX -> sv_work s' = sv_work s ->
      sv_info s' = set_i_obj_val (OSQP_NAN Rops) (set_i_status (i_status (sv_info s')) (set_i_status_val OSQP_NON_CVX (sv_info s))) -> verdict ap s true s'
  | vd_solved : forall s', ~ huge (sv_info s) -> i_status_val (sv_info s') = (if ap then OSQP_SOLVED_INACCURATE else OSQP_SOLVED) ->
      sv_info s' = set_i_status (i_status (sv_info s')) (set_i_status_val (i_status_val (sv_info s')) (sv_info s)) ->
      (current (sv_work s) (sv_info s) -> swithin ap (sv_work s)) -> verdict ap s true s'
  | vd_pinf : forall s', ~ huge (sv_info s) -> i_status_val (sv_info s') = (if ap then OSQP_PRIMAL_INFEASIBLE_INACCURATE else OSQP_PRIMAL_INFEASIBLE) ->
      (current (sv_work s) (sv_info s) -> ~ swithin ap (sv_work s) /\ pfound ap (sv_work s)) ->
      infeasible_within Q (st_eps_prim_inf st * fac ap) (rnth (w_delta_y (sv_work s'))) -> verdict ap s true s'
  | vd_dinf : forall s', ~ huge (sv_info s) -> i_status_val (sv_info s') = (if ap then OSQP_DUAL_INFEASIBLE_INACCURATE else OSQP_DUAL_INFEASIBLE) ->
      (current (sv_work s) (sv_info s) -> ~ swithin ap (sv_work s) /\ ~ pfound ap (sv_work s) /\ dfound ap (sv_work s)) ->
      unbounded_within (absl (sv_work s)) (absu (sv_work s)) Q (st_eps_dual_inf st * fac ap) (rnth (w_delta_x (sv_work s'))) -> verdict ap s true s'
  | vd_no : forall s', ~ huge (sv_info s) -> sv_info s' = sv_info s ->
      (current (sv_work s) (sv_info s) -> ~ swithin ap (sv_work s) /\ ~ pfound ap (sv_work s) /\ ~ dfound ap (sv_work s)) -> verdict ap s false s'.

  Lemma fac_R (x : R) (ap : bool) : (if ap then (x * @nofZ Rops 10)%R else x) = (x * fac ap)%R.
  Proof. unfold fac. destruct ap; [rewrite nofZ_R; reflexivity|ring]. Qed.

  Lemma wok_fixed (w w' : work Rops) : keeps st w w' -> wok st w -> wok st w'.
  Proof. intros. eapply wok_keeps; eauto. Qed.
  Lemma tun_keeps (w w' : work Rops) : fixed w' = fixed w -> tun w -> tun w'.
  Proof. intros H. apply tunits_same; unfold fixed, core in H; congruence. Qed.

  Lemma verdict_ok (s : solver Rops) ap : wok st (sv_work s) -> tun (sv_work s) -> sv_settings s = st ->
    post (check_termination s ap) (fun r => verdict ap s (fst r) (snd r)).
  Proof.
    intros HW HT Hst. pose proof (q_dims _ _ _ _ _ _ HT) as [Hn Hm]. unfold check_termination. rewrite Hst. set (i := sv_info s) in *. set (w := sv_work s) in *.
    assert (HH : nltb (OSQP_INFTY Rops) (i_prim_res i) || nltb (OSQP_INFTY Rops) (i_dual_res i) = true <-> huge i).
    { unfold huge. cbn [nltb Rops]. rewrite orb_true_iff, !Rltb_iff, infty_R. reflexivity. }
    destruct (_ || _).
    { eapply post_bindP; [apply update_status_post|]. intros i' (msg & _ & ->). apply post_ret. cbn [fst snd]. apply vd_huge; [apply HH; auto|reflexivity..]. }
    assert (NH : ~ huge i) by (intros Hh; apply HH in Hh; discriminate). clear HH. cbv zeta. rewrite !(fac_R _ ap).
    set (C := current w i).
    (* primal residual *)
    eapply post_bindP with (P := fun r => let '(pc, pi, w1) := r in wok st w1 /\ fixed w1 = fixed w /\ iter3 w1 = iter3 w /\ prods w1 = prods w /\ w_delta_x w1 = w_delta_x w /\
      w_xtPx w1 = w_xtPx w /\ w_qtx w1 = w_qtx w /\ w_SC w1 = w_SC w /\ w_scaled_dual_gap w1 = w_scaled_dual_gap w /\
      (C -> pc = true <-> prim_ok ap w) /\ (C -> pi = true <-> pfound ap w) /\
      (pi = true -> infeasible_within Q (st_eps_prim_inf st * fac ap) (fun i => E i * rnth (w_delta_y w1) i)%R)).
    { destruct (mm w =? 0) eqn:Em; [apply Z.eqb_eq in Em|apply Z.eqb_neq in Em].
      { apply post_ret. repeat (split; [solve [auto]|]). split; [intros _; split; auto; intros; left; lia|]. split; [intros _; split; [discriminate|]; intros (HN & _); exfalso; apply HN; left; lia|discriminate]. }
      pose proof (do_m _ (wo_d _ _ HW)) as Hm0. assert (Hm1 : 0 < mm w) by lia.
      eapply post_bindP; [apply safe_post_if with (H := C); intros HC; apply (prim_tol_real st Q c D E w _ _ (rnth (w_x w)) HW HT); apply (cu_Ax _ _ HC); auto|].
      intros tol Htol. destruct (nltb _ _) eqn:El.
      - apply post_ret. repeat (split; [solve [auto]|]).
        assert (HO : C -> prim_ok ap w) by (intros HC; right; cbn [nltb Rops] in El; apply Rltb_iff in El; rewrite (cu_pr _ _ HC), (Htol HC) in El; rewrite Hm; exact El).
        split; [intros HC; split; auto|]. split; [intros HC; split; [discriminate|]; intros (HN & _); exfalso; auto|discriminate].
      - eapply post_bindP; [apply post_and; [apply prim_inf_post|apply post_and; [apply safe_post, (prim_inf_real st Q c D E w _ HW HT)|apply safe_post, (prim_inf_safe st w _ HW)]]|].
        intros [b w1] (HP & (HV & HI) & HK). cbn [fst snd] in *. decompose [and] HP. apply post_ret. split; [eapply wok_fixed; eauto|]. repeat (split; [solve [auto]|]).
        assert (HSt : forall j, 0 <= j < mm w -> (E j * rnth (w_delta_y w1) j)%R = step_y w j) by (intros j Hj; unfold step_y; rewrite HV by auto; reflexivity).
        assert (HO : C -> ~ prim_ok ap w) by (intros HC [H0'|HL]; [lia|]; apply not_true_iff_false in El; apply El; cbn [nltb Rops]; apply Rltb_iff; rewrite (cu_pr _ _ HC), (Htol HC); rewrite Hm in HL; exact HL).
        split; [intros HC; split; [discriminate|intros HL; exfalso; exact (HO HC HL)]|split; [|intros Eb; apply HI; exact Eb]].
        intros HC. split.
        { intros Eb. apply HI in Eb as (H1' & H2'). rewrite (ninf_ext _ _ _ HSt) in H1'. split; [auto|]. split; [exact H1'|]. eapply infeasible_ext; [|exact H2']. intros j Hj. apply HSt. lia. }
        { intros (_ & H1' & H2'). apply HI. rewrite (ninf_ext _ _ _ HSt). split; [exact H1'|]. eapply infeasible_ext; [|exact H2']. intros j Hj. rewrite HSt by lia. reflexivity. }
    }
    intros [[pc pi] w1] (W1 & F1 & I1 & P1 & DX1 & Q1 & L1 & S1 & G1 & PC & PF & PI).
    pose proof (tun_keeps _ _ F1 HT) as T1. assert (ED : w_data w1 = w_data w) by (unfold fixed, core in F1; congruence).
    (* dual residual *)
    eapply post_bindP; [apply safe_post_if with (H := C); intros HC; apply (dual_tol_real st Q c D E w1 _ _ (rnth (w_x w)) (rnth (w_y w)) W1 T1); intros j Hj; rewrite ED in Hj |- *|].
    { unfold prods in P1. injection P1 as _ -> _. apply (cu_Px _ _ HC); auto. }
    { unfold prods in P1. injection P1 as _ _ ->. apply (cu_Aty _ _ HC); auto. }
    intros dtol Hdtol. rewrite ED in Hdtol.
    eapply post_bindP with (P := fun r => let '(dc, di, w2) := r in wok st w2 /\ fixed w2 = fixed w /\ iter3 w2 = iter3 w /\ prods w2 = prods w /\ deltas w2 = deltas w1 /\
      w_xtPx w2 = w_xtPx w /\ w_qtx w2 = w_qtx w /\ w_SC w2 = w_SC w /\ w_scaled_dual_gap w2 = w_scaled_dual_gap w /\
      (C -> dc = true <-> dual_ok ap w) /\ (C -> di = true <-> dfound ap w) /\
      (di = true -> unbounded_within (absl w) (absu w) Q (st_eps_dual_inf st * fac ap) (fun i => D i * rnth (w_delta_x w) i)%R)).
    { destruct (nltb _ _) eqn:El.
      - apply post_ret. repeat (split; [solve [auto]|]).
        assert (HO : C -> dual_ok ap w) by (intros HC; unfold dual_ok; cbn [nltb Rops] in El; apply Rltb_iff in El; rewrite (cu_dr _ _ HC), (Hdtol HC) in El; rewrite Hn; exact El).
        split; [intros HC; split; auto|]. split; [intros HC; split; [discriminate|]; intros (HN & _); exfalso; auto|discriminate].
      - eapply post_bindP; [apply post_and; [apply dual_inf_post|apply post_and; [apply safe_post, (dual_inf_real st Q c D E w1 _ W1 T1)|apply safe_post, (dual_inf_safe st w1 _ W1)]]|].
        intros [b w2] (HP & HI & HK). cbn [fst snd] in *. decompose [and] HP. apply post_ret. split; [eapply wok_fixed; eauto|]. repeat (split; [solve [auto|congruence]|]).
        rewrite ED, DX1 in HI.
        assert (HO : C -> ~ dual_ok ap w) by (intros HC HL; unfold dual_ok in HL; apply not_true_iff_false in El; apply El; cbn [nltb Rops]; apply Rltb_iff; rewrite (cu_dr _ _ HC), (Hdtol HC); rewrite Hn in HL; exact HL).
        split; [intros HC; split; [discriminate|intros HL; exfalso; exact (HO HC HL)]|split; [|intros Eb; apply HI; exact Eb]].
        intros HC. split; [intros Eb; apply HI in Eb as (H1' & H2'); split; [auto|]; split; [exact H1'|exact H2']|]. intros (_ & H1' & H2'). apply HI. split; [exact H1'|exact H2']. }
    intros [[dc di] w2] (W2 & F2 & I2 & P2 & D2 & Q2 & L2 & S2 & G2 & DC & DF & DI).
    pose proof (tun_keeps _ _ F2 HT) as T2. assert (ED2 : w_data w2 = w_data w) by (unfold fixed, core in F2; congruence). assert (ES2 : w_scaling w2 = w_scaling w) by (unfold fixed, core in F2; congruence).
    (* gap *)
    eapply post_bindP with (P := fun gc => C -> gc = true <-> (tr (st_check_dualgap st) = true -> Rabs (quad Q (X (w_x w)) + lin Q (X (w_x w)) + support Q (uny c E (cutv w))) <
        st_eps_abs st * fac ap + st_eps_rel st * fac ap * Rmax (Rmax (Rabs (quad Q (X (w_x w)))) (Rabs (lin Q (X (w_x w))))) (Rabs (support Q (uny c E (cutv w)))))%R).
    { destruct (tr (st_check_dualgap st)); [|apply post_ret; intros; split; auto; discriminate].
      eapply post_bindP; [apply safe_post_if with (H := C); intros HC; apply (gap_tol_real st Q c D E w2 _ _ (rnth (w_x w)) (cutv w) T2); rewrite ED2|].
      { rewrite Q2. apply (cu_quad _ _ HC). } { rewrite L2. apply (cu_lin _ _ HC). } { rewrite S2. apply (cu_sup _ _ HC). }
      intros gt Hgt. apply post_ret. intros HC. rewrite (Hgt HC), G2, c_absval_R, (cu_gap _ _ HC). cbn [nltb Rops]. rewrite Rltb_iff. tauto. }
    intros gc GC.
    assert (SW : C -> pc && dc && gc = true <-> swithin ap w).
    { intros HC. rewrite !andb_true_iff, (PC HC), (DC HC), (GC HC). unfold swithin. split; [intros ((? & ?) & ?); constructor; auto|intros [? ? ?]; auto]. }
    clear PC DC GC. destruct (pc && dc && gc) eqn:EB.
    { eapply post_bindP; [apply update_status_post|]. intros i' (msg & _ & ->). apply post_ret. cbn [fst snd]. apply vd_solved; [exact NH|destruct ap; reflexivity|destruct ap; reflexivity|]. intros HC. apply (SW HC). auto. }
    assert (NS : C -> ~ swithin ap w) by (intros HC HS; apply (SW HC) in HS; discriminate). clear SW EB.
    destruct pi.
    { eapply post_bindP; [apply update_status_post|]. intros i' (msg & _ & ->).
      eapply post_bindP with (P := fun dy => forall j, 0 <= j < mm w -> (E j * rnth (w_delta_y w1) j)%R = rnth dy j).
      { unfold deltas in D2. injection D2 as _ Edy. destruct (unscaled_termination st) eqn:Eu.
        - destruct (tu_sc _ _ _ _ _ _ T2 Eu) as (sc & Es & [? ? ? ?] & _ & _ & _ & _ & HE & _). rewrite Es. apply safe_post. eapply safe_weaken; [rleaf|].
          + pose proof (ln_dy _ _ _ _ (wo_len _ _ W2)). rsize.
          + pose proof (ln_dy _ _ _ _ (wo_len _ _ W2)). rsize.
          + intros dy (_ & Vd) j Hj. pose proof (ln_dy _ _ _ _ (wo_len _ _ W2)). rewrite Vd by (rewrite <- ED2 in Hj; rsize). rewrite HE by (rewrite ED2; auto). rewrite Edy. cbn [nmul Rops]. ring.
        - destruct (tu_id _ _ _ _ _ _ T2 Eu) as (_ & _ & HE). apply post_ret. intros j Hj. rewrite HE, Edy. ring. }
      intros dy Hdy. apply post_ret. cbn [fst snd]. apply vd_pinf; [exact NH|destruct ap; reflexivity|intros HC; split; [exact (NS HC)|apply (PF HC); reflexivity]|]. rs. eapply infeasible_ext; [|exact (PI eq_refl)]. rewrite Hm. exact Hdy. }
    destruct di.
    { eapply post_bindP; [apply update_status_post|]. intros i' (msg & _ & ->).
      eapply post_bindP with (P := fun dx => forall j, 0 <= j < nn w -> (D j * rnth (w_delta_x w) j)%R = rnth dx j).
      { unfold deltas in D2. injection D2 as Edx _. rewrite DX1 in Edx. destruct (unscaled_termination st) eqn:Eu.
        - destruct (tu_sc _ _ _ _ _ _ T2 Eu) as (sc & Es & [? ? ? ?] & _ & _ & HD & _). rewrite Es. apply safe_post. eapply safe_weaken; [rleaf|].
          + pose proof (ln_dx _ _ _ _ (wo_len _ _ W2)). rsize.
          + pose proof (ln_dx _ _ _ _ (wo_len _ _ W2)). rsize.
          + intros dx (_ & Vd) j Hj. pose proof (ln_dx _ _ _ _ (wo_len _ _ W2)). rewrite Vd by (rewrite <- ED2 in Hj; rsize). rewrite HD by (rewrite ED2; auto). rewrite Edx. cbn [nmul Rops]. ring.
        - destruct (tu_id _ _ _ _ _ _ T2 Eu) as (_ & HD & _). apply post_ret. intros j Hj. rewrite HD, Edx. ring. }
      intros dx Hdx. apply post_ret. cbn [fst snd]. apply vd_dinf; [exact NH|destruct ap; reflexivity|intros HC; split; [exact (NS HC)|split; [intros HF; apply (PF HC) in HF; discriminate|apply (DF HC); reflexivity]]|]. rs. eapply unbounded_ext; [|exact (DI eq_refl)]. rewrite Hn. exact Hdx. }
    apply post_ret. apply vd_no; auto. intros HC. split; [exact (NS HC)|]. split; intros HF; [apply (PF HC) in HF|apply (DF HC) in HF]; discriminate.
  Qed.

  (** The units of the information reported: those of problem U, related by cu, Du, Eu to the stored problem. *)
  Definition reported (U : qp) (cu : R) (Du Eu : Z -> R) (w : work Rops) (i : info Rops) : Prop :=
    let S := support U (uny cu Eu (cutv w)) in
    i_obj_val i = objective U (unx Du (rnth (w_x w))) /\ i_dual_obj_val i = (- (/ 2) * quad U (unx Du (rnth (w_x w))) - S)%R /\
    i_duality_gap i = (quad U (unx Du (rnth (w_x w))) + lin U (unx Du (rnth (w_x w))) + S)%R.

  Lemma update_info_real (G : Env Rops) (s : solver Rops) k U cu Du Eu : wok st (sv_work s) -> tun (sv_work s) -> sv_settings s = st -> aty0 (sv_work s) ->
    scaled_qp cu Du Eu U (Ps (sv_work s)) -> (tr (st_scaling st) = true -> exists sc, w_scaling (sv_work s) = Some sc /\ sc_cinv sc = (/ cu)%R) -> (tr (st_scaling st) = false -> cu = 1%R) ->
    post (update_info G s k) (fun s' => current (sv_work s') (sv_info s') /\ aty0 (sv_work s') /\ reported U cu Du Eu (sv_work s') (sv_info s')).
  Proof.
    intros HW HT Hst HA HU HUs HUn. unfold update_info. rs. rewrite Hst. set (w := sv_work s) in *.
    pose proof (do_m _ (wo_d _ _ HW)) as Hm0. pose proof (wo_len _ _ HW) as HL. pose proof (ln_x _ _ _ _ HL) as Lx. pose proof (ln_y _ _ _ _ HL) as Ly. pose proof (ln_z _ _ _ _ HL) as Lz.
    eapply post_bindP with (P := fun r => let '(pr, dr, p, dv, g, w3) := r in fixed w3 = fixed w /\ iter3 w3 = iter3 w /\
      (pr = ninf (mm w) (fun j => Amul Q (X (w_x w)) j - Zv (w_z w) j)%R) /\ dr = ninf (nn w) (fun j => q_q Q j + Pmul Q (X (w_x w)) j + Atmul Q (Y (w_y w)) j)%R /\
      (0 < mm w -> forall j, 0 <= j < mm w -> rnth (w_Ax w3) j = Amul (Ps w) (rnth (w_x w)) j) /\ (forall j, 0 <= j < nn w -> rnth (w_Px w3) j = Pmul (Ps w) (rnth (w_x w)) j) /\
      (forall j, 0 <= j < nn w -> rnth (w_Aty w3) j = Atmul (Ps w) (rnth (w_y w)) j) /\
      (0 < mm w -> w_scaled_prim_res w3 = ninf (mm w) (fun j => Amul (Ps w) (rnth (w_x w)) j - rnth (w_z w) j)%R) /\
      w_scaled_dual_res w3 = ninf (nn w) (fun j => q_q (Ps w) j + Pmul (Ps w) (rnth (w_x w)) j + Atmul (Ps w) (rnth (w_y w)) j)%R /\
      w_xtPx w3 = quad (Ps w) (rnth (w_x w)) /\ w_qtx w3 = lin (Ps w) (rnth (w_x w)) /\ w_SC w3 = support (Ps w) (cutv w) /\
      w_scaled_dual_gap w3 = (quad (Ps w) (rnth (w_x w)) + lin (Ps w) (rnth (w_x w)) + support (Ps w) (cutv w))%R /\
      (forall U cu Du Eu, scaled_qp cu Du Eu U (Ps w) -> (tr (st_scaling st) = true -> exists sc, w_scaling w = Some sc /\ sc_cinv sc = (/ cu)%R) -> (tr (st_scaling st) = false -> cu = 1%R) ->
        p = objective U (unx Du (rnth (w_x w))) /\ dv = (- (/ 2) * quad U (unx Du (rnth (w_x w))) - support U (uny cu Eu (cutv w)))%R /\
        g = (quad U (unx Du (rnth (w_x w))) + lin U (unx Du (rnth (w_x w))) + support U (uny cu Eu (cutv w)))%R)).
    { unfold residuals.
      eapply post_bindP with (P := fun r => let '(pr, w1) := r in wok st w1 /\ fixed w1 = fixed w /\ iter3 w1 = iter3 w /\ w_Aty w1 = w_Aty w /\
        (pr = ninf (mm w) (fun j => Amul Q (X (w_x w)) j - Zv (w_z w) j)%R) /\
        (0 < mm w -> forall j, 0 <= j < mm w -> rnth (w_Ax w1) j = Amul (Ps w) (rnth (w_x w)) j) /\
        (0 < mm w -> w_scaled_prim_res w1 = ninf (mm w) (fun j => Amul (Ps w) (rnth (w_x w)) j - rnth (w_z w) j)%R)).
      { destruct (mm w =? 0) eqn:Em; [apply Z.eqb_eq in Em|apply Z.eqb_neq in Em].
        - apply post_ret. repeat (split; [solve [auto]|]). split; [rewrite Em; apply n0_R|]. split; intros; lia.
        - eapply post_weaken; [apply post_and; [apply prim_res_post|apply post_and; [apply safe_post, (prim_res_real st Q c D E w (w_x w) (w_z w) HW HT Lx Lz)|apply safe_post, (prim_res_safe st w (w_x w) (w_z w) HW); rsize]]|].
          cbv beta zeta. intros [pr w1] (HP & (R1 & R2 & R3) & HK). cbn [fst snd] in *. decompose [and] HP. split; [eapply wok_fixed; eauto|]. repeat (split; [solve [auto]|]). auto. }
      intros [pr w1] (W1 & F1 & I1 & A1 & P1 & P2 & P3). assert (ED : w_data w1 = w_data w) by (unfold fixed, core in F1; congruence). pose proof (tun_keeps _ _ F1 HT) as T1.
      rewrite <- ED in Lx, Ly, Lz.
      eapply post_bindP; [apply post_and; [apply dual_res_post|apply post_and; [apply safe_post, (dual_res_real st Q c D E w1 (w_x w) (w_y w) W1 T1 Lx Ly)|apply safe_post, (dual_res_safe st w1 (w_x w) (w_y w) W1 Lx Ly)]]|].
      cbv beta zeta. intros [dr w2] (HP & (R1 & R2 & R3 & R4 & R5) & HK). cbn [fst snd] in *. decompose [and] HP. clear HP. assert (W2 : wok st w2) by (eapply wok_fixed; eauto). rewrite ED in *.
      assert (F2 : fixed w2 = fixed w) by congruence. assert (ED2 : w_data w2 = w_data w) by (unfold fixed, core in F2; congruence). assert (ES2 : w_scaling w2 = w_scaling w) by (unfold fixed, core in F2; congruence).
      rewrite <- ED2 in Lx, Ly, Lz.
      eapply post_bindP with (P := fun r => let '(p, dv, g, w3) := r in (fixed w3 = fixed w2 /\ iter3 w3 = iter3 w2 /\ prods w3 = prods w2 /\ w_scaled_prim_res w3 = w_scaled_prim_res w2 /\ w_scaled_dual_res w3 = w_scaled_dual_res w2) /\
        (forall U cu Du Eu, scaled_qp cu Du Eu U (Ps w) -> (tr (st_scaling st) = true -> exists sc, w_scaling w = Some sc /\ sc_cinv sc = (/ cu)%R) -> (tr (st_scaling st) = false -> cu = 1%R) ->
        (p = objective U (unx Du (rnth (w_x w))) /\ dv = (- (/ 2) * quad U (unx Du (rnth (w_x w))) - support U (uny cu Eu (cutv w)))%R /\
        g = (quad U (unx Du (rnth (w_x w))) + lin U (unx Du (rnth (w_x w))) + support U (uny cu Eu (cutv w)))%R) /\
        w_xtPx w3 = quad (Ps w) (rnth (w_x w)) /\ w_qtx w3 = lin (Ps w) (rnth (w_x w)) /\ w_SC w3 = support (Ps w) (cutv w) /\
        w_scaled_dual_gap w3 = (quad (Ps w) (rnth (w_x w)) + lin (Ps w) (rnth (w_x w)) + support (Ps w) (cutv w))%R)).
      { eapply post_weaken; [apply post_and; [apply obj_post|]|].
        - intros r Er. assert (Hr : forall U cu Du Eu, scaled_qp cu Du Eu U (Ps w) -> (tr (st_scaling st) = true -> exists sc, w_scaling w = Some sc /\ sc_cinv sc = (/ cu)%R) -> (tr (st_scaling st) = false -> cu = 1%R) -> _)
            by (intros U0 cu0 Du0 Eu0 A0 B0 C0; rewrite <- ED2 in A0; rewrite <- ES2 in B0; rewrite <- ED2 in R2; exact (safe_post _ _ (obj_real st w2 (w_x w) (w_y w) U0 cu0 Du0 Eu0 W2 Lx Ly R2 A0 B0 C0) r Er)). exact Hr.
        - cbv beta zeta. intros [[[p dv] g] w3] (HP & HR). cbn [fst snd] in *. decompose [and] HP. split; [auto|]. intros U0 cu0 Du0 Eu0 A0 B0 C0. specialize (HR U0 cu0 Du0 Eu0 A0 B0 C0). cbv beta iota zeta in HR. rewrite ED2 in HR. unfold cutv. decompose [and] HR. auto 10. }
      intros [[[p dv] g] w3] ((C1 & C2 & C3 & C4 & C5) & HR). apply post_ret.
      unfold prods in C3. injection C3 as CA CP CT.
      destruct (HR U cu Du Eu HU HUs HUn) as (_ & V1 & V2 & V3 & V4).
      split; [congruence|]. split; [congruence|]. split; [exact P1|]. split; [exact R1|]. split; [intros Hp; rewrite CA, H2; auto|]. split; [rewrite CP; exact R2|].
      split. { intros j Hj. rewrite CT. destruct (Z.eq_dec (mm w) 0) as [Em|Em]; [|apply R3; auto; lia]. rewrite R4, A1, HA by auto. unfold Atmul, mulR, qp_of. cbn [q_m]. rewrite Em. symmetry. apply zsum_nil. lia. }
      split; [intros Hp; rewrite C4, H7; auto|]. split; [rewrite C5; exact R5|]. repeat (split; [assumption|]). intros U0 cu0 Du0 Eu0 A0 B0 C0. exact (proj1 (HR U0 cu0 Du0 Eu0 A0 B0 C0)). }
    intros [[[[[pr dr] p] dv] g] w3] (F3 & I3 & H1 & H2 & H3 & H4 & H5 & H6 & H7 & H8 & H9 & H10 & H11 & HR). apply post_ret. rs.
    assert (ED : w_data w3 = w_data w) by (unfold fixed, core in F3; congruence). unfold iter3 in I3. injection I3 as Ix Iy Iz.
    assert (EC : forall j, cutv w3 j = cutv w j) by (intros; unfold cutv; rewrite ED, Iy; auto).
    assert (HRU := HR U cu Du Eu HU HUs HUn). change (cutv (set_w_summary_printed 0 w3)) with (cutv w3). split; [|split].
    - constructor; rs; rewrite ?ED, ?Ix, ?Iy, ?Iz; auto.
      + rewrite H10. apply support_ext. intros. symmetry. apply EC.
      + change (cutv (set_w_summary_printed 0 w3)) with (cutv w3). rewrite (support_ext Q (uny c E (cutv w3)) (uny c E (cutv w))) by (intros; unfold uny; rewrite EC; auto).
        destruct (unscaled_termination st) eqn:Eu1.
        * destruct (tu_sc _ _ _ _ _ _ HT Eu1) as (sc & Es & _ & Hc & Hci & _). assert (Esc : tr (st_scaling st) = true) by (unfold unscaled_termination in Eu1; apply andb_true_iff in Eu1; tauto).
          destruct (HR Q c D E (tu_sq _ _ _ _ _ _ HT)) as (_ & _ & Hg); [intros _; exists sc; auto|rewrite Esc; discriminate|]. exact Hg.
        * destruct (tu_id _ _ _ _ _ _ HT Eu1) as (Hc & _ & _). rewrite H11, (un_quad _ _ _ _ _ (tu_sq _ _ _ _ _ _ HT)), (un_lin _ _ _ _ _ (tu_sq _ _ _ _ _ _ HT)), (un_support _ _ _ _ _ (cutv w) (tu_sq _ _ _ _ _ _ HT)), Hc, !Rmult_1_l. reflexivity.
    - unfold aty0. rs. rewrite ED. intros Em j Hj. rewrite H5 by auto. unfold Atmul, mulR, qp_of. cbn [q_m]. rewrite Em. apply zsum_nil. lia.
    - unfold reported. rs. rewrite Ix. change (cutv (set_w_summary_printed 0 w3)) with (cutv w3). rewrite (support_ext U (uny cu Eu (cutv w3)) (uny cu Eu (cutv w))) by (intros; unfold uny; rewrite EC; auto). exact HRU.
  Qed.
End Check.
