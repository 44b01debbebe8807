(** The derivative functions on the solvers a program can have, and the claims about the gradients they return. *)
From Coq Require Import ZArith Reals List Bool Lia Lra.
From Verif Require Import Num Arr ArrFacts RSum Csc CscSpec CscFacts CscFacts2 CscExamples Vec VecFacts Types Kkt KktSpec Linsys LinsysFacts LinsysSolve Scaling Validate Auxil Polish Api
  Inv RecSimp InvStep InvApi InvScale InvSolve ValidFacts InvUpd InvSetup History RealVec RealStep Frame FrameSolve ProbSpec ScaleReal FrameUpd UserSpec Refine ExEnv Ldl LdlEnv Session KktDense QpSpec ExReal
  Deriv DerivAsm DerivNorm DerivLin DerivRows DerivRun DerivApi DerivSpec DerivBlock DerivClaims DerivGrad DerivMain DerivPath.
Import ListNotations.
Open Scope Z_scope.

(** The derivative data of a solver with n variables and m constraints: as osqp_setup allocates them (contents undefined), or as earlier calls left them. *)
Inductive deriv_state {K : NumOps} (E : Env K) (m n : Z) : deriv K -> Prop :=
| ds_setup : deriv_state E m n (deriv_init E n m)
| ds_compute : forall g P q A l u st s0 g' s dd dx dy fl dd', data_readable P q A l u m n -> osqp_setup E g P q A l u m n st = Some (0, Some s0, g') -> reach E s0 s ->
    deriv_state E m n dd -> n <= zlen dx -> m <= zlen dy -> osqp_adjoint_derivative_compute E (Some (s, dd)) dx dy = Some (fl, Some dd') -> deriv_state E m n dd'.

Section Reach.
  Context {K : NumOps}.
  Variable E : Env K.
  Hypothesis EO : env_ok E.
  Hypothesis MM : nltb (OSQP_RHO_MIN K) (OSQP_RHO_MAX K) = true.

  Lemma reach_facts g P q A l u m n st s0 g' s : data_readable P q A l u m n -> osqp_setup E g P q A l u m n st = Some (0, Some s0, g') -> reach E s0 s ->
    Inv s /\ d_n (w_data (sv_work s)) = n /\ d_m (w_data (sv_work s)) = m.
  Proof.
    intros HDR HS HR. destruct (osqp_setup_safe E EO MM g P q A l u m n st HDR) as (r & Er & HRes). rewrite HS in Er. injection Er as <-. cbn [fst snd] in HRes.
    inversion HRes as [| |? ? ? ? ? ? ? ? ? ? EE|s1 g1 HDO HV HI Dn Dm HF Hw HLF Hsec Hhan EE]; subst; try discriminate.
    destruct (reach_inv E EO MM s0 s HI HR) as (HI' & F & _). destruct F as [F1 F2 F3 F4 _ _ _]. split; [auto|]. split; congruence.
  Qed.
  Lemma init_ok n m : 0 <= n -> 0 <= m -> dv_ok n m (deriv_init E n m).
  Proof. intros Hn Hm. constructor; cbn [deriv_init dv_y_l dv_y_u dv_ryl dv_ryu dv_rhs dv_n_ineq_l dv_n_ineq_u dv_n_eq]; rewrite ?zlen_zrep; lia. Qed.
  Lemma no_solution s dd dx dyl dyu r : adjoint_derivative_compute E s dd dx dyl dyu = Some r -> exists so, sv_solution s = Some so.
  Proof.
    unfold adjoint_derivative_compute. intros H. destruct (sv_solution s) as [so|]; [eauto|]. exfalso. revert H. cbv zeta.
    destruct (csc_copy (env_jz E) (env_jx E) (d_P (w_data (sv_work s)))); [|discriminate]. destruct (csc_copy (env_jz E) (env_jx E) (d_A (w_data (sv_work s)))); discriminate.
  Qed.
  Lemma state_ok m n dd : 0 <= n -> 0 <= m -> deriv_state E m n dd -> dv_ok n m dd.
  Proof.
    intros Hn Hm H. induction H as [|g P q A l u st s0 g' s dd dx dy fl dd' HD HS HR HQ IH Lx Ly HC]; [apply init_ok; auto|].
    destruct (reach_facts _ _ _ _ _ _ _ _ _ _ _ _ HD HS HR) as (HI & En & Em). cbn [osqp_adjoint_derivative_compute] in HC.
    destruct (adjoint_derivative_compute E s dd dx dy dy) as [[fl' dd2]|] eqn:EC; [|discriminate HC]. cbn [fst snd] in HC. injection HC as <- <-.
    destruct (no_solution _ _ _ _ _ _ EC) as (so & Eso). destruct (compute_safe E EO s dd dx dy dy so HI Eso) as (o & Eo & _ & DO); rewrite ?En, ?Em; auto.
    rewrite EC in Eo. injection Eo as <-. cbn [snd] in DO. rewrite En, Em in DO. exact DO.
  Qed.

  Definition mat_of (m n : Z) (M : csc K) : Prop := wf M /\ cm M = m /\ cn M = n.

  (** In bounds, whatever the numbers: the caller's arrays have the sizes of the problem. *)
  Lemma deriv_calls_safe g P q A l u m n st s0 g' s dd so : data_readable P q A l u m n -> osqp_setup E g P q A l u m n st = Some (0, Some s0, g') -> reach E s0 s ->
    deriv_state E m n dd -> sv_solution s = Some so ->
    (forall dx dy, n <= zlen dx -> m <= zlen dy -> exists dd', osqp_adjoint_derivative_compute E (Some (s, dd)) dx dy = Some (0, Some dd')) /\
    (forall dP dA, mat_of n n dP -> mat_of m n dA -> exists px ax, osqp_adjoint_derivative_get_mat (Some (s, dd)) dP dA = Some (0, (set_x dP px, set_x dA ax)) /\ zlen px = zlen (cx dP) /\ zlen ax = zlen (cx dA)) /\
    (forall dq dl du, n <= zlen dq -> m <= zlen dl -> m <= zlen du ->
      exists dq' dl' du', osqp_adjoint_derivative_get_vec (Some (s, dd)) dq dl du = Some (0, (dq', dl', du')) /\ zlen dq' = zlen dq /\ zlen dl' = zlen dl /\ zlen du' = zlen du /\
        (forall i, n <= i < zlen dq -> znth n0 dq' i = znth n0 dq i) /\ (forall i, m <= i < zlen dl -> znth n0 dl' i = znth n0 dl i) /\ (forall i, m <= i < zlen du -> znth n0 du' i = znth n0 du i)).
  Proof.
    intros HD HS HR HQ Eso. destruct (reach_facts _ _ _ _ _ _ _ _ _ _ _ _ HD HS HR) as (HI & En & Em). pose proof (wo_d _ _ (iv_w _ HI)) as Hd. pose proof (do_n _ Hd) as Hn. pose proof (do_m _ Hd) as Hm.
    rewrite En in Hn. rewrite Em in Hm. pose proof (state_ok m n dd ltac:(lia) Hm HQ) as DK. assert (DK' : dv_ok (d_n (w_data (sv_work s))) (d_m (w_data (sv_work s))) dd) by (rewrite En, Em; exact DK).
    split; [|split].
    - intros dx dy Lx Ly. destruct (compute_safe E EO s dd dx dy dy so HI Eso DK') as ([fl dd'] & Eo & O1 & _); rewrite ?En, ?Em; auto. cbn [fst] in O1. subst fl.
      exists dd'. cbn [osqp_adjoint_derivative_compute]. rewrite Eo. reflexivity.
    - intros dP dA (W1 & m1 & k1) (W2 & m2 & k2). destruct (get_mat_spec s dd so dP dA HI Eso DK' W1) as (px & ax & Ex & L1 & L2 & _); rewrite ?En, ?Em; auto.
      exists px, ax. cbn [osqp_adjoint_derivative_get_mat]. rewrite Ex. auto.
    - intros dq dl du H1 H2 H3. destruct (get_vec_spec s dd dq dl du DK') as (dq' & dl' & du' & Ex & L1 & L2 & L3 & V1 & V2 & V3); rewrite ?En, ?Em; auto; try lia.
      rewrite En in V1. rewrite Em in V2, V3. exists dq', dl', du'. cbn [osqp_adjoint_derivative_get_vec]. rewrite Ex. do 4 (split; [auto|]). split; [|split]; intros i Hi.
      + rewrite V1 by lia. replace (i <? n) with false by lia. auto.
      + rewrite V2 by lia. replace (i <? m) with false by lia. auto.
      + rewrite V3 by lia. replace (i <? m) with false by lia. auto.
  Qed.
  (** Without a solver the three functions report it and write nothing. *)
  Lemma deriv_null dx dy dP dA dq dl du :
    osqp_adjoint_derivative_compute E None dx dy = Some (OSQP_WORKSPACE_NOT_INIT_ERROR, None) /\
    @osqp_adjoint_derivative_get_mat K None dP dA = Some (OSQP_WORKSPACE_NOT_INIT_ERROR, (dP, dA)) /\
    @osqp_adjoint_derivative_get_vec K None dq dl du = Some (OSQP_WORKSPACE_NOT_INIT_ERROR, (dq, dl, du)).
  Proof. auto. Qed.
End Reach.

(** The three functions, called one after the other with (dx, dy), return -- up to [eps] -- the gradient with respect to (P, q, A, l, u) of
    sum dx_j x_j + sum w_i y_i, (x, y) the solution of p, for every direction in which the data may move. *)
Definition returns_gradient (E : Env Rops) (s : solver Rops) (dd : deriv Rops) (p : qp) (x y : Z -> R) (dx dy : list R) (w : Z -> R) (eps : R) : Prop :=
  exists dd' gP gA gq gl gu, osqp_adjoint_derivative_compute E (Some (s, dd)) dx dy = Some (0, Some dd') /\
    (forall dP dA, mat_of (q_n p) (q_n p) dP -> mat_of (q_m p) (q_n p) dA ->
       exists px ax, osqp_adjoint_derivative_get_mat (Some (s, dd')) dP dA = Some (0, (set_x dP px, set_x dA ax)) /\ holds_entries (set_x dP px) gP /\ holds_entries (set_x dA ax) gA) /\
    (forall dq dl du, q_n p <= rlen dq -> q_m p <= rlen dl -> q_m p <= rlen du ->
       exists dq' dl' du', osqp_adjoint_derivative_get_vec (Some (s, dd')) dq dl du = Some (0, (dq', dl', du')) /\
         (forall j, 0 <= j < q_n p -> rnth dq' j = gq j) /\ (forall i, 0 <= i < q_m p -> rnth dl' i = gl i /\ rnth du' i = gu i)) /\
    forall dp x' y', direction p dp -> tangent p dp x y x' y' ->
      (Rabs (sumn (q_n p) (fun j => rnth dx j * x' j) + sumn (q_m p) (fun i => w i * y' i) - predicted p gP gA gq gl gu dp) <= eps * sqrt (sumsq (q_n p) x' + sumsq (q_m p) y'))%R.

(** What the theorems ask of the solution: it is optimal, bounds that hold it are genuine, the multipliers of the equalities are not zero, the optimality conditions are
    regular there (Jacobian bounded below by k), and the weights are not astronomically large. *)
Record regular (p : qp) (x y : Z -> R) (dx dy : Z -> R) (k : R) : Prop := {
  rg_kkt : kkt p x (Amul p x) y; rg_real : bounds_real p y; rg_eq : forall i, 0 <= i < q_m p -> is_eq p i = true -> y i <> 0%R;
  rg_k : (/ 100 <= k)%R; rg_cond : conditioned p x y k; rg_size : (sumsq (q_n p) dx + 2 * sumsq (q_m p) dy <= 10 ^ 300 * 10 ^ 300)%R }.

Lemma weights_ext E s dd p x y dx dy w w' eps : (forall i, 0 <= i < q_m p -> w i = w' i) -> returns_gradient E s dd p x y dx dy w eps -> returns_gradient E s dd p x y dx dy w' eps.
Proof.
  intros HW (dd' & gP & gA & gq & gl & gu & H1 & H2 & H3 & H4). exists dd', gP, gA, gq, gl, gu. do 3 (split; [auto|]). intros dp x' y' HD HT.
  replace (sumn (q_m p) (fun i => w' i * y' i)%R) with (sumn (q_m p) (fun i => w i * y' i)%R); [auto|]. unfold sumn. apply zsum_ext. intros i Hi. rewrite HW by auto. auto.
Qed.

Section Sessions.
  Variable E : Env Rops.
  Hypothesis (EO : env_ok E) (EX : exact_ldl E).
  Variables (P A : csc Rops) (q0 l0 u0 : option (list R)) (m n : Z) (ust : settings Rops).
  Notation ses := (session E P A q0 l0 u0 m n ust).

  Theorem session_gradient s d so dd dx dy k : ses s d -> sv_solution s = Some so -> deriv_state E m n dd -> n <= rlen dx -> m <= rlen dy ->
    regular (qp_of d) (rnth (so_x so)) (rnth (so_y so)) (rnth dx) (rnth dy) k ->
    returns_gradient E s dd (qp_of d) (rnth (so_x so)) (rnth (so_y so)) dx dy (fun i => sgn_used (rnth (so_y so)) i * rnth dy i)%R (/ 10 ^ 12 * (1 + / k))%R.
  Proof.
    intros HS Eso HQ Lx Ly [R1 R2 R3 R4 R5 R6]. destruct (session_facts E EO _ _ _ _ _ _ _ _ _ _ HS) as (HI & HR & _ & _ & Dn & Dm & _).
    destruct (session_size E EO _ _ _ _ _ _ _ _ _ _ HS) as (En & Em). pose proof (wo_d _ _ (iv_w _ HI)) as Hd. pose proof (do_n _ Hd) as Hn. pose proof (do_m _ Hd) as Hm. rewrite En in Hn. rewrite Em in Hm.
    pose proof (state_ok E EO MM_R m n dd ltac:(lia) Hm HQ) as DK.
    destruct (gradients E EO EX s d so dd dx dy k HI HR Eso) as (dd' & gP & gA & gq & gl & gu & H1 & H2 & H3 & H4 & H5); rewrite ?En, ?Em, ?Dn, ?Dm; auto.
    exists dd', gP, gA, gq, gl, gu. split; [auto|]. split; [|auto]. intros dP dA (W1 & m1 & k1) (W2 & m2 & k2). apply H3; auto.
  Qed.
  Theorem session_gradient_signed s d so dd dx dy k : ses s d -> sv_solution s = Some so -> deriv_state E m n dd -> n <= rlen dx -> m <= rlen dy ->
    regular (qp_of d) (rnth (so_x so)) (rnth (so_y so)) (rnth dx) (rnth dy) k ->
    returns_gradient E s dd (qp_of d) (rnth (so_x so)) (rnth (so_y so)) dx dy (fun i => if Rlt_dec (rnth (so_y so) i) 0 then -1 * rnth dy i else 1 * rnth dy i)%R (/ 10 ^ 12 * (1 + / k))%R.
  Proof.
    intros. eapply weights_ext; [|eapply session_gradient; eauto]. intros i Hi. cbv beta. unfold sgn_used. destruct (Rlt_dec _ _); auto.
  Qed.
  (** With dy = 0 on the constraints whose multiplier is negative it is the gradient the user asked for. *)
  Theorem session_gradient_dy s d so dd dx dy k : ses s d -> sv_solution s = Some so -> deriv_state E m n dd -> n <= rlen dx -> m <= rlen dy ->
    regular (qp_of d) (rnth (so_x so)) (rnth (so_y so)) (rnth dx) (rnth dy) k -> (forall i, 0 <= i < m -> (rnth (so_y so) i < 0)%R -> rnth dy i = 0%R) ->
    returns_gradient E s dd (qp_of d) (rnth (so_x so)) (rnth (so_y so)) dx dy (rnth dy) (/ 10 ^ 12 * (1 + / k))%R.
  Proof.
    intros HS Eso HQ Lx Ly RG HZ. destruct (session_facts E EO _ _ _ _ _ _ _ _ _ _ HS) as (_ & _ & _ & _ & _ & Dm & _).
    eapply weights_ext; [|apply (session_gradient s d so dd dx dy k); auto]. cbv beta. cbn [q_m qp_of]. rewrite Dm. intros i Hi. unfold sgn_used. destruct (Rlt_dec _ _) as [H|H]; [rewrite (HZ i Hi H)|]; ring.
  Qed.
End Sessions.

(** ** Paths *)
(** The same data within the dimensions. *)
Record same_qp (p p' : qp) : Prop := {
  sq_n : q_n p = q_n p'; sq_m : q_m p = q_m p';
  sq_P : forall i j, 0 <= i < q_n p -> 0 <= j < q_n p -> q_P p i j = q_P p' i j; sq_A : forall i j, 0 <= i < q_m p -> 0 <= j < q_n p -> q_A p i j = q_A p' i j;
  sq_q : forall j, 0 <= j < q_n p -> q_q p j = q_q p' j; sq_l : forall i, 0 <= i < q_m p -> q_l p i = q_l p' i; sq_u : forall i, 0 <= i < q_m p -> q_u p i = q_u p' i }.
Lemma same_eq p p' i : same_qp p p' -> 0 <= i < q_m p -> is_eq p i = is_eq p' i.
Proof. intros H Hi. unfold is_eq. rewrite (sq_l _ _ H), (sq_u _ _ H) by auto. auto. Qed.
Lemma same_direction p p' dp : same_qp p p' -> direction p dp -> direction p' dp.
Proof.
  intros H [D1 D2 D3 D4]. pose proof (sq_n _ _ H). pose proof (sq_m _ _ H). constructor; try congruence; auto. intros i Hi He. apply D4; [congruence|]. rewrite (same_eq p p' i H) by congruence. auto.
Qed.
Lemma same_tangent p p' dp x y x' y' : same_qp p p' -> tangent p dp x y x' y' -> tangent p' dp x y x' y'.
Proof.
  intros H [T1 T2 T3 T4 T5]. pose proof (sq_n _ _ H) as Hn. pose proof (sq_m _ _ H) as Hm.
  assert (EA : forall v i, 0 <= i < q_m p -> Amul p v i = Amul p' v i) by (intros v i Hi; unfold Amul, mulR; rewrite <- Hn; apply zsum_ext; intros j Hj; rewrite (sq_A _ _ H) by auto; auto).
  assert (EP : forall v i, 0 <= i < q_n p -> Pmul p v i = Pmul p' v i) by (intros v i Hi; unfold Pmul, mulR; rewrite <- Hn; apply zsum_ext; intros j Hj; rewrite (sq_P _ _ H) by auto; auto).
  assert (ET : forall v j, 0 <= j < q_n p -> Atmul p v j = Atmul p' v j) by (intros v j Hj; unfold Atmul, mulR, tr_; rewrite <- Hm; apply zsum_ext; intros i Hi; rewrite (sq_A _ _ H) by auto; auto).
  constructor; intros i Hi; rewrite <- ?Hn, <- ?Hm in Hi; rewrite <- ?EA, <- ?EP, <- ?ET by auto; auto.
  - intros He. apply T4; auto. rewrite (same_eq p p' i H) by auto. auto.
  - intros He. apply T5; auto. rewrite (same_eq p p' i H) by auto. auto.
Qed.

(** The same, said of families of problems: along every differentiable family of problems p(t) that starts at the stored problem, with differentiable solutions (x(t), y(t)) that start at (x, y),
    the derivative at t = 0 of sum dx_j x_j(t) + sum w_i y_i(t) exists and is what the returned gradients predict from the derivative of the data. *)
Definition follows_paths (E : Env Rops) (s : solver Rops) (dd : deriv Rops) (d : data Rops) (x y : Z -> R) (dx dy : list R) (w : Z -> R) (eps : R) : Prop :=
  exists dd' gP gA gq gl gu, osqp_adjoint_derivative_compute E (Some (s, dd)) dx dy = Some (0, Some dd') /\
    (forall dP dA, mat_of (d_n d) (d_n d) dP -> mat_of (d_m d) (d_n d) dA ->
       exists px ax, osqp_adjoint_derivative_get_mat (Some (s, dd')) dP dA = Some (0, (set_x dP px, set_x dA ax)) /\ holds_entries (set_x dP px) gP /\ holds_entries (set_x dA ax) gA) /\
    (forall dq dl du, d_n d <= rlen dq -> d_m d <= rlen dl -> d_m d <= rlen du ->
       exists dq' dl' du', osqp_adjoint_derivative_get_vec (Some (s, dd')) dq dl du = Some (0, (dq', dl', du')) /\
         (forall j, 0 <= j < d_n d -> rnth dq' j = gq j) /\ (forall i, 0 <= i < d_m d -> rnth dl' i = gl i /\ rnth du' i = gu i)) /\
    forall p xs ys dp x' y', solution_path p xs ys dp x' y' -> same_qp (p 0%R) (qp_of d) -> (forall j, 0 <= j < d_n d -> xs 0%R j = x j) -> (forall i, 0 <= i < d_m d -> ys 0%R i = y i) ->
      exists D, derivable_pt_lim (fun t => sumn (d_n d) (fun j => rnth dx j * xs t j) + sumn (d_m d) (fun i => w i * ys t i))%R 0 D /\
        (Rabs (D - predicted (qp_of d) gP gA gq gl gu dp) <= eps * sqrt (sumsq (d_n d) x' + sumsq (d_m d) y'))%R.
(** Gradients describe how the solution moves along every differentiable family of problems. *)
Lemma gradient_path E s dd d x y dx dy w eps : returns_gradient E s dd (qp_of d) x y dx dy w eps -> follows_paths E s dd d x y dx dy w eps.
Proof.
  intros (dd' & gP & gA & gq & gl & gu & H1 & H2 & H3 & H4). exists dd', gP, gA, gq, gl, gu. split; [auto|]. split; [auto|]. split; [auto|].
  intros p xs ys dp x' y' SP HS Hx Hy. pose proof (path_direction p xs ys dp x' y' SP) as DR. pose proof (path_tangent p xs ys dp x' y' SP) as TG.
  pose proof (sq_n _ _ HS) as Sn. pose proof (sq_m _ _ HS) as Sm. cbn [q_n q_m qp_of] in Sn, Sm.
  assert (En : q_n dp = d_n d) by (rewrite <- Sn; symmetry; apply (sp_n _ _ _ _ _ _ SP)). assert (Em : q_m dp = d_m d) by (rewrite <- Sm; symmetry; apply (sp_m _ _ _ _ _ _ SP)).
  pose proof (same_direction _ _ _ HS DR) as DR'. pose proof (same_tangent _ _ _ _ _ _ _ HS TG) as TG'.
  exists (sumn (d_n d) (fun j => rnth dx j * x' j) + sumn (d_m d) (fun i => w i * y' i))%R. split.
  - rewrite <- En, <- Em. apply (path_loss p xs ys dp x' y' SP (rnth dx) w).
  - apply (H4 dp x' y' DR'). eapply tangent_ext; [| | | |exact TG']; cbn [q_n q_m qp_of]; auto.
Qed.

Section Paths.
  Variable E : Env Rops.
  Hypothesis (EO : env_ok E) (EX : exact_ldl E).
  Variables (P A : csc Rops) (q0 l0 u0 : option (list R)) (m n : Z) (ust : settings Rops).
  Notation ses := (session E P A q0 l0 u0 m n ust).
  Theorem session_path_dy s d so dd dx dy k : ses s d -> sv_solution s = Some so -> deriv_state E m n dd -> n <= rlen dx -> m <= rlen dy ->
    regular (qp_of d) (rnth (so_x so)) (rnth (so_y so)) (rnth dx) (rnth dy) k -> (forall i, 0 <= i < m -> (rnth (so_y so) i < 0)%R -> rnth dy i = 0%R) ->
    follows_paths E s dd d (rnth (so_x so)) (rnth (so_y so)) dx dy (rnth dy) (/ 10 ^ 12 * (1 + / k))%R.
  Proof. intros. apply gradient_path. eapply session_gradient_dy; eauto. Qed.
End Paths.
