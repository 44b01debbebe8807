(** ADMM as an algorithm on quadratic programs, without reference to the solver. *)
From Coq Require Import ZArith Reals List Bool Lia Lra.
From Verif Require Import Num RSum RealStep Ldl QpSpec.
Open Scope Z_scope.
Local Open Scope R_scope.

(** One ADMM iteration for the problem p (RealStep.v, [admm1]). *)
Definition adm (p : qp) (sigma alpha : R) (rho : Z -> R) (x z y x' z' y' xt zt : Z -> R) : Prop :=
  admm1 (q_n p) (q_m p) (q_P p) (q_A p) (q_q p) (q_l p) (q_u p) sigma alpha rho x z y x' z' y' xt zt.

(** ** Projection and normal cone *)
Lemma clip_ncone l u v rho : l <= u -> 0 < rho -> ncone l u (clipR l u v) (rho * (v - clipR l u v)).
Proof.
  intros Hl Hr. unfold ncone, clipR. set (z := Rmin (Rmax v l) u).
  assert (Hz : (z = v /\ l <= v <= u) \/ (z = l /\ v < l) \/ (z = u /\ u < v)).
  { subst z. unfold Rmin, Rmax. destruct (Rle_dec v l); destruct (Rle_dec _ u); lra. }
  destruct Hz as [(-> & Hv)|[(-> & Hv)|(-> & Hv)]].
  - split; [auto|]. replace (rho * (v - v)) with 0 by ring. lra.
  - split; [lra|]. split; intros Hy; auto. exfalso. assert (0 < rho * (l - v)) by (apply Rmult_lt_0_compat; lra). lra.
  - split; [lra|]. split; intros Hy; auto. exfalso. assert (0 < rho * (v - u)) by (apply Rmult_lt_0_compat; lra). lra.
Qed.
Lemma ncone_clip l u z y rho : 0 < rho -> ncone l u z y -> clipR l u (z + / rho * y) = z.
Proof.
  intros Hr ((B1 & B2) & C1 & C2). unfold clipR. assert (Hi : 0 < / rho) by (apply Rinv_0_lt_compat; auto).
  destruct (Rtotal_order y 0) as [Hy|[Hy|Hy]].
  - specialize (C2 Hy). assert (0 < / rho * - y) by (apply Rmult_lt_0_compat; lra). rewrite Rmax_right by lra. rewrite Rmin_left by lra. lra.
  - rewrite Hy. replace (z + / rho * 0) with z by ring. rewrite Rmax_left by lra. apply Rmin_left. lra.
  - specialize (C1 Hy). assert (0 < / rho * y) by (apply Rmult_lt_0_compat; lra). rewrite Rmax_left by lra. rewrite Rmin_right by lra. lra.
Qed.
Lemma ncone_mono l u z y z' y' : ncone l u z y -> ncone l u z' y' -> 0 <= (y - y') * (z - z').
Proof.
  intros ((B1 & B2) & C1 & C2) ((B1' & B2') & C1' & C2').
  destruct (Rtotal_order y 0) as [Hy|[Hy|Hy]], (Rtotal_order y' 0) as [Hy'|[Hy'|Hy']];
    try (specialize (C1 ltac:(lra))); try (specialize (C2 ltac:(lra))); try (specialize (C1' ltac:(lra))); try (specialize (C2' ltac:(lra))); subst; try lra; try nra.
Qed.

Lemma sumn_minus n f g : sumn n (fun i => f i - g i) = sumn n f - sumn n g.
Proof. rewrite (sumn_ext n _ (fun i => f i + -1 * g i)) by (intros; ring). rewrite sumn_plus, sumn_scal. ring. Qed.
Lemma sumn_nonneg n f : (forall i, (0 <= i < n)%Z -> 0 <= f i) -> 0 <= sumn n f.
Proof. apply zsum_nonneg. Qed.
Lemma sumn_zero n f : (forall i, (0 <= i < n)%Z -> 0 <= f i) -> sumn n f <= 0 -> forall i, (0 <= i < n)%Z -> f i = 0.
Proof.
  intros HN HS i Hi. apply Rle_antisym; [|auto]. eapply Rle_trans; [|exact HS].
  unfold sumn. rewrite <- (zsum_single 0 n i f) by lia. apply zsum_le. intros j Hj. destruct (Z.eqb_spec j i) as [->|]; [lra|auto].
Qed.
Lemma mulR_minus c M f g i : mulR c M (fun j => f j - g j) i = mulR c M f i - mulR c M g i.
Proof. rewrite (mulR_ext c M (fun j => f j - g j) (fun j => f j + -1 * g j)) by (intros; ring). rewrite mulR_plus, mulR_scal. ring. Qed.

Section Spec.
  Context (p : qp) (sigma alpha : R) (rho : Z -> R).
  Hypothesis Hs : 0 < sigma.
  Hypothesis Hr : forall i, (0 <= i < q_m p)%Z -> 0 < rho i.
  Hypothesis Hb : forall i, (0 <= i < q_m p)%Z -> q_l p i <= q_u p i.

  (** After an iteration z and y are complementary. *)
  Lemma adm_cone x z y x' z' y' xt zt : adm p sigma alpha rho x z y x' z' y' xt zt ->
    forall i, (0 <= i < q_m p)%Z -> ncone (q_l p i) (q_u p i) (z' i) (y' i).
  Proof.
    intros [_ _ _ HZ HY] i Hi. rewrite (HY i Hi), (HZ i Hi). set (v := alpha * zt i + (1 - alpha) * z i + / rho i * y i).
    pose proof (Hr i Hi). replace (y i + rho i * _) with (rho i * (v - clipR (q_l p i) (q_u p i) v)) by (subst v; field; lra). apply clip_ncone; auto.
  Qed.

  (** Fixed points satisfy the optimality conditions. *)
  Theorem fixed_kkt x z y x' z' y' xt zt : alpha <> 0 -> adm p sigma alpha rho x z y x' z' y' xt zt ->
    (forall i, (0 <= i < q_n p)%Z -> x' i = x i) -> (forall i, (0 <= i < q_m p)%Z -> z' i = z i) -> (forall i, (0 <= i < q_m p)%Z -> y' i = y i) -> kkt p x z y.
  Proof.
    intros Ha HA Fx Fz Fy. pose proof (adm_cone _ _ _ _ _ _ _ _ HA) as HC. destruct HA as [HT HTZ HX HZ HY].
    assert (Ex : forall i, (0 <= i < q_n p)%Z -> xt i = x i).
    { intros i Hi. specialize (HX i Hi). rewrite Fx in HX by auto. apply (Rmult_eq_reg_l alpha); auto. lra. }
    assert (Ez : forall i, (0 <= i < q_m p)%Z -> zt i = z i).
    { intros i Hi. specialize (HY i Hi). rewrite Fy, Fz in HY by auto. pose proof (Hr i Hi). apply (Rmult_eq_reg_l (rho i * alpha)); [|apply Rmult_integral_contrapositive; lra]. lra. }
    constructor; intros i Hi.
    - specialize (HT i Hi). rewrite (Ex i Hi) in HT. rewrite (mulR_ext _ _ xt x) in HT by auto.
      rewrite (mulR_ext (q_m p) _ (fun k => rho k * zt k) (fun k => (rho k * z k - y k) + y k)) in HT by (intros j Hj; rewrite Ez by auto; ring).
      rewrite mulR_plus in HT. unfold Pmul, Atmul, tr_. lra.
    - rewrite <- Ez by auto. rewrite HTZ by auto. unfold Amul. apply mulR_ext. intros; symmetry; auto.
    - specialize (HC i Hi). rewrite Fz, Fy in HC by auto. auto.
  Qed.

  (** The energy identity of the linear step:  h'Ph + sigma |h|^2 + sum rho (Ah)^2 *)
  Definition energy (h : Z -> R) : R := quad p h + sigma * sumn (q_n p) (fun i => h i * h i) + sumn (q_m p) (fun i => rho i * (Amul p h i * Amul p h i)).

  Section Convex.
  Hypothesis HC : convex_qp p.
  Lemma quad_nonneg h : 0 <= quad p h. Proof. rewrite quad_qform. apply HC. Qed.
  Lemma energy_zero h : energy h <= 0 -> forall i, (0 <= i < q_n p)%Z -> h i = 0.
  Proof.
    intros HE i Hi. unfold energy in HE. pose proof (quad_nonneg h).
    assert (H1 : 0 <= sumn (q_m p) (fun i => rho i * (Amul p h i * Amul p h i))) by (apply sumn_nonneg; intros k Hk; pose proof (Hr k Hk); apply Rmult_le_pos; [lra|nra]).
    assert (H2 : 0 <= sumn (q_n p) (fun i => h i * h i)) by (apply sumn_nonneg; intros; nra).
    assert (H3 : sumn (q_n p) (fun i => h i * h i) <= 0).
    { apply (Rmult_le_reg_l sigma); auto. lra. }
    assert (H4 : h i * h i = 0) by (apply (sumn_zero (q_n p) (fun i => h i * h i)); auto; intros; nra). apply Rsqr_0_uniq. exact H4.
  Qed.

  (** sum h_i (A'w)_i = sum w_i (Ah)_i *)
  Lemma dot_At h w : sumn (q_n p) (fun i => h i * mulR (q_m p) (fun a b => q_A p b a) w i) = sumn (q_m p) (fun i => w i * Amul p h i).
  Proof. rewrite At_adjoint. apply sumn_ext. intros i Hi. unfold Atmul, tr_. ring. Qed.

  (** KKT points are fixed points. *)
  Theorem kkt_fixed x z y x' z' y' xt zt : adm p sigma alpha rho x z y x' z' y' xt zt -> kkt p x z y ->
    (forall i, (0 <= i < q_n p)%Z -> x' i = x i) /\ (forall i, (0 <= i < q_m p)%Z -> z' i = z i) /\ (forall i, (0 <= i < q_m p)%Z -> y' i = y i).
  Proof.
    intros [HT HTZ HX HZ HY] [K1 K2 K3]. set (h := fun i => xt i - x i).
    assert (Eh : forall i, (0 <= i < q_n p)%Z -> Pmul p h i + sigma * h i + mulR (q_m p) (fun a b => q_A p b a) (fun k => rho k * Amul p h k) i = 0).
    { intros i Hi. specialize (HT i Hi). specialize (K1 i Hi). unfold Pmul, h. rewrite mulR_minus. fold h.
      rewrite (mulR_ext (q_m p) _ (fun k => rho k * Amul p h k) (fun k => (rho k * zt k - (rho k * z k - y k)) - y k)).
      2:{ intros k Hk. rewrite HTZ by auto. rewrite <- K2 by auto. unfold Amul, h. rewrite mulR_minus. ring. }
      rewrite !mulR_minus. unfold Pmul, Atmul, tr_ in K1. rewrite mulR_minus in HT. lra. }
    assert (E0 : energy h = 0).
    { unfold energy, quad. rewrite <- (sumn_ext (q_m p) (fun i => (rho i * Amul p h i) * Amul p h i)) by (intros; ring). rewrite <- dot_At, <- sumn_scal, <- !sumn_plus.
      apply zsum_0. intros i Hi. transitivity (h i * (Pmul p h i + sigma * h i + mulR (q_m p) (fun a b => q_A p b a) (fun k => rho k * Amul p h k) i)); [ring|]. rewrite Eh by auto. ring. }
    assert (Ex : forall i, (0 <= i < q_n p)%Z -> xt i = x i) by (intros i Hi; pose proof (energy_zero h ltac:(lra) i Hi); unfold h in *; lra).
    assert (Ez : forall i, (0 <= i < q_m p)%Z -> zt i = z i).
    { intros i Hi. rewrite HTZ by auto. rewrite <- K2 by auto. apply mulR_ext; auto. }
    assert (Ez' : forall i, (0 <= i < q_m p)%Z -> z' i = z i).
    { intros i Hi. rewrite HZ by auto. rewrite Ez by auto. replace (alpha * z i + (1 - alpha) * z i + / rho i * y i) with (z i + / rho i * y i) by ring. apply ncone_clip; auto. }
    split; [|split]; auto.
    - intros i Hi. rewrite HX, Ex by auto. ring.
    - intros i Hi. rewrite HY, Ez, Ez' by auto. ring.
  Qed.

  (** The x part of the linear step minimises the augmented Lagrangian
      1/2 x'Px + q'x + sigma/2 |x - x_k|^2 + sum rho_i/2 ((Ax - z_k + y_k/rho)_i)^2. *)
  Definition augmented (xk zk yk x : Z -> R) : R :=
    objective p x + sigma / 2 * sumn (q_n p) (fun i => (x i - xk i) * (x i - xk i)) +
    sumn (q_m p) (fun i => rho i / 2 * ((Amul p x i - zk i + yk i / rho i) * (Amul p x i - zk i + yk i / rho i))).
  Lemma augmented_ext xk zk yk f g : (forall i, (0 <= i < q_n p)%Z -> f i = g i) -> augmented xk zk yk f = augmented xk zk yk g.
  Proof.
    intros H. unfold augmented. rewrite (objective_ext p f g) by auto.
    rewrite (sumn_ext (q_n p) (fun i => (f i - xk i) * (f i - xk i)) (fun i => (g i - xk i) * (g i - xk i))) by (intros; rewrite H; auto).
    rewrite (sumn_ext (q_m p) (fun i => rho i / 2 * ((Amul p f i - zk i + yk i / rho i) * (Amul p f i - zk i + yk i / rho i)))
      (fun i => rho i / 2 * ((Amul p g i - zk i + yk i / rho i) * (Amul p g i - zk i + yk i / rho i)))); auto.
    intros i Hi. unfold Amul. rewrite (mulR_ext _ _ f g) by auto. auto.
  Qed.
  Theorem step_minimises x z y x' z' y' xt zt : symmetric p -> adm p sigma alpha rho x z y x' z' y' xt zt ->
    forall w, augmented x z y xt <= augmented x z y w.
  Proof.
    intros HS [HT HTZ _ _ _] w. set (h := fun i => w i - xt i).
    rewrite (augmented_ext x z y w (fun i => xt i + h i)) by (intros; unfold h; ring).
    unfold augmented. rewrite objective_diff by auto.
    assert (S1 : sumn (q_n p) (fun i => (xt i + h i - x i) * (xt i + h i - x i)) =
      sumn (q_n p) (fun i => (xt i - x i) * (xt i - x i)) + (2 * sumn (q_n p) (fun i => h i * (xt i - x i)) + sumn (q_n p) (fun i => h i * h i))).
    { rewrite <- sumn_scal, <- !sumn_plus. apply sumn_ext. intros. ring. }
    assert (S2 : sumn (q_m p) (fun i => rho i / 2 * ((Amul p (fun i => xt i + h i) i - z i + y i / rho i) * (Amul p (fun i => xt i + h i) i - z i + y i / rho i))) =
      sumn (q_m p) (fun i => rho i / 2 * ((Amul p xt i - z i + y i / rho i) * (Amul p xt i - z i + y i / rho i))) +
      (sumn (q_m p) (fun i => (rho i * (zt i - z i) + y i) * Amul p h i) + / 2 * sumn (q_m p) (fun i => rho i * (Amul p h i * Amul p h i)))).
    { rewrite <- sumn_scal, <- !sumn_plus. apply sumn_ext. intros i Hi. unfold Amul. rewrite mulR_plus. fold (Amul p xt i). fold (Amul p h i).
      rewrite HTZ by auto. fold (Amul p xt i). field. pose proof (Hr i Hi). lra. }
    rewrite S1, S2. clear S1 S2. rewrite <- dot_At.
    assert (S3 : sumn (q_n p) (fun i => (Pmul p xt i + q_q p i) * h i) + sigma * sumn (q_n p) (fun i => h i * (xt i - x i)) +
      sumn (q_n p) (fun i => h i * mulR (q_m p) (fun a b => q_A p b a) (fun i0 => rho i0 * (zt i0 - z i0) + y i0) i) = 0).
    { rewrite <- sumn_scal, <- !sumn_plus. apply zsum_0. intros i Hi. specialize (HT i Hi).
      rewrite (mulR_ext (q_m p) _ (fun i0 => rho i0 * (zt i0 - z i0) + y i0) (fun k => rho k * zt k - (rho k * z k - y k))) by (intros; ring).
      rewrite mulR_minus. unfold Pmul.
      transitivity (h i * ((mulR (q_n p) (q_P p) xt i + sigma * xt i + mulR (q_m p) (fun a b => q_A p b a) (fun k => rho k * zt k) i) - (sigma * x i - q_q p i + mulR (q_m p) (fun a b => q_A p b a) (fun k => rho k * z k - y k) i))); [ring|].
      rewrite HT. ring. }
    pose proof (quad_nonneg h). assert (H1 : 0 <= sumn (q_n p) (fun i => h i * h i)) by (apply sumn_nonneg; intros; nra).
    assert (H2 : 0 <= sumn (q_m p) (fun i => rho i * (Amul p h i * Amul p h i))) by (apply sumn_nonneg; intros k Hk; pose proof (Hr k Hk); apply Rmult_le_pos; [lra|nra]).
    assert (0 <= sigma / 2 * sumn (q_n p) (fun i => h i * h i)) by (apply Rmult_le_pos; lra). lra.
  Qed.

  (** ** Distance to a solution *)
  (** sigma |x - x*|^2 + sum rho ((z + y/rho) - (z* + y*/rho))^2 *)
  Definition dist2 (x z y x' z' y' : Z -> R) : R :=
    sigma * sumn (q_n p) (fun i => (x i - x' i) * (x i - x' i)) +
    sumn (q_m p) (fun i => rho i * ((z i + / rho i * y i - (z' i + / rho i * y' i)) * (z i + / rho i * y i - (z' i + / rho i * y' i)))).
  Lemma dist2_nonneg x z y x' z' y' : 0 <= dist2 x z y x' z' y'.
  Proof.
    unfold dist2. apply Rplus_le_le_0_compat.
    - apply Rmult_le_pos; [lra|]. apply sumn_nonneg. intros. apply Rle_0_sqr.
    - apply sumn_nonneg. intros i Hi. pose proof (Hr i Hi). apply Rmult_le_pos; [lra|apply Rle_0_sqr].
  Qed.
  (** What the linear step moved:  sigma |xt - x|^2 + sum rho (zt - z)^2 *)
  Definition moved (x z xt zt : Z -> R) : R :=
    sigma * sumn (q_n p) (fun i => (xt i - x i) * (xt i - x i)) + sumn (q_m p) (fun i => rho i * ((zt i - z i) * (zt i - z i))).
  Lemma moved_nonneg x z xt zt : 0 <= moved x z xt zt.
  Proof.
    unfold moved. apply Rplus_le_le_0_compat.
    - apply Rmult_le_pos; [lra|]. apply sumn_nonneg. intros. apply Rle_0_sqr.
    - apply sumn_nonneg. intros i Hi. pose proof (Hr i Hi). apply Rmult_le_pos; [lra|apply Rle_0_sqr].
  Qed.

  (** One iteration from any point: how the distance to a solution changes. *)
  Theorem distance_change x z y x' z' y' xt zt xs zs ys : 0 < alpha -> adm p sigma alpha rho x z y x' z' y' xt zt -> kkt p xs zs ys ->
    dist2 x' z' y' xs zs ys + alpha * (2 - alpha) * moved x z xt zt + 2 * alpha * sumn (q_m p) (fun i => (y i - ys i) * (z i - zs i)) <= dist2 x z y xs zs ys.
  Proof.
    intros Ha [HT HTZ HX HZ HY] [K1 K2 K3]. set (h := fun i => xt i - xs i).
    (* monotonicity of P *)
    assert (M1 : sigma * sumn (q_n p) (fun i => (xt i - x i) * h i) + sumn (q_m p) (fun i => (rho i * (zt i - z i) + y i - ys i) * (zt i - zs i)) <= 0).
    { rewrite (sumn_ext (q_m p) _ (fun i => (rho i * (zt i - z i) + y i - ys i) * Amul p h i)).
      2:{ intros i Hi. rewrite HTZ by auto. rewrite <- (K2 i Hi). unfold Amul at 2, h. rewrite mulR_minus. reflexivity. }
      rewrite <- dot_At, <- sumn_scal, <- sumn_plus. pose proof (quad_nonneg h) as HQ. unfold quad in HQ.
      enough (HE : sumn (q_n p) (fun i => sigma * ((xt i - x i) * h i) + h i * mulR (q_m p) (fun a b => q_A p b a) (fun i0 => rho i0 * (zt i0 - z i0) + y i0 - ys i0) i) = - sumn (q_n p) (fun i => h i * Pmul p h i)) by lra.
      rewrite <- (Rmult_1_l (sumn _ (fun i => h i * _))), Ropp_mult_distr_l, <- sumn_scal. apply sumn_ext. intros i Hi. specialize (HT i Hi). specialize (K1 i Hi).
      rewrite (mulR_ext (q_m p) _ (fun i0 => rho i0 * (zt i0 - z i0) + y i0 - ys i0) (fun k => rho k * zt k - (rho k * z k - y k) - ys k)) by (intros; ring).
      set (AT := fun a b => q_A p b a) in *. change (Atmul p ys i) with (mulR (q_m p) AT ys i) in K1.
      rewrite (mulR_minus (q_m p) AT (fun k => rho k * zt k - (rho k * z k - y k)) ys), (mulR_minus (q_m p) AT (fun k => rho k * zt k) (fun k => rho k * z k - y k)).
      unfold Pmul in *. assert (EP : mulR (q_n p) (q_P p) h i = mulR (q_n p) (q_P p) xt i - mulR (q_n p) (q_P p) xs i) by (apply mulR_minus). rewrite EP.
      transitivity (h i * (sigma * (xt i - x i) + (mulR (q_m p) AT (fun k => rho k * zt k) i - mulR (q_m p) AT (fun k => rho k * z k - y k) i - mulR (q_m p) AT ys i))); [ring|].
      transitivity (h i * - (mulR (q_n p) (q_P p) xt i - mulR (q_n p) (q_P p) xs i)); [|ring]. f_equal. lra. }
    assert (D1 : dist2 x' z' y' xs zs ys = dist2 x z y xs zs ys + 2 * alpha * (sigma * sumn (q_n p) (fun i => (xt i - x i) * h i) + sumn (q_m p) (fun i => (rho i * (zt i - z i) + y i - ys i) * (zt i - zs i)))
        - 2 * alpha * sumn (q_m p) (fun i => (y i - ys i) * (z i - zs i)) - alpha * (2 - alpha) * moved x z xt zt).
    { unfold dist2, moved.
      assert (S1 : sumn (q_n p) (fun i => (x' i - xs i) * (x' i - xs i)) = sumn (q_n p) (fun i => (x i - xs i) * (x i - xs i)) + (2 * alpha * sumn (q_n p) (fun i => (xt i - x i) * h i) + - (alpha * (2 - alpha)) * sumn (q_n p) (fun i => (xt i - x i) * (xt i - x i)))).
      { rewrite <- !sumn_scal, <- !sumn_plus. apply sumn_ext. intros i Hi. rewrite HX by auto. unfold h. ring. }
      assert (S2 : sumn (q_m p) (fun i => rho i * ((z' i + / rho i * y' i - (zs i + / rho i * ys i)) * (z' i + / rho i * y' i - (zs i + / rho i * ys i)))) =
        sumn (q_m p) (fun i => rho i * ((z i + / rho i * y i - (zs i + / rho i * ys i)) * (z i + / rho i * y i - (zs i + / rho i * ys i)))) +
        (2 * alpha * sumn (q_m p) (fun i => (rho i * (zt i - z i) + y i - ys i) * (zt i - zs i)) + (- (2 * alpha) * sumn (q_m p) (fun i => (y i - ys i) * (z i - zs i)) + - (alpha * (2 - alpha)) * sumn (q_m p) (fun i => rho i * ((zt i - z i) * (zt i - z i)))))).
      { rewrite <- !sumn_scal, <- !sumn_plus. apply sumn_ext. intros i Hi. pose proof (Hr i Hi).
        replace (z' i + / rho i * y' i) with (alpha * zt i + (1 - alpha) * z i + / rho i * y i) by (rewrite HY by auto; field; lra). field. lra. }
      rewrite S1, S2. ring. }
    rewrite D1. set (S := sigma * _ + sumn _ _) in *. assert (0 <= alpha * - S) by (apply Rmult_le_pos; lra). lra.
  Qed.
  (** From a complementary point the distance does not grow, and decreases by what the linear step moved. *)
  Theorem distance_decreases x z y x' z' y' xt zt xs zs ys : 0 < alpha -> adm p sigma alpha rho x z y x' z' y' xt zt -> kkt p xs zs ys ->
    (forall i, (0 <= i < q_m p)%Z -> ncone (q_l p i) (q_u p i) (z i) (y i)) ->
    dist2 x' z' y' xs zs ys + alpha * (2 - alpha) * moved x z xt zt <= dist2 x z y xs zs ys.
  Proof.
    intros Ha HA HK HCO. pose proof (distance_change _ _ _ _ _ _ _ _ _ _ _ Ha HA HK) as HD.
    (* monotonicity of the normal cone *)
    assert (M2 : 0 <= sumn (q_m p) (fun i => (y i - ys i) * (z i - zs i))).
    { apply sumn_nonneg. intros i Hi. eapply ncone_mono; [apply HCO; auto|apply (k_cone _ _ _ _ HK); auto]. }
    assert (0 <= alpha * sumn (q_m p) (fun i => (y i - ys i) * (z i - zs i))) by (apply Rmult_le_pos; lra). lra.
  Qed.
  End Convex.
End Spec.
