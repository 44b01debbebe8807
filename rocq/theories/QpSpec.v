(** Quadratic programs, their optimality conditions and certificates, stated without reference to the solver. *)
From Coq Require Import ZArith Reals List Bool Lia Lra.
From Verif Require Import Num Arr ArrFacts RSum Csc CscSpec CscFacts2 VecFacts Types KktDense RealStep Ldl.
Import ListNotations.
Open Scope Z_scope.
Local Open Scope R_scope.

(** minimise 1/2 x'Px + q'x subject to l <= Ax <= u, with n variables and m constraints *)
Record qp := mkqp { q_n : Z; q_m : Z; q_P : Z -> Z -> R; q_A : Z -> Z -> R; q_q : Z -> R; q_l : Z -> R; q_u : Z -> R }.

(** The quadratic program a data structure describes (P by its upper triangle). *)
Definition qp_of (d : data Rops) : qp :=
  mkqp (d_n d) (d_m d) (sdns (d_P d)) (dns (d_A d)) (rnth (d_q d)) (rnth (d_l d)) (rnth (d_u d)).

Definition sumn (n : Z) (f : Z -> R) : R := zsum 0 n f.
Definition tr_ (M : Z -> Z -> R) : Z -> Z -> R := fun i j => M j i.
(** P x,  A x,  A' y *)
Definition Pmul (p : qp) (x : Z -> R) : Z -> R := mulR (q_n p) (q_P p) x.
Definition Amul (p : qp) (x : Z -> R) : Z -> R := mulR (q_n p) (q_A p) x.
Definition Atmul (p : qp) (y : Z -> R) : Z -> R := mulR (q_m p) (tr_ (q_A p)) y.
Definition quad (p : qp) (x : Z -> R) : R := sumn (q_n p) (fun i => x i * Pmul p x i).
Definition lin (p : qp) (x : Z -> R) : R := sumn (q_n p) (fun i => q_q p i * x i).
Definition objective (p : qp) (x : Z -> R) : R := / 2 * quad p x + lin p x.
Definition feasible (p : qp) (x : Z -> R) : Prop := forall i, (0 <= i < q_m p)%Z -> q_l p i <= Amul p x i <= q_u p i.
Definition minimiser (p : qp) (x : Z -> R) : Prop := feasible p x /\ forall x', feasible p x' -> objective p x <= objective p x'.

(** y is in the normal cone of [l, u] at z. *)
Definition ncone (l u z y : R) : Prop := l <= z <= u /\ (0 < y -> z = u) /\ (y < 0 -> z = l).

(** The optimality (KKT) conditions. *)
Record kkt (p : qp) (x z y : Z -> R) : Prop := {
  k_dual : forall i, (0 <= i < q_n p)%Z -> Pmul p x i + q_q p i + Atmul p y i = 0;
  k_prim : forall i, (0 <= i < q_m p)%Z -> Amul p x i = z i;
  k_cone : forall i, (0 <= i < q_m p)%Z -> ncone (q_l p i) (q_u p i) (z i) (y i) }.

Definition symmetric (p : qp) : Prop := forall i j, q_P p i j = q_P p j i.
Definition convex_qp (p : qp) : Prop := psd (q_n p) (q_P p).

(** Largest absolute value of f 0 .. f (n-1) (0 if n <= 0). *)
Definition ninf (n : Z) (f : Z -> R) : R := fold_right (fun i a => Rmax (Rabs (f i)) a) 0 (zseq 0 n).
(** Sum of the absolute values. *)
Definition norm1 (n : Z) (f : Z -> R) : R := sumn n (fun i => Rabs (f i)).

Lemma ninf_spec n f : is_maxabs (vals n f) (ninf n f).
Proof.
  unfold ninf.
  assert (H : forall L : list Z, is_maxabs (fun v => exists i, In i L /\ v = f i) (fold_right (fun i a => Rmax (Rabs (f i)) a) 0 L)).
  { induction L as [|i L IH]; cbn [fold_right].
    - split; [lra|]. split; [intros v (i & [] & _)|auto].
    - eapply is_maxabs_add; [exact IH|]. intros w. cbn [In]. split.
      + intros (k & [-> |Hk] & ->); eauto.
      + intros [(k & Hk & ->)| ->]; eauto. }
  eapply is_maxabs_ext; [|apply H]. intros v. unfold vals. split; intros (i & Hi & ->); exists i; rewrite In_zseq in *; auto.
Qed.
Lemma ninf_unique n f e : is_maxabs (vals n f) e -> e = ninf n f.
Proof. intros H. eapply is_maxabs_unique; [exact H|apply ninf_spec]. Qed.
Lemma ninf_ext n f g : (forall i, (0 <= i < n)%Z -> f i = g i) -> ninf n f = ninf n g.
Proof. intros H. apply ninf_unique. eapply is_maxabs_ext; [|apply ninf_spec]. intros v. unfold vals. split; intros (i & Hi & ->); exists i; rewrite H; auto. Qed.
Lemma ninf_nonneg n f : 0 <= ninf n f. Proof. apply (ninf_spec n f). Qed.
Lemma ninf_bound n f i : (0 <= i < n)%Z -> Rabs (f i) <= ninf n f.
Proof. intros H. apply (ninf_spec n f). exists i; auto. Qed.
Lemma ninf_zero n f : ninf n f = 0 -> forall i, (0 <= i < n)%Z -> f i = 0.
Proof. intros H i Hi. pose proof (ninf_bound n f i Hi) as HB. rewrite H in HB. pose proof (Rabs_pos (f i)). destruct (Req_dec (f i) 0) as [|HN]; auto. pose proof (Rabs_pos_lt _ HN). lra. Qed.
Lemma ninf_le n f e : 0 <= e -> (forall i, (0 <= i < n)%Z -> Rabs (f i) <= e) -> ninf n f <= e.
Proof. intros He H. destruct (ninf_spec n f) as (_ & _ & [-> |(v & (i & Hi & ->) & ->)]); auto. Qed.
Lemma ninf_scal n c f : ninf n (fun i => c * f i) = Rabs c * ninf n f.
Proof.
  symmetry. apply ninf_unique. destruct (ninf_spec n f) as (H1 & H2 & H3). split; [apply Rmult_le_pos; [apply Rabs_pos|auto]|]. split.
  - intros v (i & Hi & ->). rewrite Rabs_mult. apply Rmult_le_compat_l; [apply Rabs_pos|]. apply H2. exists i; auto.
  - destruct H3 as [-> |(v & (i & Hi & ->) & ->)]; [left; ring|right]. exists (c * f i). split; [exists i; auto|]. rewrite Rabs_mult. auto.
Qed.

Lemma sumn_ext n f g : (forall i, (0 <= i < n)%Z -> f i = g i) -> sumn n f = sumn n g. Proof. apply zsum_ext. Qed.
Lemma sumn_plus n f g : sumn n (fun i => f i + g i) = sumn n f + sumn n g. Proof. apply zsum_plus. Qed.
Lemma sumn_scal n c f : sumn n (fun i => c * f i) = c * sumn n f. Proof. apply zsum_scal. Qed.
Lemma mulR_ext c M f g i : (forall j, (0 <= j < c)%Z -> f j = g j) -> mulR c M f i = mulR c M g i.
Proof. intros H. apply zsum_ext. intros j Hj. rewrite H; auto. Qed.
Lemma mulR_plus c M f g i : mulR c M (fun j => f j + g j) i = mulR c M f i + mulR c M g i.
Proof. unfold mulR. rewrite <- zsum_plus. apply zsum_ext. intros. ring. Qed.
Lemma mulR_scal c M a f i : mulR c M (fun j => a * f j) i = a * mulR c M f i.
Proof. unfold mulR. rewrite <- zsum_scal. apply zsum_ext. intros. ring. Qed.

(** y'(A x) = (A'y)'x *)
Lemma At_adjoint p x y : sumn (q_m p) (fun i => y i * Amul p x i) = sumn (q_n p) (fun j => Atmul p y j * x j).
Proof.
  unfold sumn, Amul, Atmul, mulR, tr_. 
  rewrite (zsum_ext 0 (q_m p) _ (fun i => zsum 0 (q_n p) (fun j => y i * (q_A p i j * x j)))) by (intros; symmetry; apply zsum_scal).
  rewrite zsum_swap. apply zsum_ext. intros j Hj. rewrite <- zsum_scal_r. apply zsum_ext. intros. ring.
Qed.
Lemma P_adjoint p x y : symmetric p -> sumn (q_n p) (fun i => y i * Pmul p x i) = sumn (q_n p) (fun j => x j * Pmul p y j).
Proof.
  intros HS. unfold sumn, Pmul, mulR.
  rewrite (zsum_ext 0 (q_n p) (fun i => y i * _) (fun i => zsum 0 (q_n p) (fun j => y i * (q_P p i j * x j)))) by (intros; symmetry; apply zsum_scal).
  rewrite zsum_swap. apply zsum_ext. intros j Hj. rewrite <- zsum_scal. apply zsum_ext. intros. rewrite HS. ring.
Qed.
Lemma quad_qform p x : quad p x = qform 0 (q_n p) (q_P p) x.
Proof. unfold quad, qform, sumn, Pmul, mulR. apply zsum_ext. intros i Hi. rewrite <- zsum_scal. apply zsum_ext. intros. ring. Qed.

(** The difference of the objective between two points. *)
Lemma objective_diff p x h : symmetric p ->
  objective p (fun i => x i + h i) = objective p x + sumn (q_n p) (fun i => (Pmul p x i + q_q p i) * h i) + / 2 * quad p h.
Proof.
  intros HS. unfold objective, quad, lin, Pmul.
  rewrite (sumn_ext _ (fun i => (x i + h i) * mulR (q_n p) (q_P p) (fun i0 => x i0 + h i0) i)
    (fun i => x i * mulR (q_n p) (q_P p) x i + (x i * mulR (q_n p) (q_P p) h i + (h i * mulR (q_n p) (q_P p) x i + h i * mulR (q_n p) (q_P p) h i)))).
  2:{ intros. rewrite mulR_plus. ring. }
  rewrite !sumn_plus. pose proof (P_adjoint p h x HS) as HA. unfold Pmul in HA. rewrite HA.
  rewrite (sumn_ext _ (fun i => q_q p i * (x i + h i)) (fun i => q_q p i * x i + q_q p i * h i)) by (intros; ring).
  rewrite (sumn_ext _ (fun i => (mulR (q_n p) (q_P p) x i + q_q p i) * h i) (fun i => h i * mulR (q_n p) (q_P p) x i + q_q p i * h i)) by (intros; ring).
  rewrite !sumn_plus. lra.
Qed.

(** A KKT point of a convex problem is a global minimiser. *)
Lemma objective_ext p f g : (forall i, (0 <= i < q_n p)%Z -> f i = g i) -> objective p f = objective p g.
Proof.
  intros H. unfold objective, quad, lin, Pmul. f_equal; [f_equal|]; apply sumn_ext; intros i Hi; rewrite H by auto; auto. f_equal. apply mulR_ext; auto.
Qed.
Theorem kkt_minimiser p x z y : symmetric p -> convex_qp p -> kkt p x z y -> minimiser p x.
Proof.
  intros HS HC [K1 K2 K3]. split.
  - intros i Hi. rewrite K2 by auto. apply K3; auto.
  - intros x' HF.
    rewrite (objective_ext p x' (fun i => x i + (x' i - x i))) by (intros; ring).
    rewrite objective_diff by auto.
    assert (H1 : 0 <= quad p (fun i => x' i - x i)) by (rewrite quad_qform; apply HC).
    assert (H2 : 0 <= sumn (q_n p) (fun i => (Pmul p x i + q_q p i) * (x' i - x i))).
    { rewrite (sumn_ext _ _ (fun i => - (Atmul p y i * (x' i + -1 * x i)))).
      2:{ intros i Hi. specialize (K1 i Hi). replace (Pmul p x i + q_q p i) with (- Atmul p y i) by lra. ring. }
      rewrite (sumn_ext _ (fun i => - _) (fun i => -1 * (Atmul p y i * (x' i + -1 * x i)))) by (intros; ring).
      rewrite sumn_scal. rewrite <- (At_adjoint p (fun i => x' i + -1 * x i) y).
      assert (H3 : sumn (q_m p) (fun i => y i * Amul p (fun i0 => x' i0 + -1 * x i0) i) <= sumn (q_m p) (fun _ => 0)).
      { apply zsum_le. intros i Hi. unfold Amul. rewrite mulR_plus, mulR_scal. fold (Amul p x i). fold (Amul p x' i). rewrite K2 by auto.
        destruct (K3 i Hi) as (Hb & Hu & Hl). specialize (HF i Hi).
        destruct (Rtotal_order (y i) 0) as [Hy|[Hy|Hy]].
        - rewrite (Hl Hy) in *. replace (y i * (Amul p x' i + -1 * q_l p i)) with (- ((- y i) * (Amul p x' i - q_l p i))) by ring.
          assert (0 <= (- y i) * (Amul p x' i - q_l p i)) by (apply Rmult_le_pos; lra). lra.
        - rewrite Hy. lra.
        - rewrite (Hu Hy) in *. replace (y i * (Amul p x' i + -1 * q_u p i)) with (- (y i * (q_u p i - Amul p x' i))) by ring.
          assert (0 <= y i * (q_u p i - Amul p x' i)) by (apply Rmult_le_pos; lra). lra. }
      unfold sumn in *. rewrite (zsum_0 0 (q_m p) (fun _ => 0)) in H3 by auto. lra. }
    lra.
Qed.

(** ** Certificates *)

(** Support function of [l, u] at v, sum of u v+ + l v-. *)
Definition support (p : qp) (v : Z -> R) : R := sumn (q_m p) (fun i => q_u p i * Rmax (v i) 0 + q_l p i * Rmin (v i) 0).

(** Farkas: if l <= Ax <= u then v'Ax <= support v, so a v with negative support bounds the size of feasible points from below. *)
Lemma support_upper p v x : feasible p x -> sumn (q_m p) (fun i => v i * Amul p x i) <= support p v.
Proof.
  intros HF. apply zsum_le. intros i Hi. specialize (HF i Hi). unfold Rmax, Rmin. destruct (Rle_dec (v i) 0).
  - assert (0 <= (- v i) * (Amul p x i - q_l p i)) by (apply Rmult_le_pos; lra). lra.
  - assert (0 <= v i * (q_u p i - Amul p x i)) by (apply Rmult_le_pos; lra). lra.
Qed.
Lemma holder n f g e : 0 <= e -> (forall i, (0 <= i < n)%Z -> Rabs (f i) <= e) -> Rabs (sumn n (fun i => f i * g i)) <= e * norm1 n g.
Proof.
  intros He H. eapply Rle_trans; [apply zsum_abs|]. unfold norm1. rewrite <- sumn_scal. apply zsum_le. intros i Hi. rewrite Rabs_mult.
  apply Rmult_le_compat_r; [apply Rabs_pos|]. auto.
Qed.
Theorem farkas_bound p v x : support p v < 0 -> feasible p x -> - support p v <= ninf (q_n p) (Atmul p v) * norm1 (q_n p) x.
Proof.
  intros HS HF. pose proof (support_upper p v x HF) as H1. rewrite At_adjoint in H1.
  pose proof (holder (q_n p) (Atmul p v) x (ninf (q_n p) (Atmul p v)) (ninf_nonneg _ _) (ninf_bound _ _)) as H2.
  pose proof (Rle_abs (- sumn (q_n p) (fun i => Atmul p v i * x i))) as H3. rewrite Rabs_Ropp in H3. lra.
Qed.
Corollary farkas p v : support p v < 0 -> ninf (q_n p) (Atmul p v) = 0 -> forall x, ~ feasible p x.
Proof. intros H1 H2 x HF. pose proof (farkas_bound p v x H1 HF) as H. rewrite H2 in H. lra. Qed.

(** Moving along v: the objective changes by t (P x + q)'v + t^2/2 v'Pv. *)
Lemma objective_ray p x v t : symmetric p -> (forall i, (0 <= i < q_n p)%Z -> Pmul p v i = 0) ->
  objective p (fun i => x i + t * v i) = objective p x + t * lin p v.
Proof.
  intros HS HP. rewrite objective_diff by auto.
  assert (E1 : quad p (fun i => t * v i) = 0).
  { unfold quad, Pmul. apply zsum_0. intros i Hi. rewrite mulR_scal. unfold Pmul in HP. rewrite HP by auto. ring. }
  assert (E2 : sumn (q_n p) (fun i => (Pmul p x i + q_q p i) * (t * v i)) = t * (sumn (q_n p) (fun i => v i * Pmul p x i) + lin p v)).
  { unfold lin. rewrite <- sumn_plus, <- sumn_scal. apply sumn_ext. intros. ring. }
  rewrite E1, E2, P_adjoint by auto. rewrite (zsum_0 0 (q_n p)). 2:{ intros i Hi. rewrite HP by auto. ring. } ring.
Qed.

(** Bounds beyond these thresholds count as absent. *)
Definition feasible_but (absl absu : Z -> Prop) (p : qp) (x : Z -> R) : Prop := forall i, (0 <= i < q_m p)%Z ->
  (~ absl i -> q_l p i <= Amul p x i) /\ (~ absu i -> Amul p x i <= q_u p i).
Theorem unbounded_ray absl absu p x v : symmetric p -> feasible_but absl absu p x ->
  (forall i, (0 <= i < q_n p)%Z -> Pmul p v i = 0) -> lin p v < 0 ->
  (forall i, (0 <= i < q_m p)%Z -> (~ absu i -> Amul p v i <= 0) /\ (~ absl i -> 0 <= Amul p v i)) ->
  forall B, exists x', feasible_but absl absu p x' /\ objective p x' < B.
Proof.
  intros HS HF HP HL HR B.
  set (t := Rmax 0 ((objective p x - B + 1) / - lin p v)).
  assert (Ht : 0 <= t) by apply Rmax_l.
  exists (fun i => x i + t * v i). split.
  - intros i Hi. destruct (HF i Hi) as (F1 & F2). destruct (HR i Hi) as (R1 & R2). unfold Amul. rewrite mulR_plus, mulR_scal. fold (Amul p x i). fold (Amul p v i). split; intros Ha.
    + specialize (F1 Ha). specialize (R2 Ha). assert (0 <= t * Amul p v i) by (apply Rmult_le_pos; auto). lra.
    + specialize (F2 Ha). specialize (R1 Ha). assert (0 <= t * (- Amul p v i)) by (apply Rmult_le_pos; lra). lra.
  - rewrite objective_ray by auto.
    assert (H : (objective p x - B + 1) / - lin p v * - lin p v <= t * - lin p v) by (apply Rmult_le_compat_r; [lra|apply Rmax_r]).
    replace ((objective p x - B + 1) / - lin p v * - lin p v) with (objective p x - B + 1) in H by (field; lra). lra.
Qed.

(** ** Changes of units:  x = D xs,  z = zs / E,  y = E ys / c *)
Record scaled_qp (c : R) (D E : Z -> R) (u s : qp) : Prop := {
  sq_n : q_n s = q_n u; sq_m : q_m s = q_m u; sq_c : 0 < c;
  sq_D : forall i, (0 <= i < q_n u)%Z -> 0 < D i; sq_E : forall i, (0 <= i < q_m u)%Z -> 0 < E i;
  sq_P : forall i j, (0 <= i < q_n u)%Z -> (0 <= j < q_n u)%Z -> q_P s i j = c * D i * q_P u i j * D j;
  sq_A : forall i j, (0 <= i < q_m u)%Z -> (0 <= j < q_n u)%Z -> q_A s i j = E i * q_A u i j * D j;
  sq_q : forall i, (0 <= i < q_n u)%Z -> q_q s i = c * D i * q_q u i;
  sq_l : forall i, (0 <= i < q_m u)%Z -> q_l s i = E i * q_l u i;
  sq_u : forall i, (0 <= i < q_m u)%Z -> q_u s i = E i * q_u u i }.

Section Units.
  Context (c : R) (D E : Z -> R) (u s : qp) (H : scaled_qp c D E u s).
  (** A point of the scaled problem in the user's units. *)
  Definition unx (xs : Z -> R) (i : Z) : R := D i * xs i.
  Definition unz (zs : Z -> R) (i : Z) : R := zs i / E i.
  Definition uny (ys : Z -> R) (i : Z) : R := E i * ys i / c.

  Lemma un_Px xs i : (0 <= i < q_n u)%Z -> Pmul s xs i = c * D i * Pmul u (unx xs) i.
  Proof.
    intros Hi. destruct H. unfold Pmul, mulR, unx. rewrite <- zsum_scal, sq_n0. apply zsum_ext. intros j Hj. rewrite sq_P0 by auto. ring.
  Qed.
  Lemma un_Ax xs i : (0 <= i < q_m u)%Z -> Amul s xs i = E i * Amul u (unx xs) i.
  Proof.
    intros Hi. destruct H. unfold Amul, mulR, unx. rewrite <- zsum_scal, sq_n0. apply zsum_ext. intros j Hj. rewrite sq_A0 by auto. ring.
  Qed.
  Lemma un_Aty ys i : (0 <= i < q_n u)%Z -> Atmul s ys i = c * D i * Atmul u (uny ys) i.
  Proof.
    intros Hi. destruct H. unfold Atmul, mulR, uny, tr_. rewrite <- zsum_scal, sq_m0. apply zsum_ext. intros j Hj. rewrite sq_A0 by auto. field. lra.
  Qed.
  Lemma un_quad xs : quad s xs = c * quad u (unx xs).
  Proof.
    unfold quad. rewrite <- sumn_scal. destruct H. rewrite sq_n0. apply sumn_ext. intros i Hi. rewrite un_Px by auto. unfold unx at 2. ring.
  Qed.
  Lemma un_lin xs : lin s xs = c * lin u (unx xs).
  Proof. unfold lin. rewrite <- sumn_scal. destruct H. rewrite sq_n0. apply sumn_ext. intros i Hi. rewrite sq_q0 by auto. unfold unx. ring. Qed.
  Lemma un_objective xs : objective s xs = c * objective u (unx xs).
  Proof. unfold objective. rewrite un_quad, un_lin. ring. Qed.
  Lemma un_feasible xs : feasible s xs <-> feasible u (unx xs).
  Proof.
    unfold feasible. pose proof (sq_m _ _ _ _ _ H) as Em. rewrite Em. split; intros HF i Hi; specialize (HF i Hi);
      pose proof (sq_E _ _ _ _ _ H i Hi) as He; rewrite un_Ax, (sq_l _ _ _ _ _ H), (sq_u _ _ _ _ _ H) in * by auto.
    - destruct HF as [F1 F2]. split; eapply Rmult_le_reg_l; eauto.
    - split; apply Rmult_le_compat_l; lra.
  Qed.
  Lemma un_cone zs ys i : (0 <= i < q_m u)%Z -> ncone (q_l s i) (q_u s i) (zs i) (ys i) <-> ncone (q_l u i) (q_u u i) (unz zs i) (uny ys i).
  Proof.
    intros Hi. pose proof (sq_E _ _ _ _ _ H i Hi) as He. pose proof (sq_c _ _ _ _ _ H) as Hc. rewrite (sq_l _ _ _ _ _ H), (sq_u _ _ _ _ _ H) by auto.
    unfold ncone, unz, uny. set (z := zs i). set (y := ys i). set (e := E i) in *.
    assert (Ez : z = e * (z / e)) by (field; lra).
    assert (Ey : y = (c / e) * (e * y / c)) by (field; lra).
    assert (Hce : 0 < c / e) by (apply Rdiv_lt_0_compat; auto).
    set (z' := z / e) in *. set (y' := e * y / c) in *. clearbody z' y'. subst z y.
    split; intros ((B1 & B2) & C1 & C2).
    - rewrite Ez, Ey in *. split; [split; apply (Rmult_le_reg_l e); auto|]. split; intros Hy.
      + apply (Rmult_eq_reg_l e); [apply C1|lra]. apply Rmult_lt_0_compat; auto.
      + apply (Rmult_eq_reg_l e); [apply C2|lra]. assert (0 < c / e * - y') by (apply Rmult_lt_0_compat; lra). lra.
    - split; [rewrite Ez; split; apply Rmult_le_compat_l; lra|]. rewrite Ez, Ey. split; intros Hy.
      + f_equal. apply C1. eapply Rmult_lt_reg_l; [exact Hce|]. lra.
      + f_equal. apply C2. eapply Rmult_lt_reg_l; [exact Hce|]. lra.
  Qed.
  (** Optimality is preserved in both directions. *)
  Theorem un_kkt xs zs ys : kkt s xs zs ys <-> kkt u (unx xs) (unz zs) (uny ys).
  Proof.
    pose proof (sq_c _ _ _ _ _ H) as Hc. split; intros [K1 K2 K3].
    - constructor; intros i Hi.
      + specialize (K1 i ltac:(rewrite (sq_n _ _ _ _ _ H); auto)). rewrite un_Px, un_Aty, (sq_q _ _ _ _ _ H) in K1 by auto. pose proof (sq_D _ _ _ _ _ H i Hi).
        apply (Rmult_eq_reg_l (c * D i)); [lra|]. apply Rmult_integral_contrapositive; lra.
      + specialize (K2 i ltac:(rewrite (sq_m _ _ _ _ _ H); auto)). rewrite un_Ax in K2 by auto. unfold unz. rewrite <- K2. pose proof (sq_E _ _ _ _ _ H i Hi). field. lra.
      + apply un_cone; auto. apply K3. rewrite (sq_m _ _ _ _ _ H). auto.
    - rewrite <- (sq_n _ _ _ _ _ H) in K1. rewrite <- (sq_m _ _ _ _ _ H) in K2, K3. constructor; intros i Hi.
      + specialize (K1 i Hi). rewrite (sq_n _ _ _ _ _ H) in Hi. rewrite un_Px, un_Aty, (sq_q _ _ _ _ _ H) by auto. replace (c * D i * Pmul u (unx xs) i + c * D i * q_q u i + c * D i * Atmul u (uny ys) i) with (c * D i * (Pmul u (unx xs) i + q_q u i + Atmul u (uny ys) i)) by ring. rewrite K1. ring.
      + specialize (K2 i Hi). rewrite (sq_m _ _ _ _ _ H) in Hi. rewrite un_Ax by auto. rewrite K2. unfold unz. pose proof (sq_E _ _ _ _ _ H i Hi). field. lra.
      + specialize (K3 i Hi). rewrite (sq_m _ _ _ _ _ H) in Hi. apply un_cone; auto.
  Qed.
  (** Every user point is the image of a scaled one, so minimisers correspond too. *)
  Lemma unx_inv x : exists xs, forall i, (0 <= i < q_n u)%Z -> unx xs i = x i.
  Proof. exists (fun i => x i / D i). intros i Hi. unfold unx. pose proof (sq_D _ _ _ _ _ H i Hi). field. lra. Qed.
End Units.
Lemma feasible_ext p f g : (forall i, (0 <= i < q_n p)%Z -> f i = g i) -> feasible p f -> feasible p g.
Proof. intros H HF i Hi. unfold Amul. rewrite <- (mulR_ext (q_n p) (q_A p) f g) by auto. apply HF; auto. Qed.
Theorem un_minimiser c D E u s : scaled_qp c D E u s -> forall xs, minimiser s xs <-> minimiser u (unx D xs).
Proof.
  intros H xs. pose proof (sq_c _ _ _ _ _ H) as Hc. unfold minimiser. rewrite (un_feasible _ _ _ _ _ H). split; intros (HF & HM); split; auto.
  - intros x' HF'. destruct (unx_inv _ _ _ _ _ H x') as (xs' & Hx). 
    assert (HF2 : feasible s xs') by (apply (un_feasible _ _ _ _ _ H); eapply feasible_ext; [|exact HF']; intros; symmetry; auto).
    specialize (HM xs' HF2). rewrite !(un_objective _ _ _ _ _ H) in HM. rewrite (objective_ext u x' (unx D xs')) by (intros; symmetry; auto). eapply Rmult_le_reg_l; eauto.
  - intros x' HF'. specialize (HM (unx D x')). rewrite !(un_objective _ _ _ _ _ H). apply Rmult_le_compat_l; [lra|]. apply HM. apply (un_feasible _ _ _ _ _ H). auto.
Qed.

(** The stored problem is the user's in other units. *)
Lemma qp_symmetric d : symmetric (qp_of d). Proof. intros i j. apply sdns_sym. Qed.
