(** What the statuses of the solver claim about a quadratic program, stated without reference to the solver. *)
From Coq Require Import ZArith Reals List Bool Lia Lra.
From Verif Require Import Num Arr ArrFacts RSum Csc CscSpec CscFacts2 VecFacts Types KktDense RealStep Ldl QpSpec.
Import ListNotations.
Open Scope Z_scope.
Local Open Scope R_scope.

(** A bound beyond +-1e26 is absent. *)
Definition no_upper (u : R) : Prop := 10 ^ 26 < u.
Definition no_lower (l : R) : Prop := l < - 10 ^ 26.

(** v agrees with y on every row, except that multipliers pushing against an absent bound (of the scaled problem) are dropped. *)
Definition drops (l u y v : R) : Prop :=
  (no_upper u -> no_lower l -> v = 0) /\
  (no_upper u -> ~ no_lower l -> v = Rmin y 0) /\
  (~ no_upper u -> no_lower l -> v = Rmax y 0) /\
  (~ no_upper u -> ~ no_lower l -> v = y).
(** The same, with multipliers smaller than 1e-15 replaced by zero. *)
Definition drops_small (l u y v : R) : Prop :=
  exists w, drops l u y w /\ (Rabs w < / 10 ^ 15 -> v = 0) /\ (/ 10 ^ 15 <= Rabs w -> v = w).

(** (x, z, y) satisfies the optimality conditions of p up to the tolerances; v is what is left of y for the dual objective. *)
Record solved_within (p : qp) (ea er : R) (gap : bool) (x z y v : Z -> R) : Prop := {
  sw_prim : q_m p = 0%Z \/ ninf (q_m p) (fun i => Amul p x i - z i) < ea + er * Rmax (ninf (q_m p) z) (ninf (q_m p) (Amul p x));
  sw_dual : ninf (q_n p) (fun i => q_q p i + Pmul p x i + Atmul p y i) <
            ea + er * Rmax (Rmax (ninf (q_n p) (q_q p)) (ninf (q_n p) (Atmul p y))) (ninf (q_n p) (Pmul p x));
  sw_gap : gap = true -> Rabs (quad p x + lin p x + support p v) < ea + er * Rmax (Rmax (Rabs (quad p x)) (Rabs (lin p x))) (Rabs (support p v)) }.

(** v certifies, up to the tolerance, that no x satisfies l <= Ax <= u. *)
Record infeasible_within (p : qp) (e : R) (v : Z -> R) : Prop := {
  iw_nz : 0 < ninf (q_m p) v;
  iw_sup : support p v < 0;
  iw_At : ninf (q_n p) (Atmul p v) < e * ninf (q_m p) v }.

(** v is, up to the tolerance, a direction along which the objective decreases forever; absl and absu are the absent bounds. *)
Record unbounded_within (absl absu : Z -> Prop) (p : qp) (e : R) (v : Z -> R) : Prop := {
  uw_nz : 0 < ninf (q_n p) v;
  uw_lin : lin p v < 0;
  uw_P : ninf (q_n p) (Pmul p v) < e * ninf (q_n p) v;
  uw_A : forall i, (0 <= i < q_m p)%Z -> (~ absu i -> Amul p v i <= e * ninf (q_n p) v) /\ (~ absl i -> - (e * ninf (q_n p) v) <= Amul p v i) }.

(** ** What these conditions are worth *)

Lemma Rabs_le_both a b : Rabs a <= b -> - b <= a <= b.
Proof. intros H. unfold Rabs in H. destruct (Rcase_abs a); lra. Qed.

(** No point of small norm is feasible. *)
Theorem infeasible_far p e v : infeasible_within p e v -> forall x, feasible p x -> - support p v / (e * ninf (q_m p) v) < norm1 (q_n p) x.
Proof.
  intros [H1 H2 H3] x HF. pose proof (farkas_bound p v x H2 HF) as HB. pose proof (ninf_nonneg (q_n p) (Atmul p v)) as HN.
  assert (He : 0 < e * ninf (q_m p) v) by lra.
  apply (Rmult_lt_reg_r (e * ninf (q_m p) v)); auto. unfold Rdiv. rewrite Rmult_assoc, Rinv_l, Rmult_1_r by lra.
  destruct (Rle_lt_or_eq_dec 0 (norm1 (q_n p) x)) as [Hx|Hx].
  { unfold norm1. rewrite <- (zsum_0 0 (q_n p) (fun _ => 0)) by auto. apply zsum_le. intros. apply Rabs_pos. }
  - eapply Rle_lt_trans; [exact HB|]. rewrite (Rmult_comm (norm1 _ _)). apply Rmult_lt_compat_r; auto.
  - rewrite <- Hx, Rmult_0_r in HB. lra.
Qed.

(** A nearly optimal point: how far from feasible, and how much better any feasible point can be. *)
Theorem solved_quality p x z y ep ed : symmetric p -> convex_qp p ->
  (forall i, (0 <= i < q_m p)%Z -> Rabs (Amul p x i - z i) <= ep) -> 0 <= ed ->
  (forall i, (0 <= i < q_n p)%Z -> Rabs (q_q p i + Pmul p x i + Atmul p y i) <= ed) ->
  (forall i, (0 <= i < q_m p)%Z -> ncone (q_l p i) (q_u p i) (z i) (y i)) ->
  (forall i, (0 <= i < q_m p)%Z -> q_l p i - ep <= Amul p x i <= q_u p i + ep) /\
  forall x', feasible p x' -> objective p x <= objective p x' + ed * norm1 (q_n p) (fun i => x' i - x i) + ep * norm1 (q_m p) y.
Proof.
  intros HS HC H1 Hed H2 H3. split.
  { intros i Hi. destruct (H3 i Hi) as (Hb & _). pose proof (H1 i Hi) as Ha. apply Rabs_le_both in Ha. lra. }
  intros x' HF.
  set (h := fun i => x' i - x i).
  rewrite (objective_ext p x' (fun i => x i + h i)) by (intros; unfold h; ring). rewrite objective_diff by auto.
  assert (Hq : 0 <= quad p h) by (rewrite quad_qform; apply HC).
  assert (E1 : sumn (q_n p) (fun i => (Pmul p x i + q_q p i) * h i) = sumn (q_n p) (fun i => (q_q p i + Pmul p x i + Atmul p y i) * h i) - sumn (q_m p) (fun i => y i * Amul p h i)).
  { rewrite At_adjoint. replace (sumn (q_n p) (fun j => Atmul p y j * h j)) with (- (-1 * sumn (q_n p) (fun j => Atmul p y j * h j))) by ring. rewrite <- sumn_scal.
    unfold Rminus. rewrite Ropp_involutive, <- sumn_plus. apply sumn_ext. intros. ring. }
  rewrite E1.
  pose proof (holder (q_n p) (fun i => q_q p i + Pmul p x i + Atmul p y i) h ed Hed H2) as B1. apply Rabs_le_both in B1.
  assert (B2 : sumn (q_m p) (fun i => y i * Amul p h i) <= ep * norm1 (q_m p) y).
  { unfold norm1. rewrite <- sumn_scal. apply zsum_le. intros i Hi. unfold h, Amul.
    assert (EA : mulR (q_n p) (q_A p) (fun i0 => x' i0 - x i0) i = Amul p x' i - Amul p x i).
    { unfold Amul. rewrite (mulR_ext _ _ _ (fun j => x' j + -1 * x j)) by (intros; ring). rewrite mulR_plus, mulR_scal. ring. }
    rewrite EA. destruct (H3 i Hi) as (Hb & Hu & Hl). specialize (HF i Hi). pose proof (H1 i Hi) as Ha. apply Rabs_le_both in Ha.
    destruct (Rtotal_order (y i) 0) as [Hy|[Hy|Hy]].
    - specialize (Hl Hy). rewrite (Rabs_left _ Hy).
      assert (0 <= (- y i) * (ep + (Amul p x' i - Amul p x i))) by (apply Rmult_le_pos; lra). lra.
    - rewrite Hy, Rabs_R0. lra.
    - specialize (Hu Hy). rewrite (Rabs_right (y i)) by lra.
      assert (0 <= y i * (ep - (Amul p x' i - Amul p x i))) by (apply Rmult_le_pos; lra). lra. }
  lra.
Qed.

Lemma norm1_nonneg n f : 0 <= norm1 n f.
Proof. unfold norm1. rewrite <- (zsum_0 0 n (fun _ => 0)) by auto. apply zsum_le. intros. apply Rabs_pos. Qed.

(** Following the direction v from a feasible point: by how much the bounds can be violated, and what is gained. *)
Theorem unbounded_far absl absu p e v : symmetric p -> unbounded_within absl absu p e v -> forall x t, feasible_but absl absu p x -> 0 <= t ->
  let N := e * ninf (q_n p) v in
  (forall i, (0 <= i < q_m p)%Z -> (~ absl i -> q_l p i - t * N <= Amul p (fun j => x j + t * v j) i) /\ (~ absu i -> Amul p (fun j => x j + t * v j) i <= q_u p i + t * N)) /\
  objective p (fun j => x j + t * v j) <= objective p x + t * (lin p v + N * norm1 (q_n p) x) + t ^ 2 / 2 * N * norm1 (q_n p) v.
Proof.
  intros HS [H1 H2 H3 H4] x t HF Ht N.
  assert (HN : 0 <= N) by (pose proof (ninf_nonneg (q_n p) (Pmul p v)); unfold N; lra). split.
  - intros i Hi. destruct (HF i Hi) as (F1 & F2). destruct (H4 i Hi) as (B1 & B2). fold N in B1, B2. unfold Amul. rewrite mulR_plus, mulR_scal. fold (Amul p x i). fold (Amul p v i). split; intros Ha.
    + specialize (F1 Ha). specialize (B2 Ha). assert (t * - N <= t * Amul p v i) by (apply Rmult_le_compat_l; auto). lra.
    + specialize (F2 Ha). specialize (B1 Ha). assert (t * Amul p v i <= t * N) by (apply Rmult_le_compat_l; auto). lra.
  - rewrite objective_diff by auto.
    assert (HB : forall g, sumn (q_n p) (fun i => g i * Pmul p v i) <= N * norm1 (q_n p) g).
    { intros g. assert (Hh : Rabs (sumn (q_n p) (fun i => Pmul p v i * g i)) <= N * norm1 (q_n p) g).
      { apply holder; auto. intros i Hi. pose proof (ninf_bound (q_n p) (Pmul p v) i Hi). fold N in H3. lra. }
      rewrite (sumn_ext _ _ (fun i => Pmul p v i * g i)) by (intros; ring). apply Rabs_le_both in Hh. lra. }
    assert (E1 : quad p (fun i => t * v i) = t ^ 2 * sumn (q_n p) (fun i => v i * Pmul p v i)).
    { unfold quad. rewrite <- sumn_scal. apply sumn_ext. intros i Hi. unfold Pmul. rewrite mulR_scal. ring. }
    assert (E2 : sumn (q_n p) (fun i => (Pmul p x i + q_q p i) * (t * v i)) = t * (sumn (q_n p) (fun i => v i * Pmul p x i) + lin p v)).
    { unfold lin. rewrite <- sumn_plus, <- sumn_scal. apply sumn_ext. intros. ring. }
    rewrite E1, E2, P_adjoint by auto. pose proof (HB x) as B1. pose proof (HB v) as B2.
    assert (t * sumn (q_n p) (fun i => x i * Pmul p v i) <= t * (N * norm1 (q_n p) x)) by (apply Rmult_le_compat_l; auto).
    assert (t ^ 2 * sumn (q_n p) (fun i => v i * Pmul p v i) <= t ^ 2 * (N * norm1 (q_n p) v)) by (apply Rmult_le_compat_l; [apply pow_le; auto|auto]). lra.
Qed.
