(** From the adjoint identity to the gradients: pure mathematics of the quadratic program. *)
From Coq Require Import ZArith Reals List Bool Lia Lra.
From Verif Require Import Num RSum CscFacts RealVec RealStep QpSpec DerivRows DerivSpec.
Open Scope Z_scope.
Local Open Scope R_scope.


Section Grad.
  Variables (p dp : qp) (x y x' y' : Z -> R).
  Hypothesis (SY : symmetric p) (KK : kkt p x (Amul p x) y) (BR : bounds_real p y) (DR : direction p dp) (TG : tangent p dp x y x' y').
  Let n := q_n p.
  Let m := q_m p.

  (** The changes of the multipliers of the two sides. *)
  Definition vlow (i : Z) : R := if Rlt_dec (y i) 0 then - y' i else 0.
  Definition vupp (i : Z) : R := if Rlt_dec 0 (y i) then y' i else 0.

  Lemma eq_not i : is_eq p i = true -> has_low p i = false /\ has_up p i = false.
  Proof. unfold is_eq, has_low, has_up. destruct (Rltb (q_l p i) (q_u p i)); auto. discriminate. Qed.
  Lemma low_of i : (0 <= i < m)%Z -> is_eq p i = false -> y i < 0 -> has_low p i = true.
  Proof.
    intros Hi He Hy. unfold is_eq, has_low in *. apply negb_false_iff in He. rewrite He. cbn [andb]. apply Rltb_iff. destruct (BR i Hi) as [B _]. auto.
  Qed.
  Lemma up_of i : (0 <= i < m)%Z -> is_eq p i = false -> 0 < y i -> has_up p i = true.
  Proof.
    intros Hi He Hy. unfold is_eq, has_up in *. apply negb_false_iff in He. rewrite He. cbn [andb]. apply Rltb_iff. destruct (BR i Hi) as [_ B]. auto.
  Qed.

  (** A weight per constraint: [wl] for the lower side, [wu] for the upper one. *)
  Lemma sides (wl wu we : Z -> R) i : (0 <= i < m)%Z ->
    on (has_low p i) (wl i * vlow i) + on (has_up p i) (wu i * vupp i) + on (is_eq p i) (we i * y' i) =
    (if is_eq p i then we i else if Rlt_dec (y i) 0 then - wl i else wu i) * y' i.
  Proof.
    intros Hi. destruct (is_eq p i) eqn:Ee.
    - destruct (eq_not i Ee) as [-> ->]. cbn [on]. ring.
    - pose proof (low_of i Hi Ee) as PL. pose proof (up_of i Hi Ee) as PU. pose proof (tg_free _ _ _ _ _ _ TG i Hi Ee) as PF. unfold vlow, vupp.
      destruct (Rlt_dec (y i) 0) as [Hl|Hl]; [|destruct (Rlt_dec 0 (y i)) as [Hu|Hu]].
      + rewrite (PL Hl). destruct (Rlt_dec 0 (y i)); [lra|]. destruct (has_up p i); cbn [on]; ring.
      + rewrite (PU Hu). destruct (has_low p i); cbn [on]; ring.
      + rewrite (PF ltac:(lra)). destruct (has_low p i), (has_up p i); cbn [on]; ring.
  Qed.

  Lemma jac_stat j : (0 <= j < n)%Z -> J_stat p x' vlow vupp y' j = - (Pmul dp x j + q_q dp j + Atmul dp y j).
  Proof.
    intros Hj. pose proof (tg_stat _ _ _ _ _ _ TG j Hj) as HS. unfold J_stat, sumn.
    rewrite (zsum_ext 0 (q_m p) _ (fun i => q_A p i j * y' i)).
    - change (zsum 0 (q_m p) (fun i => q_A p i j * y' i)) with (Atmul p y' j). lra.
    - intros i Hi. pose proof (sides (fun _ => -1) (fun _ => 1) (fun _ => 1) i Hi) as HH. f_equal. transitivity (on (has_low p i) (-1 * vlow i) + on (has_up p i) (1 * vupp i) + on (is_eq p i) (1 * y' i)).
      + unfold on. destruct (has_low p i), (has_up p i), (is_eq p i); ring.
      + rewrite HH. destruct (is_eq p i); [ring|]. destruct (Rlt_dec (y i) 0); ring.
  Qed.
  Lemma jac_low i : (0 <= i < m)%Z -> J_low p x y x' vlow i = lamL y i * (Amul dp x i - q_l dp i).
  Proof.
    intros Hi. unfold J_low, lamL, vlow. destruct (Rlt_dec (y i) 0) as [Hy|Hy].
    - pose proof (tg_low _ _ _ _ _ _ TG i Hi Hy) as HT. destruct (k_cone _ _ _ _ KK i Hi) as (_ & _ & HC). specialize (HC Hy). rewrite HC. rewrite <- HT. ring.
    - rewrite Rmax_right by lra. ring.
  Qed.
  Lemma jac_up i : (0 <= i < m)%Z -> J_up p x y x' vupp i = - (lamU y i * (Amul dp x i - q_u dp i)).
  Proof.
    intros Hi. unfold J_up, lamU, vupp. destruct (Rlt_dec 0 (y i)) as [Hy|Hy].
    - pose proof (tg_up _ _ _ _ _ _ TG i Hi Hy) as HT. destruct (k_cone _ _ _ _ KK i Hi) as (_ & HC & _). specialize (HC Hy). rewrite HC. rewrite <- HT. ring.
    - rewrite Rmax_right by lra. ring.
  Qed.
  Lemma jac_eq i : (0 <= i < m)%Z -> is_eq p i = true -> J_eq p x' i = q_u dp i - Amul dp x i.
  Proof. intros Hi He. pose proof (tg_eq _ _ _ _ _ _ TG i Hi He). unfold J_eq. lra. Qed.

  (** The gradients, given the solution (r, rl, ru, re) of the adjoint system. *)
  Variables (r rl ru re : Z -> R).
  Definition GP (i j : Z) : R := / 2 * (r i * x j + r j * x i).
  Definition Gl (i : Z) : R := on (has_low p i) (rl i * lamL y i) + on (is_eq p i) (if Rle_dec 0 (y i) then 0 else - re i).
  Definition Gu (i : Z) : R := on (has_up p i) (- (ru i * lamU y i)) + on (is_eq p i) (if Rle_dec 0 (y i) then - re i else 0).
  Definition GA (i j : Z) : R := y i * r j - (Gl i + Gu i) * x j.

  Lemma grad_identity :
    predicted p GP GA r Gl Gu dp =
    - (zsum 0 n (fun j => r j * J_stat p x' vlow vupp y' j) +
       zsum 0 m (fun i => on (has_low p i) (rl i * J_low p x y x' vlow i) + on (has_up p i) (ru i * J_up p x y x' vupp i) + on (is_eq p i) (re i * J_eq p x' i))).
  Proof.
    destruct DR as [Dn Dm Ds De].
    rewrite (zsum_ext 0 n _ (fun j => (-1) * (r j * Pmul dp x j + r j * q_q dp j + r j * Atmul dp y j))) by (intros j Hj; rewrite jac_stat by auto; ring).
    rewrite (zsum_ext 0 m _ (fun i => (-1) * ((- (Gl i + Gu i)) * Amul dp x i + Gl i * q_l dp i + Gu i * q_u dp i))).
    2:{ intros i Hi. rewrite jac_low, jac_up by auto. unfold Gl, Gu. destruct (is_eq p i) eqn:Ee.
        - destruct (eq_not i Ee) as [-> ->]. cbn [on]. rewrite jac_eq by auto. rewrite (De i Hi Ee). destruct (Rle_dec 0 (y i)); ring.
        - cbn [on]. destruct (has_low p i), (has_up p i); cbn [on]; ring. }
    rewrite !zsum_scal. rewrite !zsum_plus. unfold predicted, sumn. fold n m.
    assert (E1 : zsum 0 n (fun i => zsum 0 n (fun j => GP i j * q_P dp i j)) = zsum 0 n (fun j => r j * Pmul dp x j)).
    { rewrite (zsum_ext 0 n _ (fun i => / 2 * zsum 0 n (fun j => r i * (q_P dp i j * x j)) + / 2 * zsum 0 n (fun j => x i * (q_P dp i j * r j)))).
      2:{ intros i Hi. rewrite <- !zsum_scal, <- zsum_plus. apply zsum_ext. intros j Hj. unfold GP. ring. }
      rewrite zsum_plus, !zsum_scal. assert (ES : zsum 0 n (fun i => zsum 0 n (fun j => x i * (q_P dp i j * r j))) = zsum 0 n (fun i => zsum 0 n (fun j => r i * (q_P dp i j * x j)))).
      { rewrite zsum_swap. apply zsum_ext. intros i Hi. apply zsum_ext. intros j Hj. rewrite (Ds i j). ring. }
      rewrite ES. rewrite (zsum_ext 0 n (fun i => zsum 0 n (fun j => r i * (q_P dp i j * x j))) (fun j => r j * Pmul dp x j)).
      - field.
      - intros i Hi. rewrite zsum_scal. unfold Pmul, mulR. rewrite Dn. auto. }
    assert (E2 : zsum 0 m (fun i => zsum 0 n (fun j => GA i j * q_A dp i j)) = zsum 0 n (fun j => r j * Atmul dp y j) + zsum 0 m (fun i => - (Gl i + Gu i) * Amul dp x i)).
    { rewrite (zsum_ext 0 m _ (fun i => zsum 0 n (fun j => r j * (q_A dp i j * y i)) + - (Gl i + Gu i) * zsum 0 n (fun j => q_A dp i j * x j))).
      2:{ intros i Hi. rewrite <- !zsum_scal, <- zsum_plus. apply zsum_ext. intros j Hj. unfold GA. ring. }
      rewrite zsum_plus. f_equal.
      - rewrite zsum_swap. apply zsum_ext. intros j Hj. rewrite zsum_scal. unfold Atmul, mulR, tr_. rewrite Dm. auto.
      - apply zsum_ext. intros i Hi. unfold Amul, mulR. rewrite Dn. auto. }
    rewrite E1, E2. ring.
  Qed.

  (** The size of the changes. *)
  Lemma size_le : size p x' vlow vupp y' <= zsum 0 n (fun j => x' j * x' j) + zsum 0 m (fun i => y' i * y' i).
  Proof.
    unfold size, sumn. fold n m. apply Rplus_le_compat_l. apply zsum_le. intros i Hi.
    assert (S0 : 0 <= y' i * y' i) by nra. destruct (is_eq p i) eqn:Ee.
    - destruct (eq_not i Ee) as [-> ->]. cbn [on]. lra.
    - unfold vlow, vupp. destruct (Rlt_dec (y i) 0), (Rlt_dec 0 (y i)); try lra; destruct (has_low p i), (has_up p i); cbn [on]; lra.
  Qed.
End Grad.
