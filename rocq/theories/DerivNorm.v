(** Euclidean norms of finite vectors and the convergence of iterative refinement for the perturbed
    adjoint system of qdldl_interface.c:697-891, stated for matrices as functions of two indices. *)
From Coq Require Import ZArith Reals List Bool Lia Lra Psatz.
From Verif Require Import Arr ArrFacts RSum Ldl.
Open Scope Z_scope.

(** The squared length and the length of the first N entries of v. *)
Definition sq (N : Z) (v : Z -> R) : R := zsum 0 N (fun i => (v i * v i)%R).
Definition nrm (N : Z) (v : Z -> R) : R := sqrt (sq N v).
(** Matrix times vector, and the inner product. *)
Definition mv (N : Z) (M : Z -> Z -> R) (v : Z -> R) (i : Z) : R := zsum 0 N (fun j => (M i j * v j)%R).
Definition ip (N : Z) (u v : Z -> R) : R := zsum 0 N (fun i => (u i * v i)%R).
Definition tp (M : Z -> Z -> R) (i j : Z) : R := M j i.
(** ||M v|| >= k ||v|| for every v. *)
Definition below (N : Z) (M : Z -> Z -> R) (k : R) : Prop := forall v, (k * nrm N v <= nrm N (mv N M v))%R.

Lemma sq_nonneg N v : (0 <= sq N v)%R.
Proof. apply zsum_nonneg. intros. nra. Qed.
Lemma nrm_nonneg N v : (0 <= nrm N v)%R.
Proof. apply sqrt_pos. Qed.
Lemma nrm_sq N v : (nrm N v * nrm N v = sq N v)%R.
Proof. apply sqrt_sqrt, sq_nonneg. Qed.
Lemma sq_ext N u v : (forall i, 0 <= i < N -> u i = v i) -> sq N u = sq N v.
Proof. intros H. apply zsum_ext. intros i Hi. rewrite H; auto. Qed.
Lemma nrm_ext N u v : (forall i, 0 <= i < N -> u i = v i) -> nrm N u = nrm N v.
Proof. intros H. unfold nrm. rewrite (sq_ext N u v); auto. Qed.
Lemma ip_sym N u v : ip N u v = ip N v u.
Proof. apply zsum_ext. intros; ring. Qed.
Lemma ip_ext N u v u' v' : (forall i, 0 <= i < N -> u i = u' i) -> (forall i, 0 <= i < N -> v i = v' i) -> ip N u v = ip N u' v'.
Proof. intros H1 H2. apply zsum_ext. intros i Hi. rewrite H1, H2; auto. Qed.
Lemma ip_sq N u : ip N u u = sq N u.
Proof. reflexivity. Qed.
Lemma sq_zero N v : sq N v = 0%R -> forall i, 0 <= i < N -> v i = 0%R.
Proof.
  intros H i Hi. unfold sq in H.
  assert (HS : (zsum 0 N (fun j => if j =? i then v i * v i else 0) <= zsum 0 N (fun j => v j * v j))%R).
  { apply zsum_le. intros j Hj. destruct (Z.eqb_spec j i) as [->|]; nra. }
  rewrite zsum_single in HS by auto. nra.
Qed.

(** Cauchy-Schwarz. *)
Lemma cauchy N u v : (Rabs (ip N u v) <= nrm N u * nrm N v)%R.
Proof.
  pose proof (nrm_nonneg N u) as Hu. pose proof (nrm_nonneg N v) as Hv.
  pose proof (nrm_sq N u) as Su. pose proof (nrm_sq N v) as Sv.
  assert (Q : forall s t, (0 <= s * s * sq N u + 2 * s * t * ip N u v + t * t * sq N v)%R).
  { intros s t. pose proof (sq_nonneg N (fun i => s * u i + t * v i)%R) as H.
    replace (s * s * sq N u + 2 * s * t * ip N u v + t * t * sq N v)%R with (sq N (fun i => s * u i + t * v i)%R); auto.
    unfold sq, ip. rewrite <- !zsum_scal, <- !zsum_plus. apply zsum_ext. intros; ring. }
  set (a := nrm N u) in *. set (b := nrm N v) in *. set (c := ip N u v) in *. rewrite <- Su, <- Sv in Q.
  assert (H1 : (c * c <= (a * b) * (a * b))%R).
  { destruct (Req_dec a 0) as [Ea|Ea].
    - (* u = 0 *) assert (E0 : sq N u = 0%R) by (rewrite <- Su, Ea; ring). replace c with 0%R; [nra|].
      symmetry. unfold c, ip. apply zsum_0. intros i Hi. rewrite (sq_zero N u E0 i Hi). ring.
    - specialize (Q (c / (a * a))%R (-1)%R). assert (Ha : (0 < a * a)%R) by nra.
      assert (Hq : (0 <= (a * a) * (c / (a * a) * (c / (a * a)) * (a * a) + 2 * (c / (a * a)) * -1 * c + -1 * -1 * (b * b)))%R) by (apply Rmult_le_pos; lra).
      replace ((a * a) * (c / (a * a) * (c / (a * a)) * (a * a) + 2 * (c / (a * a)) * -1 * c + -1 * -1 * (b * b)))%R with (a * b * (a * b) - c * c)%R in Hq; [lra|field; auto]. }
  assert (Hab : (0 <= a * b)%R) by (apply Rmult_le_pos; auto).
  apply Rabs_le. split; nra.
Qed.

Lemma triangle N u v : (nrm N (fun i => u i + v i) <= nrm N u + nrm N v)%R.
Proof.
  pose proof (nrm_nonneg N u) as Hu. pose proof (nrm_nonneg N v) as Hv.
  assert (H : (sq N (fun i => u i + v i) <= (nrm N u + nrm N v) * (nrm N u + nrm N v))%R).
  { replace (sq N (fun i => u i + v i)%R) with (sq N u + 2 * ip N u v + sq N v)%R.
    - pose proof (cauchy N u v) as HC. pose proof (Rle_abs (ip N u v)). rewrite <- (nrm_sq N u), <- (nrm_sq N v). lra.
    - unfold sq, ip. rewrite <- zsum_scal, <- !zsum_plus. apply zsum_ext. intros; ring. }
  unfold nrm at 1. rewrite <- (sqrt_square (nrm N u + nrm N v)) by lra. apply sqrt_le_1; [apply sq_nonneg|nra|auto].
Qed.

Lemma nrm_scal N c v : nrm N (fun i => c * v i)%R = (Rabs c * nrm N v)%R.
Proof.
  unfold nrm. replace (sq N (fun i => c * v i)%R) with ((c * c) * sq N v)%R.
  - rewrite sqrt_mult; [|nra|apply sq_nonneg]. f_equal. apply sqrt_Rsqr_abs.
  - unfold sq. rewrite <- zsum_scal. apply zsum_ext. intros; ring.
Qed.

Lemma nrm_le N v b : (0 <= b)%R -> (sq N v <= b * b)%R -> (nrm N v <= b)%R.
Proof. intros Hb H. unfold nrm. rewrite <- (sqrt_square b) by auto. apply sqrt_le_1; [apply sq_nonneg|nra|auto]. Qed.

(** Splitting a vector of length 2N in two halves. *)
Definition up (N : Z) (v : Z -> R) (i : Z) : R := v (N + i).
Lemma sq_split N v : 0 <= N -> sq (2 * N) v = (sq N v + sq N (up N v))%R.
Proof.
  intros H. unfold sq. rewrite (zsum_app 0 N (2 * N)) by lia. f_equal.
  replace N with (0 + N) at 1 by lia. replace (2 * N) with (N + N) by lia. rewrite zsum_shift.
  apply zsum_ext. intros i Hi. unfold up. replace (i + N) with (N + i) by lia. reflexivity.
Qed.
Lemma nrm_half1 N v : 0 <= N -> (nrm N v <= nrm (2 * N) v)%R.
Proof. intros H. apply nrm_le; [apply nrm_nonneg|]. rewrite nrm_sq, sq_split by auto. pose proof (sq_nonneg N (up N v)). lra. Qed.
Lemma nrm_half2 N v : 0 <= N -> (nrm N (up N v) <= nrm (2 * N) v)%R.
Proof. intros H. apply nrm_le; [apply nrm_nonneg|]. rewrite nrm_sq, sq_split by auto. pose proof (sq_nonneg N v). lra. Qed.
Lemma nrm_halves N v : 0 <= N -> (nrm (2 * N) v <= nrm N v + nrm N (up N v))%R.
Proof.
  intros H. pose proof (nrm_nonneg N v). pose proof (nrm_nonneg N (up N v)).
  apply nrm_le; [lra|]. rewrite sq_split by auto. rewrite <- (nrm_sq N v), <- (nrm_sq N (up N v)). nra.
Qed.

Lemma mv_adj N M u v : ip N u (mv N M v) = ip N (mv N (tp M) u) v.
Proof.
  unfold ip, mv, tp.
  rewrite (zsum_ext 0 N (fun i => u i * zsum 0 N (fun j => M i j * v j))%R (fun i => zsum 0 N (fun j => u i * (M i j * v j))%R)) by (intros; rewrite zsum_scal; auto).
  rewrite zsum_swap. apply zsum_ext. intros j Hj. rewrite <- zsum_scal_r. apply zsum_ext. intros; ring.
Qed.

(** A square matrix bounded below is onto. *)
Lemma zsum_seq n (f : Z -> R) : zsum 0 (Z.of_nat n) f = lsum (fun j => f (Z.of_nat j)) (seq 0 n).
Proof.
  induction n as [|n IH]; [reflexivity|]. rewrite seq_S, lsum_snoc. replace (Z.of_nat (S n)) with (Z.of_nat n + 1) by lia. rewrite zsum_snoc by lia. rewrite IH. reflexivity.
Qed.
Lemma below_onto N M k w : 0 <= N -> (0 < k)%R -> below N M k -> exists v, forall i, 0 <= i < N -> mv N M v i = w i.
Proof.
  intros HN Hk HB.
  destruct (homogeneous (Z.to_nat N) (S (Z.to_nat N)) (fun i j => if Z.of_nat j =? N then (- w (Z.of_nat i))%R else M (Z.of_nat i) (Z.of_nat j))) as (x & (j0 & Hj0 & Hx0) & HX); [lia|].
  set (xz := fun j : Z => x (Z.to_nat j)).
  assert (HZ : forall i, 0 <= i < N -> mv N M xz i = (w i * xz N)%R).
  { intros i Hi. specialize (HX (Z.to_nat i) ltac:(lia)).
    rewrite (lsum_ext _ (fun j => (fun jz => (if jz =? N then - w i else M i jz) * xz jz)%R (Z.of_nat j))) in HX.
    2:{ intros j _. unfold xz. rewrite Nat2Z.id, Z2Nat.id by lia. reflexivity. }
    rewrite <- (zsum_seq (S (Z.to_nat N)) (fun jz => (if jz =? N then - w i else M i jz) * xz jz)%R) in HX.
    replace (Z.of_nat (S (Z.to_nat N))) with (N + 1) in HX by lia. rewrite zsum_snoc in HX by lia. rewrite Z.eqb_refl in HX.
    unfold mv. rewrite (zsum_ext 0 N _ (fun j => (if j =? N then - w i else M i j) * xz j)%R); [lra|].
    intros j Hj. replace (j =? N) with false by lia. reflexivity. }
  destruct (Req_dec (xz N) 0) as [E|E].
  - exfalso. assert (E0 : nrm N (mv N M xz) = 0%R).
    { unfold nrm. replace (sq N (mv N M xz)) with 0%R; [apply sqrt_0|]. symmetry. apply zsum_0. intros i Hi. rewrite HZ, E by auto. ring. }
    specialize (HB xz). rewrite E0 in HB. pose proof (nrm_nonneg N xz) as Hn. assert (En : nrm N xz = 0%R) by nra.
    assert (Es : sq N xz = 0%R) by (rewrite <- nrm_sq, En; ring).
    apply Hx0. assert (Ej : x j0 = xz (Z.of_nat j0)) by (unfold xz; rewrite Nat2Z.id; auto). rewrite Ej.
    destruct (Z.eq_dec (Z.of_nat j0) N) as [->|]; auto. apply (sq_zero N xz Es). lia.
  - exists (fun j => / xz N * xz j)%R. intros i Hi. transitivity (/ xz N * mv N M xz i)%R.
    + unfold mv. rewrite <- zsum_scal. apply zsum_ext. intros; ring.
    + rewrite HZ by auto. field. auto.
Qed.

Lemma below_tp N M k : 0 <= N -> (0 < k)%R -> below N M k -> below N (tp M) k.
Proof.
  intros HN Hk HB w. destruct (below_onto N M k w HN Hk HB) as (v & Hv).
  pose proof (HB v) as Hbv. rewrite (nrm_ext N (mv N M v) w Hv) in Hbv.
  pose proof (mv_adj N M w v) as HA. rewrite (ip_ext N w (mv N M v) w w) in HA by auto. rewrite ip_sq in HA.
  pose proof (cauchy N (mv N (tp M) w) v) as HC. rewrite <- HA in HC. pose proof (Rle_abs (sq N w)) as HR. rewrite <- nrm_sq in *.
  pose proof (nrm_nonneg N w) as Hw. pose proof (nrm_nonneg N v) as Hvn. pose proof (nrm_nonneg N (mv N (tp M) w)) as Ht.
  set (a := nrm N w) in *. set (b := nrm N v) in *. set (t := nrm N (mv N (tp M) w)) in *.
  destruct (Req_dec a 0) as [->|Ha]; [lra|]. assert (Hap : (0 < a)%R) by lra.
  assert (H1 : (k * (a * a) <= t * (k * b))%R) by nra. assert (H2 : (t * (k * b) <= t * a)%R) by (apply Rmult_le_compat_l; auto).
  apply Rmult_le_reg_r with a; auto. lra.
Qed.

(** One step of refinement: solving with the perturbed matrix and multiplying by the perturbation. *)
Lemma contraction N M k a c e : 0 <= N -> (/ 100 <= k)%R -> below N M k -> below N (tp M) k ->
  (forall i, 0 <= i < N -> ((1 + / 10 ^ 6) * a i + mv N M c i = e i)%R) ->
  (forall i, 0 <= i < N -> (mv N (tp M) a i - / 10 ^ 6 * c i = e (N + i)%Z)%R) ->
  (nrm (2 * N) (fun i => if (i <? N)%Z then / 10 ^ 6 * a i else - / 10 ^ 6 * c (i - N)%Z) <= nrm (2 * N) e / 50)%R.
Proof.
  intros HN Hk HB HT H1 H2. set (ep := (/ 10 ^ 6)%R) in *.
  pose proof (HB c) as Bc. pose proof (HT a) as Ba.
  rewrite (nrm_ext N (mv N M c) (fun i => e i + (- (1 + ep)) * a i)%R) in Bc by (intros i Hi; rewrite <- H1 by auto; ring).
  rewrite (nrm_ext N (mv N (tp M) a) (fun i => up N e i + ep * c i)%R) in Ba by (intros i Hi; unfold up; rewrite <- H2 by auto; ring).
  pose proof (triangle N e (fun i => - (1 + ep) * a i)%R) as T1. cbv beta in T1. rewrite nrm_scal in T1.
  pose proof (triangle N (up N e) (fun i => ep * c i)%R) as T2. cbv beta in T2. rewrite nrm_scal in T2.
  assert (Hep : (0 < ep <= / 1000000)%R) by (unfold ep; lra).
  rewrite Rabs_Ropp, Rabs_right in T1 by lra. rewrite (Rabs_right ep) in T2 by lra.
  pose proof (nrm_half1 N e HN) as E1. pose proof (nrm_half2 N e HN) as E2.
  eapply Rle_trans; [apply nrm_halves; auto|].
  rewrite (nrm_ext N _ (fun i => ep * a i)%R) by (intros i Hi; replace (i <? N) with true by lia; auto).
  rewrite (nrm_ext N (up N _) (fun i => - ep * c i)%R) by (intros i Hi; unfold up; replace (N + i <? N) with false by lia; f_equal; f_equal; lia).
  rewrite !nrm_scal, Rabs_Ropp, !(Rabs_right ep) by lra.
  pose proof (nrm_nonneg N a) as Pa. pose proof (nrm_nonneg N c) as Pc. pose proof (nrm_nonneg (2 * N) e) as Pe.
  set (x := nrm N a) in *. set (y := nrm N c) in *. set (r := nrm (2 * N) e) in *.
  assert (Ha : (/ 100 * x <= r + ep * y)%R) by (assert (/ 100 * x <= k * x)%R by (apply Rmult_le_compat_r; auto); lra).
  assert (Hc : (/ 100 * y <= r + (1 + ep) * x)%R) by (assert (/ 100 * y <= k * y)%R by (apply Rmult_le_compat_r; auto); lra).
  assert (L1 : (ep * y <= / 1000000 * y)%R) by (apply Rmult_le_compat_r; lra).
  assert (L2 : (ep * x <= / 1000000 * x)%R) by (apply Rmult_le_compat_r; lra). lra.
Qed.

(** A residual of at most tol in the adjoint system makes the adjoint solution good to first order:
    with J = M' the Jacobian, J z = R, the inner product of g with z is that of r2 with R up to the residual. *)
Lemma adjoint_error N M k g r1 r2 e z R : 0 <= N -> (0 < k)%R -> below N (tp M) k ->
  (forall i, 0 <= i < N -> (r1 i + mv N M r2 i + g i = e i)%R) -> (forall i, 0 <= i < N -> mv N (tp M) r1 i = e (N + i)%Z) ->
  (forall i, 0 <= i < N -> mv N (tp M) z i = R i) ->
  (Rabs (ip N g z + ip N r2 R) <= nrm (2 * N) e * (1 + / k) * nrm N z)%R.
Proof.
  intros HN Hk HT H1 H2 H3.
  assert (E : (ip N g z + ip N r2 R = ip N (fun i => e i + (-1) * r1 i) z)%R).
  { rewrite (ip_ext N r2 R r2 (mv N (tp M) z)) by (auto; intros; rewrite H3; auto).
    rewrite mv_adj. change (mv N (tp (tp M)) r2) with (mv N M r2).
    unfold ip. rewrite <- zsum_plus. apply zsum_ext. intros i Hi. rewrite <- H1 by auto. ring. }
  rewrite E. eapply Rle_trans; [apply cauchy|]. apply Rmult_le_compat_r; [apply nrm_nonneg|].
  eapply Rle_trans; [apply triangle|]. rewrite nrm_scal. rewrite Rabs_left by lra.
  pose proof (HT r1) as B. rewrite (nrm_ext N (mv N (tp M) r1) (up N e)) in B by (intros i Hi; apply H2; auto).
  pose proof (nrm_half1 N e HN) as E1. pose proof (nrm_half2 N e HN) as E2.
  assert (Hr : (nrm N r1 <= nrm (2 * N) e * / k)%R).
  { apply Rmult_le_reg_l with k; auto. replace (k * (nrm (2 * N) e * / k))%R with (nrm (2 * N) e) by (field; lra). lra. }
  lra.
Qed.
