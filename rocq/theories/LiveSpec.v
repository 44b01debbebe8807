(** ADMM gets there: when the linear step moves little the iterate is nearly optimal, without reference to the solver. *)
From Coq Require Import ZArith Reals List Bool Lia Lra.
From Verif Require Import Num RSum RealStep Ldl QpSpec AdmmSpec TermSpec SolveClaims.
Open Scope Z_scope.
Local Open Scope R_scope.

Lemma family_min m (f : Z -> R) : (forall i, (0 <= i < m)%Z -> 0 < f i) -> exists e, 0 < e /\ forall i, (0 <= i < m)%Z -> e <= f i.
Proof.
  intros H. pose proof (ninf_nonneg m (fun i => / f i)) as H0. exists (/ (1 + ninf m (fun i => / f i))). split; [apply Rinv_0_lt_compat; lra|].
  intros i Hi. pose proof (H i Hi) as Hf. pose proof (ninf_bound m (fun i => / f i) i Hi) as HB. cbv beta in HB. pose proof (Rinv_0_lt_compat _ Hf) as Hv. rewrite Rabs_right in HB by lra.
  rewrite <- (Rinv_inv (f i)). apply Rinv_le_contravar; lra.
Qed.
Lemma mulR_bound c M f i r : 0 <= r -> (forall j, (0 <= j < c)%Z -> Rabs (f j) <= r) -> Rabs (mulR c M f i) <= sumn c (fun j => Rabs (M i j)) * r.
Proof.
  intros Hr H. unfold mulR. eapply Rle_trans; [apply zsum_abs|]. rewrite Rmult_comm. unfold sumn. rewrite <- zsum_scal. apply zsum_le. intros j Hj. rewrite Rabs_mult, Rmult_comm.
  apply Rmult_le_compat_r; [apply Rabs_pos|auto].
Qed.
Lemma clip_lipschitz l u v w : l <= u -> Rabs (clipR l u v - clipR l u w) <= Rabs (v - w).
Proof. intros H. unfold clipR, Rmin, Rmax, Rabs. destruct (Rle_dec v l), (Rle_dec w l); repeat (destruct (Rle_dec _ u)); repeat destruct (Rcase_abs _); lra. Qed.
Lemma sumn_term n f i : (forall j, (0 <= j < n)%Z -> 0 <= f j) -> (0 <= i < n)%Z -> f i <= sumn n f.
Proof.
  intros HN Hi. unfold sumn. rewrite <- (zsum_single 0 n i f) by lia. apply zsum_le. intros j Hj. destruct (Z.eqb_spec j i) as [->|]; [lra|auto].
Qed.
Lemma sq_small a b r : 0 < a -> 0 < r -> a * (b * b) < a * (r * r) -> Rabs b < r.
Proof.
  intros Ha Hr H. apply Rmult_lt_reg_l in H; auto. destruct (Rlt_le_dec (Rabs b) r) as [|Hx]; auto. exfalso.
  assert (r * r <= Rabs b * Rabs b) by (apply Rmult_le_compat; lra). rewrite <- Rabs_mult, Rabs_right in H0 by (apply Rle_ge, Rle_0_sqr). lra.
Qed.
Lemma sq_bound a b B : 0 < a -> a * (b * b) <= B -> Rabs b <= B / a + 1.
Proof.
  intros Ha H. assert (H1 : b * b <= B / a). { apply (Rmult_le_reg_l a); auto. replace (a * (B / a)) with B by (field; lra). auto. }
  assert (0 <= (Rabs b - 1) * (Rabs b - 1)) by apply Rle_0_sqr. assert (E : Rabs b * Rabs b = b * b) by (rewrite <- Rabs_mult; apply Rabs_right, Rle_ge, Rle_0_sqr). pose proof (Rabs_pos b). pose proof (Rle_0_sqr b). unfold Rsqr in *. nra.
Qed.

Section Live.
  Context (p : qp) (sigma alpha : R) (rho : Z -> R).
  Hypothesis Hs : 0 < sigma.
  Hypothesis Hr : forall i, (0 <= i < q_m p)%Z -> 0 < rho i.
  Hypothesis Hb : forall i, (0 <= i < q_m p)%Z -> q_l p i <= q_u p i.
  Hypothesis Ha : 0 < alpha.

  (** What the linear step moved bounds the change of every component. *)
  Lemma moved_small r : 0 < r -> exists thr, 0 < thr /\ forall x z xt zt, moved p sigma rho x z xt zt < thr ->
    (forall j, (0 <= j < q_n p)%Z -> Rabs (xt j - x j) < r) /\ (forall i, (0 <= i < q_m p)%Z -> Rabs (zt i - z i) < r).
  Proof.
    intros Hr0. destruct (family_min (q_m p) rho Hr) as (rm & R1 & R2). exists (Rmin sigma rm * (r * r)). assert (Hrr : 0 < r * r) by (apply Rmult_lt_0_compat; auto).
    split; [apply Rmult_lt_0_compat; auto; apply Rmin_glb_lt; auto|]. intros x z xt zt HM. unfold moved in HM.
    assert (P1 : 0 <= sumn (q_n p) (fun i => (xt i - x i) * (xt i - x i))) by (apply sumn_nonneg; intros; apply Rle_0_sqr).
    assert (P2 : 0 <= sumn (q_m p) (fun i => rho i * ((zt i - z i) * (zt i - z i)))) by (apply sumn_nonneg; intros i Hi; pose proof (Hr i Hi); apply Rmult_le_pos; [lra|apply Rle_0_sqr]).
    assert (P3 : 0 <= sigma * sumn (q_n p) (fun i => (xt i - x i) * (xt i - x i))) by (apply Rmult_le_pos; lra).
    split.
    - intros j Hj. apply (sq_small sigma); auto. eapply Rle_lt_trans with (sigma * sumn (q_n p) (fun i => (xt i - x i) * (xt i - x i))).
      + apply Rmult_le_compat_l; [lra|]. apply (sumn_term (q_n p) (fun i => (xt i - x i) * (xt i - x i))); auto. intros; apply Rle_0_sqr.
      + eapply Rlt_le_trans with (Rmin sigma rm * (r * r)); [lra|]. apply Rmult_le_compat_r; [lra|apply Rmin_l].
    - intros i Hi. apply (sq_small (rho i)); auto. eapply Rle_lt_trans with (sumn (q_m p) (fun i => rho i * ((zt i - z i) * (zt i - z i)))).
      + apply (sumn_term (q_m p) (fun i => rho i * ((zt i - z i) * (zt i - z i)))); auto. intros k Hk; pose proof (Hr k Hk); apply Rmult_le_pos; [lra|apply Rle_0_sqr].
      + eapply Rlt_le_trans with (Rmin sigma rm * (r * r)); [lra|]. apply Rmult_le_compat_r; [lra|]. eapply Rle_trans; [apply Rmin_r|auto].
  Qed.

  (** A step that moves little from a complementary point ends at a nearly optimal point. *)
  Lemma step_residuals x z y x' z' y' xt zt r : 0 <= r -> adm p sigma alpha rho x z y x' z' y' xt zt -> (forall i, (0 <= i < q_m p)%Z -> ncone (q_l p i) (q_u p i) (z i) (y i)) ->
    (forall j, (0 <= j < q_n p)%Z -> Rabs (xt j - x j) <= r) -> (forall i, (0 <= i < q_m p)%Z -> Rabs (zt i - z i) <= r) ->
    (forall i, (0 <= i < q_m p)%Z -> Rabs (Amul p x' i - z' i) <= (1 + alpha + Rabs (alpha - 1) * sumn (q_n p) (fun j => Rabs (q_A p i j))) * r) /\
    (forall j, (0 <= j < q_n p)%Z -> Rabs (q_q p j + Pmul p x' j + Atmul p y' j) <=
       (Rabs (alpha - 1) * sumn (q_n p) (fun k => Rabs (q_P p j k)) + sigma + sumn (q_m p) (fun k => Rabs (tr_ (q_A p) j k)) * (ninf (q_m p) rho * (Rabs (alpha - 1) + alpha))) * r).
  Proof.
    intros Hr0 [HT HTZ HX HZ HY] HC Bx Bz. set (h := fun j => xt j - x j).
    assert (Dz : forall i, (0 <= i < q_m p)%Z -> Rabs (z i - z' i) <= alpha * r).
    { intros i Hi. pose proof (ncone_clip _ _ _ _ (rho i) (Hr i Hi) (HC i Hi)) as EZ. rewrite HZ by auto. rewrite <- EZ at 1. eapply Rle_trans; [apply clip_lipschitz; auto|].
      replace (z i + / rho i * y i - (alpha * zt i + (1 - alpha) * z i + / rho i * y i)) with (- (alpha * (zt i - z i))) by ring. rewrite Rabs_Ropp, Rabs_mult, (Rabs_right alpha) by lra. apply Rmult_le_compat_l; [lra|auto]. }
    assert (EX : forall j, (0 <= j < q_n p)%Z -> x' j = xt j + (alpha - 1) * h j) by (intros j Hj; rewrite HX by auto; unfold h; ring).
    split.
    - intros i Hi. assert (E1 : Amul p x' i = zt i + (alpha - 1) * Amul p h i).
      { unfold Amul. rewrite (mulR_ext _ _ x' _ i EX), mulR_plus, mulR_scal, <- HTZ by auto. reflexivity. }
      rewrite E1. replace (zt i + (alpha - 1) * Amul p h i - z' i) with ((zt i - z i) + (z i - z' i) + (alpha - 1) * Amul p h i) by ring.
      eapply Rle_trans; [apply Rabs_triang|]. eapply Rle_trans; [apply Rplus_le_compat_r, Rabs_triang|]. rewrite Rabs_mult.
      pose proof (mulR_bound (q_n p) (q_A p) h i r Hr0 Bx) as HB. fold (Amul p h i) in HB. pose proof (Rmult_le_compat_l _ _ _ (Rabs_pos (alpha - 1)) HB). pose proof (Bz i Hi). pose proof (Dz i Hi). lra.
    - intros j Hj. pose (g := fun i => rho i * ((alpha - 1) * (zt i - z i) + (z i - z' i))).
      assert (EY : forall i, (0 <= i < q_m p)%Z -> y' i = (rho i * zt i - (rho i * z i - y i)) + g i) by (intros i Hi; rewrite HY by auto; unfold g; ring).
      assert (E2 : q_q p j + Pmul p x' j + Atmul p y' j = (alpha - 1) * Pmul p h j - sigma * h j + Atmul p g j).
      { unfold Pmul, Atmul. rewrite (mulR_ext _ _ x' _ j EX), mulR_plus, mulR_scal. rewrite (mulR_ext _ _ y' _ j EY), mulR_plus, mulR_minus. specialize (HT j Hj). unfold tr_, h at 3. lra. }
      rewrite E2. unfold Rminus. eapply Rle_trans; [apply Rabs_triang|]. eapply Rle_trans; [apply Rplus_le_compat_r, Rabs_triang|]. rewrite Rabs_Ropp, !Rabs_mult, (Rabs_right sigma) by lra.
      pose proof (mulR_bound (q_n p) (q_P p) h j r Hr0 Bx) as HB. fold (Pmul p h j) in HB. pose proof (Rmult_le_compat_l _ _ _ (Rabs_pos (alpha - 1)) HB) as B1.
      assert (B2 : sigma * Rabs (h j) <= sigma * r) by (apply Rmult_le_compat_l; [lra|apply Bx; auto]).
      assert (B3 : Rabs (Atmul p g j) <= sumn (q_m p) (fun k => Rabs (tr_ (q_A p) j k)) * (ninf (q_m p) rho * (Rabs (alpha - 1) + alpha) * r)).
      { unfold Atmul. apply mulR_bound.
        - apply Rmult_le_pos; auto. apply Rmult_le_pos; [apply ninf_nonneg|]. pose proof (Rabs_pos (alpha - 1)). lra.
        - intros i Hi. unfold g. rewrite Rabs_mult, Rmult_assoc. apply Rmult_le_compat; try apply Rabs_pos; [apply ninf_bound; auto|].
          eapply Rle_trans; [apply Rabs_triang|]. rewrite Rabs_mult. pose proof (Rmult_le_compat_l _ _ _ (Rabs_pos (alpha - 1)) (Bz i Hi)). pose proof (Dz i Hi). lra. }
      unfold Rminus in *. lra.
  Qed.

  Theorem small_move e : 0 < e -> exists thr, 0 < thr /\ forall x z y x' z' y' xt zt, adm p sigma alpha rho x z y x' z' y' xt zt ->
    (forall i, (0 <= i < q_m p)%Z -> ncone (q_l p i) (q_u p i) (z i) (y i)) -> moved p sigma rho x z xt zt < thr ->
    (forall i, (0 <= i < q_m p)%Z -> Rabs (Amul p x' i - z' i) <= e) /\ (forall j, (0 <= j < q_n p)%Z -> Rabs (q_q p j + Pmul p x' j + Atmul p y' j) <= e).
  Proof.
    intros He.
    pose (G1 := ninf (q_m p) (fun i => 1 + alpha + Rabs (alpha - 1) * sumn (q_n p) (fun j => Rabs (q_A p i j)))).
    pose (G2 := ninf (q_n p) (fun j => Rabs (alpha - 1) * sumn (q_n p) (fun k => Rabs (q_P p j k)) + sigma + sumn (q_m p) (fun k => Rabs (tr_ (q_A p) j k)) * (ninf (q_m p) rho * (Rabs (alpha - 1) + alpha)))).
    assert (P1 : 0 <= G1) by apply ninf_nonneg. assert (P2 : 0 <= G2) by apply ninf_nonneg.
    set (r := e / (1 + G1 + G2)). assert (Hr0 : 0 < r) by (apply Rdiv_lt_0_compat; lra).
    assert (E1 : G1 * r <= e /\ G2 * r <= e).
    { assert (HE : (1 + G1 + G2) * r = e) by (unfold r; field; lra). assert (0 <= G1 * r) by (apply Rmult_le_pos; lra). assert (0 <= G2 * r) by (apply Rmult_le_pos; lra). lra. }
    destruct (moved_small r Hr0) as (thr & T1 & T2). exists thr. split; auto. intros x z y x' z' y' xt zt HA HC HM. destruct (T2 _ _ _ _ HM) as (B1 & B2).
    destruct (step_residuals _ _ _ _ _ _ _ _ r (Rlt_le _ _ Hr0) HA HC (fun j Hj => Rlt_le _ _ (B1 j Hj)) (fun i Hi => Rlt_le _ _ (B2 i Hi))) as (S1 & S2). split.
    - intros i Hi. eapply Rle_trans; [apply S1; auto|]. eapply Rle_trans; [|exact (proj1 E1)]. apply Rmult_le_compat_r; [lra|]. eapply Rle_trans; [apply Rle_abs|]. unfold G1.
      apply (ninf_bound (q_m p) (fun i => 1 + alpha + Rabs (alpha - 1) * sumn (q_n p) (fun j => Rabs (q_A p i j))) i Hi).
    - intros j Hj. eapply Rle_trans; [apply S2; auto|]. eapply Rle_trans; [|exact (proj2 E1)]. apply Rmult_le_compat_r; [lra|]. eapply Rle_trans; [apply Rle_abs|]. unfold G2.
      apply (ninf_bound (q_n p) (fun j => Rabs (alpha - 1) * sumn (q_n p) (fun k => Rabs (q_P p j k)) + sigma + sumn (q_m p) (fun k => Rabs (tr_ (q_A p) j k)) * (ninf (q_m p) rho * (Rabs (alpha - 1) + alpha))) j Hj).
  Qed.

  (** Points at bounded distance from a solution are bounded. *)
  Theorem dist_bounds x z y xs zs ys B : dist2 p sigma rho x z y xs zs ys <= B ->
    (forall i, (0 <= i < q_m p)%Z -> ncone (q_l p i) (q_u p i) (z i) (y i)) -> (forall i, (0 <= i < q_m p)%Z -> ncone (q_l p i) (q_u p i) (zs i) (ys i)) ->
    (forall j, (0 <= j < q_n p)%Z -> Rabs (x j) <= Rabs (xs j) + (B / sigma + 1)) /\
    (forall i, (0 <= i < q_m p)%Z -> Rabs (y i) <= Rabs (ys i) + 2 * (rho i * (B / rho i + 1))).
  Proof.
    intros HD HC HC'. unfold dist2 in HD.
    assert (P1 : 0 <= sumn (q_n p) (fun i => (x i - xs i) * (x i - xs i))) by (apply sumn_nonneg; intros; apply Rle_0_sqr).
    pose (f := fun i => rho i * ((z i + / rho i * y i - (zs i + / rho i * ys i)) * (z i + / rho i * y i - (zs i + / rho i * ys i)))).
    assert (PF : forall i, (0 <= i < q_m p)%Z -> 0 <= f i) by (intros i Hi; pose proof (Hr i Hi); apply Rmult_le_pos; [lra|apply Rle_0_sqr]).
    pose proof (sumn_nonneg _ f PF) as P2. assert (P3 : 0 <= sigma * sumn (q_n p) (fun i => (x i - xs i) * (x i - xs i))) by (apply Rmult_le_pos; lra). change (sigma * sumn (q_n p) (fun i => (x i - xs i) * (x i - xs i)) + sumn (q_m p) f <= B) in HD.
    assert (TR : forall a b c, Rabs (a - b) <= c -> Rabs a <= Rabs b + c) by (intros a b c; unfold Rabs; repeat destruct (Rcase_abs _); lra).
    split.
    - intros j Hj. apply TR. apply sq_bound; auto. eapply Rle_trans with (sigma * sumn (q_n p) (fun i => (x i - xs i) * (x i - xs i))); [|lra].
      apply Rmult_le_compat_l; [lra|]. apply (sumn_term (q_n p) (fun i => (x i - xs i) * (x i - xs i))); auto. intros; apply Rle_0_sqr.
    - intros i Hi. apply TR. pose proof (Hr i Hi) as Hri. pose proof (sumn_term _ f i PF Hi) as HF. set (w := z i + / rho i * y i) in *. set (ws := zs i + / rho i * ys i) in *.
      assert (B1 : Rabs (w - ws) <= B / rho i + 1) by (apply sq_bound; [exact Hri|]; change (f i <= B); lra).
      pose proof (ncone_clip _ _ _ _ (rho i) Hri (HC i Hi)) as EZ. pose proof (ncone_clip _ _ _ _ (rho i) Hri (HC' i Hi)) as EZ'. fold w in EZ. fold ws in EZ'.
      pose proof (clip_lipschitz (q_l p i) (q_u p i) w ws (Hb i Hi)) as B2. rewrite EZ, EZ' in B2.
      replace (y i - ys i) with (rho i * ((w - ws) - (z i - zs i))) by (unfold w, ws; field; lra). rewrite Rabs_mult, (Rabs_right (rho i)) by lra.
      assert (B3 : Rabs (w - ws - (z i - zs i)) <= 2 * (B / rho i + 1)).
      { unfold Rminus at 1. eapply Rle_trans; [apply Rabs_triang|]. rewrite Rabs_Ropp. lra. }
      pose proof (Rmult_le_compat_l (rho i) _ _ (Rlt_le _ _ Hri) B3). lra.
  Qed.
End Live.

(** ** The duality gap of a nearly optimal, complementary point *)
Lemma trimmed_exists c Es m l u y : exists v, trimmed c Es m l u y v.
Proof.
  assert (HD : forall l u y, { a | drops_small l u y a }).
  { clear. intros l u y. assert (HW : { w | drops l u y w }).
    { unfold drops, no_upper, no_lower. destruct (Rlt_dec (10 ^ 26) u), (Rlt_dec l (- 10 ^ 26)); eexists; (split; [|split; [|split]]); intros; try contradiction; try reflexivity. }
    destruct HW as (w & HW). destruct (Rlt_le_dec (Rabs w) (/ 10 ^ 15)); [exists 0|exists w]; exists w; (split; [exact HW|split]); intros; try reflexivity; exfalso; lra. }
  exists (fun i => Es i * proj1_sig (HD (Es i * l i) (Es i * u i) (c * y i / Es i)) / c). intros i Hi. destruct (HD _ _ _) as (a & Ha) eqn:E. exists a. split; auto.
Qed.

Lemma row_gap c e l u z y v zb : 0 < c -> 0 < e -> ncone l u z y -> Rabs (e * z) <= zb -> zb <= 10 ^ 26 ->
  (exists a, drops_small (e * l) (e * u) (c * y / e) a /\ v = e * a / c) -> Rabs (u * Rmax v 0 + l * Rmin v 0 - y * z) <= / 10 ^ 15 * (zb / c).
Proof.
  intros Hc He ((B1 & B2) & C1 & C2) Hz Hzb (a & (w & HD & W1 & W2) & ->).
  assert (HT : 0 < / 10 ^ 15) by (apply Rinv_0_lt_compat, pow_lt; lra). assert (HB : 0 < 10 ^ 26) by (apply pow_lt; lra).
  revert HD W1 W2 Hzb HT HB. unfold drops, no_upper, no_lower. generalize (10 ^ 26). generalize (/ 10 ^ 15). intros T B (D1 & D2 & D3 & D4) W1 W2 Hzb HT HB.
  assert (Hce : 0 < c / e) by (apply Rdiv_lt_0_compat; auto). assert (Ey : c * y / e = c / e * y) by (field; lra).
  assert (Ew : w = c * y / e).
  { rewrite Ey in *. assert (HZ : - B <= e * z <= B) by (unfold Rabs in Hz; destruct (Rcase_abs _); lra).
    destruct (Rtotal_order y 0) as [Hy|[Hy|Hy]].
    - specialize (C2 Hy). subst z. assert (Hw : c / e * y < 0) by (assert (0 < c / e * - y) by (apply Rmult_lt_0_compat; lra); lra).
      destruct (Rlt_dec B (e * u)) as [Hu|Hu]; [rewrite D2 by lra; apply Rmin_left; lra|apply D4; lra].
    - rewrite Hy, Rmult_0_r in *. destruct (Rlt_dec B (e * u)) as [Hu|Hu], (Rlt_dec (e * l) (- B)) as [Hl|Hl]; [apply D1; lra|rewrite D2 by lra; apply Rmin_left; lra|rewrite D3 by lra; apply Rmax_left; lra|apply D4; lra].
    - specialize (C1 Hy). subst z. assert (Hw : 0 < c / e * y) by (apply Rmult_lt_0_compat; lra).
      destruct (Rlt_dec (e * l) (- B)) as [Hl|Hl]; [rewrite D3 by lra; apply Rmax_left; lra|apply D4; lra]. }
  clear D1 D2 D3 D4. destruct (Rlt_le_dec (Rabs w) T) as [Hw|Hw].
  - rewrite (W1 Hw). replace (e * 0 / c) with 0 by (field; lra). rewrite Rmax_left, Rmin_left by lra.
    replace (u * 0 + l * 0 - y * z) with (- (w * (e * z / c))) by (rewrite Ew; field; lra). rewrite Rabs_Ropp, Rabs_mult. apply Rmult_le_compat; try apply Rabs_pos; [lra|].
    unfold Rdiv. rewrite Rabs_mult, (Rabs_right (/ c)) by (apply Rle_ge, Rlt_le, Rinv_0_lt_compat; auto). apply Rmult_le_compat_r; [apply Rlt_le, Rinv_0_lt_compat; auto|auto].
  - rewrite (W2 Hw), Ew. replace (e * (c * y / e) / c) with y by (field; lra).
    assert (E0 : u * Rmax y 0 + l * Rmin y 0 - y * z = 0).
    { destruct (Rtotal_order y 0) as [Hy|[Hy|Hy]].
      - rewrite Rmax_right, Rmin_left by lra. rewrite (C2 Hy). ring.
      - rewrite Hy, Rmax_left, Rmin_left by lra. ring.
      - rewrite Rmax_left, Rmin_right by lra. rewrite (C1 Hy). ring. }
    rewrite E0, Rabs_R0. apply Rmult_le_pos; [lra|]. apply Rmult_le_pos; [eapply Rle_trans; [apply Rabs_pos|exact Hz]|apply Rlt_le, Rinv_0_lt_compat; auto].
Qed.

Theorem gap_bound p x z y v c Es zb ep ed : 0 < c -> (forall i, (0 <= i < q_m p)%Z -> 0 < Es i) -> 0 <= ep -> 0 <= ed ->
  (forall i, (0 <= i < q_m p)%Z -> ncone (q_l p i) (q_u p i) (z i) (y i)) ->
  (forall i, (0 <= i < q_m p)%Z -> Rabs (Amul p x i - z i) <= ep) -> (forall j, (0 <= j < q_n p)%Z -> Rabs (q_q p j + Pmul p x j + Atmul p y j) <= ed) ->
  trimmed c Es (q_m p) (q_l p) (q_u p) y v -> (forall i, (0 <= i < q_m p)%Z -> Rabs (Es i * z i) <= zb i /\ zb i <= 10 ^ 26) ->
  Rabs (quad p x + lin p x + support p v) <= ed * norm1 (q_n p) x + ep * norm1 (q_m p) y + / 10 ^ 15 * (sumn (q_m p) zb / c).
Proof.
  intros Hc HE Hep Hed HC H1 H2 HT HZ.
  set (e1 := sumn (q_n p) (fun j => (q_q p j + Pmul p x j + Atmul p y j) * x j)). set (e2 := sumn (q_m p) (fun i => (Amul p x i - z i) * y i)).
  set (e3 := sumn (q_m p) (fun i => q_u p i * Rmax (v i) 0 + q_l p i * Rmin (v i) 0 - y i * z i)).
  assert (EQ : quad p x + lin p x + support p v = e1 - e2 + e3).
  { unfold e1, e2, e3. rewrite (sumn_ext (q_n p) (fun j => (q_q p j + Pmul p x j + Atmul p y j) * x j) (fun j => (x j * Pmul p x j + q_q p j * x j) + Atmul p y j * x j)) by (intros; ring).
    rewrite !sumn_plus, sumn_minus. fold (quad p x) (lin p x) (support p v).
    rewrite (sumn_ext (q_m p) (fun i => (Amul p x i - z i) * y i) (fun i => y i * Amul p x i - y i * z i)) by (intros; ring). rewrite sumn_minus, At_adjoint. ring. }
  rewrite EQ. pose proof (holder (q_n p) (fun j => q_q p j + Pmul p x j + Atmul p y j) x ed Hed H2) as B1. cbv beta in B1. fold e1 in B1.
  pose proof (holder (q_m p) (fun i => Amul p x i - z i) y ep Hep H1) as B2. cbv beta in B2. fold e2 in B2.
  assert (B3 : Rabs e3 <= / 10 ^ 15 * (sumn (q_m p) zb / c)).
  { unfold e3. eapply Rle_trans; [apply zsum_abs|]. replace (/ 10 ^ 15 * (sumn (q_m p) zb / c)) with (sumn (q_m p) (fun i => / 10 ^ 15 * / c * zb i)).
    2:{ rewrite sumn_scal. generalize (/ 10 ^ 15). intros T. field. lra. }
    apply zsum_le. intros i Hi. destruct (HZ i Hi) as (Z1 & Z2). eapply Rle_trans; [apply (row_gap c (Es i) _ _ _ _ _ (zb i) Hc (HE i Hi) (HC i Hi) Z1 Z2 (HT i Hi))|]. generalize (/ 10 ^ 15). intros T. apply Req_le. field. lra. }
  eapply Rle_trans; [apply Rabs_triang|]. unfold Rminus. eapply Rle_trans; [apply Rplus_le_compat_r, Rabs_triang|]. rewrite Rabs_Ropp. lra.
Qed.
