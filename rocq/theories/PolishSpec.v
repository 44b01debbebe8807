(** Polishing a solution, as an operation on quadratic programs, without reference to the solver. *)
From Coq Require Import ZArith Reals List Bool Lia Lra.
From Verif Require Import Num RSum RealStep QpSpec AdmmSpec.
Open Scope Z_scope.
Local Open Scope R_scope.

(** The constraints taken to be active at the point (z, y); g weighs the multiplier of each constraint against its slack.
    A constraint that looks active on both sides counts as active on its lower side. *)
Definition on_lower (p : qp) (g z y : Z -> R) (i : Z) : Prop := z i - q_l p i < - (g i * y i) \/ q_l p i = q_u p i.
Definition on_upper (p : qp) (g z y : Z -> R) (i : Z) : Prop := ~ on_lower p g z y i /\ q_u p i - z i < g i * y i.

(** One Newton step, regularised by sigma, for the problem with the active constraints held at their bounds and the others left out:
    (x, w) moves to (x', w'), where w are the multipliers of the active constraints and 0 elsewhere. *)
Definition newton (p : qp) (sigma : R) (g h : Z -> R) (lo up : Z -> Prop) (x w x' w' : Z -> R) : Prop :=
  exists dx dw,
    (forall j, (0 <= j < q_n p)%Z -> x' j = x j + dx j) /\ (forall i, (0 <= i < q_m p)%Z -> w' i = w i + dw i) /\
    (forall j, (0 <= j < q_n p)%Z -> Pmul p dx j + sigma * h j * dx j + Atmul p dw j = - (q_q p j + Pmul p x j + Atmul p w j)) /\
    (forall i, (0 <= i < q_m p)%Z -> lo i -> Amul p dx i - sigma * g i * dw i = q_l p i - Amul p x i) /\
    (forall i, (0 <= i < q_m p)%Z -> up i -> Amul p dx i - sigma * g i * dw i = q_u p i - Amul p x i) /\
    (forall i, (0 <= i < q_m p)%Z -> ~ lo i -> ~ up i -> dw i = 0).

(** k Newton steps from the origin. *)
Inductive newtons (p : qp) (sigma : R) (g h : Z -> R) (lo up : Z -> Prop) : nat -> (Z -> R) -> (Z -> R) -> Prop :=
| nw_0 : forall x w, (forall j, (0 <= j < q_n p)%Z -> x j = 0) -> (forall i, (0 <= i < q_m p)%Z -> w i = 0) -> newtons p sigma g h lo up 0 x w
| nw_S : forall k x w x' w', newtons p sigma g h lo up k x w -> newton p sigma g h lo up x w x' w' -> newtons p sigma g h lo up (S k) x' w'.

(** The point polishing makes of x and the multipliers w: (z, y) is complementary by construction. *)
Definition recovered (p : qp) (g x w z y : Z -> R) : Prop :=
  forall i, (0 <= i < q_m p)%Z -> z i = clipR (q_l p i) (q_u p i) (Amul p x i + g i * w i) /\ g i * y i = Amul p x i + g i * w i - z i.

(** (x, z, y) is what polishing makes of the point with constraint values z0 and multipliers y0. *)
Definition polish_of (p : qp) (sigma : R) (g h z0 y0 : Z -> R) (k : nat) (x z y : Z -> R) : Prop :=
  exists w, newtons p sigma g h (on_lower p g z0 y0) (on_upper p g z0 y0) k x w /\ recovered p g x w z y.

(** The primal and the dual residual of (x, z, y). *)
Definition presid (p : qp) (x z : Z -> R) : R := ninf (q_m p) (fun i => Amul p x i - z i).
Definition dresid (p : qp) (x y : Z -> R) : R := ninf (q_n p) (fun j => q_q p j + Pmul p x j + Atmul p y j).
(** The residuals (pr, dr) of a polished point are accepted in place of the residuals (pr0, dr0): both are smaller, or one is smaller and the other was negligible. *)
Definition improves (pr0 dr0 pr dr : R) : Prop := pr < pr0 /\ dr < dr0 \/ pr < pr0 /\ dr0 < / 10 ^ 10 \/ dr < dr0 /\ pr0 < / 10 ^ 10.

Lemma recovered_cone p g x w z y : (forall i, (0 <= i < q_m p)%Z -> q_l p i <= q_u p i) -> (forall i, (0 <= i < q_m p)%Z -> 0 < g i) -> recovered p g x w z y ->
  forall i, (0 <= i < q_m p)%Z -> ncone (q_l p i) (q_u p i) (z i) (y i).
Proof.
  intros Hb Hg HR i Hi. destruct (HR i Hi) as (Hz & Hy). specialize (Hg i Hi).
  replace (y i) with (/ g i * (Amul p x i + g i * w i - z i)) by (rewrite <- Hy; field; lra). rewrite Hz.
  apply clip_ncone; auto. apply Rinv_0_lt_compat. auto.
Qed.

(** Multipliers vanish on the constraints left out. *)
Lemma newtons_active p sigma g h lo up k x w : newtons p sigma g h lo up k x w -> forall i, (0 <= i < q_m p)%Z -> ~ lo i -> ~ up i -> w i = 0.
Proof.
  induction 1 as [x w H1 H2|k x w x' w' HN IH (dx & dw & _ & D2 & _ & _ & _ & D6)]; intros i Hi L U; [auto|].
  rewrite D2, IH, D6 by auto. ring.
Qed.

(** A stationary point of the Newton steps solves the problem restricted to the active constraints. *)
Lemma newton_fixed p sigma g h lo up x w : newton p sigma g h lo up x w x w ->
  (forall j, (0 <= j < q_n p)%Z -> q_q p j + Pmul p x j + Atmul p w j = 0) /\
  (forall i, (0 <= i < q_m p)%Z -> lo i -> Amul p x i = q_l p i) /\ (forall i, (0 <= i < q_m p)%Z -> up i -> Amul p x i = q_u p i).
Proof.
  intros (dx & dw & D1 & D2 & D3 & D4 & D5 & _).
  assert (Z1 : forall j, (0 <= j < q_n p)%Z -> dx j = 0) by (intros j Hj; specialize (D1 j Hj); lra).
  assert (Z2 : forall i, (0 <= i < q_m p)%Z -> dw i = 0) by (intros i Hi; specialize (D2 i Hi); lra).
  assert (ZP : forall j, Pmul p dx j = 0) by (intros; unfold Pmul, mulR; apply zsum_0; intros k Hk; rewrite Z1 by auto; ring).
  assert (ZA : forall j, Amul p dx j = 0) by (intros; unfold Amul, mulR; apply zsum_0; intros k Hk; rewrite Z1 by auto; ring).
  assert (ZT : forall j, Atmul p dw j = 0) by (intros; unfold Atmul, mulR; apply zsum_0; intros k Hk; rewrite Z2 by auto; ring).
  repeat split; intros i Hi; [|intros HX..]; [specialize (D3 i Hi); rewrite ZP, ZT, Z1 in D3 by auto|specialize (D4 i Hi HX); rewrite ZA, Z2 in D4 by auto|specialize (D5 i Hi HX); rewrite ZA, Z2 in D5 by auto]; lra.
Qed.

(** In a convex problem the steps have only one outcome. *)
Lemma newton_unique p sigma g h lo up x w x' w' y v y' v' : convex_qp p -> 0 < sigma -> (forall i, (0 <= i < q_m p)%Z -> 0 < g i) -> (forall j, (0 <= j < q_n p)%Z -> 0 < h j) ->
  (forall i, (0 <= i < q_m p)%Z -> (lo i \/ up i) \/ ~ lo i /\ ~ up i) -> newton p sigma g h lo up x w x' w' -> newton p sigma g h lo up y v y' v' ->
  (forall j, (0 <= j < q_n p)%Z -> x j = y j) -> (forall i, (0 <= i < q_m p)%Z -> w i = v i) ->
  (forall j, (0 <= j < q_n p)%Z -> x' j = y' j) /\ (forall i, (0 <= i < q_m p)%Z -> w' i = v' i).
Proof.
  intros HC Hs Hg Hh HD (dx & dw & D1 & D2 & D3 & D4 & D5 & D6) (ex & ew & E1 & E2 & E3 & E4 & E5 & E6) Hx Hw.
  set (a := fun j => dx j - ex j). set (b := fun i => dw i - ew i).
  assert (EP : forall j, Pmul p a j = Pmul p dx j - Pmul p ex j) by (intros; apply mulR_minus). assert (EA : forall i, Amul p a i = Amul p dx i - Amul p ex i) by (intros; apply mulR_minus).
  assert (ET : forall j, Atmul p b j = Atmul p dw j - Atmul p ew j) by (intros; apply mulR_minus).
  assert (XP : forall j, Pmul p x j = Pmul p y j) by (intros; apply mulR_ext; auto). assert (XA : forall j, Amul p x j = Amul p y j) by (intros; apply mulR_ext; auto). assert (XT : forall j, Atmul p w j = Atmul p v j) by (intros; apply mulR_ext; auto).
  assert (A1 : forall j, (0 <= j < q_n p)%Z -> a j * Pmul p a j + sigma * (h j * (a j * a j)) + Atmul p b j * a j = 0).
  { intros j Hj. specialize (D3 j Hj). specialize (E3 j Hj). rewrite XP, XT in D3. replace (a j * Pmul p a j + sigma * (h j * (a j * a j)) + Atmul p b j * a j) with (a j * (Pmul p a j + sigma * h j * a j + Atmul p b j)) by ring.
    rewrite EP, ET. unfold a. replace (Pmul p dx j - Pmul p ex j + sigma * h j * (dx j - ex j) + (Atmul p dw j - Atmul p ew j)) with ((Pmul p dx j + sigma * h j * dx j + Atmul p dw j) - (Pmul p ex j + sigma * h j * ex j + Atmul p ew j)) by ring.
    rewrite D3, E3. ring. }
  assert (A2 : forall i, (0 <= i < q_m p)%Z -> b i * Amul p a i = sigma * (g i * (b i * b i))).
  { intros i Hi. destruct (HD i Hi) as [HX|(N1 & N2)].
    - assert (HE : Amul p a i = sigma * g i * b i). { rewrite EA. unfold b. destruct HX as [HX|HX]; [specialize (D4 i Hi HX); specialize (E4 i Hi HX); rewrite XA in D4|specialize (D5 i Hi HX); specialize (E5 i Hi HX); rewrite XA in D5]; lra. }
      rewrite HE. ring.
    - assert (HB : b i = 0) by (unfold b; rewrite D6, E6 by auto; ring). rewrite HB. ring. }
  assert (A3 : sumn (q_n p) (fun j => a j * Pmul p a j) + sigma * sumn (q_n p) (fun j => h j * (a j * a j)) + sigma * sumn (q_m p) (fun i => g i * (b i * b i)) = 0).
  { rewrite <- !sumn_scal. rewrite (sumn_ext (q_m p) _ (fun i => b i * Amul p a i)) by (intros i Hi; symmetry; apply A2; auto). rewrite At_adjoint, <- !sumn_plus. apply zsum_0. intros j Hj. apply A1. auto. }
  assert (Q : 0 <= sumn (q_n p) (fun j => a j * Pmul p a j)) by (change (0 <= quad p a); rewrite quad_qform; apply HC).
  assert (N1 : forall j, (0 <= j < q_n p)%Z -> 0 <= h j * (a j * a j)) by (intros j Hj; apply Rmult_le_pos; [apply Rlt_le; auto|apply Rle_0_sqr]).
  assert (N2 : forall i, (0 <= i < q_m p)%Z -> 0 <= g i * (b i * b i)) by (intros j Hj; apply Rmult_le_pos; [apply Rlt_le; auto|apply Rle_0_sqr]).
  pose proof (sumn_nonneg _ _ N1) as S1. pose proof (sumn_nonneg _ _ N2) as S2. apply (Rmult_le_compat_l sigma) in S1, S2; [|lra..]. rewrite Rmult_0_r in S1, S2.
  assert (S1' : sumn (q_n p) (fun j => h j * (a j * a j)) <= 0) by (apply (Rmult_le_reg_l sigma); auto; lra). assert (S2' : sumn (q_m p) (fun j => g j * (b j * b j)) <= 0) by (apply (Rmult_le_reg_l sigma); auto; lra).
  split; intros i Hi.
  - pose proof (sumn_zero _ _ N1 S1' i Hi) as HZ. cbv beta in HZ. specialize (Hh i Hi). apply Rmult_integral in HZ. destruct HZ as [HZ|HZ]; [lra|]. apply Rmult_integral in HZ. rewrite D1, E1, Hx by auto. unfold a in HZ. lra.
  - pose proof (sumn_zero _ _ N2 S2' i Hi) as HZ. cbv beta in HZ. specialize (Hg i Hi). apply Rmult_integral in HZ. destruct HZ as [HZ|HZ]; [lra|]. apply Rmult_integral in HZ. rewrite D2, E2, Hw by auto. unfold b in HZ. lra.
Qed.
Lemma on_dec p g z y i : (on_lower p g z y i \/ on_upper p g z y i) \/ ~ on_lower p g z y i /\ ~ on_upper p g z y i.
Proof.
  unfold on_upper, on_lower. destruct (Rlt_dec (z i - q_l p i) (- (g i * y i))) as [H|H]; [auto|]. destruct (Req_dec (q_l p i) (q_u p i)) as [H1|H1]; [auto|]. destruct (Rlt_dec (q_u p i - z i) (g i * y i)) as [H2|H2]; [|right; tauto].
  left. right. tauto.
Qed.
Lemma polish_of_unique p sigma g h z0 y0 k x z y x' z' y' : convex_qp p -> 0 < sigma -> (forall i, (0 <= i < q_m p)%Z -> 0 < g i) -> (forall j, (0 <= j < q_n p)%Z -> 0 < h j) ->
  polish_of p sigma g h z0 y0 k x z y -> polish_of p sigma g h z0 y0 k x' z' y' ->
  (forall j, (0 <= j < q_n p)%Z -> x j = x' j) /\ (forall i, (0 <= i < q_m p)%Z -> z i = z' i /\ y i = y' i).
Proof.
  intros HC Hs Hg Hh (w & N1 & R1) (w' & N2 & R2).
  assert (HU : (forall j, (0 <= j < q_n p)%Z -> x j = x' j) /\ (forall i, (0 <= i < q_m p)%Z -> w i = w' i)).
  { clear R1 R2 z y z' y'. revert x' w' N2. induction N1 as [x w H1 H2|k x w x1 w1 HN IH HS]; intros y v N2.
    - inversion N2; subst. split; intros; [rewrite H1, H|rewrite H2, H0]; auto.
    - inversion N2 as [|k0 y0' v0 y1 v1 HN' HS']; subst. destruct (IH _ _ HN') as (I1 & I2). eapply newton_unique; eauto. intros. apply on_dec. }
  destruct HU as (U1 & U2). split; [auto|]. intros i Hi. destruct (R1 i Hi) as (A1 & A2). destruct (R2 i Hi) as (B1 & B2).
  assert (EA : Amul p x i = Amul p x' i) by (apply mulR_ext; auto). rewrite EA, U2 in * by auto. assert (EZ : z i = z' i) by congruence. split; [auto|]. specialize (Hg i Hi).
  apply (Rmult_eq_reg_l (g i)); [|lra]. rewrite A2, B2, EZ. auto.
Qed.
Lemma presid_ext p x z x' z' : (forall j, (0 <= j < q_n p)%Z -> x j = x' j) -> (forall i, (0 <= i < q_m p)%Z -> z i = z' i) -> presid p x z = presid p x' z'.
Proof. intros H1 H2. apply ninf_ext. intros i Hi. rewrite H2 by auto. f_equal. apply mulR_ext. auto. Qed.
Lemma dresid_ext p x y x' y' : (forall j, (0 <= j < q_n p)%Z -> x j = x' j) -> (forall i, (0 <= i < q_m p)%Z -> y i = y' i) -> dresid p x y = dresid p x' y'.
Proof. intros H1 H2. apply ninf_ext. intros i Hi. f_equal; [f_equal|]; apply mulR_ext; auto. Qed.

(** ** Scaling *)
Lemma RminRmult' a b e : 0 <= e -> Rmin (e * a) (e * b) = e * Rmin a b.
Proof. intros He. unfold Rmin. destruct (Rle_dec (e * a) (e * b)) as [H|H], (Rle_dec a b) as [H'|H']; auto; nra. Qed.
Section Units.
  Context (c : R) (D E : Z -> R) (u s : qp) (H : scaled_qp c D E u s).
  Definition gw (i : Z) : R := c / (E i * E i).
  Definition hw (j : Z) : R := / (c * (D j * D j)).
  Lemma gw_pos i : (0 <= i < q_m u)%Z -> 0 < gw i.
  Proof. intros Hi. pose proof (sq_E _ _ _ _ _ H i Hi). pose proof (sq_c _ _ _ _ _ H). unfold gw. apply Rdiv_lt_0_compat; auto. apply Rmult_lt_0_compat; auto. Qed.

  Lemma hw_pos j : (0 <= j < q_n u)%Z -> 0 < hw j.
  Proof. intros Hi. pose proof (sq_D _ _ _ _ _ H j Hi). pose proof (sq_c _ _ _ _ _ H). unfold hw. apply Rinv_0_lt_compat. repeat apply Rmult_lt_0_compat; auto. Qed.

  Lemma un_lower zs ys i : (0 <= i < q_m u)%Z -> on_lower s (fun _ => 1) zs ys i <-> on_lower u gw (unz E zs) (uny c E ys) i.
  Proof.
    intros Hi. pose proof (sq_E _ _ _ _ _ H i Hi) as He. pose proof (sq_c _ _ _ _ _ H) as Hc. unfold on_lower, gw, unz, uny. rewrite (sq_l _ _ _ _ _ H), (sq_u _ _ _ _ _ H) by auto.
    set (e := E i) in *. set (z := zs i). set (y := ys i). set (l := q_l u i). set (b := q_u u i).
    replace (c / (e * e) * (e * y / c)) with (y / e) by (field; lra).
    assert (Q1 : z - e * l < - (1 * y) <-> z / e - l < - (y / e)).
    { replace (z - e * l) with (e * (z / e - l)) by (field; lra). replace (- (1 * y)) with (e * - (y / e)) by (field; lra). split; intros; [apply (Rmult_lt_reg_l e); auto|apply Rmult_lt_compat_l; auto]. }
    assert (Q2 : e * l = e * b <-> l = b) by (split; intros X; [apply (Rmult_eq_reg_l e); [exact X|lra]|congruence]). tauto.
  Qed.
  Lemma un_upper zs ys i : (0 <= i < q_m u)%Z -> on_upper s (fun _ => 1) zs ys i <-> on_upper u gw (unz E zs) (uny c E ys) i.
  Proof.
    intros Hi. pose proof (sq_E _ _ _ _ _ H i Hi) as He. pose proof (sq_c _ _ _ _ _ H) as Hc. unfold on_upper. rewrite un_lower by auto. unfold gw, unz, uny. rewrite (sq_u _ _ _ _ _ H) by auto.
    set (e := E i) in *. set (z := zs i). set (y := ys i). set (b := q_u u i).
    replace (c / (e * e) * (e * y / c)) with (y / e) by (field; lra).
    assert (Q1 : e * b - z < 1 * y <-> b - z / e < y / e).
    { replace (e * b - z) with (e * (b - z / e)) by (field; lra). replace (1 * y) with (e * (y / e)) by (field; lra). split; intros; [apply (Rmult_lt_reg_l e); auto|apply Rmult_lt_compat_l; auto]. }
    tauto.
  Qed.

  Lemma un_newton sigma (lo up lo' up' : Z -> Prop) x w x' w' : (forall i, (0 <= i < q_m u)%Z -> lo' i <-> lo i) -> (forall i, (0 <= i < q_m u)%Z -> up' i <-> up i) ->
    newton s sigma (fun _ => 1) (fun _ => 1) lo up x w x' w' -> newton u sigma gw hw lo' up' (unx D x) (uny c E w) (unx D x') (uny c E w').
  Proof.
    intros EL EU (dx & dw & D1 & D2 & D3 & D4 & D5 & D6). pose proof (sq_c _ _ _ _ _ H) as Hc.
    rewrite (sq_n _ _ _ _ _ H) in *. rewrite (sq_m _ _ _ _ _ H) in *. exists (unx D dx), (uny c E dw).
    split; [intros j Hj; unfold unx; rewrite D1 by auto; ring|]. split; [intros i Hi; unfold uny; rewrite D2 by auto; field; lra|].
    split.
    { intros j Hj. specialize (D3 j Hj). pose proof (sq_D _ _ _ _ _ H j Hj) as Hd. rewrite (sq_q _ _ _ _ _ H), !(un_Px _ _ _ _ _ H), !(un_Aty _ _ _ _ _ H) in D3 by auto.
      assert (Hcd : 0 < c * D j) by (apply Rmult_lt_0_compat; auto). apply (Rmult_eq_reg_l (c * D j)); [|lra].
      replace (c * D j * - (q_q u j + Pmul u (unx D x) j + Atmul u (uny c E w) j)) with (- (c * D j * q_q u j + c * D j * Pmul u (unx D x) j + c * D j * Atmul u (uny c E w) j)) by ring.
      rewrite <- D3. unfold hw, unx at 2. field. lra. }
    split; [|split].
    - intros i Hi HX. specialize (D4 i Hi (proj1 (EL i Hi) HX)). pose proof (sq_E _ _ _ _ _ H i Hi) as He. rewrite (sq_l _ _ _ _ _ H), !(un_Ax _ _ _ _ _ H) in D4 by auto.
      apply (Rmult_eq_reg_l (E i)); [|lra]. transitivity (E i * q_l u i - E i * Amul u (unx D x) i); [|ring]. rewrite <- D4. unfold gw, uny. field. lra.
    - intros i Hi HX. specialize (D5 i Hi (proj1 (EU i Hi) HX)). pose proof (sq_E _ _ _ _ _ H i Hi) as He. rewrite (sq_u _ _ _ _ _ H), !(un_Ax _ _ _ _ _ H) in D5 by auto.
      apply (Rmult_eq_reg_l (E i)); [|lra]. transitivity (E i * q_u u i - E i * Amul u (unx D x) i); [|ring]. rewrite <- D5. unfold gw, uny. field. lra.
    - intros i Hi L U. unfold uny. rewrite D6; [unfold Rdiv; ring|auto|rewrite <- EL by auto; auto|rewrite <- EU by auto; auto].
  Qed.
  Lemma un_newtons sigma (lo up lo' up' : Z -> Prop) k x w : (forall i, (0 <= i < q_m u)%Z -> lo' i <-> lo i) -> (forall i, (0 <= i < q_m u)%Z -> up' i <-> up i) ->
    newtons s sigma (fun _ => 1) (fun _ => 1) lo up k x w -> newtons u sigma gw hw lo' up' k (unx D x) (uny c E w).
  Proof.
    intros EL EU. induction 1 as [x w H1 H2|k x w x' w' HN IH HS].
    - rewrite (sq_n _ _ _ _ _ H) in *. rewrite (sq_m _ _ _ _ _ H) in *. constructor; intros i Hi; unfold unx, uny; [rewrite H1 by auto|rewrite H2 by auto]; unfold Rdiv; ring.
    - econstructor; [exact IH|]. eapply un_newton; eauto.
  Qed.
  Lemma un_recovered x w z y : recovered s (fun _ => 1) x w z y -> recovered u gw (unx D x) (uny c E w) (unz E z) (uny c E y).
  Proof.
    intros HR i Hi. destruct (HR i) as (Hz & Hy); [rewrite (sq_m _ _ _ _ _ H); auto|]. pose proof (sq_E _ _ _ _ _ H i Hi) as He. pose proof (sq_c _ _ _ _ _ H) as Hc.
    rewrite (sq_l _ _ _ _ _ H), (sq_u _ _ _ _ _ H), (un_Ax _ _ _ _ _ H) in * by auto. unfold gw, unz, uny. set (e := E i) in *. set (a := Amul u (unx D x) i) in *. 
    replace (a + c / (e * e) * (e * w i / c)) with (a + w i / e) by (field; lra).
    replace (c / (e * e) * (e * y i / c)) with (y i / e) by (field; lra). split.
    - rewrite Hz. replace (e * a + 1 * w i) with (e * (a + w i / e)) by (field; lra). unfold clipR. rewrite RmaxRmult, RminRmult' by lra. field. lra.
    - replace (y i) with (1 * y i) by ring. rewrite Hy. field. lra.
  Qed.
  Lemma un_polish sigma zs ys k x z y : polish_of s sigma (fun _ => 1) (fun _ => 1) zs ys k x z y ->
    polish_of u sigma gw hw (unz E zs) (uny c E ys) k (unx D x) (unz E z) (uny c E y).
  Proof.
    intros (w & HN & HR). exists (uny c E w). split; [|apply un_recovered; auto]. eapply un_newtons; [| |exact HN]; intros i Hi; symmetry; [apply un_lower|apply un_upper]; auto.
  Qed.
End Units.
