(** Printing a double with "%.20f" and reading the text again.

    codegen.c prints every floating-point number with this format (codegen.c:41 for arrays, 171-206 and others for single numbers).  printf and the compiler
    are not part of the repository: what is assumed of them is stated here ([fmt_ok], [rd_ok]: both round to nearest), and two functions
    that do this are given ([fmtF], [rdF]).  A text is the integer 2N+s for N units of 10^-20 and the sign s. *)
From Coq Require Import ZArith Reals Lra Lia Bool List SpecFloat.
From Verif Require Import Num.
Import ListNotations.
Open Scope Z_scope.

(** ** Doubles as real numbers *)
Definition p2 (e : Z) : R := powerRZ 2 e.
Lemma p2_pos e : (0 < p2 e)%R. Proof. apply powerRZ_lt. lra. Qed.
Lemma p2_add a b : p2 (a + b) = (p2 a * p2 b)%R. Proof. apply powerRZ_add. lra. Qed.
Lemma p2_Z n : 0 <= n -> p2 n = IZR (2 ^ n).
Proof.
  intros H. rewrite <- (Z2Nat.id n H). unfold p2. rewrite <- pow_powerRZ, <- pow_IZR. reflexivity.
Qed.
Lemma p2_le a b : a <= b -> (p2 a <= p2 b)%R.
Proof.
  intros H. replace b with (a + (b - a)) by lia. rewrite p2_add. rewrite (p2_Z (b - a)) by lia.
  assert (1 <= IZR (2 ^ (b - a)))%R by (apply IZR_le; assert (0 < 2 ^ (b - a)) by (apply Z.pow_pos_nonneg; lia); lia).
  pose proof (p2_pos a). nra.
Qed.
Lemma p2_0 : p2 0 = 1%R. Proof. reflexivity. Qed.
Lemma p2_1 : p2 1 = 2%R. Proof. rewrite p2_Z by lia. reflexivity. Qed.
Lemma p2_m1 : p2 (-1) = (1 / 2)%R. Proof. apply Rmult_eq_reg_r with (p2 1); [|rewrite p2_1; lra]. rewrite <- p2_add, p2_1. change (-1 + 1) with 0. rewrite p2_0. lra. Qed.
Lemma p2_neg n : p2 (- n) = (/ p2 n)%R.
Proof. apply Rmult_eq_reg_r with (p2 n); [|pose proof (p2_pos n); lra]. rewrite <- p2_add. replace (- n + n) with 0 by lia. rewrite p2_0. field. pose proof (p2_pos n); lra. Qed.

(** The finite doubles (without the largest exponent, which is no restriction for numbers between doubles). *)
Definition dbl (x : R) : Prop := exists m e, Z.abs m < 2 ^ 53 /\ -1074 <= e /\ x = (IZR m * p2 e)%R.
(** one unit of the last place printed *)
Definition D20 : Z := 10 ^ 20.
Definition unit20 : R := (/ IZR D20)%R.
(** N units are nearest to x; y is a double nearest to N units *)
Definition prt (x : R) (N : Z) : Prop := (Rabs (x - IZR N * unit20) <= unit20 / 2)%R.
Definition read (N : Z) (y : R) : Prop := dbl y /\ forall z, dbl z -> (Rabs (y - IZR N * unit20) <= Rabs (z - IZR N * unit20))%R.

Lemma unit20_pos : (0 < unit20)%R.
Proof. unfold unit20. apply Rinv_0_lt_compat. apply IZR_lt. reflexivity. Qed.
Lemma unit20_bounds : (p2 (-67) < unit20 < p2 (-66))%R.
Proof.
  unfold unit20. change (-67) with (Z.opp 67). change (-66) with (Z.opp 66). rewrite !p2_neg. rewrite !p2_Z by lia. split; (apply Rinv_lt_contravar; [apply Rmult_lt_0_compat; apply IZR_lt; reflexivity|apply IZR_lt; reflexivity]).
Qed.

Lemma int_gap (a b : Z) : a <> b -> (1 <= Rabs (IZR a - IZR b))%R.
Proof. intros H. rewrite <- minus_IZR, <- abs_IZR. apply IZR_le. lia. Qed.

Lemma dbl_mult x k : dbl x -> (p2 k <= Rabs x)%R -> exists a, x = (IZR a * p2 (k - 52))%R.
Proof.
  intros (m & e & Hm & He & ->) HX. assert (k - 52 <= e).
  { apply Znot_gt_le. intros HG. assert (e <= k - 53) by lia. pose proof (p2_le _ _ H). rewrite Rabs_mult, (Rabs_right (p2 e)), <- abs_IZR in HX by (pose proof (p2_pos e); lra).
    assert (IZR (Z.abs m) < IZR (2 ^ 53))%R by (apply IZR_lt; auto). replace k with (k - 53 + 53) in HX by lia. rewrite p2_add, (p2_Z 53) in HX by lia. pose proof (p2_pos e). pose proof (IZR_le 0 (Z.abs m) ltac:(lia)). nra. }
  exists (m * 2 ^ (e - (k - 52))). rewrite mult_IZR, <- p2_Z by lia. replace e with ((e - (k - 52)) + (k - 52)) at 1 by lia. rewrite p2_add. ring.
Qed.
(** Distance of two doubles, one of them above 2^-14. *)
Lemma dbl_gap x y : dbl x -> dbl y -> (p2 (-14) < Rabs x)%R -> x <> y -> (p2 (-66) <= Rabs (x - y))%R.
Proof.
  intros Hx Hy HX HN. destruct (dbl_mult x (-14) Hx ltac:(lra)) as (a & Ea). change (-14 - 52) with (-66) in Ea. pose proof (p2_pos (-66)) as HP.
  destruct (Rle_lt_dec (p2 (-14)) (Rabs y)) as [HY|HY].
  - destruct (dbl_mult y (-14) Hy HY) as (b & Eb). change (-14 - 52) with (-66) in Eb. assert (HD : a <> b) by (intros ->; congruence). pose proof (int_gap _ _ HD) as HG.
    rewrite Ea, Eb, <- Rmult_minus_distr_r, Rabs_mult, (Rabs_right (p2 (-66))) by lra. nra.
  - assert (H14 : p2 (-14) = (IZR (2 ^ 52) * p2 (-66))%R) by (rewrite <- p2_Z, <- p2_add by lia; reflexivity).
    assert (HA : (IZR (2 ^ 52) < IZR (Z.abs a))%R).
    { rewrite Ea, H14, Rabs_mult, (Rabs_right (p2 (-66))), <- abs_IZR in HX by lra. apply Rmult_lt_reg_r with (p2 (-66)); auto. }
    apply lt_IZR in HA. assert (HA2 : (IZR (2 ^ 52 + 1) <= IZR (Z.abs a))%R) by (apply IZR_le; lia). rewrite plus_IZR in HA2.
    assert (HX2 : (p2 (-14) + p2 (-66) <= Rabs x)%R). { rewrite Ea, H14, Rabs_mult, (Rabs_right (p2 (-66))), <- abs_IZR by lra. nra. }
    pose proof (Rabs_triang_inv x y). lra.
Qed.

Lemma prt_int x N : x = (IZR N * unit20)%R -> forall N', prt x N' -> N' = N.
Proof.
  intros -> N' H. unfold prt in H. destruct (Z.eq_dec N' N) as [|HN]; auto. exfalso. pose proof (int_gap N N' ltac:(auto)) as HG. pose proof unit20_pos as HU.
  rewrite <- Rmult_minus_distr_r, Rabs_mult, (Rabs_right unit20) in H by lra. nra.
Qed.

(** Reading what was printed changes a double by at most one unit ... *)
Theorem print_error x N y : dbl x -> prt x N -> read N y -> (Rabs (y - x) <= unit20)%R.
Proof.
  intros Hx HP [Hy HN]. specialize (HN x Hx). unfold prt in HP. replace (y - x)%R with ((y - IZR N * unit20) - (x - IZR N * unit20))%R by ring.
  pose proof (Rabs_triang (y - IZR N * unit20) (- (x - IZR N * unit20))) as HT. rewrite Rabs_Ropp in HT. unfold Rminus in *. lra.
Qed.
(** ... and not at all from 2^-14 on ... *)
Theorem print_exact x N y : dbl x -> (p2 (-14) <= Rabs x)%R -> prt x N -> read N y -> y = x.
Proof.
  intros Hx HX HP HR. destruct (Req_dec y x) as [|HN]; auto. exfalso. destruct HX as [HX|HX].
  - pose proof (print_error x N y Hx HP HR) as HE. pose proof (dbl_gap x y Hx (proj1 HR) HX ltac:(auto)) as HG. pose proof unit20_bounds. rewrite Rabs_minus_sym in HE. lra.
  - assert (EX : exists M, x = (IZR M * unit20)%R).
    { assert (H14 : p2 (-14) = (IZR 6103515625000000 * unit20)%R).
      { unfold unit20. change (-14) with (Z.opp 14). rewrite p2_neg, (p2_Z 14) by lia. apply Rmult_eq_reg_r with (IZR (2 ^ 14) * IZR D20)%R.
        - replace (/ IZR (2 ^ 14) * (IZR (2 ^ 14) * IZR D20))%R with (IZR D20) by (field; apply IZR_neq; discriminate).
          replace (IZR 6103515625000000 * / IZR D20 * (IZR (2 ^ 14) * IZR D20))%R with (IZR 6103515625000000 * IZR (2 ^ 14))%R by (field; apply IZR_neq; discriminate).
          rewrite <- mult_IZR. reflexivity.
        - rewrite <- mult_IZR. apply IZR_neq. discriminate. }
      destruct (Rle_lt_dec 0 x) as [H0|H0].
      - exists 6103515625000000. rewrite Rabs_right in HX by lra. congruence.
      - exists (-6103515625000000). rewrite Rabs_left in HX by lra. change (-6103515625000000) with (Z.opp 6103515625000000). rewrite opp_IZR. lra. }
    destruct EX as (M & EM). rewrite (prt_int x M EM N HP) in HR. destruct HR as [_ HR]. specialize (HR x Hx). rewrite <- EM in HR. replace (x - x)%R with 0%R in HR by ring. rewrite Rabs_R0 in HR.
    apply HN. assert (Rabs (y - x) = 0)%R by (pose proof (Rabs_pos (y - x)); lra). destruct (Req_dec (y - x) 0) as [|HH]; [lra|]. apply Rabs_no_R0 in HH. lra.
Qed.
(** ... and a double that was itself read from such a text is printed as that text. *)
Lemma nearest_int w : exists k, (Rabs (IZR k - w) <= 1 / 2)%R.
Proof. exists (up (w - 1 / 2)). destruct (archimed (w - 1 / 2)) as [H1 H2]. unfold Rabs. destruct (Rcase_abs _); lra. Qed.
Lemma near_dbl v : (Rabs v <= p2 (-14))%R -> exists z, dbl z /\ (Rabs (z - v) <= p2 (-68))%R.
Proof.
  intros HV. destruct (nearest_int (v * p2 67)) as (k & Hk). exists (IZR k * p2 (-67))%R. assert (E1 : (p2 67 * p2 (-67) = 1)%R) by (rewrite <- p2_add; reflexivity).
  assert (E2 : p2 (-68) = (1 / 2 * p2 (-67))%R). { replace (-68) with (-1 + -67) by lia. rewrite p2_add, p2_m1. reflexivity. }
  pose proof (p2_pos (-67)) as HP. pose proof (p2_pos 67) as HP'.
  split.
  - assert (HK : Z.abs k <= 2 ^ 53).
    { apply le_IZR. assert (HB : (Rabs (v * p2 67) <= IZR (2 ^ 53))%R).
      { rewrite Rabs_mult, (Rabs_right (p2 67)) by lra. rewrite <- p2_Z by lia. replace 53 with (-14 + 67) by lia. rewrite p2_add. apply Rmult_le_compat_r; lra. }
      assert (HB2 : (IZR (Z.abs k) <= IZR (2 ^ 53) + 1 / 2)%R). { rewrite abs_IZR. pose proof (Rabs_triang_inv (IZR k) (v * p2 67)). lra. }
      assert (Z.abs k <= 2 ^ 53); [|apply IZR_le; auto]. apply Zlt_succ_le. apply lt_IZR. unfold Z.succ. rewrite plus_IZR. lra. }
    destruct (Z.eq_dec (Z.abs k) (2 ^ 53)) as [EQ|NE]; [|exists k, (-67); split; [lia|split; [lia|reflexivity]]].
    exists (Z.sgn k), (-14). split; [lia|]. split; [lia|]. assert (EK : k = Z.sgn k * 2 ^ 53) by (destruct k; simpl Z.sgn; simpl Z.abs in EQ; lia). rewrite EK at 1. rewrite mult_IZR, <- (p2_Z 53), Rmult_assoc, <- p2_add by lia. reflexivity.
  - replace (IZR k * p2 (-67) - v)%R with ((IZR k - v * p2 67) * p2 (-67))%R by (rewrite Rmult_minus_distr_r, Rmult_assoc, E1; ring).
    rewrite Rabs_mult, (Rabs_right (p2 (-67))), E2 by lra. apply Rmult_le_compat_r; lra.
Qed.
Theorem print_text x N0 N : read N0 x -> (Rabs x < p2 (-14))%R -> prt x N -> N = N0.
Proof.
  intros [Hx HR] HX HP. set (v := (IZR N0 * unit20)%R) in *.
  assert (D14 : dbl (p2 (-14))) by (exists 1, (-14); split; [lia|split; [lia|ring]]). assert (D14' : dbl (- p2 (-14))) by (exists (-1), (-14); split; [lia|split; [lia|ring]]).
  assert (HV : (Rabs v <= p2 (-14))%R).
  { apply Rnot_lt_le. intros HV. pose proof (HR _ D14) as H1. pose proof (HR _ D14') as H2. revert H1 H2 HV HX. pose proof (p2_pos (-14)). unfold Rabs. repeat destruct (Rcase_abs _); lra. }
  destruct (near_dbl v HV) as (z & Hz & Hzv). specialize (HR z Hz). assert (HC : (Rabs (x - v) <= p2 (-68))%R) by lra.
  destruct (Z.eq_dec N N0) as [|HN]; auto. exfalso. pose proof (int_gap N N0 HN) as HG. unfold prt in HP. pose proof unit20_bounds as [HU1 HU2]. pose proof unit20_pos as HU.
  assert (HT : (Rabs (IZR N * unit20 - v) <= unit20 / 2 + p2 (-68))%R).
  { replace (IZR N * unit20 - v)%R with (- (x - IZR N * unit20) + (x - v))%R by ring. eapply Rle_trans; [apply Rabs_triang|]. rewrite Rabs_Ropp. lra. }
  unfold v in HT. rewrite <- Rmult_minus_distr_r, Rabs_mult, (Rabs_right unit20) in HT by lra.
  assert (E2 : p2 (-67) = (2 * p2 (-68))%R). { replace (-67) with (1 + -68) by lia. rewrite p2_add, p2_1. reflexivity. }
  nra.
Qed.
(** Small doubles are not printed exactly. *)
Lemma print_small N y : prt (p2 (-70)) N -> read N y -> y = 0%R.
Proof.
  intros HP [Hy HR].
  pose proof unit20_bounds as [HU1 HU2]. pose proof unit20_pos as HU. pose proof (p2_pos (-70)) as H70. assert (E2 : p2 (-67) = (8 * p2 (-70))%R). { replace (-67) with (3 + -70) by lia. rewrite p2_add, (p2_Z 3) by lia. reflexivity. }
  assert (N = 0) as ->.
  { destruct (Z.eq_dec N 0) as [|HN]; auto. exfalso. pose proof (int_gap N 0 HN) as HG. unfold prt in HP. rewrite Rminus_0_r in HG.
    pose proof (Rabs_triang_inv (IZR N * unit20) (p2 (-70))) as HT. rewrite Rabs_minus_sym in HP. rewrite Rabs_mult, (Rabs_right unit20), (Rabs_right (p2 (-70))) in HT by lra. nra. }
  assert (D0 : dbl 0) by (exists 0, 0; split; [lia|split; [lia|ring]]). specialize (HR 0%R D0). rewrite Rmult_0_l, !Rminus_0_r, Rabs_R0 in HR.
  destruct (Req_dec y 0) as [|HY]; auto. apply Rabs_no_R0 in HY. pose proof (Rabs_pos y). lra.
Qed.

(** ** The doubles of the model *)
(** what a finite binary64 number stands for, and which ones those are *)
Definition val (x : F64) : R :=
  match x with S754_finite s m e => ((if s then -1 else 1) * (IZR (Zpos m) * p2 e))%R | _ => 0%R end.
Definition sgn (x : F64) : bool := match x with S754_zero s | S754_infinity s | S754_finite s _ _ => s | S754_nan => false end.
Definition fin (x : F64) : bool :=
  match x with S754_zero _ => true | S754_finite _ _ _ => valid_binary 53 1024 x | _ => false end.

Lemma digits_log p : Z.pos (digits2_pos p) = Z.log2 (Z.pos p) + 1.
Proof.
  induction p as [p IH|p IH|]; cbn [digits2_pos]; [| |reflexivity]; rewrite Pos2Z.inj_succ, IH.
  - change (Zpos p~1) with (2 * Zpos p + 1). rewrite Z.log2_succ_double by lia. reflexivity.
  - change (Zpos p~0) with (2 * Zpos p). rewrite Z.log2_double by lia. reflexivity.
Qed.
Lemma fin_bounded s m e : fin (S754_finite s m e) = true ->
  e = Z.max (Z.log2 (Zpos m) + 1 + e - 53) (-1074) /\ e <= 971.
Proof.
  cbn [fin valid_binary]. unfold bounded, canonical_mantissa. rewrite andb_true_iff. intros [H1 H2].
  apply Zeq_bool_eq in H1. unfold SpecFloat.fexp, SpecFloat.emin in H1. rewrite digits_log in H1. apply Zle_bool_imp_le in H2. lia.
Qed.
Lemma bounded_fin s m e : e = Z.max (Z.log2 (Zpos m) + 1 + e - 53) (-1074) -> e <= 971 -> fin (S754_finite s m e) = true.
Proof.
  intros H1 H2. cbn [fin valid_binary]. unfold bounded, canonical_mantissa. rewrite andb_true_iff. split.
  - unfold SpecFloat.fexp, SpecFloat.emin. rewrite digits_log. replace (Z.max _ _) with e by lia. unfold Zeq_bool. rewrite Z.compare_refl. reflexivity.
  - apply Zle_imp_le_bool. lia.
Qed.
Lemma abs_val x : Rabs (val x) = match x with S754_finite s m e => (IZR (Zpos m) * p2 e)%R | _ => 0%R end.
Proof.
  destruct x as [s| | |s m e]; cbn [val]; try apply Rabs_R0. assert (0 < IZR (Zpos m) * p2 e)%R by (apply Rmult_lt_0_compat; [apply IZR_lt; lia|apply p2_pos]).
  rewrite Rabs_mult, (Rabs_right (_ * _)) by lra. destruct s; [rewrite Rabs_left|rewrite Rabs_right]; lra.
Qed.
Lemma val_abs x : val x = ((if sgn x then -1 else 1) * Rabs (val x))%R.
Proof. rewrite abs_val. destruct x as [s| | |s m e]; cbn [val sgn]; try (destruct s); try ring; auto. Qed.
Lemma fin_dbl x : fin x = true -> dbl (Rabs (val x)).
Proof.
  intros H. rewrite abs_val. destruct x as [s| | |s m e]; try discriminate.
  - exists 0, 0. split; [lia|split; [lia|ring]].
  - apply fin_bounded in H. destruct H as [H1 H2]. exists (Zpos m), e. split; [|split; [lia|reflexivity]]. apply Z.log2_lt_cancel. change (Z.log2 (2 ^ 53)) with 53. cbn [Z.abs]. lia.
Qed.
(** A finite double is known by its value and its sign bit. *)
Lemma fin_inj x y : fin x = true -> fin y = true -> sgn x = sgn y -> Rabs (val x) = Rabs (val y) -> x = y.
Proof.
  assert (W : forall s m e m' e', e <= e' -> fin (S754_finite s m e) = true -> fin (S754_finite s m' e') = true -> (IZR (Zpos m) * p2 e = IZR (Zpos m') * p2 e')%R -> m = m' /\ e = e').
  { intros s m e m' e' HE H1 H2 HV. apply fin_bounded in H1, H2. destruct H1 as [H1 _], H2 as [H2 _].
    assert (EM : Zpos m = Zpos m' * 2 ^ (e' - e)).
    { apply eq_IZR. apply Rmult_eq_reg_r with (p2 e); [|pose proof (p2_pos e); lra]. rewrite HV, mult_IZR, <- p2_Z by lia. rewrite Rmult_assoc, <- p2_add. do 2 f_equal. lia. }
    assert (EL : Z.log2 (Zpos m) = Z.log2 (Zpos m') + (e' - e)) by (rewrite EM, Z.log2_mul_pow2; lia).
    assert (e = e') by lia. subst e'. split; auto. rewrite Z.sub_diag, Z.pow_0_r, Z.mul_1_r in EM. congruence. }
  intros HX HY HS HV. rewrite !abs_val in HV. destruct x as [s| | |s m e], y as [s'| | |s' m' e']; try discriminate; cbn [sgn] in HS; subst s'; auto.
  - exfalso. assert (0 < IZR (Zpos m') * p2 e')%R by (apply Rmult_lt_0_compat; [apply IZR_lt; lia|apply p2_pos]). lra.
  - exfalso. assert (0 < IZR (Zpos m) * p2 e)%R by (apply Rmult_lt_0_compat; [apply IZR_lt; lia|apply p2_pos]). lra.
  - destruct (Z.le_ge_cases e e') as [HE|HE].
    + destruct (W s m e m' e' HE HX HY HV) as [-> ->]. reflexivity.
    + destruct (W s m' e' m e HE HY HX (eq_sym HV)) as [-> ->]. reflexivity.
Qed.

(** ** What is assumed of printf and of the compiler *)
(** the largest text that is still a finite double: (2^53-1) 2^971 *)
Definition top20 : Z := (2 ^ 53 - 1) * 2 ^ 971 * D20.
Definition is_text (c : Z) : Prop := 0 <= c /\ c / 2 <= top20.
(** printf("%.20f", x) *)
Definition fmt_ok (fmt : F64 -> Z) : Prop :=
  forall x, fin x = true -> 0 <= fmt x /\ prt (Rabs (val x)) (fmt x / 2) /\ Z.odd (fmt x) = sgn x.
(** the constant in the C file *)
Definition rd_ok (rd : Z -> F64) : Prop :=
  forall c, is_text c -> fin (rd c) = true /\ read (c / 2) (Rabs (val (rd c))) /\ sgn (rd c) = Z.odd c.

Lemma fin_top x : fin x = true -> (Rabs (val x) <= IZR ((2 ^ 53 - 1) * 2 ^ 971))%R.
Proof.
  intros H. rewrite abs_val. destruct x as [s| | |s m e]; try discriminate.
  - apply IZR_le. vm_compute. discriminate.
  - pose proof (fin_dbl _ H) as HD. apply fin_bounded in H. destruct H as [H1 H2]. assert (HM : Zpos m <= 2 ^ 53 - 1). { assert (Zpos m < 2 ^ 53); [|lia]. apply Z.log2_lt_cancel. change (Z.log2 (2 ^ 53)) with 53. lia. }
    rewrite mult_IZR. rewrite <- (p2_Z 971) by lia. apply Rmult_le_compat; [apply IZR_le; lia|pose proof (p2_pos e); lra|apply IZR_le; auto|apply p2_le; auto].
Qed.
Lemma fmt_text fmt x : fmt_ok fmt -> fin x = true -> is_text (fmt x).
Proof.
  intros HF Hx. destruct (HF x Hx) as (H0 & HP & HS). split; auto. apply fin_top in Hx. unfold prt in HP. pose proof unit20_pos as HU.
  assert (ET : (IZR ((2 ^ 53 - 1) * 2 ^ 971) = IZR top20 * unit20)%R). { unfold top20, unit20. rewrite (mult_IZR _ D20). field. apply IZR_neq. discriminate. }
  rewrite ET in Hx. apply Zlt_succ_le, lt_IZR. unfold Z.succ. rewrite plus_IZR.
  assert (HB : (IZR (fmt x / 2) * unit20 <= Rabs (val x) + unit20 / 2)%R). { revert HP. generalize (Rabs (val x)). intros a. unfold Rabs. destruct (Rcase_abs _); lra. }
  apply Rmult_lt_reg_r with unit20; auto. lra.
Qed.

(** A double of at least 2^-14 in absolute value, a zero of either sign and a double that was read from such a text come back unchanged. *)
Definition kept (rd : Z -> F64) (x : F64) : Prop :=
  fin x = true /\ (val x = 0%R \/ (p2 (-14) <= Rabs (val x))%R \/ exists c, is_text c /\ x = rd c).
Theorem text_back fmt rd x : fmt_ok fmt -> rd_ok rd -> kept rd x -> rd (fmt x) = x.
Proof.
  intros HF HR [Hx HC]. pose proof (fmt_text fmt x HF Hx) as HT. destruct (HF x Hx) as (H0 & HP & HS). destruct (HR _ HT) as (Hy & Hyr & Hys).
  apply fin_inj; auto; [congruence|].
  destruct (Rle_lt_dec (p2 (-14)) (Rabs (val x))) as [HL|HL].
  - apply print_exact with (fmt x / 2); auto; [apply fin_dbl; auto|]. rewrite Rabs_Rabsolu. auto.
  - destruct HC as [HC|[HC|(c & Hc & EC)]]; [|lra|].
    + rewrite HC, Rabs_R0 in *. assert (E0 : fmt x / 2 = 0) by (apply prt_int with 0%R; [lra|auto]). rewrite E0 in Hyr. destruct Hyr as [_ Hyr].
      assert (D0 : dbl 0) by (exists 0, 0; split; [lia|split; [lia|ring]]). specialize (Hyr 0%R D0). rewrite Rmult_0_l, !Rminus_0_r, Rabs_R0, Rabs_Rabsolu in Hyr.
      pose proof (Rabs_pos (val (rd (fmt x)))). lra.
    + destruct (HR c Hc) as (Hzf & Hzr & Hzs). rewrite <- EC in *. assert (EN : fmt x / 2 = c / 2) by (apply print_text with (Rabs (val x)); auto; rewrite Rabs_Rabsolu; auto).
      assert (EF : fmt x = c). { rewrite (Z.div_mod (fmt x) 2), (Z.div_mod c 2), EN, !Zmod_odd, HS, Hzs by lia. reflexivity. } rewrite EF, <- EC. reflexivity.
Qed.
(** Any double comes back with an error of at most 10^-20, and doing it again changes nothing more. *)
Theorem text_error fmt rd x : fmt_ok fmt -> rd_ok rd -> fin x = true -> (Rabs (val (rd (fmt x)) - val x) <= unit20)%R.
Proof.
  intros HF HR Hx. pose proof (fmt_text fmt x HF Hx) as HT. destruct (HF x Hx) as (H0 & HP & HS). destruct (HR _ HT) as (Hy & Hyr & Hys).
  rewrite (val_abs x), (val_abs (rd (fmt x))), Hys, HS. pose proof (print_error _ _ _ (fin_dbl _ Hx) HP Hyr) as HE.
  rewrite <- Rmult_minus_distr_l, Rabs_mult. assert (E1 : Rabs (if sgn x then -1 else 1) = 1%R) by (destruct (sgn x); [rewrite Rabs_left|rewrite Rabs_right]; lra). rewrite E1. lra.
Qed.
Theorem text_once fmt rd x : fmt_ok fmt -> rd_ok rd -> fin x = true -> rd (fmt (rd (fmt x))) = rd (fmt x).
Proof.
  intros HF HR Hx. apply text_back; auto. pose proof (fmt_text fmt x HF Hx) as HT. split; [apply HR; auto|]. right. right. exists (fmt x). auto.
Qed.

(** ** Two functions that do it *)
(** a/b rounded to the nearest integer, ties to even *)
Definition rne (a b : Z) : Z :=
  let q := a / b in let r := a mod b in
  if 2 * r <? b then q else if b <? 2 * r then q + 1 else if Z.even q then q else q + 1.
Lemma rne_spec a b : 0 < b -> (Rabs (IZR a / IZR b - IZR (rne a b)) <= 1 / 2)%R.
Proof.
  intros Hb. pose proof (Z.div_mod a b ltac:(lia)) as EA. pose proof (Z.mod_pos_bound a b Hb) as HM. assert (HB : (0 < IZR b)%R) by (apply IZR_lt; auto).
  assert (EQ : (IZR a / IZR b = IZR (a / b) + IZR (a mod b) / IZR b)%R). { rewrite EA at 1. rewrite plus_IZR, mult_IZR. field. lra. }
  assert (G : forall r, (IZR (a mod b) / IZR b)%R = r -> (0 <= r < 1)%R /\ (2 * (a mod b) <= b -> (r <= 1 / 2)%R) /\ (b <= 2 * (a mod b) -> (1 / 2 <= r)%R)).
  { intros r <-. repeat split.
    - apply Rmult_le_pos; [apply IZR_le; lia|]. apply Rlt_le, Rinv_0_lt_compat; auto.
    - apply Rmult_lt_reg_r with (IZR b); auto. unfold Rdiv. rewrite Rmult_assoc, Rinv_l, Rmult_1_r, Rmult_1_l by lra. apply IZR_lt. lia.
    - intros H. apply IZR_le in H. rewrite mult_IZR in H. apply Rmult_le_reg_r with (IZR b); auto. unfold Rdiv at 1. rewrite Rmult_assoc, Rinv_l, Rmult_1_r by lra. lra.
    - intros H. apply IZR_le in H. rewrite mult_IZR in H. apply Rmult_le_reg_r with (IZR b); auto. unfold Rdiv at 2. rewrite Rmult_assoc, Rinv_l, Rmult_1_r by lra. lra. }
  destruct (G _ eq_refl) as (G1 & G2 & G3). rewrite EQ. unfold rne.
  destruct (Z.ltb_spec (2 * (a mod b)) b); [|destruct (Z.ltb_spec b (2 * (a mod b))); [|destruct (Z.even _)]]; rewrite ?plus_IZR; unfold Rabs; destruct (Rcase_abs _); try (specialize (G2 ltac:(lia))); try (specialize (G3 ltac:(lia))); lra.
Qed.
(** x * 2^e as a fraction *)
Definition up2 (e : Z) : Z := if 0 <=? e then 2 ^ e else 1.
Definition dn2 (e : Z) : Z := if 0 <=? e then 1 else 2 ^ (- e).
Lemma up2_pos e : 0 < up2 e. Proof. unfold up2. destruct (Z.leb_spec 0 e); [apply Z.pow_pos_nonneg; lia|lia]. Qed.
Lemma dn2_pos e : 0 < dn2 e. Proof. unfold dn2. destruct (Z.leb_spec 0 e); [lia|apply Z.pow_pos_nonneg; lia]. Qed.
Lemma frac2 e : p2 e = (IZR (up2 e) / IZR (dn2 e))%R.
Proof.
  unfold up2, dn2. destruct (Z.leb_spec 0 e).
  - rewrite p2_Z by auto. field.
  - rewrite <- p2_Z by lia. rewrite p2_neg. field. pose proof (p2_pos e). lra.
Qed.

Definition fmtF (x : F64) : Z :=
  match x with
  | S754_zero s => if s then 1 else 0
  | S754_finite s m e => 2 * rne (Zpos m * up2 e * D20) (dn2 e) + (if s then 1 else 0)
  | _ => 0
  end.
Definition rdF (c : Z) : F64 :=
  let N := c / 2 in let s := Z.odd c in
  if N <=? 0 then S754_zero s else
  let k := Z.log2 N - Z.log2 D20 in
  let e0 := if D20 * up2 k <=? N * dn2 k then k else k - 1 in
  let e := e0 - 52 in
  let m := rne (N * dn2 e) (D20 * up2 e) in
  let '(m, e) := if m =? 2 ^ 53 then (2 ^ 52, e + 1) else (m, e) in
  if 971 <? e then S754_infinity s else
  match m with Zpos p => S754_finite s p e | _ => S754_zero s end.

Lemma fmtF_ok : fmt_ok fmtF.
Proof.
  intros x Hx. rewrite abs_val. destruct x as [s| | |s m e]; try discriminate; cbn [fmtF sgn].
  - destruct s; (split; [lia|split; [|reflexivity]]); unfold prt; [change (1 / 2) with 0|change (0 / 2) with 0]; rewrite Rmult_0_l, Rminus_0_r, Rabs_R0; pose proof unit20_pos; lra.
  - pose proof (rne_spec (Zpos m * up2 e * D20) (dn2 e) (dn2_pos e)) as HR. pose proof (up2_pos e) as HU2. pose proof (dn2_pos e) as HD2. set (N := rne _ _) in *.
    pose proof unit20_pos as HU. assert (HD : (0 < IZR (dn2 e))%R) by (apply IZR_lt; auto). assert (HDD : (0 < IZR D20)%R) by (apply IZR_lt; reflexivity).
    assert (EV : (IZR (Z.pos m * up2 e * D20) / IZR (dn2 e) * unit20 = IZR (Zpos m) * p2 e)%R). { rewrite frac2, !mult_IZR. unfold unit20. field. lra. }
    assert (HN : 0 <= N).
    { assert (0 <= IZR (Z.pos m * up2 e * D20) / IZR (dn2 e))%R. { apply Rmult_le_pos; [apply IZR_le; unfold D20; lia|]. apply Rlt_le, Rinv_0_lt_compat; auto. }
      assert (HL : (-1 < IZR N)%R). { revert HR. unfold Rabs. destruct (Rcase_abs _); lra. } apply lt_IZR in HL. lia. }
    split; [destruct s; lia|]. split.
    + replace ((2 * N + (if s then 1 else 0)) / 2) with N by (destruct s; [rewrite Z.mul_comm, Z.div_add_l by lia; change (1 / 2) with 0; lia|rewrite Z.add_0_r, Z.mul_comm, Z.div_mul by lia; lia]).
      unfold prt. rewrite <- EV, <- Rmult_minus_distr_r, Rabs_mult, (Rabs_right unit20) by lra. nra.
    + rewrite Z.odd_add, Z.odd_mul. destruct s; reflexivity.
Qed.

(** nearest double in the binade of v *)
Lemma nearest_binade v e0 m : (p2 e0 <= v < p2 (e0 + 1))%R -> (Rabs (v / p2 (e0 - 52) - IZR m) <= 1 / 2)%R ->
  2 ^ 52 <= m <= 2 ^ 53 /\ forall z, dbl z -> (Rabs (IZR m * p2 (e0 - 52) - v) <= Rabs (z - v))%R.
Proof.
  intros HV HM. set (e := e0 - 52) in *. pose proof (p2_pos e) as HP. assert (E0 : p2 e0 = (IZR (2 ^ 52) * p2 e)%R) by (rewrite <- p2_Z, <- p2_add by lia; f_equal; unfold e; lia).
  assert (E1 : p2 (e0 + 1) = (IZR (2 ^ 53) * p2 e)%R) by (rewrite <- p2_Z, <- p2_add by lia; f_equal; unfold e; lia).
  set (w := (v / p2 e)%R) in *. assert (EV : v = (w * p2 e)%R) by (unfold w; field; lra). clearbody w. rewrite EV in *. rewrite E0, E1 in HV.
  assert (HW : (IZR (2 ^ 52) <= w < IZR (2 ^ 53))%R) by (split; [apply Rmult_le_reg_r with (p2 e)|apply Rmult_lt_reg_r with (p2 e)]; lra).
  assert (HI : forall k, (Rabs (IZR m * p2 e - w * p2 e) <= Rabs (IZR k * p2 e - w * p2 e))%R).
  { intros k. rewrite <- !Rmult_minus_distr_r, !Rabs_mult. apply Rmult_le_compat_r; [apply Rabs_pos|]. rewrite Rabs_minus_sym in HM. destruct (Z.eq_dec k m) as [->|HN]; [lra|].
    pose proof (int_gap _ _ HN) as HG. revert HM HG. unfold Rabs. repeat destruct (Rcase_abs _); lra. }
  split.
  - split; [apply Zlt_succ_le|apply Zlt_succ_le]; apply lt_IZR; unfold Z.succ; rewrite plus_IZR; revert HM; unfold Rabs; destruct (Rcase_abs _); lra.
  - intros z (m' & e' & Hm & He & ->). destruct (Z_le_dec e e') as [HE|HE].
    + replace e' with ((e' - e) + e) by lia. rewrite p2_add, (p2_Z (e' - e)), <- Rmult_assoc, <- mult_IZR by lia. apply HI.
    + specialize (HI (2 ^ 52)). assert (HZ : (IZR m' * p2 e' <= IZR (2 ^ 52) * p2 e)%R).
      { assert (HE2 : e' <= e - 1) by lia. pose proof (p2_le _ _ HE2) as HL. assert (EH : p2 e = (2 * p2 (e - 1))%R) by (replace e with (1 + (e - 1)) at 1 by lia; rewrite p2_add, p2_1; reflexivity).
        assert (IZR m' <= IZR (2 ^ 53))%R by (apply IZR_le; lia). assert (E53 : IZR (2 ^ 53) = (2 * IZR (2 ^ 52))%R) by (rewrite <- mult_IZR; reflexivity).
        pose proof (p2_pos e'). rewrite EH. replace (IZR (2 ^ 52) * (2 * p2 (e - 1)))%R with (IZR (2 ^ 53) * p2 (e - 1))%R by (rewrite E53; ring).
        apply Rle_trans with (IZR (2 ^ 53) * p2 e')%R; [apply Rmult_le_compat_r; lra|apply Rmult_le_compat_l; [apply IZR_le; lia|auto]]. }
      eapply Rle_trans; [exact HI|]. rewrite (Rabs_left1 (IZR m' * _ - _)), (Rabs_left1 (IZR (2 ^ 52) * _ - _)) by nra. lra.
Qed.
Lemma rdF_ok : rd_ok rdF.
Proof.
  intros c [H0 HT]. unfold rdF. cbv zeta. set (N := c / 2) in *. set (s := Z.odd c). destruct (Z.leb_spec N 0) as [HN|HN].
  - assert (EN : N = 0) by (assert (0 <= N) by (apply Z.div_pos; lia); lia). rewrite EN. split; [reflexivity|]. split; [|reflexivity]. cbn [val]. rewrite Rabs_R0. split.
    + exists 0, 0. split; [lia|split; [lia|ring]].
    + intros z _. rewrite Rmult_0_l, Rminus_0_r, Rabs_R0. apply Rabs_pos.
  - set (v := (IZR N * unit20)%R). assert (HDD : (0 < IZR D20)%R) by (apply IZR_lt; reflexivity).
    set (k := Z.log2 N - Z.log2 D20). set (e0 := if D20 * up2 k <=? N * dn2 k then k else k - 1).
    assert (HC : forall j, D20 * up2 j <= N * dn2 j <-> (p2 j <= v)%R).
    { intros j. rewrite frac2. unfold v, unit20. pose proof (IZR_lt _ _ (dn2_pos j)) as HJ. split; intros H.
      - apply IZR_le in H. rewrite !mult_IZR in H. apply Rmult_le_reg_r with (IZR D20 * IZR (dn2 j))%R; [apply Rmult_lt_0_compat; auto|].
        replace (IZR (up2 j) / IZR (dn2 j) * (IZR D20 * IZR (dn2 j)))%R with (IZR D20 * IZR (up2 j))%R by (field; lra).
        replace (IZR N * / IZR D20 * (IZR D20 * IZR (dn2 j)))%R with (IZR N * IZR (dn2 j))%R by (field; lra). auto.
      - apply le_IZR. rewrite !mult_IZR. replace (IZR D20 * IZR (up2 j))%R with (IZR (up2 j) / IZR (dn2 j) * (IZR D20 * IZR (dn2 j)))%R by (field; lra).
        replace (IZR N * IZR (dn2 j))%R with (IZR N * / IZR D20 * (IZR D20 * IZR (dn2 j)))%R by (field; lra). apply Rmult_le_compat_r; auto. apply Rmult_le_pos; lra. }
    assert (HLN : (p2 (Z.log2 N) <= IZR N < p2 (Z.log2 N + 1))%R).
    { pose proof (Z.log2_spec N HN) as HL. pose proof (Z.log2_nonneg N). rewrite !p2_Z by lia. split; [apply IZR_le|apply IZR_lt]; unfold Z.succ in HL; lia. }
    assert (HLD : (p2 (Z.log2 D20) <= IZR D20 < p2 (Z.log2 D20 + 1))%R).
    { pose proof (Z.log2_spec D20 ltac:(reflexivity)) as HL. pose proof (Z.log2_nonneg D20). rewrite !p2_Z by lia. split; [apply IZR_le|apply IZR_lt]; unfold Z.succ in HL; lia. }
    assert (HV2 : (p2 (k - 1) <= v < p2 (k + 1))%R).
    { unfold v, unit20, k. set (a := Z.log2 N) in *. set (b := Z.log2 D20) in *. clearbody a b. split.
      - apply Rmult_le_reg_r with (IZR D20); auto. rewrite (Rmult_assoc (IZR N)), Rinv_l, Rmult_1_r by lra. apply Rle_trans with (p2 (a - b - 1) * p2 (b + 1))%R; [apply Rmult_le_compat_l; [pose proof (p2_pos (a - b - 1)); lra|lra]|].
        rewrite <- p2_add. replace (a - b - 1 + (b + 1)) with a by lia. lra.
      - apply Rmult_lt_reg_r with (IZR D20); auto. rewrite (Rmult_assoc (IZR N)), Rinv_l, Rmult_1_r by lra. apply Rlt_le_trans with (p2 (a - b + 1) * p2 b)%R; [|apply Rmult_le_compat_l; [pose proof (p2_pos (a - b + 1)); lra|lra]].
        rewrite <- p2_add. replace (a - b + 1 + b) with (a + 1) by lia. lra. }
    assert (HB : (p2 e0 <= v < p2 (e0 + 1))%R).
    { unfold e0. destruct (Z.leb_spec (D20 * up2 k) (N * dn2 k)) as [HL|HL].
      - apply HC in HL. lra.
      - replace (k - 1 + 1) with k by lia. split; [lra|]. apply Rnot_le_lt. intros HH. apply HC in HH. lia. }
    clearbody e0. set (e := e0 - 52). assert (HU : 0 < D20 * up2 e) by (pose proof (up2_pos e); unfold D20; lia). pose proof (rne_spec (N * dn2 e) (D20 * up2 e) HU) as HR.
    set (m := rne _ _) in *. assert (EV : (IZR (N * dn2 e) / IZR (D20 * up2 e) = v / p2 (e0 - 52))%R).
    { fold e. rewrite frac2, !mult_IZR. unfold v, unit20. pose proof (IZR_lt _ _ (up2_pos e)). pose proof (IZR_lt _ _ (dn2_pos e)). field. lra. }
    rewrite EV in HR. destruct (nearest_binade v e0 m HB HR) as [HM HNR]. fold e in HNR. clear EV HR HC HU. clearbody m.
    assert (HE0 : -67 <= e0).
    { apply Znot_gt_le. intros HG. assert (H1 : e0 + 1 <= -67) by lia. apply p2_le in H1. pose proof unit20_bounds as [HB1 _]. assert (unit20 <= v)%R; [|lra]. unfold v. pose proof (IZR_le 1 N ltac:(lia)). pose proof unit20_pos. nra. }
    assert (HTOP : (v <= IZR (2 ^ 53 - 1) * p2 971)%R).
    { apply IZR_le in HT. unfold v, unit20. apply Rmult_le_reg_r with (IZR D20); auto. rewrite (Rmult_assoc (IZR N)), Rinv_l, Rmult_1_r by lra. unfold top20 in HT. rewrite !mult_IZR, <- (p2_Z 971) in HT by lia. exact HT. }
    assert (HTE : e <= 971).
    { apply Znot_gt_le. intros HG. assert (H1 : 1024 <= e0) by (unfold e in HG; lia). apply p2_le in H1. assert (E2 : p2 1024 = (IZR (2 ^ 53) * p2 971)%R) by (rewrite <- p2_Z, <- p2_add by lia; reflexivity).
      assert (IZR (2 ^ 53 - 1) < IZR (2 ^ 53))%R by (apply IZR_lt; lia). pose proof (p2_pos 971). nra. }
    assert (HTM : e = 971 -> m <> 2 ^ 53).
    { intros -> EM. subst m. specialize (HNR (IZR (2 ^ 53 - 1) * p2 971)%R). assert (HD : dbl (IZR (2 ^ 53 - 1) * p2 971)) by (exists (2 ^ 53 - 1), 971; split; [lia|split; [lia|reflexivity]]).
      specialize (HNR HD). assert (HS : (IZR (2 ^ 53 - 1) * p2 971 < IZR (2 ^ 53) * p2 971)%R) by (apply Rmult_lt_compat_r; [apply p2_pos|apply IZR_lt; lia]).
      rewrite Rabs_right, Rabs_right in HNR by lra. lra. }
    destruct (Z.eqb_spec m (2 ^ 53)) as [EM|NM].
    + destruct (Z.ltb_spec 971 (e + 1)) as [HX|HX]; [exfalso; apply HTM; lia|]. change (2 ^ 52) with (Zpos (2 ^ 52)). cbv iota. split; [|split; [|reflexivity]].
      * apply bounded_fin; auto. change (Z.log2 (Zpos (2 ^ 52))) with 52. unfold e in *. lia.
      * assert (EY : (IZR (Zpos (2 ^ 52)) * p2 (e + 1) = IZR m * p2 e)%R). { rewrite EM. replace (e + 1) with (1 + e) by lia. rewrite p2_add, p2_1. change (2 ^ 53) with (Zpos (2 ^ 52) * 2). rewrite mult_IZR. ring. }
        rewrite abs_val, EY. split; [|exact HNR]. rewrite <- EY. exists (Zpos (2 ^ 52)), (e + 1). split; [reflexivity|split; [unfold e in *; lia|reflexivity]].
    + destruct (Z.ltb_spec 971 e) as [HX|HX]; [lia|]. destruct m as [|p|p]; [lia| |lia]. split; [|split; [|reflexivity]].
      * apply bounded_fin; auto. assert (EL : Z.log2 (Zpos p) = 52) by (apply Z.log2_unique; [lia|split; [lia|change (2 ^ Z.succ 52) with (2 ^ 53); lia]]). rewrite EL. unfold e in *. lia.
      * rewrite abs_val. split; [|exact HNR]. exists (Zpos p), e. split; [lia|split; [unfold e in *; lia|reflexivity]].
Qed.

(** 2^-70 as a double comes back as 0. *)
Example small_lost : fin (S754_finite false (2 ^ 52) (-122)) = true /\ rdF (fmtF (S754_finite false (2 ^ 52) (-122))) = S754_zero false.
Proof. split; vm_compute; reflexivity. Qed.
(** some that come back: 1e30, 0.1, -1e-3, 1e-6 (below 2^-14, but read from its decimal text) *)
Example kept_some : List.map (fun x => rdF (fmtF x)) [@nlit F64 1 30; @nlit F64 1 (-1); @nlit F64 (-1) (-3); @nlit F64 1 (-6)] =
  [@nlit F64 1 30; @nlit F64 1 (-1); @nlit F64 (-1) (-3); @nlit F64 1 (-6)].
Proof. vm_compute. reflexivity. Qed.
