(** Symmetric elimination over the reals: what the factorisation of a matrix tells about its quadratic form.
    Used to say what an exact QDLDL would do; not a model of any file in /repo (QDLDL is not part of it). *)
From Coq Require Import ZArith Reals List Bool Lia Lra.
From Verif Require Import Num Arr ArrFacts RSum Csc CscSpec CscFacts Vec VecFacts Types Kkt Linsys LinsysFacts LinsysSolve KktSpec KktDense ExEnv RealVec.
Import ListNotations.
Open Scope Z_scope.

(** The quadratic form of f on the indices a..b-1. *)
Definition qform (a b : Z) (f : Z -> Z -> R) (x : Z -> R) : R := zsum a b (fun i => zsum a b (fun j => (f i j * x i * x j)%R)).
(** The form is positive on vectors with support in S, negative on those with support in the complement. *)
Definition quasidef (a b : Z) (f : Z -> Z -> R) (S : Z -> bool) : Prop :=
  forall x, (exists i, a <= i < b /\ x i <> 0%R) ->
    ((forall i, a <= i < b -> S i = false -> x i = 0%R) -> (0 < qform a b f x)%R) /\
    ((forall i, a <= i < b -> S i = true -> x i = 0%R) -> (qform a b f x < 0)%R).

(** The matrix left after eliminating index a. *)
Definition elim (a : Z) (f : Z -> Z -> R) (i j : Z) : R := (f i j - f a i / f a a * f a j)%R.
(** All pivots are non-zero; number of positive pivots. *)
Fixpoint regular (n : nat) (a : Z) (f : Z -> Z -> R) : Prop :=
  match n with O => True | S n => f a a <> 0%R /\ regular n (a + 1) (elim a f) end.
Fixpoint npos (n : nat) (a : Z) (f : Z -> Z -> R) : Z :=
  match n with O => 0 | S n => (if Rltb 0 (f a a) then 1 else 0) + npos n (a + 1) (elim a f) end.
Definition count (n : nat) (a : Z) (S : Z -> bool) : Z := zlen (filter S (zseq a (a + Z.of_nat n))).

Lemma zsum_cons lo hi f : lo < hi -> zsum lo hi f = (f lo + zsum (lo + 1) hi f)%R.
Proof. intros H. rewrite (zsum_app lo (lo + 1) hi) by lia. rewrite (zsum_snoc lo lo) by lia. rewrite zsum_nil by lia. ring. Qed.

Lemma elim_sym a f : (forall i j, f i j = f j i) -> forall i j, elim a f i j = elim a f j i.
Proof. intros H i j. unfold elim. rewrite (H i j). unfold Rdiv. ring. Qed.

(** Completing the square. *)
Lemma qform_elim a b f x : a < b -> (forall i j, f i j = f j i) -> f a a <> 0%R ->
  qform a b f x = (f a a * (x a + zsum (a + 1) b (fun j => f a j * x j) / f a a) * (x a + zsum (a + 1) b (fun j => f a j * x j) / f a a) + qform (a + 1) b (elim a f) x)%R.
Proof.
  intros Hab HS HN. unfold qform. rewrite zsum_cons by auto. rewrite zsum_cons by auto.
  rewrite (zsum_ext (a + 1) b (fun i => zsum a b (fun j => f i j * x i * x j)%R) (fun i => f a i * x i * x a + zsum (a + 1) b (fun j => f i j * x i * x j)%R)%R).
  2:{ intros i Hi. rewrite zsum_cons by auto. rewrite (HS i a). reflexivity. }
  rewrite zsum_plus. rewrite zsum_scal_r.
  rewrite (zsum_ext (a + 1) b (fun j => f a j * x a * x j)%R (fun j => x a * (f a j * x j))%R) by (intros; ring). rewrite zsum_scal.
  set (g := zsum (a + 1) b (fun j => f a j * x j)%R).
  assert (HE : zsum (a + 1) b (fun i => zsum (a + 1) b (fun j => elim a f i j * x i * x j)%R) =
    (zsum (a + 1) b (fun i => zsum (a + 1) b (fun j => f i j * x i * x j)) - g * g / f a a)%R).
  { rewrite (zsum_ext (a + 1) b (fun i => zsum (a + 1) b (fun j => elim a f i j * x i * x j)%R)
       (fun i => zsum (a + 1) b (fun j => f i j * x i * x j) - f a i * x i * (g / f a a))%R).
    - rewrite zsum_minus, zsum_scal_r. fold g. field. auto.
    - intros i Hi. rewrite (zsum_ext (a + 1) b _ (fun j => f i j * x i * x j - f a i * x i / f a a * (f a j * x j))%R) by (intros; unfold elim; field; auto).
      rewrite zsum_minus, zsum_scal. fold g. field. auto. }
  rewrite HE. field. auto.
Qed.

Lemma qform_ext a b f x y : (forall i, a <= i < b -> x i = y i) -> qform a b f x = qform a b f y.
Proof. intros H. unfold qform. apply zsum_ext. intros i Hi. apply zsum_ext. intros j Hj. rewrite !H by auto. auto. Qed.
Lemma qform_ext_f a b f g x : (forall i j, a <= i < b -> a <= j < b -> f i j = g i j) -> qform a b f x = qform a b g x.
Proof. intros H. unfold qform. apply zsum_ext. intros i Hi. apply zsum_ext. intros j Hj. rewrite !H by auto. auto. Qed.

Lemma count_S n a S : count (Datatypes.S n) a S = (if S a then 1 else 0) + count n (a + 1) S.
Proof.
  unfold count. replace (a + Z.of_nat (Datatypes.S n)) with (a + 1 + Z.of_nat n) by lia. rewrite (zseq_cons a) by lia. cbn [filter].
  destruct (S a); unfold zlen; cbn [length]; lia.
Qed.

(** A quasidefinite matrix has no zero pivot in any order, and as many positive pivots as its positive part has indices. *)
Lemma quasidef_pivots n : forall a f S, (forall i j, f i j = f j i) -> quasidef a (a + Z.of_nat n) f S -> regular n a f /\ npos n a f = count n a S.
Proof.
  induction n as [|n IH]; intros a f S HS HQ; [split; [exact I|]; unfold count; cbn [npos]; replace (a + Z.of_nat 0) with a by lia; rewrite zseq_nil by lia; reflexivity|].
  set (b := a + Z.of_nat (Datatypes.S n)) in *. assert (Hab : a < b) by lia. assert (Eb : b = a + 1 + Z.of_nat n) by lia.
  set (ea := fun i => if i =? a then 1%R else 0%R).
  assert (Qa : qform a b f ea = f a a).
  { unfold qform. rewrite zsum_cons by auto. rewrite (zsum_0 (a + 1)).
    2:{ intros i Hi. apply zsum_0. intros j Hj. unfold ea. replace (i =? a) with false by lia. ring. }
    rewrite zsum_cons by auto. rewrite zsum_0; [unfold ea; rewrite Z.eqb_refl; ring|]. intros j Hj. unfold ea. replace (j =? a) with false by lia. ring. }
  assert (He : exists i, a <= i < b /\ ea i <> 0%R) by (exists a; split; [lia|]; unfold ea; rewrite Z.eqb_refl; lra).
  assert (Hd : if S a then (0 < f a a)%R else (f a a < 0)%R).
  { destruct (HQ ea He) as [H1 H2]. rewrite Qa in *. destruct (S a) eqn:Esa; [apply H1|apply H2]; intros i Hi Hs; unfold ea; destruct (Z.eqb_spec i a); auto; congruence. }
  assert (HN : f a a <> 0%R) by (destruct (S a); lra).
  assert (HQ' : quasidef (a + 1) b (elim a f) S).
  { intros x (i0 & Hi0 & Hx0). set (g := zsum (a + 1) b (fun j => f a j * x j)%R).
    (* the vector extending x that makes the square vanish, and the one with 0 *)
    set (xv := fun i => if i =? a then (- (g / f a a))%R else x i). set (xz := fun i => if i =? a then 0%R else x i).
    assert (Gv : zsum (a + 1) b (fun j => f a j * xv j)%R = g) by (apply zsum_ext; intros j Hj; unfold xv; replace (j =? a) with false by lia; auto).
    assert (Gz : zsum (a + 1) b (fun j => f a j * xz j)%R = g) by (apply zsum_ext; intros j Hj; unfold xz; replace (j =? a) with false by lia; auto).
    pose proof (qform_elim a b f xv Hab HS HN) as Ev. rewrite Gv in Ev. replace (xv a) with (- (g / f a a))%R in Ev by (unfold xv; rewrite Z.eqb_refl; auto).
    pose proof (qform_elim a b f xz Hab HS HN) as Ez. rewrite Gz in Ez. replace (xz a) with 0%R in Ez by (unfold xz; rewrite Z.eqb_refl; auto).
    rewrite (qform_ext (a + 1) b (elim a f) xv x) in Ev by (intros j Hj; unfold xv; replace (j =? a) with false by lia; auto).
    rewrite (qform_ext (a + 1) b (elim a f) xz x) in Ez by (intros j Hj; unfold xz; replace (j =? a) with false by lia; auto).
    destruct (HQ xv) as [V1 V2]; [exists i0; split; [lia|]; unfold xv; replace (i0 =? a) with false by lia; auto|].
    destruct (HQ xz) as [Z1 Z2]; [exists i0; split; [lia|]; unfold xz; replace (i0 =? a) with false by lia; auto|].
    assert (Sq : (g / f a a * f a a * (g / f a a) = g * g / f a a)%R) by (field; auto).
    split; intros Hsup.
    - destruct (S a) eqn:Esa.
      + replace (qform (a + 1) b (elim a f) x) with (qform a b f xv) by (rewrite Ev; ring). apply V1. intros i Hi Hs. unfold xv. destruct (Z.eqb_spec i a); [congruence|apply Hsup; auto; lia].
      + assert (HP : (0 < qform a b f xz)%R). { apply Z1. intros i Hi Hs. unfold xz. destruct (Z.eqb_spec i a); [auto|apply Hsup; auto; lia]. }
        rewrite Ez in HP. assert (f a a * (0 + g / f a a) * (0 + g / f a a) <= 0)%R; [|lra].
        replace (f a a * (0 + g / f a a) * (0 + g / f a a))%R with (f a a * ((g / f a a) * (g / f a a)))%R by ring.
        pose proof (Rle_0_sqr (g / f a a)) as HH. unfold Rsqr in HH. nra.
    - destruct (S a) eqn:Esa.
      + assert (HP : (qform a b f xz < 0)%R). { apply Z2. intros i Hi Hs. unfold xz. destruct (Z.eqb_spec i a); [auto|apply Hsup; auto; lia]. }
        rewrite Ez in HP. assert (0 <= f a a * (0 + g / f a a) * (0 + g / f a a))%R; [|lra].
        replace (f a a * (0 + g / f a a) * (0 + g / f a a))%R with (f a a * ((g / f a a) * (g / f a a)))%R by ring.
        pose proof (Rle_0_sqr (g / f a a)) as HH. unfold Rsqr in HH. nra.
      + replace (qform (a + 1) b (elim a f) x) with (qform a b f xv) by (rewrite Ev; ring). apply V2. intros i Hi Hs. unfold xv. destruct (Z.eqb_spec i a); [congruence|apply Hsup; auto; lia]. }
  rewrite Eb in HQ'. destruct (IH (a + 1) (elim a f) S (elim_sym a f HS) HQ') as [R1 C1]. split; [split; auto|].
  cbn [npos]. rewrite C1, count_S. unfold Rltb. destruct (Rlt_dec 0 (f a a)); destruct (S a); auto; lra.
Qed.

(** Homogeneous systems with more unknowns than equations. *)
Lemma homogeneous (m : nat) : forall (n : nat) (c : nat -> nat -> R), (m < n)%nat ->
  exists x : nat -> R, (exists j, (j < n)%nat /\ x j <> 0%R) /\ forall i, (i < m)%nat -> lsum (fun j => (c i j * x j)%R) (seq 0 n) = 0%R.
Proof.
  induction m as [|m IH]; intros n c Hn.
  - exists (fun _ => 1%R). split; [exists O; split; [lia|lra]|]. intros i Hi. lia.
  - (* look for a non-zero coefficient in the last equation *)
    assert (HD : (forall j, (j < n)%nat -> c m j = 0%R) \/ exists p, (p < n)%nat /\ c m p <> 0%R).
    { clear IH Hn. induction n as [|n IHn]; [left; intros; lia|]. destruct IHn as [H|(p & Hp & H)]; [|right; exists p; split; [lia|auto]].
      destruct (Req_dec (c m n) 0%R) as [E|E]; [left|right; exists n; auto]. intros j Hj. destruct (Nat.eq_dec j n) as [->|]; auto. apply H. lia. }
    destruct HD as [HZ|(p & Hp & HNZ)].
    + destruct (IH n c ltac:(lia)) as (x & Hx & HE). exists x. split; auto. intros i Hi. destruct (Nat.eq_dec i m) as [->|]; [|apply HE; lia].
      apply lsum_0. intros j Hj. apply in_seq in Hj. rewrite HZ by lia. ring.
    + destruct n as [|n]; [lia|].
      set (sk := fun j => if Nat.ltb j p then j else S j).
      destruct (IH n (fun i j => c i (sk j) - c i p * c m (sk j) / c m p)%R ltac:(lia)) as (x & (j0 & Hj0 & Hx0) & HE).
      set (us := fun j => if Nat.ltb j p then j else pred j).
      set (y := fun j => if Nat.eqb j p then (- lsum (fun j => c m (sk j) * x j) (seq 0 n) / c m p)%R else x (us j)).
      assert (HL : forall g : nat -> R, lsum g (seq 0 (S n)) = (lsum (fun j => g (sk j)) (seq 0 n) + g p)%R).
      { intros g. assert (Hp' : (p <= n)%nat) by lia. clear - Hp'. subst sk.
        replace (S n) with (p + S (n - p))%nat by lia. rewrite seq_app, lsum_app. cbn [Nat.add seq]. 
        replace (seq 0 n) with (seq 0 p ++ seq p (n - p)). 2:{ replace n with (p + (n - p))%nat at 2 by lia. rewrite seq_app. reflexivity. }
        rewrite lsum_app. cbn [lsum].
        rewrite (lsum_ext (fun j => g (if (j <? p)%nat then j else S j)) g (seq 0 p)).
        2:{ intros j Hj. apply in_seq in Hj. destruct (Nat.ltb_spec j p); [auto|lia]. }
        rewrite (lsum_ext (fun j => g (if (j <? p)%nat then j else S j)) (fun j => g (S j)) (seq p (n - p))).
        2:{ intros j Hj. apply in_seq in Hj. destruct (Nat.ltb_spec j p); [lia|auto]. }
        rewrite <- seq_shift, lsum_map. ring. }
      assert (Hsk : forall j, Nat.eqb (sk j) p = false /\ us (sk j) = j).
      { intros j. unfold sk, us. destruct (Nat.ltb_spec j p).
        - split; [apply Nat.eqb_neq; lia|]. destruct (Nat.ltb_spec j p); lia.
        - split; [apply Nat.eqb_neq; lia|]. destruct (Nat.ltb_spec (S j) p); lia. }
      assert (Hy : forall j, y (sk j) = x j). { intros j. unfold y. destruct (Hsk j) as [-> ->]. auto. }
      assert (Hyp : y p = (- lsum (fun j => c m (sk j) * x j) (seq 0 n) / c m p)%R) by (unfold y; rewrite Nat.eqb_refl; auto).
      exists y. split.
      { exists (sk j0). split; [unfold sk; destruct (Nat.ltb_spec j0 p); lia|]. rewrite Hy. auto. }
      intros i Hi. rewrite HL. rewrite (lsum_ext (fun j => c i (sk j) * y (sk j))%R (fun j => c i (sk j) * x j)%R) by (intros; rewrite Hy; auto).
      rewrite Hyp. destruct (Nat.eq_dec i m) as [->|Hne]; [field; auto|].
      specialize (HE i ltac:(lia)).
      rewrite (lsum_ext _ (fun j => c i (sk j) * x j - c i p / c m p * (c m (sk j) * x j))%R) in HE by (intros; field; auto).
      rewrite lsum_minus, lsum_scal in HE. set (L := lsum (fun j => c m (sk j) * x j)%R (seq 0 n)) in *. 
      assert (HE' : lsum (fun j => c i (sk j) * x j)%R (seq 0 n) = (c i p / c m p * L)%R) by lra. rewrite HE'. field. auto.
Qed.

(** If all pivots are non-zero the form is positive where as many linear functionals vanish as there are negative pivots. *)
Lemma pivots_functionals n : forall a f, (forall i j, f i j = f j i) -> regular n a f ->
  exists c : nat -> Z -> R, forall x, (exists i, a <= i < a + Z.of_nat n /\ x i <> 0%R) ->
    (forall t, Z.of_nat t < Z.of_nat n - npos n a f -> zsum a (a + Z.of_nat n) (fun j => (c t j * x j)%R) = 0%R) ->
    (0 < qform a (a + Z.of_nat n) f x)%R.
Proof.
  induction n as [|n IH]; intros a f HS HR.
  { exists (fun _ _ => 0%R). intros x (i & Hi & _). lia. }
  destruct HR as [HN HR]. destruct (IH (a + 1) (elim a f) (elim_sym a f HS) HR) as (c & HC).
  set (b := a + Z.of_nat (S n)) in *. assert (Hab : a < b) by lia. replace (a + 1 + Z.of_nat n) with b in HC by lia.
  cbn [npos]. unfold Rltb. destruct (Rlt_dec 0 (f a a)) as [Hd|Hd].
  - exists (fun t j => if j =? a then 0%R else c t j). intros x (i & Hi & Hx) HE. rewrite qform_elim by auto.
    set (s := (x a + _ / f a a)%R). assert (Hs : (0 <= f a a * s * s)%R).
    { replace (f a a * s * s)%R with (f a a * (s * s))%R by ring. pose proof (Rle_0_sqr s). unfold Rsqr in *. nra. }
    destruct (existsb (fun i => negb (Reqb (x i) 0)) (zseq (a + 1) b)) eqn:Ex.
    + apply existsb_exists in Ex as (i1 & Hi1 & Hx1). apply In_zseq in Hi1. assert (Hq : (0 < qform (a + 1) b (elim a f) x)%R); [|lra].
      apply HC.
      * exists i1. split; auto. unfold Reqb in Hx1. destruct (Req_EM_T (x i1) 0) as [|]; [discriminate|auto].
      * intros t Ht. specialize (HE t ltac:(lia)). rewrite zsum_cons in HE by auto. rewrite Z.eqb_refl in HE.
        rewrite (zsum_ext (a + 1) b _ (fun j => c t j * x j)%R) in HE by (intros j Hj; replace (j =? a) with false by lia; auto). lra.
    + assert (Hz : forall j, a + 1 <= j < b -> x j = 0%R).
      { intros j Hj. destruct (Req_EM_T (x j) 0) as [E|E]; auto. assert (HT : existsb (fun i => negb (Reqb (x i) 0)) (zseq (a + 1) b) = true); [|congruence].
        apply existsb_exists. exists j. rewrite In_zseq. split; auto. unfold Reqb. destruct (Req_EM_T (x j) 0); [contradiction|auto]. }
      assert (Hi' : i = a). { destruct (Z.eq_dec i a); auto. exfalso. apply Hx, Hz. lia. } subst i.
      assert (Es : s = x a). { subst s. rewrite zsum_0 by (intros j Hj; rewrite Hz by auto; ring). field. auto. }
      unfold qform. rewrite (zsum_0 (a + 1)). 2:{ intros j Hj. apply zsum_0. intros k Hk. rewrite (Hz j) by auto. ring. }
      rewrite Es. assert (0 < x a * x a)%R. { pose proof (Rlt_0_sqr _ Hx). unfold Rsqr in *. auto. } replace (f a a * x a * x a)%R with (f a a * (x a * x a))%R by ring. nra.
  - exists (fun t j => match t with O => if j =? a then 1%R else (f a j / f a a)%R | S t => if j =? a then 0%R else c t j end).
    intros x (i & Hi & Hx) HE. rewrite qform_elim by auto.
    set (s := (x a + _ / f a a)%R).
    assert (HB : npos n (a + 1) (elim a f) <= Z.of_nat n).
    { clear. generalize (a + 1) (elim a f). induction n as [|n IH]; intros a' f'; cbn [npos]; [lia|]. specialize (IH (a' + 1) (elim a' f')). destruct (Rltb 0 (f' a' a')); lia. }
    assert (Hs : s = 0%R).
    { specialize (HE O ltac:(lia)). cbv beta iota in HE. rewrite zsum_cons in HE by auto. rewrite Z.eqb_refl in HE.
      rewrite (zsum_ext (a + 1) b _ (fun j => / f a a * (f a j * x j))%R) in HE by (intros j Hj; replace (j =? a) with false by lia; unfold Rdiv; ring).
      rewrite zsum_scal in HE. subst s. unfold Rdiv. lra. }
    assert (HC' : (0 < qform (a + 1) b (elim a f) x)%R).
    { apply HC.
      - destruct (Z.eq_dec i a) as [->|]; [|exists i; split; [lia|auto]].
        destruct (existsb (fun i => negb (Reqb (x i) 0)) (zseq (a + 1) b)) eqn:Ex.
        + apply existsb_exists in Ex as (i1 & Hi1 & Hx1). apply In_zseq in Hi1. exists i1. split; auto. unfold Reqb in Hx1. destruct (Req_EM_T (x i1) 0); [discriminate|auto].
        + exfalso. apply Hx. assert (Hz : forall j, a + 1 <= j < b -> x j = 0%R).
          { intros j Hj. destruct (Req_EM_T (x j) 0) as [E|E]; auto. assert (HT : existsb (fun i => negb (Reqb (x i) 0)) (zseq (a + 1) b) = true); [|congruence].
            apply existsb_exists. exists j. rewrite In_zseq. split; auto. unfold Reqb. destruct (Req_EM_T (x j) 0); [contradiction|auto]. }
          subst s. rewrite zsum_0 in Hs by (intros j Hj; rewrite Hz by auto; ring). unfold Rdiv in Hs. lra.
      - intros t Ht. specialize (HE (S t) ltac:(lia)). cbv beta iota in HE. rewrite zsum_cons in HE by auto. rewrite Z.eqb_refl in HE.
        rewrite (zsum_ext (a + 1) b _ (fun j => c t j * x j)%R) in HE by (intros j Hj; replace (j =? a) with false by lia; auto). lra. }
    rewrite Hs. lra.
Qed.

(** The quadratic form of the KKT matrix. *)
Lemma kkt_form n m (P A : Z -> Z -> R) sigma d v : 0 <= n -> 0 <= m ->
  qform 0 (m + n) (kktS n P A sigma d) v =
  (qform 0 n P v + sigma * zsum 0 n (fun i => v i * v i) + 2 * zsum 0 m (fun k => v (k + n)%Z * zsum 0 n (fun j => A k j * v j)) - zsum 0 m (fun k => d k * (v (k + n)%Z * v (k + n)%Z)))%R.
Proof.
  intros Hn Hm. unfold qform. rewrite (zsum_app 0 n (m + n)) by lia. replace (zsum n (m + n)) with (zsum (0 + n) (m + n)) by (f_equal; lia). rewrite zsum_shift.
  assert (H1 : forall i, 0 <= i < n -> zsum 0 (m + n) (fun j => kktS n P A sigma d i j * v i * v j)%R =
    (zsum 0 n (fun j => P i j * v i * v j) + sigma * (v i * v i) + zsum 0 m (fun k => A k i * v i * v (k + n)%Z))%R).
  { intros i Hi. rewrite (zsum_app 0 n (m + n)) by lia. replace (zsum n (m + n)) with (zsum (0 + n) (m + n)) by (f_equal; lia). rewrite zsum_shift.
    rewrite (zsum_ext 0 n _ (fun j => P i j * v i * v j + (if (i =? j)%Z then sigma * (v i * v i) else 0))%R).
    2:{ intros j Hj. unfold kktS. replace (i <? n) with true by lia. replace (j <? n) with true by lia. destruct (Z.eqb_spec i j); subst; ring. }
    rewrite zsum_plus. rewrite (zsum_single_r 0 n i (fun _ => sigma * (v i * v i))%R) by lia. f_equal.
    apply zsum_ext. intros k Hk. unfold kktS. replace (i <? n) with true by lia. replace (k + n <? n) with false by lia. replace (k + n - n) with k by lia. ring. }
  rewrite (zsum_ext 0 n _ _ H1). rewrite !zsum_plus, zsum_scal.
  assert (H2 : forall k, 0 <= k < m -> zsum 0 (m + n) (fun j => kktS n P A sigma d (k + n) j * v (k + n)%Z * v j)%R =
    (v (k + n)%Z * zsum 0 n (fun j => A k j * v j) - d k * (v (k + n)%Z * v (k + n)%Z))%R).
  { intros k Hk. rewrite (zsum_app 0 n (m + n)) by lia. replace (zsum n (m + n)) with (zsum (0 + n) (m + n)) by (f_equal; lia). rewrite zsum_shift.
    rewrite <- zsum_scal. rewrite (zsum_ext 0 n _ (fun j => v (k + n)%Z * (A k j * v j))%R).
    2:{ intros j Hj. unfold kktS. replace (k + n <? n) with false by lia. replace (j <? n) with true by lia. replace (k + n - n) with k by lia. ring. }
    rewrite (zsum_ext 0 m _ (fun j => if (k =? j)%Z then (- (d k * (v (k + n)%Z * v (k + n)%Z)))%R else 0%R)).
    2:{ intros j Hj. unfold kktS. replace (k + n <? n) with false by lia. replace (j + n <? n) with false by lia. replace (k + n - n) with k by lia.
        replace (k + n =? j + n) with (k =? j) by lia. destruct (Z.eqb_spec k j); subst; ring. }
    rewrite (zsum_single_r 0 m k (fun _ => (- (d k * (v (k + n)%Z * v (k + n)%Z)))%R)) by lia. ring. }
  rewrite (zsum_ext 0 m _ _ H2). rewrite zsum_minus.
  assert (H3 : zsum 0 n (fun i => zsum 0 m (fun k => A k i * v i * v (k + n)%Z)%R) = zsum 0 m (fun k => v (k + n)%Z * zsum 0 n (fun j => A k j * v j))%R).
  { rewrite zsum_swap. apply zsum_ext. intros k Hk. rewrite <- zsum_scal. apply zsum_ext. intros; ring. }
  rewrite H3. ring.
Qed.

Lemma qform_reindex p N f v : 0 <= N -> perm_ok (Some p) N ->
  qform 0 N (fun a b => f (znth 0%Z p a) (znth 0%Z p b)) (fun a => v (znth 0%Z p a)) = qform 0 N f v.
Proof.
  intros HN HP. unfold qform. rewrite <- (zsum_reindex p N (fun i => zsum 0 N (fun j => f i j * v i * v j)%R)) by auto.
  apply zsum_ext. intros a Ha. rewrite <- (zsum_reindex p N (fun j => f (znth 0%Z p a) j * v (znth 0%Z p a) * v j)%R) by auto. reflexivity.
Qed.

Lemma zsum_sq_nonneg lo hi g : (0 <= zsum lo hi (fun i => g i * g i))%R.
Proof. apply zsum_nonneg. intros i _. pose proof (Rle_0_sqr (g i)). auto. Qed.
Lemma zsum_pos lo hi g i : lo <= i < hi -> (forall k, lo <= k < hi -> (0 <= g k)%R) -> (0 < g i)%R -> (0 < zsum lo hi g)%R.
Proof.
  intros Hi HG Hp. rewrite (zsum_app lo i hi) by lia. rewrite (zsum_cons i hi) by lia.
  assert (0 <= zsum lo i g)%R by (apply zsum_nonneg; intros; apply HG; lia). assert (0 <= zsum (i + 1) hi g)%R by (apply zsum_nonneg; intros; apply HG; lia). lra.
Qed.

Definition psd (n : Z) (P : Z -> Z -> R) : Prop := forall x, (0 <= qform 0 n P x)%R.
(** The Hessian with the penalty term: P + sigma I + A' diag(1/d) A. *)
Definition penalised (n m : Z) (P A : Z -> Z -> R) (sigma : R) (d : Z -> R) (x : Z -> R) : R :=
  (qform 0 n P x + sigma * zsum 0 n (fun i => x i * x i) + zsum 0 m (fun k => zsum 0 n (fun j => A k j * x j) * zsum 0 n (fun j => A k j * x j) / d k))%R.

Section Kkt.
  Variables (n m : Z) (P A : Z -> Z -> R) (sigma : R) (d : Z -> R) (p : list Z).
  Hypothesis (Hn : 0 <= n) (Hm : 0 <= m) (HPs : forall i j, P i j = P j i) (Hp : perm_ok (Some p) (m + n)) (Hd : forall k, 0 <= k < m -> (0 < d k)%R).
  Let g a b := kktS n P A sigma d (znth 0%Z p a) (znth 0%Z p b).

  Lemma g_sym i j : g i j = g j i. Proof. unfold g. apply kktS_sym. auto. Qed.

  (** Convex problems: whatever the order of elimination, no zero pivot and exactly n positive ones. *)
  Lemma kkt_quasidef : (0 < sigma)%R -> psd n P -> quasidef 0 (m + n) g (fun a => znth 0%Z p a <? n).
  Proof.
    intros Hs HP x (a0 & Ha0 & Hx0). destruct (perm_inv p (m + n) ltac:(lia) Hp) as (q & Lq & Q1 & Q2 & _).
    set (v := fun i => x (znth 0%Z q i)).
    assert (Ev : qform 0 (m + n) g x = qform 0 (m + n) (kktS n P A sigma d) v).
    { rewrite <- (qform_reindex p (m + n) (kktS n P A sigma d) v) by (auto; lia). apply qform_ext. intros a Ha. unfold v. rewrite Q1 by auto. auto. }
    rewrite Ev, kkt_form by auto. pose proof Hp as (_ & Hp2 & _). cbn [pm] in Hp2. pose proof (Hp2 _ Ha0) as Hr.
    assert (Hv0 : v (znth 0%Z p a0) <> 0%R) by (unfold v; rewrite Q1 by auto; auto).
    assert (Hsq : forall r, r <> 0%R -> (0 < r * r)%R) by (intros r Hr'; pose proof (Rlt_0_sqr _ Hr'); unfold Rsqr in *; auto).
    split; intros Hsup.
    - assert (Hz : forall k, 0 <= k < m -> v (k + n) = 0%R).
      { intros k Hk. unfold v. destruct (Q2 (k + n) ltac:(lia)) as [B1 B2]. apply Hsup; auto. rewrite B2. lia. }
      rewrite (zsum_0 0 m (fun k => d k * (v (k + n)%Z * v (k + n)%Z))%R) by (intros k Hk; rewrite Hz by auto; ring).
      rewrite (zsum_0 0 m (fun k => v (k + n)%Z * _)%R) by (intros k Hk; rewrite Hz by auto; ring).
      assert (Ha1 : znth 0%Z p a0 < n). { destruct (Z_lt_ge_dec (znth 0%Z p a0) n); auto. exfalso. apply Hv0. replace (znth 0%Z p a0) with (znth 0%Z p a0 - n + n) by lia. apply Hz. lia. }
      assert (0 < zsum 0 n (fun i => v i * v i))%R. { apply (zsum_pos 0 n _ (znth 0%Z p a0)); [lia| |auto]. intros; pose proof (Rle_0_sqr (v k)); auto. }
      specialize (HP v). nra.
    - assert (Hz : forall k, 0 <= k < n -> v k = 0%R).
      { intros k Hk. unfold v. destruct (Q2 k ltac:(lia)) as [B1 B2]. apply Hsup; auto. rewrite B2. lia. }
      unfold qform. rewrite (zsum_0 0 n (fun i => zsum 0 n _)) by (intros i Hi; apply zsum_0; intros j Hj; rewrite (Hz i) by auto; ring).
      rewrite (zsum_0 0 n (fun i => v i * v i)%R) by (intros k Hk; rewrite Hz by auto; ring).
      rewrite (zsum_0 0 m (fun k => v (k + n)%Z * _)%R). 2:{ intros k Hk. rewrite (zsum_0 0 n) by (intros j Hj; rewrite Hz by auto; ring). ring. }
      assert (Ha1 : n <= znth 0%Z p a0). { destruct (Z_lt_ge_dec (znth 0%Z p a0) n); [|lia]. exfalso. apply Hv0. apply Hz. lia. }
      assert (0 < zsum 0 m (fun k => d k * (v (k + n)%Z * v (k + n)%Z)))%R; [|lra].
      apply (zsum_pos 0 m _ (znth 0%Z p a0 - n)); [lia| |].
      + intros k Hk. pose proof (Rle_0_sqr (v (k + n))). unfold Rsqr in *. specialize (Hd k Hk). nra.
      + replace (znth 0%Z p a0 - n + n) with (znth 0%Z p a0) by lia. specialize (Hd (znth 0%Z p a0 - n) ltac:(lia)). specialize (Hsq _ Hv0). nra.
  Qed.

  Lemma count_top : count (Z.to_nat (m + n)) 0 (fun a => znth 0%Z p a <? n) = n.
  Proof.
    unfold count. replace (0 + Z.of_nat (Z.to_nat (m + n))) with (m + n) by lia.
    assert (H : forall l, IZR (zlen (filter (fun a => znth 0%Z p a <? n) l)) = lsum (fun a => if znth 0%Z p a <? n then 1%R else 0%R) l).
    { induction l as [|a l IH]; [reflexivity|]. cbn [filter lsum]. destruct (znth 0%Z p a <? n).
      - replace (zlen (a :: filter (fun a => znth 0%Z p a <? n) l)) with (1 + zlen (filter (fun a => znth 0%Z p a <? n) l)) by (unfold zlen; cbn [length]; lia). rewrite plus_IZR, IH. auto.
      - rewrite IH. ring. }
    apply eq_IZR. rewrite H. fold (zsum 0 (m + n) (fun a => if znth 0%Z p a <? n then 1%R else 0%R)).
    rewrite (zsum_reindex p (m + n) (fun i => if i <? n then 1%R else 0%R)) by (auto; lia).
    rewrite (zsum_app 0 n (m + n)) by lia. rewrite (zsum_0 n) by (intros i Hi; replace (i <? n) with false by lia; auto).
    rewrite (zsum_ext 0 n _ (fun _ => 1%R)) by (intros i Hi; replace (i <? n) with true by lia; auto).
    assert (HH : forall t : nat, zsum 0 (Z.of_nat t) (fun _ => 1%R) = IZR (Z.of_nat t)).
    { induction t as [|t IH]; [apply zsum_nil; lia|]. replace (Z.of_nat (S t)) with (Z.of_nat t + 1) by lia. rewrite zsum_snoc by lia. rewrite IH, plus_IZR. auto. }
    specialize (HH (Z.to_nat n)). rewrite Z2Nat.id in HH by auto. rewrite HH. ring.
  Qed.

  Theorem convex_pivots : (0 < sigma)%R -> psd n P -> regular (Z.to_nat (m + n)) 0 g /\ npos (Z.to_nat (m + n)) 0 g = n.
  Proof.
    intros Hs HP. pose proof (kkt_quasidef Hs HP) as HQ. 
    destruct (quasidef_pivots (Z.to_nat (m + n)) 0 g (fun a => znth 0 p a <? n) g_sym) as [R1 R2].
    { replace (0 + Z.of_nat (Z.to_nat (m + n))) with (m + n) by lia. auto. }
    split; auto. rewrite R2. apply count_top.
  Qed.

  (** Conversely n positive pivots make the penalised Hessian positive definite. *)
  Theorem pivots_convex : regular (Z.to_nat (m + n)) 0 g -> n <= npos (Z.to_nat (m + n)) 0 g ->
    forall x, (exists i, 0 <= i < n /\ x i <> 0%R) -> (0 < penalised n m P A sigma d x)%R.
  Proof.
    intros HR HC x (i0 & Hi0 & Hx0). destruct (Rlt_le_dec 0 (penalised n m P A sigma d x)) as [|Hle]; auto. exfalso.
    destruct (pivots_functionals _ 0 g g_sym HR) as (c & HF). replace (0 + Z.of_nat (Z.to_nat (m + n))) with (m + n) in HF by lia.
    destruct (perm_inv p (m + n) ltac:(lia) Hp) as (q & Lq & Q1 & Q2 & _).
    set (Ax := fun k => zsum 0 n (fun j => A k j * x j)%R).
    (* direction 0: (x, Ax / d); direction k + 1: the k-th multiplier *)
    set (W := fun (j : nat) (i : Z) => match j with O => if i <? n then x i else (Ax (i - n)%Z / d (i - n)%Z)%R | S k => if i =? Z.of_nat k + n then 1%R else 0%R end).
    destruct (homogeneous (Z.to_nat m) (S (Z.to_nat m)) (fun t j => zsum 0 (m + n) (fun a => c t a * W j (znth 0%Z p a))%R) ltac:(lia)) as (y & (j0 & Hj0 & Hy0) & HE).
    set (v := fun i => lsum (fun j => (y j * W j i)%R) (seq 0 (S (Z.to_nat m)))).
    assert (Hvt : forall i, 0 <= i < n -> v i = (y O * x i)%R).
    { intros i Hi. unfold v. cbn [seq lsum W]. replace (i <? n) with true by lia. rewrite lsum_0; [ring|]. intros j Hj. apply in_seq in Hj. destruct j; [lia|].
      cbn [W]. replace (i =? Z.of_nat j + n) with false by lia. ring. }
    assert (Hvb : forall k, 0 <= k < m -> v (k + n) = (y O * (Ax k / d k) + y (S (Z.to_nat k)))%R).
    { intros k Hk. unfold v. cbn [seq lsum W]. replace (k + n <? n) with false by lia. replace (k + n - n) with k by lia. f_equal.
      rewrite <- seq_shift, lsum_map. cbn [W].
      assert (HH : forall s l, (s <= Z.to_nat k < s + l)%nat -> lsum (fun j => (y (S j) * (if k + n =? Z.of_nat j + n then 1 else 0))%R) (seq s l) = y (S (Z.to_nat k))).
      { intros s l. revert s. induction l as [|l IH]; intros s Hs; [lia|]. cbn [seq lsum]. destruct (Nat.eq_dec s (Z.to_nat k)) as [->|Hne].
        - assert (Ht : (k + n =? Z.of_nat (Z.to_nat k) + n) = true) by (apply Z.eqb_eq; lia). rewrite Ht. rewrite lsum_0; [ring|]. intros j Hj. apply in_seq in Hj. replace (k + n =? Z.of_nat j + n) with false by lia. ring.
        - replace (k + n =? Z.of_nat s + n) with false by lia. rewrite IH by lia. ring. }
      apply HH. lia. }
    (* the form on v *)
    assert (HQ : (0 < qform 0 (m + n) g (fun a => v (znth 0%Z p a)))%R).
    { apply HF.
      - destruct (Req_EM_T (y O) 0) as [E0|E0].
        + assert (Hj : exists k, 0 <= k < m /\ j0 = S (Z.to_nat k)). { destruct j0 as [|k]; [contradiction|]. exists (Z.of_nat k). rewrite Nat2Z.id. split; [lia|auto]. }
          destruct Hj as (k & Hk & ->). destruct (Q2 (k + n) ltac:(lia)) as [B1 B2]. exists (znth 0%Z q (k + n)). split; [lia|]. rewrite B2, Hvb by auto. rewrite E0. lra.
        + destruct (Q2 i0 ltac:(lia)) as [B1 B2]. exists (znth 0%Z q i0). split; [lia|]. rewrite B2, Hvt by auto. apply Rmult_integral_contrapositive. auto.
      - intros t Ht. assert (Ht' : (t < Z.to_nat m)%nat) by lia. specialize (HE t Ht'). rewrite <- HE. clear HE.
        assert (Hsw : forall L, zsum 0 (m + n) (fun j => (c t j * lsum (fun k => y k * W k (znth 0%Z p j)) L)%R) = lsum (fun k => (zsum 0 (m + n) (fun a => c t a * W k (znth 0%Z p a)) * y k)%R) L).
        { induction L as [|k L IH]; cbn [lsum]; [apply zsum_0; intros; ring|]. rewrite <- IH, <- zsum_scal_r, <- zsum_plus. apply zsum_ext. intros; ring. }
        apply Hsw. }
    unfold g in HQ. rewrite qform_reindex in HQ by (auto; lia). rewrite kkt_form in HQ by auto.
    assert (E1 : qform 0 n P v = (y O * y O * qform 0 n P x)%R).
    { rewrite (qform_ext 0 n P v (fun i => y O * x i)%R) by (intros; apply Hvt; auto). unfold qform. rewrite <- zsum_scal. apply zsum_ext. intros i Hi. rewrite <- zsum_scal. apply zsum_ext. intros; ring. }
    assert (E2 : zsum 0 n (fun i => v i * v i)%R = (y O * y O * zsum 0 n (fun i => x i * x i))%R).
    { rewrite <- zsum_scal. apply zsum_ext. intros i Hi. rewrite Hvt by auto. ring. }
    assert (E3 : forall k, 0 <= k < m -> (2 * (v (k + n)%Z * zsum 0 n (fun j => A k j * v j)) - d k * (v (k + n)%Z * v (k + n)%Z) =
       y O * y O * (Ax k * Ax k / d k) - d k * (y (S (Z.to_nat k)) * y (S (Z.to_nat k))))%R).
    { intros k Hk. rewrite (zsum_ext 0 n _ (fun j => y O * (A k j * x j))%R) by (intros j Hj; rewrite Hvt by auto; ring). rewrite zsum_scal. fold (Ax k). rewrite Hvb by auto.
      specialize (Hd k Hk). field. lra. }
    assert (E4 : (2 * zsum 0 m (fun k => v (k + n)%Z * zsum 0 n (fun j => A k j * v j)) - zsum 0 m (fun k => d k * (v (k + n)%Z * v (k + n)%Z)) =
       y O * y O * zsum 0 m (fun k => Ax k * Ax k / d k) - zsum 0 m (fun k => d k * (y (S (Z.to_nat k)) * y (S (Z.to_nat k)))))%R).
    { rewrite <- !zsum_scal, <- !zsum_minus. apply zsum_ext. exact E3. }
    assert (E5 : (0 <= zsum 0 m (fun k => d k * (y (S (Z.to_nat k)) * y (S (Z.to_nat k)))))%R).
    { apply zsum_nonneg. intros k Hk. specialize (Hd k Hk). pose proof (Rle_0_sqr (y (S (Z.to_nat k)))). unfold Rsqr in *. nra. }
    unfold penalised in Hle. fold Ax in Hle. pose proof (Rle_0_sqr (y O)) as Hy. unfold Rsqr in Hy. rewrite E1, E2 in HQ.
    set (S1 := qform 0 n P x) in *. set (S2 := zsum 0 n (fun i => x i * x i)%R) in *.
    assert (E6 : zsum 0 m (fun k => Ax k * Ax k / d k)%R = zsum 0 m (fun k => zsum 0 n (fun j => A k j * x j) * zsum 0 n (fun j => A k j * x j) / d k)%R) by reflexivity.
    rewrite <- E6 in Hle. set (S3 := zsum 0 m (fun k => Ax k * Ax k / d k)%R) in *. nra.
  Qed.
End Kkt.
